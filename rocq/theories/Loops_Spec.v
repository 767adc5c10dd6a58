(* What it means for a loop nest to visit a grid of sub-ranges. *)
From Verif Require Import Base.

(* All combinations of one interval per dim, last dim fastest. *)
Fixpoint grid {A} (ls : list (list A)) : list (list A) :=
  match ls with
  | [] => [[]]
  | l :: rest => flat_map (fun a => map (cons a) (grid rest)) l
  end.

(* Boundaries of a sub-range that lie strictly inside the parent range. *)
Definition inner_bounds (parent c : Z * Z) : list Z :=
  filter (fun b => (fst parent <? b) && (b <? snd parent)) [fst c; snd c].

Definition nonempty_box (b : list (Z * Z)) : Prop := Forall (fun c => fst c < snd c) b.
Definition box_inside (parent b : list (Z * Z)) : Prop :=
  Forall2 (fun p c => fst p <= fst c /\ snd c <= snd p) parent b.
