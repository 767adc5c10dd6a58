(* Specification vocabulary: exact covers of sets of points by intervals and boxes.
   Independent of every model of the code. *)
From Verif Require Import Base.

(* Half-open interval [fst, snd). *)
Definition in_iv (c : Z * Z) (x : Z) : bool := (fst c <=? x) && (x <? snd c).

(* Box = one half-open interval per dimension; point = one index per dimension. *)
Fixpoint in_box (b : list (Z * Z)) (p : list Z) : bool :=
  match b, p with
  | [], [] => true
  | c :: b', x :: p' => in_iv c x && in_box b' p'
  | _, _ => false
  end.

(* Number of members of [l] that contain [x]. *)
Definition hits {A B} (inb : A -> B -> bool) (l : list A) (x : B) : nat :=
  length (filter (fun c => inb c x) l).

(* Every point of the set [P] is in exactly one member of [l]; other points are in none. *)
Definition exact_cover {A B} (inb : A -> B -> bool) (l : list A) (P : B -> bool) : Prop :=
  forall x, hits inb l x = if P x then 1%nat else 0%nat.

(* Consecutive non-empty intervals running from [b] to [e]. *)
Fixpoint chain (b e : Z) (l : list (Z * Z)) : Prop :=
  match l with
  | [] => b = e
  | (s, t) :: r => s = b /\ s < t /\ chain t e r
  end.

(* Consecutive, possibly empty intervals running from [b] to [e]. *)
Fixpoint wchain (b e : Z) (l : list (Z * Z)) : Prop :=
  match l with
  | [] => b = e
  | (s, t) :: r => s = b /\ s <= t /\ wchain t e r
  end.
