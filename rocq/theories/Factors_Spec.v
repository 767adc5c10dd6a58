(* Factorisations of N into as many positive factors as there are entries in [ds], where entries > 0 are fixed. *)
From Verif Require Import Base.

Definition factorisation (N : Z) (k : nat) (f : list Z) : Prop :=
  length f = k /\ Forall (fun x => 1 <= x) f /\ zprod f = N.

Definition keeps (ds f : list Z) : Prop := Forall2 (fun d x => 0 < d -> x = d) ds f.

(* no entry of f is larger than [m] *)
Definition all_le (f : list Z) (m : Z) : Prop := Forall (fun x => x <= m) f.

(* r has the smallest possible largest entry among the lists satisfying P *)
Definition most_compact (P : list Z -> Prop) (r : list Z) : Prop :=
  P r /\ forall f m, P f -> all_le f m -> all_le r m.
