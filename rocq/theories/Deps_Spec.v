(* Graph vocabulary: paths of at least one edge. *)
From Verif Require Import Base.

Inductive path {A} (E : A -> A -> Prop) : A -> A -> Prop :=
| path_one : forall a b, E a b -> path E a b
| path_step : forall a b c, E a b -> path E b c -> path E a c.

Definition cyclic {A} (E : A -> A -> Prop) : Prop := exists a, path E a a.

(* [l] lists every item after the items it depends on *)
Definition after_deps {A} (D : A -> A -> Prop) (l : list A) : Prop :=
  forall l1 a l2 b, l = l1 ++ a :: l2 -> D a b -> In b l2 -> False.
