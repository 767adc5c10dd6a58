(* Orders of blocks of items. *)
From Verif Require Import Base Deps_Spec Eqs_Model Eqs_Spec.

(* no item of a block depends on an item of the same or a later block *)
Definition blocks_ordered (D : Z -> Z -> Prop) (bs : list (list Z)) : Prop :=
  forall l1 b l2 x y, bs = l1 ++ b :: l2 -> In x b -> In y (b ++ concat l2) -> ~ D x y.

(* equation i needs, directly or not, the result of equation j; equations of the same var share their needs *)
Definition depends (scr : Z -> bool) (eqs : list eqn) (i j : Z) : Prop :=
  exists i' e e', nth_error eqs (Z.to_nat i) = Some e /\ 0 <= i' /\ nth_error eqs (Z.to_nat i') = Some e' /\
    same_value scr (e_lhs e) (e_lhs e') /\ path (needs scr eqs) i' j.
