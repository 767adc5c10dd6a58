(* What a set of equations means for the order of evaluation. *)
From Verif Require Import Base Deps_Spec Eqs_Model.

(* Reading [r] may return what is written at [w] within one evaluation of the equations for some step: same var, same step
   and same misc indices; a scratch var is one value. *)
Definition same_value (scr : Z -> bool) (r w : pt) : Prop :=
  p_var r = p_var w /\ p_step r = p_step w /\ (scr (p_var r) = false -> p_misc r = p_misc w).

(* equation number i needs the result of equation number j *)
Definition needs (scr : Z -> bool) (eqs : list eqn) (i j : Z) : Prop :=
  exists e e' r, 0 <= i /\ 0 <= j /\ nth_error eqs (Z.to_nat i) = Some e /\ nth_error eqs (Z.to_nat j) = Some e' /\
    In r (e_rhs e) /\ same_value scr r (e_lhs e').

(* also through the points read by its conditions *)
Definition needs_cond (scr : Z -> bool) (eqs : list eqn) (i j : Z) : Prop :=
  exists e e' r, 0 <= i /\ 0 <= j /\ nth_error eqs (Z.to_nat i) = Some e /\ nth_error eqs (Z.to_nat j) = Some e' /\
    In r (e_rhs e ++ e_cpts e) /\ same_value scr r (e_lhs e').

(* [dir] = 1 or -1: the LHS writes the next step in that direction *)
Definition legal_lhs (scr : Z -> bool) (dir : Z) (e : eqn) : Prop :=
  Forall (eq 0) (p_dom (e_lhs e)) /\ p_step (e_lhs e) = (if scr (p_var (e_lhs e)) then None else Some dir).

(* no read beyond the step being written *)
Definition reads_no_future (dir : Z) (e : eqn) : Prop :=
  forall r s, In r (e_rhs e) -> p_step r = Some s -> (dir = 1 -> s <= 1) /\ (dir = -1 -> -1 <= s).

(* no two equations for the same point with the same conditions, or one of them unconditional *)
Definition distinct_lhs (eqs : list eqn) : Prop :=
  forall i j e e', nth_error eqs i = Some e -> nth_error eqs j = Some e' -> i <> j -> e_lhs e = e_lhs e' ->
    ~ (e_dcond e = e_dcond e' /\ e_scond e = e_scond e') /\
    ~ (e_dcond e = None /\ e_scond e = None) /\ ~ (e_dcond e' = None /\ e_scond e' = None).
