(* Which vars the equations of a part write. *)
From Verif Require Import Base Eqs_Model.

(* some equation of the part writes var [v] *)
Definition writes_var (eqs : list eqn) (part : list Z) (v : Z) : Prop :=
  exists i e, In i part /\ nth_error eqs (Z.to_nat i) = Some e /\ p_var (e_lhs e) = v.

(* parts that have a scratch var in common write the same vars *)
Definition same_vars (scr : Z -> bool) (eqs : list eqn) (ps : list (list Z)) : Prop :=
  forall p q v w, In p ps -> In q ps -> scr v = true -> writes_var eqs p v -> writes_var eqs q v -> writes_var eqs p w -> writes_var eqs q w.
