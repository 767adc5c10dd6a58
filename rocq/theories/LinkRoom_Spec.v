(* When the number of steps that the compiler keeps of a var leaves room for a read of an older step. *)
From Verif Require Import Base Deps_Model Eqs_Model Halo_Spec Step_Spec.

Section Room.
  Variable scr : Z -> bool.
  Variable vdims : Z -> list Z.
  Variable eqs : list eqn.
  Variable dir : Z.
  Variable eqs_of : Z -> list Z.       (* equations of a stage *)
  (* equation number [i] reads point [r], with step offset [s], for stage [k].  The stage also accesses the step being written and
     - the stage also accesses the var at a step further away, or
     - the stage accesses one of the two steps at an offset in some domain dim, or
     - the stage does not write the var, or
     - only equation [i] writes the var. *)
  Definition room_read (k : Z) (i : nat) (r : pt) (s : Z) : Prop :=
    runs scr eqs eqs_of k (Z.of_nat i) /\
    exists p, acc scr eqs eqs_of k p /\ p_var p = p_var r /\ p_step p = Some dir /\
      ((exists p' s', acc scr eqs eqs_of k p' /\ p_var p' = p_var r /\ p_step p' = Some s' /\ Z.abs (dir - s) < Z.abs (dir - s')) \/
       (exists p' q, acc scr eqs eqs_of k p' /\ p_var p' = p_var r /\ (p_step p' = Some s \/ p_step p' = Some dir) /\ In q (vdims (p_var r)) /\ dim_ofs (vdims (p_var r)) (p_dom p') q <> 0) \/
       (forall j e', In j (eqs_of k) -> nth_error eqs (Z.to_nat j) = Some e' -> p_var (e_lhs e') <> p_var r) \/
       (forall j e', nth_error eqs j = Some e' -> p_var (e_lhs e') = p_var r -> j = i)).
End Room.
