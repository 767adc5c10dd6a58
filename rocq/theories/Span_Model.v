(* src/kernel/lib/setup.cpp:1184-1228 StencilPartBase::find_scratch_write_halos: a scratch part is evaluated over the span
   [begin - left, end + right), src/kernel/lib/stencil_calc.cpp:342-427 adjust_scratch_span.  The halos of a scratch var in the
   kernel are those of the compiler (get_halo_size over all stages and steps). *)
From Verif Require Import Base Eqs_Model Parts_Model Halo_Model.

Definition write_halo (vdims : Z -> list Z) (eqs : list eqn) (h : venv) (part : list Z) (left : bool) (d : Z) : Z :=
  fold_left (fun m i => if existsb (Z.eqb d) (vdims (lhs_var eqs i)) then Z.max m (halo_size d left (h (lhs_var eqs i))) else m) part 0.
