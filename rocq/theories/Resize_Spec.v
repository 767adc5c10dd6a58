(* What a correct allocation of a dim is; independent of how it is computed. *)
From Verif Require Import Base Resize_Model.

(* A kind of dim that can exist: vector lengths are positive, a var's vector length is 1 or that of the solution,
   only domain dims are folded, a step dim is not a domain dim (yk_var.hpp:1504-1514, :1742-1751). *)
Definition dim_kind (d : rdim) : Prop :=
  1 <= r_svl d /\ (r_vvl d = 1 \/ r_vvl d = r_svl d) /\ (r_domain d = false -> r_vvl d = 1) /\ (r_step d = true -> r_domain d = false).

(* Enough padding and whole, aligned vectors. *)
Definition pads_ok (d : rdim) : Prop :=
  if r_domain d then
    r_lh d + r_lwf d + r_rle d <= r_lpad d /\ r_rlp d <= r_lpad d /\
    r_rh d + r_rwf d + r_rre d <= r_rpad d /\ r_rrp d <= r_rpad d /\
    r_alloc d = r_lpad d + r_dom d + r_rpad d /\
    (exists k, r_alloc d = k * r_svl d) /\      (* whole number of vectors *)
    (exists k, r_lpad d = k * r_svl d) /\       (* the first domain element begins a vector *)
    r_vlpad d * r_vvl d = r_lpad d /\ r_valloc d * r_vvl d = r_alloc d
  else r_alloc d = r_dom d /\ r_valloc d = r_alloc d.
