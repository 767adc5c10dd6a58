(* C36: Explicit step allocation is honoured.
   Full statement: forall n cmd v, 0 < n -> step_dim_size true n cmd v = n.  False: the size found by the analysis is
   stored after the overrides. *)
From Verif Require Import Base Eqs_Model Parts_Model Halo_Model Halo_Spec Step_Proofs.

(* After set_step_alloc_size(4) for A(t+1,x) = A(t,x+1), get_step_alloc_size() returns 1 before the analysis, 2 after it, and
   the setting of the command line is ignored as well. *)
Theorem C36_refuted : exists n eqs eg ps ss, 0 < n /\
  build (fun _ => false) (fun _ _ => true) (fun _ _ => true) true true (fun _ => true) 1 eqs = Ok (eg, ps, ss) /\
  step_dim_size true n 0 vinfo0 <> n /\
  step_dim_size true n n (calc_halos (fun _ => [10]) eqs (h_sdep ss) (h_stages ps ss) 1) <> n.
Proof.
  set (l := [mkEqn (mkPt 1 (Some 1) [0] []) [mkPt 1 (Some 0) [1] []] None None []]). exists 4, l.
  assert (F : match build (fun _ => false) (fun _ _ => true) (fun _ _ => true) true true (fun _ => true) 1 l with Ok (_, ps, ss) => step_dim_size true 4 4 (calc_halos (fun _ => [10]) l (h_sdep ss) (h_stages ps ss) 1) = 2 | _ => False end) by (vm_compute; reflexivity).
  destruct (build (fun _ => false) (fun _ _ => true) (fun _ _ => true) true true (fun _ => true) 1 l) as [((eg & ps) & ss)| | |]; try contradiction.
  exists eg, ps, ss. split; [lia|]. split; [reflexivity|]. split; [discriminate|]. rewrite F. discriminate.
Qed.
Print Assumptions C36_refuted.

(* In general the overrides have no effect: the size is the one without them. *)
Theorem C36_overrides_ignored : forall has_step api cmd v, step_dim_size has_step api cmd v = step_dim_size has_step 0 0 v.
Proof. exact overrides_ignored. Qed.
Print Assumptions C36_overrides_ignored.
(* Hence a size is honoured exactly if it is the one computed. *)
Theorem C36_computed_partial : forall n v, step_dim_size true n 0 v = n <-> step_dim_size true 0 0 v = n.
Proof. exact honoured_iff. Qed.
Print Assumptions C36_computed_partial.
Example C36_ex : step_dim_size true 2 0 (upd_ofs 0 (Some 1) [(10, 0)] (upd_ofs 0 (Some 0) [(10, 1)] vinfo0)) = 2.
Proof. reflexivity. Qed.
