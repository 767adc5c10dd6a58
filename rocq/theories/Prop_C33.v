(* C33: Computed halos cover every read. *)
From Verif Require Import Base Deps_Model Deps_Spec Deps_Proofs Eqs_Model Eqs_Spec Parts_Model Parts_Spec Parts_Proofs Halo_Model Halo_Spec Halo_Proofs.

(* For every legal set of equations that the compiler accepts and every non-scratch stage [a]: whatever is read when the
   equations of the stage are evaluated at a point x of the box [lo, hi), directly or through chains of scratch vars, is
   in the box extended by the halo of the var for this stage and step, and by the halo over all stages and steps. *)
Theorem C33_halos_cover : forall scr dims_same halo_same bundle bundle_scratch regex dir d eqs,
  dir = 1 \/ dir = -1 -> d = 0 \/ d = dir ->
  Forall (fun e => legal_lhs scr dir e /\ (scr (p_var (e_lhs e)) = false -> dir = 1 -> forall r s, In r (e_rhs e) -> p_step r = Some s -> s <= 1)) eqs ->
  distinct_lhs eqs -> forall vdims, wf_eqs scr vdims eqs ->
  forall eg ps ss, build scr dims_same halo_same bundle bundle_scratch regex d eqs = Ok (eg, ps, ss) ->
  forall a v s o lo hi x, In a (g_all (c_grp (st_clus ss))) -> nth (Z.to_nat a) (st_scr ss) false = false ->
    reads scr vdims eqs (fun i => In i (block ps ss a)) v s o -> forall k, In k (vdims v) -> lo k <= x k < hi k ->
    let h := calc_halos vdims eqs (h_sdep ss) (h_stages ps ss) v in
    lo k - halo_at a true (step_of s) k h <= x k + o k < hi k + halo_at a false (step_of s) k h /\
    lo k - halo_size k true h <= x k + o k < hi k + halo_size k false h.
Proof. exact halos_cover_box. Qed.
Print Assumptions C33_halos_cover.

(* u(t+1,x,y) = s1(x-2,y); s1(x,y) = s2(x+1,y-3) IF c; s2(x,y) = u(t,x,y+1) - u(t-1,x,y) *)
Definition C33_scr (v : Z) : bool := 8 <? v.
Definition C33_dims (v : Z) : list Z := [10; 11].
Definition C33_eqs : list eqn :=
  [mkEqn (mkPt 1 (Some 1) [0; 0] []) [mkPt 9 None [-2; 0] []] None None [];
   mkEqn (mkPt 9 None [0; 0] []) [mkPt 10 None [1; -3] []] (Some 7) None [];
   mkEqn (mkPt 10 None [0; 0] []) [mkPt 1 (Some 0) [0; 1] []; mkPt 1 (Some (-1)) [0; 0] []] None None []].
Example C33_ex : match build C33_scr (fun _ _ => true) (fun _ _ => true) true true (fun _ => true) 0 C33_eqs with
  | Ok (eg, ps, ss) => let h := calc_halos C33_dims C33_eqs (h_sdep ss) (h_stages ps ss) in
      map (block ps ss) (g_all (c_grp (st_clus ss))) = [[2]; [1]; [0]] /\ g_all (c_grp (st_clus ss)) = [1; 2; 0] /\ st_scr ss = [false; true; true] /\
      map (fun b => (halo_at 0 b 0 10 (h 1), halo_at 0 b 0 11 (h 1))) [true; false] = [(1, 2); (1, 1)]
  | _ => False end.
Proof. vm_compute. repeat split. Qed.
(* u is read at x-1, y-2 *)
Example C33_reads_ex : exists o, reads C33_scr C33_dims C33_eqs (fun i => i = 0) 1 (Some 0) o /\ o 10 = -1 /\ o 11 = -2.
Proof.
  eexists. split; [|split].
  - eapply (reads_scratch C33_scr C33_dims C33_eqs _ 10 None _ 2 _ (mkPt 1 (Some 0) [0; 1] [])); [|reflexivity|lia|reflexivity|reflexivity|left; reflexivity].
    eapply (reads_scratch C33_scr C33_dims C33_eqs _ 9 None _ 1 _ (mkPt 10 None [1; -3] [])); [|reflexivity|lia|reflexivity|reflexivity|left; reflexivity].
    eapply (reads_eq C33_scr C33_dims C33_eqs _ 0 _ (mkPt 9 None [-2; 0] [])); [reflexivity|reflexivity|left; reflexivity].
  - reflexivity.
  - reflexivity.
Qed.
