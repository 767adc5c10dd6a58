From Verif Require Import Base Cover_Spec ParFor_Model Deps_Model Eqs_Model Eqs_Spec Parts_Model Halo_Spec Sched_Spec Bbox_Model Loops_Model Micro_Model Micro_Spec.
From Verif Require Import Ref_Model Ref_Spec Ref_Examples Link_Spec Link_Model LinkRun_Spec Link3_Proofs Link_Examples.
From Verif Require Import Parts_Spec Parts_Proofs Halo_Model Halo_Proofs Step_Spec Step_Proofs LinkRoom_Spec LinkRoom_Proofs.

(* Eqs.cpp:364-1435, YaskKernel.cpp:940-1060, setup.cpp:1184-1228: the stages that the compiler makes from the equations, with the
   write halos that the kernel computes, meet the conditions under which micro-blocks compute the values of a stage (C65) *)
Theorem C68_stages_meet_the_conditions : forall V (zero : V) val scr dims_same halo_same bundle bundle_scratch sel dir d eqs vdims eg ps ss ddims alloc dcond scond pbs,
  compiled scr dims_same halo_same bundle bundle_scratch sel dir d eqs vdims ddims alloc dcond scond eg ps ss ->
  forall t a rank, In a (g_all (c_grp (st_clus ss))) -> nth (Z.to_nat a) (st_scr ss) false = false -> length rank = length ddims ->
    stage_ok alloc (k_stencil vdims ddims eqs ps zero val) scr (k_cond ps dcond) t rank (k_ord vdims ddims eqs ps ss scond pbs t)
      (k_reqd vdims ddims eqs ps ss scond pbs t) (k_stage vdims ddims eqs ps ss scond pbs t a).
Proof. exact @run_stage_ok. Qed.
Print Assumptions C68_stages_meet_the_conditions.

(* In every step every equation holds at exactly the points of the rank where its conditions hold, with the new values of the step
   that is written, the old values of other steps and the values that the scratch vars should have; nothing else is changed.  So
   says the reference run, and so does any run of micro-blocks, however each stage is cut. *)
Theorem C68_runs_apply_the_equations : forall V (zero : V) val scr dims_same halo_same bundle bundle_scratch sel dir d eqs vdims eg ps ss ddims alloc dcond scond pbs,
  compiled scr dims_same halo_same bundle bundle_scratch sel dir d eqs vdims ddims alloc dcond scond eg ps ss ->
  forall s aofs rank dom first last, length aofs = length ddims -> kernel_ok vdims ddims eqs ps ss dcond scond pbs s rank dom ->
  let reqd := k_reqd vdims ddims eqs ps ss scond pbs in
  let stgs := k_stages vdims ddims eqs ps ss scond pbs in
  let st := k_stencil vdims ddims eqs ps zero val in
  let hit := expands (ms_fi s) (ms_rofs s) (ms_folds s) in
  let holds_after := run_applied zero scr alloc vdims ddims eqs dcond scond val sel dir rank (steps_between first last) in
  exists rl, run_ref (k_cond ps dcond) aofs rank reqd (fun t => concat (stgs t)) first last = Ok rl /\
    (forall m, exists mr, plays_steps zero alloc st hit rl m mr) /\
    (forall m mr, plays_steps zero alloc st hit rl m mr -> holds_after m mr) /\
    (forall dsf, (forall (t : Z) (parts : list mpart), blocks_ok (length ddims) rank (dsf t parts)) ->
       exists ml, run_logs s (length ddims) rank reqd (stage_seq stgs first last) ml /\ forall m, exists mm, plays_stages zero alloc st hit scr ml m mm) /\
    (forall ml m mm, run_logs s (length ddims) rank reqd (stage_seq stgs first last) ml -> plays_stages zero alloc st hit scr ml m mm -> holds_after m mm).
Proof. exact @run_ok. Qed.
Print Assumptions C68_runs_apply_the_equations.

(* The equations leave no choice: what a run must compute depends only on the vars that are not scratch vars. *)
Theorem C68_equations_leave_no_choice : forall V (zero : V) val scr dims_same halo_same bundle bundle_scratch sel dir d eqs vdims eg ps ss ddims alloc dcond scond,
  compiled scr dims_same halo_same bundle bundle_scratch sel dir d eqs vdims ddims alloc dcond scond eg ps ss ->
  forall rank, length rank = length ddims -> forall ts m m2 m' m2', (forall c, scr (fst (fst c)) = false -> m2 c = m c) ->
    run_applied zero scr alloc vdims ddims eqs dcond scond val sel dir rank ts m m' -> run_applied zero scr alloc vdims ddims eqs dcond scond val sel dir rank ts m2 m2' ->
    forall c, scr (fst (fst c)) = false -> m2' c = m' c.
Proof. exact @run_unique. Qed.
Print Assumptions C68_equations_leave_no_choice.

(* Var.cpp:360-486: the condition [sy_room] holds for the number of steps that the compiler computes, for every read that meets
   [room_read] (for the others it can be false, see C35) *)
Theorem C68_computed_sizes_leave_room : forall scr dims_same halo_same bundle bundle_scratch regex dir d eqs,
  dir = 1 \/ dir = -1 -> d = 0 \/ d = dir -> Forall (fun e => legal_lhs scr dir e /\ reads_no_future dir e) eqs -> distinct_lhs eqs ->
  forall vdims, wf_eqs scr vdims eqs ->
  forall eg ps ss, build scr dims_same halo_same bundle bundle_scratch regex d eqs = Ok (eg, ps, ss) ->
  forall api cmd k i j e e' r s, In k (g_all (c_grp (st_clus ss))) -> nth (Z.to_nat k) (st_scr ss) false = false ->
    nth_error eqs i = Some e -> nth_error eqs j = Some e' -> In r (e_rhs e) -> p_var r = p_var (e_lhs e') -> p_step r = Some s -> vdims (p_var r) <> [] ->
    room_read scr vdims eqs dir (block ps ss) k i r s ->
    s = dir \/ (s - dir) mod step_dim_size true api cmd (calc_halos vdims eqs (h_sdep ss) (h_stages ps ss) (p_var r)) <> 0 \/ (i = j /\ Forall (eq 0) (p_dom r)).
Proof. exact room_ok. Qed.
Print Assumptions C68_computed_sizes_leave_room.

(* the hypotheses hold in the example: two scratch stages, two stages, conditions on domain and steps, one var kept for one step *)
Example C68_ex_hyps : compiled lx_scr (fun _ _ => true) (fun _ _ => true) true true (fun _ => true) 1 1 lx_eqs lx_vdims [10] lx_alloc lx_dcond lx_scond lx_eg lx_ps lx_ss /\
  kernel_ok lx_vdims [10] lx_eqs lx_ps lx_ss lx_dcond lx_scond lx_pbs (rx_set false true) lx_rank lx_dom /\ blocks_ok 1 lx_rank rx_dss.
Proof. split; [exact lx_compiled|]. split; [exact lx_kernel|exact rx_blocks]. Qed.
(* the parts, the stages and the values after two steps *)
Example C68_ex : map (map mp_id) (k_sstages lx_vdims [10] lx_eqs lx_ps lx_ss lx_scond lx_pbs 1) = [[2; 3]; [4]] /\
  map (map mp_id) (k_stages lx_vdims [10] lx_eqs lx_ps lx_ss lx_scond lx_pbs 1) = [[0]; [1]] /\
  map (fun id => (mp_wl (lx_part 1 id), mp_wr (lx_part 1 id), mp_valid (lx_part 1 id))) [2; 3; 4; 1] = [([2], [1], true); ([2], [1], true); ([0], [1], true); ([0], [0], false)] /\
  match lx_log with
  | Ok l => map (fun x => lx_do l (1, 1, [x])) (zrange (-1) 9) = map (lx_u1 (fun x => x * x)) (zrange (-1) 9) /\
            map (fun x => lx_do l (1, 0, [x])) (zrange (-1) 9) = map (fun x => if (0 <=? x) && (x <? 8) then lx_u1 (lx_u1 (fun x => x * x)) x else x * x) (zrange (-1) 9) /\
            map (fun x => lx_do l (2, 0, [x])) (zrange 0 8) = map (fun x => lx_u1 (fun x => x * x) (x - 1) + 100 + 4) (zrange 0 8)
  | _ => False
  end.
Proof. vm_compute. auto 10. Qed.
(* the steps kept in the example are those that the compiler computes; the reads of v1 at the step before *)
Example C68_ex_sizes : map (fun v => step_dim_size true 0 0 (calc_halos lx_vdims lx_eqs (h_sdep lx_ss) (h_stages lx_ps lx_ss) v)) [1; 2] = map lx_alloc [1; 2] /\
  map (block lx_ps lx_ss) (filter (fun a => negb (nth (Z.to_nat a) (st_scr lx_ss) false)) (g_all (c_grp (st_clus lx_ss)))) = [[3]; [4]].
Proof. vm_compute. auto. Qed.
Example C68_ex_room : room_read lx_scr lx_vdims lx_eqs 1 (fun k => [3]) 0 0 (mkPt 1 (Some 0) [1] []) 0.
Proof.
  assert (R3 : runs lx_scr lx_eqs (fun _ => [3]) 0 3) by (apply runs_own; left; reflexivity).
  assert (R2 : runs lx_scr lx_eqs (fun _ => [3]) 0 2) by (eapply (runs_scr _ _ _ 0 3 _ (mkPt 12 None [1] []) 2); [exact R3|reflexivity|left; reflexivity|reflexivity|lia|reflexivity|reflexivity]).
  assert (R0 : runs lx_scr lx_eqs (fun _ => [3]) 0 0) by (eapply (runs_scr _ _ _ 0 2 _ (mkPt 10 None [0] []) 0); [exact R2|reflexivity|right; left; reflexivity|reflexivity|lia|reflexivity|reflexivity]).
  split; [exact R0|]. exists (mkPt 1 (Some 1) [0] []). split; [exists 3, (nth 3 lx_eqs eqn0); split; [exact R3|split; [reflexivity|left; reflexivity]]|].
  split; [reflexivity|]. split; [reflexivity|]. right. left. exists (mkPt 1 (Some 0) [1] []), 10. split; [exists 0, (nth 0 lx_eqs eqn0); split; [exact R0|split; [reflexivity|right; left; reflexivity]]|].
  split; [reflexivity|]. split; [left; reflexivity|]. split; [left; reflexivity|]. vm_compute. discriminate.
Qed.
