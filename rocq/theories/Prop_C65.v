From Verif Require Import Base Cover_Spec Loops_Model Sched_Spec Micro_Model Micro_Spec Ref_Model Ref_Spec RefWhole_Proofs Ref_Examples.

(* The values that the scratch vars of a stage should have, at every point of the unlimited space, exist and are unique. *)
Theorem C65_scratch_values_exist : forall V (zero : V) alloc st scr cond t rank ord reqd parts, stage_ok alloc st scr cond t rank ord reqd parts -> forall m,
  exists X, scratch_values zero alloc st scr cond t ord m X /\ forall Y, scratch_values zero alloc st scr cond t ord m Y -> forall c, Y c = X c.
Proof. exact @scratch_exist. Qed.
Print Assumptions C65_scratch_values_exist.

(* YaskKernel.cpp:1035-1056, stencil_calc.hpp:138-144: a part requires scratch parts in the order of the scratch stages, then itself *)
Theorem C65_required_parts : forall sstages dep sp, reqd_parts sstages dep sp = filter (dep sp) (concat sstages) ++ [sp].
Proof. exact reqd_filter. Qed.
Print Assumptions C65_required_parts.

(* context.cpp:1124-1162, stencil_calc.cpp:39-289: the micro-blocks of a stage, in any order, each one with anything in its scratch
   vars before, apply every equation at exactly the points of the rank where its condition holds, to the values that the scratch
   vars should have there, and change nothing else *)
Theorem C65_micro_blocks_compute_the_stage : forall V (zero : V) alloc st scr cond t rank ord reqd parts s n reg dss,
  stage_ok alloc st scr cond t rank ord reqd parts -> setup_ok s n rank ord reqd parts cond reg -> blocks_ok n rank dss ->
  exists logs, block_logs s reqd parts dss logs /\ forall m,
    (exists m', plays_blocks zero alloc st (expands (ms_fi s) (ms_rofs s) (ms_folds s)) scr t logs m m') /\
    forall m', plays_blocks zero alloc st (expands (ms_fi s) (ms_rofs s) (ms_folds s)) scr t logs m m' -> stage_result zero alloc st scr cond t rank ord parts m m'.
Proof. exact @micro_stage. Qed.
Print Assumptions C65_micro_blocks_compute_the_stage.

(* context.cpp:133-203: so does the reference run *)
Theorem C65_reference_computes_the_stage : forall V (zero : V) alloc st scr cond t rank ord reqd parts s n reg aofs,
  stage_ok alloc st scr cond t rank ord reqd parts -> setup_ok s n rank ord reqd parts cond reg -> length aofs = n ->
  exists log, ref_step cond aofs rank reqd parts = Ok log /\ forall m,
    (exists m', plays zero alloc st (expands (ms_fi s) (ms_rofs s) (ms_folds s)) t log m m') /\
    forall m', plays zero alloc st (expands (ms_fi s) (ms_rofs s) (ms_folds s)) t log m m' -> stage_result zero alloc st scr cond t rank ord parts m m'.
Proof. exact @reference_stage. Qed.
Print Assumptions C65_reference_computes_the_stage.

(* context.cpp:46-217: over any number of steps in either direction, the reference run over all parts and the micro-blocks stage by
   stage, however each stage is cut, leave the same values in all vars that are not scratch vars *)
Theorem C65_same_as_reference_run : forall V (zero : V) alloc st scr cond s n aofs rank ord reqd stages reg first last,
  length aofs = n ->
  (forall t parts, In t (steps_between first last) -> In parts (stages t) ->
     stage_ok alloc st scr cond t rank (ord t) (reqd t) parts /\ setup_ok s n rank (ord t) (reqd t) parts cond (reg t)) ->
  let hit := expands (ms_fi s) (ms_rofs s) (ms_folds s) in
  exists rl, run_ref cond aofs rank reqd (fun t => concat (stages t)) first last = Ok rl /\
    (forall m, exists mr, plays_steps zero alloc st hit rl m mr) /\
    (forall dsf, (forall (t : Z) (parts : list mpart), blocks_ok n rank (dsf t parts)) ->
       exists ml, run_logs s n rank reqd (stage_seq stages first last) ml /\ forall m, exists mm, plays_stages zero alloc st hit scr ml m mm) /\
    forall m m1 mr mm ml, same_vars scr m m1 -> plays_steps zero alloc st hit rl m mr ->
      run_logs s n rank reqd (stage_seq stages first last) ml -> plays_stages zero alloc st hit scr ml m1 mm -> same_vars scr mr mm.
Proof. exact @same_run. Qed.
Print Assumptions C65_same_as_reference_run.

(* settings.hpp:274, stencil_calc.cpp:93: scratch vars are not initialised by default.  Then a stage whose scratch parts have
   conditions may read what was in the scratch var before, where the reference run reads zero *)
Theorem C65_scratch_left_uninitialised_refuted : exists (st : stencil Z) alloc scr cond t rank ord reqd parts s n reg dss logs m m',
  stage_ok alloc st scr cond t rank ord reqd parts /\
  (mset_ok s n /\ (length (ms_mbs s) = n /\ length (ms_mbt s) = n /\ length (ms_nbs s) = n) /\ parts_ok n reqd parts reg /\
   (forall q p, required reqd parts q -> in_box (span q rank) p = true -> reg q p = cond q p) /\ ms_init s = false) /\
  blocks_ok n rank dss /\ block_logs s reqd parts dss logs /\
  plays_blocks 0 alloc st (expands (ms_fi s) (ms_rofs s) (ms_folds s)) scr t logs m m' /\
  ~ stage_result 0 alloc st scr cond t rank ord parts m m'.
Proof.
  exists rx_st, rx_alloc, rx_scr, rx_cond, 0, rx_rank, rx_ord, rx_reqd, [rx_q3], (rx_set true false), 1%nat, rx_reg, rx_dss, rx_logs, rx_mem, rx_after.
  split; [apply rx_main_ok|]. split; [destruct (rx_mset true false) as (A & B); destruct (rx_parts 0 [rx_q3] (or_introl eq_refl)) as (C & D); exact (conj A (conj B (conj C (conj D eq_refl))))|].
  split; [exact rx_blocks|]. split; [constructor; [do 2 eexists; vm_compute; reflexivity|constructor; [do 2 eexists; vm_compute; reflexivity|constructor]]|].
  split; [exact rx_plays|exact rx_wrong].
Qed.
Print Assumptions C65_scratch_left_uninitialised_refuted.

(* the hypotheses hold in the example (two scratch stages, two stages, steps 4 down to 2), and what is done in step 0 *)
Example C65_ex_hyps : (forall t parts, In t (steps_between 4 2) -> In parts (rx_stages t) ->
    stage_ok rx_alloc rx_st rx_scr rx_cond t rx_rank rx_ord rx_reqd parts /\ setup_ok (rx_set false true) 1 rx_rank rx_ord rx_reqd parts rx_cond rx_reg) /\
  blocks_ok 1 rx_rank rx_dss /\ steps_between 4 2 = [4; 3; 2].
Proof. split; [intros t parts _ I; split; [apply rx_stage_ok; exact I|apply (rx_setup t); exact I]|]. split; [exact rx_blocks|reflexivity]. Qed.
Example C65_ex : map (fun ds => stage_micro_block (rx_set false true) ds rx_reqd [rx_q3]) rx_dss =
  [Ok ([3; 2; 4; 1], [6; 5], [EvInit 5; EvPart 1 [WVec [0] 2; WVec [1] 1]; EvPart 4 [WVec [2] (-1); WVec [3] (-1); WVec [4] 1];
     EvPart 2 [WVec [1] (-1); WVec [2] (-1); WVec [3] (-1); WVec [4] 1]; EvPart 3 [WVec [1] 2; WVec [2] (-1); WVec [3] (-1)]]);
   Ok ([3; 2; 4; 1], [6; 5], [EvInit 5; EvPart 1 [WVec [-1] (-1); WVec [0] (-1); WVec [1] 1]; EvPart 4 [];
     EvPart 2 [WVec [-1] 2; WVec [0] (-1); WVec [1] (-1)]; EvPart 3 [WVec [0] (-1); WVec [1] 1]])] /\
  ref_step rx_cond [0] rx_rank rx_reqd [rx_q3; rx_q7 1] =
  Ok [EvInit 5; EvPart 1 (rx_pts [-2; -1; 0; 1; 2]); EvPart 4 (rx_pts [4; 5; 6; 7; 8]); EvInit 6; EvPart 2 (rx_pts [-1; 0; 1; 2; 3; 4; 5; 6; 7; 8]);
      EvPart 3 (rx_pts [0; 1; 2; 3; 4; 5; 6; 7])].
Proof. split; [vm_compute; reflexivity|]. vm_compute; reflexivity. Qed.
