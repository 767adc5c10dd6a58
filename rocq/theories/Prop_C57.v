From Verif Require Import Base ParFor_Model Bbox_Model Bbox_Spec Cover_Spec Loops_Model Micro_Model Micro_Spec Micro_Proofs Micro2_Proofs.

(* stencil_calc.cpp:138-272: a part evaluated in a range writes exactly the points that are in the range and in the sub-domain of
   the part, each one once: the range is trimmed to the full boxes of the sub-domain, cut into nano-blocks by one or more inner
   threads, bound to slabs or not, and the nano-blocks into vectors (or single points) *)
Theorem C57_range_exactly_once : forall s n c cond dom pb ds, mset_ok s n -> dims_ok n ds -> 1 <= omp_num_threads c -> length dom = n ->
  Forall (fun d => fst d <= snd d) dom -> part_find_bbs c cond dom = Ok pb ->
  exists ws, calc_range s pb ds = Ok ws /\
    exact_cover (wr_hits (ms_fi s) (ms_rofs s) (ms_folds s)) ws
      (fun p => in_box (map (fun d => (l_begin d, l_end d)) ds) p && region dom cond p).
Proof. exact range_cover. Qed.
Print Assumptions C57_range_exactly_once.

(* context.cpp:1124-1162, stencil_calc.cpp:39-289: in a micro-block of a stage
   - no part is evaluated twice, also if several parts require it;
   - the parts evaluated are those that a part with points in this step requires and that are valid in this step;
   - each one writes exactly the points of its span (the micro-block, for scratch parts extended by the write halos) in its
     sub-domain, once;
   - when a part is evaluated on behalf of another one, all parts listed before it have been evaluated *)
Theorem C57_stage_parts_once : forall s n ds reqd parts reg, mset_ok s n -> dims_ok n ds -> Forall (fun d => l_begin d < l_end d) ds ->
  length (ms_mbs s) = n /\ length (ms_mbt s) = n /\ length (ms_nbs s) = n -> parts_ok n reqd parts reg ->
  exists done w log, stage_micro_block s ds reqd parts = Ok (done, w, log) /\
    NoDup (part_ids log) /\
    (forall id, In id (part_ids log) <-> exists sp q, In sp parts /\ active sp /\ In q (reqd sp) /\ mp_valid q = true /\ mp_id q = id) /\
    (forall q ws, required reqd parts q -> In (EvPart (mp_id q) ws) log ->
       exact_cover (wr_hits (ms_fi s) (ms_rofs s) (ms_folds s)) ws
         (fun p => in_box (span q (map (fun d => (l_begin d, l_end d)) ds)) p && reg q p)) /\
    (forall l1 id ws l2, log = l1 ++ EvPart id ws :: l2 ->
       exists sp q a b, In sp parts /\ active sp /\ reqd sp = a ++ q :: b /\ mp_id q = id /\
         forall r, In r a -> mp_valid r = true -> In (mp_id r) (part_ids l1)).
Proof. exact stage_parts. Qed.
Print Assumptions C57_stage_parts_once.

(* stencil_calc.cpp:93-112: with the option to initialise scratch vars on, a scratch var that a scratch part writes has been
   initialised before, or an unconditional scratch part that writes it has been evaluated (or is just being evaluated).  A var is
   initialised at most once in a micro-block and never after a scratch part has written it; with the option off never *)
Theorem C57_scratch_init : forall s n ds reqd parts reg, mset_ok s n -> dims_ok n ds -> Forall (fun d => l_begin d < l_end d) ds ->
  length (ms_mbs s) = n /\ length (ms_mbt s) = n /\ length (ms_nbs s) = n -> parts_ok n reqd parts reg ->
  exists done w log, stage_micro_block s ds reqd parts = Ok (done, w, log) /\
    (ms_init s = true -> forall l1 q ws l2 v, log = l1 ++ EvPart (mp_id q) ws :: l2 -> required reqd parts q -> mp_scratch q = true -> In v (mp_outs q) ->
       In (EvInit v) l1 \/ exists r, fills reqd parts v r /\ In (mp_id r) (part_ids (l1 ++ [EvPart (mp_id q) ws]))) /\
    (forall l1 v l2, log = l1 ++ EvInit v :: l2 -> ms_init s = true /\ ~ In (EvInit v) l1 /\
       forall q, required reqd parts q -> mp_scratch q = true -> In v (mp_outs q) -> ~ In (mp_id q) (part_ids l1)).
Proof. exact stage_init. Qed.
Print Assumptions C57_scratch_init.

(* two dims, 4 x 1 folds, micro-block [2, 9) x [0, 2).  Scratch part 1 (sub-domain x < 6) writes var 10, scratch part 2 (everywhere)
   writes var 11; parts 3 and 4 require 1, 2 and 2; part 4 is not valid in this step and part 5 requires 2 again *)
Definition ex_s : mset := mkMset 1 false 1 0 false true true 1 (mkFeats false false false true false false) [0; 0] [4; 1] [4; 1] [7; 2] [1; 1] [4; 1] 4.
Definition ex_ds : list ldim := [mkLdim 2 9 4 4 0 4; mkLdim 0 2 1 1 0 1].
Definition ex_dom : list (Z * Z) := [(-1, 20); (0, 2)].
Definition ex_cond (p : list Z) : bool := hd 0 p <? 6.
Definition ex_full : part_bbs := mkPB ex_dom 42 [ex_dom].
Definition ex_low : part_bbs := mkPB [(-1, 6); (0, 2)] 14 [[(-1, 6); (0, 2)]].
Definition ex_q1 : mpart := mkMpart 1 true true false true ex_low [1; 0] [2; 0] [10].
Definition ex_q2 : mpart := mkMpart 2 true false false true ex_full [0; 0] [1; 0] [11].
Definition ex_q3 : mpart := mkMpart 3 false false false true ex_full [] [] [].
Definition ex_q4 : mpart := mkMpart 4 false false true false ex_full [] [] [].
Definition ex_q5 : mpart := mkMpart 5 false false false true ex_full [] [] [].
Definition ex_parts : list mpart := [ex_q3; ex_q4; ex_q5].
Definition ex_reqd (q : mpart) : list mpart :=
  if mp_id q =? 3 then [ex_q1; ex_q2; ex_q3] else if mp_id q =? 4 then [ex_q2; ex_q4] else [ex_q2; ex_q5].
Definition ex_reg (q : mpart) : list Z -> bool := region ex_dom (if mp_id q =? 1 then Some ex_cond else None).

Example C57_ex_hyps : mset_ok ex_s 2 /\ dims_ok 2 ex_ds /\ Forall (fun d => l_begin d < l_end d) ex_ds /\
  (length (ms_mbs ex_s) = 2%nat /\ length (ms_mbt ex_s) = 2%nat /\ length (ms_nbs ex_s) = 2%nat) /\ parts_ok 2 ex_reqd ex_parts ex_reg.
Proof.
  split; [unfold mset_ok; cbn; repeat split; try lia; repeat constructor; try lia; discriminate|].
  split; [split; [reflexivity|repeat constructor; cbn; lia]|]. split; [repeat constructor; cbn; lia|]. split; [repeat split|].
  assert (K : forall q, required ex_reqd ex_parts q -> In q [ex_q1; ex_q2; ex_q3; ex_q4; ex_q5]).
  { intros q (sp & [<-|[<-|[<-|[]]]] & I); cbn in I |- *; intuition subst; auto. }
  split.
  - intros q Hq. apply K in Hq. destruct Hq as [<-|[<-|[<-|[<-|[<-|[]]]]]]; (split; [intros C; try discriminate C; cbn; repeat split; repeat constructor; lia|]);
      (split; [intros C; try discriminate C; reflexivity|]); exists (Build_omp_cfg true 1 1 0 0).
    + exists (Some ex_cond), ex_dom. split; [cbn; lia|]. split; [reflexivity|]. split; [repeat constructor; cbn; lia|]. split; reflexivity.
    + exists None, ex_dom. split; [cbn; lia|]. split; [reflexivity|]. split; [repeat constructor; cbn; lia|]. split; reflexivity.
    + exists None, ex_dom. split; [cbn; lia|]. split; [reflexivity|]. split; [repeat constructor; cbn; lia|]. split; reflexivity.
    + exists None, ex_dom. split; [cbn; lia|]. split; [reflexivity|]. split; [repeat constructor; cbn; lia|]. split; reflexivity.
    + exists None, ex_dom. split; [cbn; lia|]. split; [reflexivity|]. split; [repeat constructor; cbn; lia|]. split; reflexivity.
  - intros q q' Hq Hq' E. apply K in Hq, Hq'. destruct Hq as [<-|[<-|[<-|[<-|[<-|[]]]]]]; destruct Hq' as [<-|[<-|[<-|[<-|[<-|[]]]]]]; first [reflexivity|discriminate E].
Qed.

(* part 1 writes x = 1..5 (span [1, 11), sub-domain x < 6), part 2 x = 2..9; var 10 is initialised, var 11 need not be *)
Example C57_ex : stage_micro_block ex_s ex_ds ex_reqd ex_parts = Ok ([5; 3; 2; 1], [11; 10],
  [EvInit 10;
   EvPart 1 [WVec [0; 0] 14; WVec [0; 1] 14; WVec [1; 0] 3; WVec [1; 1] 3];
   EvPart 2 [WVec [0; 0] 12; WVec [0; 1] 12; WVec [1; 0] (-1); WVec [1; 1] (-1); WVec [2; 0] 3; WVec [2; 1] 3];
   EvPart 3 [WVec [0; 0] 12; WVec [0; 1] 12; WVec [1; 0] (-1); WVec [1; 1] (-1); WVec [2; 0] 1; WVec [2; 1] 1];
   EvPart 5 [WVec [0; 0] 12; WVec [0; 1] 12; WVec [1; 0] (-1); WVec [1; 1] (-1); WVec [2; 0] 1; WVec [2; 1] 1]]) /\
  map (fun p => in_box (span ex_q1 [(2, 9); (0, 2)]) p && ex_reg ex_q1 p) [[0; 0]; [1; 0]; [5; 1]; [6; 1]] = [false; true; true; false].
Proof. vm_compute. split; reflexivity. Qed.
