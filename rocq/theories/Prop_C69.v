(* C69: Work statistics count the work done.
   Full statement: the statistics report the steps executed by run_solution() and the elements of output vars written, summed over
   steps and ranks (yk_solution_api.hpp:1312-1340).  False with step conditions, with scratch vars, with wave-front extensions
   between ranks and after a reference run, see the theorems _refuted; C69_writes_partial excludes scratch parts and counts every
   step and every point of the extended box. *)
From Verif Require Import Base Cover_Spec ParFor_Model Bbox_Model Bbox_Spec Ref_Spec Stats_Model Stats_Spec Stats_Proofs Stats_Examples.

(* Work per step of a stage in a rank: each part is counted at the points where its condition holds, each scratch part it requires
   at those of these points where the condition of the scratch part holds too. *)
Theorem C69_stage : forall n (cond : wpart -> option (list Z -> bool)) (dom : wpart -> dbox) sgs,
  (forall s q, In s sgs -> In q (fst s ++ [snd s]) -> found n q (cond q) (dom q)) ->
  Forall (fun s => NoDup (map wp_name (fst s ++ [snd s]))) sgs ->
  exists N : wpart -> wpart -> Z,
    (forall s q, In s sgs -> In q (fst s ++ [snd s]) -> card (fun p => region (dom (snd s)) (cond (snd s)) p && region (dom q) (cond q) p) (N (snd s) q)) /\
    (forall s, In s sgs -> card (region (dom (snd s)) (cond (snd s))) (N (snd s) (snd s))) /\
    let total f := zsum (map (fun s => zsum (map (fun q => f q * N (snd s) q) (fst s ++ [snd s]))) sgs) in
    stage_work sgs = mkWork 0 (total wp_reads) (total wp_writes) (total wp_fpops).
Proof. exact stage_counts. Qed.
Print Assumptions C69_stage.

(* Between two calls of get_stats() every step of every run is counted once, forward or backward and for any number of steps per
   wave-front; get_stats() starts a new count. *)
Theorem C69_steps : forall wf pts tots segs,
  do_calls wf false pts tots (mkCnt 0 (map (fun _ => 0) tots)) (flat_map (fun rs => map (fun r => CRun (fst r) (snd r)) rs ++ [CGet]) segs) =
  map (fun rs => let n := zsum (map num_steps rs) in mkStats pts n (n * zsum (map w_reads tots)) (n * zsum (map w_writes tots)) (n * zsum (map w_fpops tots))) segs.
Proof. exact counts_ok. Qed.
Print Assumptions C69_steps.

(* Both together, over all ranks. *)
Theorem C69_writes_partial : forall n wf pts nst (ranks : list (list (list (list wpart * wpart)))) cond dom segs,
  Forall (fun rank => length rank = nst) ranks ->
  (forall r rank st s, nth_error ranks r = Some rank -> In st rank -> In s st -> fst s = [] /\ found n (snd s) (cond r (snd s)) (dom r (snd s))) ->
  let tots := map (fun k => sum_work (map (fun rank => stage_work (nth k rank [])) ranks)) (seq 0 nst) in
  exists N : wpart -> Z,
    (forall r rank st s, nth_error ranks r = Some rank -> In st rank -> In s st -> card (region (dom r (snd s)) (cond r (snd s))) (N (snd s))) /\
    do_calls wf false pts tots (mkCnt 0 (map (fun _ => 0) tots)) (flat_map (fun rs => map (fun r => CRun (fst r) (snd r)) rs ++ [CGet]) segs) =
    map (fun rs => let k := zsum (map num_steps rs) in
                   let total f := k * zsum (map (fun rank => zsum (map (fun st => zsum (map (fun s => f (snd s) * N (snd s)) st)) rank)) ranks) in
                   mkStats pts k (total wp_reads) (total wp_writes) (total wp_fpops)) segs.
Proof. exact writes_counted. Qed.
Print Assumptions C69_writes_partial.

Example C69_stage_ex : (forall q, In q [sx_q 1 None [(-1, 5); (-1, 4)]; sx_q 2 (Some sx_cond) sx_dom] ->
    found 2 q (if wp_name q =? 1 then None else Some sx_cond) (if wp_name q =? 1 then [(-1, 5); (-1, 4)] else sx_dom)) /\
  stage_work [([sx_q 1 None [(-1, 5); (-1, 4)]], sx_q 2 (Some sx_cond) sx_dom)] = mkWork 0 (5 * 8 + 5 * 8) (2 * 8 + 2 * 8) (7 * 8 + 7 * 8).
Proof.
  split; [|vm_compute; reflexivity]. intros q [<-|[<-|[]]]; cbn [wp_name sx_q]; (apply sx_found; [discriminate|reflexivity|repeat constructor; cbn; lia|eexists; vm_compute; reflexivity]).
Qed.
Example C69_steps_ex : do_calls 3 false 12 [mkWork 0 80 16 112] (mkCnt 0 [0]) [CRun 0 6; CRun 7 5; CGet; CRun 4 4; CGet] =
  [mkStats 12 10 800 160 1120; mkStats 12 1 80 16 112].
Proof. vm_compute. reflexivity. Qed.
(* two ranks and two stages *)
Example C69_writes_ex : let ranks := [[[([], sx_q 1 (Some sx_cond) sx_dom)]; [([], sx_q 2 None sx_dom)]]; [[([], sx_q 1 (Some sx_cond) [(4, 8); (0, 3)])]; [([], sx_q 2 None [(4, 8); (0, 3)])]]] in
  (forall r rank st s, nth_error ranks r = Some rank -> In st rank -> In s st -> fst s = [] /\
     found 2 (snd s) (if wp_name (snd s) =? 1 then Some sx_cond else None) (if Nat.eqb r 0 then sx_dom else [(4, 8); (0, 3)])) /\
  do_calls 0 false 24 (map (fun k => sum_work (map (fun rank => stage_work (nth k rank [])) ranks)) (seq 0 2)) (mkCnt 0 [0; 0]) [CRun 0 9; CGet] =
    [mkStats 24 10 (10 * 5 * (8 + 12 + 4 + 12)) (10 * 2 * (8 + 12 + 4 + 12)) (10 * 7 * (8 + 12 + 4 + 12))].
Proof.
  cbn zeta. split; [|vm_compute; reflexivity]. intros r rank st s Hr Hst Hs. destruct r as [|[|r]]; cbn in Hr; [| |destruct r; discriminate Hr]; injection Hr as <-; (destruct Hst as [<-|[<-|[]]]; destruct Hs as [<-|[]]);
    (split; [reflexivity|]); cbn [snd wp_name sx_q Nat.eqb]; (apply sx_found; [discriminate|reflexivity|repeat constructor; cbn; lia|eexists; vm_compute; reflexivity]).
Qed.

(* A part with the step condition t % 2 == 0 writes its 12 points in 2 of the steps 0..3 (C65: mp_valid); 4 are counted. *)
Theorem C69_step_condition_refuted : exists n q cond dom (on : Z -> bool) first last k st,
  found n q cond dom /\ card (region dom cond) k /\ 0 < wp_writes q * k /\
  do_calls 0 false k [stage_work [([], q)]] (mkCnt 0 [0]) [CRun first last; CGet] = [st] /\
  s_nwrites st <> zsum (map (fun t => if on t then wp_writes q * k else 0) (steps_between first last)).
Proof.
  exists 2%nat, (sx_q 1 None sx_dom), None, sx_dom, Z.even, 0, 3, 12, (mkStats 12 4 240 96 336).
  assert (F : found 2 (sx_q 1 None sx_dom) None sx_dom) by (apply sx_found; [discriminate|reflexivity|repeat constructor; cbn; lia|eexists; vm_compute; reflexivity]).
  split; [exact F|]. split; [|split; [reflexivity|split; [vm_compute; reflexivity|vm_compute; discriminate]]].
  destruct (found_ok _ _ _ _ F) as (A & B). exact (cover_card 2 _ _ A B).
Qed.
Print Assumptions C69_step_condition_refuted.

(* A part that writes one var and requires a scratch part: the writes of the scratch var are counted as well. *)
Theorem C69_scratch_refuted : exists n sc q cond dom k st,
  found n sc cond dom /\ found n q cond dom /\ card (region dom cond) k /\
  do_calls 0 false k [stage_work [([sc], q)]] (mkCnt 0 [0]) [CRun 0 0; CGet] = [st] /\ s_nwrites st <> wp_writes q * k.
Proof.
  exists 2%nat, (sx_q 1 None sx_dom), (sx_q 2 None sx_dom), None, sx_dom, 12, (mkStats 12 1 120 48 168).
  assert (F : forall name, found 2 (sx_q name None sx_dom) None sx_dom) by (intros name; apply sx_found; [discriminate|reflexivity|repeat constructor; cbn; lia|eexists; vm_compute; reflexivity]).
  split; [apply F|]. split; [apply F|]. split; [|split; [vm_compute; reflexivity|vm_compute; discriminate]].
  destruct (found_ok _ _ _ _ (F 1)) as (A & B). exact (cover_card 2 _ _ A B).
Qed.
Print Assumptions C69_scratch_refuted.

(* Two ranks [0, 4) and [4, 8) with wave-front extensions of one point towards each other: 10 points are counted in each step
   although the overall domain has 8. *)
Theorem C69_overlap_refuted : exists n q0 q1 dom0 dom1 ext0 ext1 k0 k1 st,
  found n q0 None ext0 /\ found n q1 None ext1 /\ card (in_box dom0) k0 /\ card (in_box dom1) k1 /\ (forall p, in_box dom0 p && in_box dom1 p = false) /\
  wp_writes q0 = 1 /\ wp_writes q1 = 1 /\
  do_calls 2 false (k0 + k1) [sum_work [stage_work [([], q0)]; stage_work [([], q1)]]] (mkCnt 0 [0]) [CRun 0 0; CGet] = [st] /\ s_nwrites st <> k0 + k1.
Proof.
  assert (F : forall name dom, dom = [(0, 5)] \/ dom = [(3, 8)] \/ dom = [(0, 4)] \/ dom = [(4, 8)] -> found 1 (mkWpart name (sx_boxes None dom) 1 1 1) None dom).
  { intros name dom H. repeat split; [| | |exists sx_cfg, (mkPB dom (bb_size dom) [dom]); split; [cbn; lia|split]]; (destruct H as [->|[->|[->| ->]]]); try discriminate; try reflexivity; repeat constructor; cbn; lia. }
  assert (C : forall dom, dom = [(0, 4)] \/ dom = [(4, 8)] -> card (in_box dom) 4).
  { intros dom H. destruct (found_ok _ _ _ _ (F 1 dom ltac:(tauto))) as (A & B). destruct H as [->| ->]; destruct (cover_card 1 _ _ A B) as (l & L1 & L2 & L3); exists l; (split; [exact L1|split; [|exact L3]]); intros p; rewrite (L2 p); unfold region; cbn [holds]; rewrite andb_true_r; reflexivity. }
  exists 1%nat, (mkWpart 1 (sx_boxes None [(0, 5)]) 1 1 1), (mkWpart 1 (sx_boxes None [(3, 8)]) 1 1 1), [(0, 4)], [(4, 8)], [(0, 5)], [(3, 8)], 4, 4, (mkStats 8 1 10 10 10).
  split; [apply F; auto|]. split; [apply F; auto|]. split; [apply C; auto|]. split; [apply C; auto|]. split.
  - intros [|x [|y p]]; cbn; try reflexivity; [unfold in_iv; cbn [fst snd]; destruct (x <? 4) eqn:E; destruct (4 <=? x) eqn:E2; cbn; rewrite ?andb_false_r; try reflexivity; apply Z.ltb_lt in E; apply Z.leb_le in E2; lia|rewrite !andb_false_r; reflexivity].
  - split; [reflexivity|]. split; [reflexivity|]. split; [vm_compute; reflexivity|vm_compute; discriminate].
Qed.
Print Assumptions C69_overlap_refuted.

(* A reference run counts as steps of run_solution(), but its work is not counted. *)
Theorem C69_reference_run_refuted : exists tots st, 0 < zsum (map w_writes tots) /\
  do_calls 0 false 12 tots (mkCnt 0 [0]) [CRef 0 3; CGet] = [st] /\ s_nsteps st <> 0 /\ s_nwrites st <> s_nsteps st * zsum (map w_writes tots).
Proof. exists [mkWork 0 80 16 112], (mkStats 12 4 0 0 0). split; [reflexivity|]. split; [vm_compute; reflexivity|]. split; vm_compute; discriminate. Qed.
Print Assumptions C69_reference_run_refuted.
