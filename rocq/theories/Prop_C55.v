(* C55: Results do not depend on the number of ranks. *)
From Verif Require Import Base Rank_Model Rank_Spec Exchange_Model Exchange_Spec Cover_Spec Loops_Model Tile_Model Sched_Spec Tile_Spec TileCfg_Spec Tile5_Proofs Tile_Examples Job_Model Job_Spec Job3_Proofs Job4_Proofs Job_Examples
  JobSetup_Spec JobFlags_Model JobFlags_Spec JobSetup_Proofs JobSetup2_Proofs JobSetup_Examples JobFlags_Proofs JobFlags_Examples.

(* No rank fails in any pass; with overlapped communication the two parts of a pass are the pass. *)
Theorem C55_passes_do_not_fail : forall ranks n h nst wf dom, job_ok ranks n h nst wf dom ->
  forall first last p k, In p (passes nst wf first last) -> In k ranks ->
  exists regs re ri, rank_does (k_c k) p = Ok regs /\ rank_parts (k_c k) p = Ok (re, ri) /\ regs = re ++ ri.
Proof. exact job_no_fail. Qed.
Print Assumptions C55_passes_do_not_fail.

(* The passes together are what run_solution does on a rank that has points. *)
Theorem C55_passes_are_the_run : forall c first last, 1 <= zprod (map (fun d => ext_e d - ext_b d) (c_dims c)) ->
  run_solution c first last = rbind (rmap (rank_does c) (passes (c_nst c) (c_wf c) first last)) (fun rs => Ok (concat rs)).
Proof. exact run_passes. Qed.
Print Assumptions C55_passes_are_the_run.

(* Full statement: as below for all settings that the code accepts.  Missing: with temporal blocking the room in the last
   block ([tb_room] in [tile_hyp], which [job_ok] asks of every rank); without it the claim is false already for one rank, see C03.
   Halos may be out of date at the start.  At the end the ranks hold the parts of the memory after the step-by-step run [L] over the
   whole domain, halos and extensions included. *)
Theorem C55_job_gives_reference_partial : forall V ranks n h nst wf dom ex hl hr lk (alloc : Z -> Z) (st : stencil V),
  job_ok ranks n h nst wf dom -> job_stencil n ex hl hr st -> var_halos n h hl hr -> stage_indep alloc st -> interiors_ok ranks nst wf ex hl hr -> reads_linked ranks nst wf dom ex lk st ->
  forall first last L, NoDup L -> (forall x, In x L <-> to_do nst dom first last x) -> plain_run (direction first last) L ->
  forall M M' g, holds ranks nst wf dom ex hl hr lk alloc st M g -> runs_job ranks nst wf dom ex hl hr lk alloc st first last M M' ->
  holds ranks nst wf dom ex hl hr lk alloc st M' (exec alloc st L g) /\
  forall r v u q, ex v = true -> keeps ranks nst wf hl hr lk r v q -> M' r (v, u, q) = exec alloc st L g (v, u, q).
Proof. exact @job_same. Qed.
Print Assumptions C55_job_gives_reference_partial.

(* Two jobs on the same domain with any numbers of ranks, sizes of ranks, tilings, overlapped or not (same restriction as above):
   every point has the same values in both. *)
Theorem C55_rank_count_irrelevant_partial : forall V ranks ranks' n h h' nst wf wf' dom ex hl hr lk lk' (alloc : Z -> Z) (st : stencil V),
  job_ok ranks n h nst wf dom -> job_ok ranks' n h' nst wf' dom -> job_stencil n ex hl hr st -> var_halos n h hl hr -> var_halos n h' hl hr -> stage_indep alloc st ->
  interiors_ok ranks nst wf ex hl hr -> interiors_ok ranks' nst wf' ex hl hr ->
  reads_linked ranks nst wf dom ex lk st -> reads_linked ranks' nst wf' dom ex lk' st ->
  forall first last M1 M2 M1' M2' g, holds ranks nst wf dom ex hl hr lk alloc st M1 g -> holds ranks' nst wf' dom ex hl hr lk' alloc st M2 g ->
  runs_job ranks nst wf dom ex hl hr lk alloc st first last M1 M1' -> runs_job ranks' nst wf' dom ex hl hr lk' alloc st first last M2 M2' ->
  forall r r' c, owns ranks r (snd c) -> owns ranks' r' (snd c) -> M1' r c = M2' r' c.
Proof. exact jobs_agree. Qed.
Print Assumptions C55_rank_count_irrelevant_partial.

(* Steps 0 to 3 on 20 points: two ranks with wave-fronts of two steps and overlapped communication (the interior of rank 0 is
   points 0 to 7), and one rank without tiling. *)
Definition C55_two : nat -> cell -> Z := seq_job two_ranks (fun _ => 2) (sum3 1) swap_two 1 2 0 3 two_start.
Definition C55_one : nat -> cell -> Z := seq_job one_rank (fun _ => 2) (sum3 1) swap_none 1 0 0 3 (fun _ => square).
Example C55_ex :
  job_ok two_ranks 1 (fun _ => 1) 1 2 (dom1 0 20) /\ job_ok one_rank 1 (fun _ => 1) 1 0 (dom1 0 20) /\ job_stencil 1 all_vars halo1 halo1 (sum3 1) /\
  var_halos 1 (fun _ => 1) halo1 halo1 /\ stage_indep (fun _ => 2) (sum3 1) /\ interiors_ok two_ranks 1 2 all_vars halo1 halo1 /\ interiors_ok one_rank 1 0 all_vars halo1 halo1 /\
  reads_linked two_ranks 1 2 (dom1 0 20) all_vars all_links (sum3 1) /\ reads_linked one_rank 1 0 (dom1 0 20) all_vars all_links (sum3 1) /\
  holds two_ranks 1 2 (dom1 0 20) all_vars halo1 halo1 all_links (fun _ => 2) (sum3 1) two_start square /\
  holds one_rank 1 0 (dom1 0 20) all_vars halo1 halo1 all_links (fun _ => 2) (sum3 1) (fun _ => square) square /\
  runs_job two_ranks 1 2 (dom1 0 20) all_vars halo1 halo1 all_links (fun _ => 2) (sum3 1) 0 3 two_start C55_two /\
  runs_job one_rank 1 0 (dom1 0 20) all_vars halo1 halo1 all_links (fun _ => 2) (sum3 1) 0 3 (fun _ => square) C55_one /\
  passes 1 2 0 3 = [(None, (0, 2)); (None, (2, 4))] /\
  map (fun k => rank_parts (k_c k) (None, (0, 2))) two_ranks =
    [Ok ([[[mkEv 0 0 [(7, 8)]]]; [[mkEv 0 0 [(8, 11)]]]; [[mkEv 1 0 [(8, 10)]]]],
         [[[mkEv 0 0 [(0, 7)]]]; [[mkEv 1 0 [(0, 7)]]]; [[mkEv 1 0 [(7, 8)]]]]);
     Ok ([[[mkEv 0 0 [(9, 13)]]]; [[mkEv 1 0 [(10, 12)]]]],
         [[[mkEv 0 0 [(13, 17)]]]; [[mkEv 1 0 [(12, 16)]]]; [[mkEv 0 0 [(17, 20)]]]; [[mkEv 1 0 [(16, 20)]]]])] /\
  map (C55_two 0%nat) [(0, 0, [0]); (0, 0, [9]); (0, 0, [10])] = [145; 6858; 8397] /\
  map (C55_one 0%nat) [(0, 0, [0]); (0, 0, [9]); (0, 0, [10])] = map (C55_two 0%nat) [(0, 0, [0]); (0, 0, [9]); (0, 0, [10])].
Proof.
  split; [exact two_ok|]. split; [exact one_ok|]. split; [exact sum3_job|]. split; [exact halo1_ok|]. split; [apply sum3_indep|]. split; [exact two_interiors|]. split; [exact one_interiors|]. split; [apply all_linked|]. split; [apply all_linked|].
  split; [exact two_holds|]. split; [exact one_holds|].
  split; [apply (seq_runs _ _ _ _ _ _ _ _ _ _ _ box_two); [exact two_box|exact swap_two_ok|]|split; [apply (seq_runs _ _ _ _ _ _ _ _ _ _ _ (fun _ => (0, 20))); [exact one_box|exact swap_none_ok|]|]].
  - intros p [<-|[<-|[]]] [|[|[|r]]] k E; try discriminate; injection E as <-; vm_compute; reflexivity.
  - intros p [<-|[<-|[<-|[<-|[]]]]] [|[|r]] k E; try discriminate; injection E as <-; vm_compute; reflexivity.
  - vm_compute. repeat split.
Qed.

(* ---- The job as the code sets it up: ranks by setup_rank() (C11), halos exchanged by the messages of alloc_mpi_data() and
   exchange_halos() (C13), interiors by alloc_mpi_data() ---- *)

(* It is a job as above. *)
Theorem C55_set_up : forall S given xs ranks dom, set_up S given xs ranks dom ->
  job_ok ranks (j_nd (s_job S)) (max_halo S) (s_nstages S) (s_wf S) dom /\ var_halos (j_nd (s_job S)) (max_halo S) (halo_in true S) (halo_in false S) /\
  interiors_ok ranks (s_nstages S) (s_wf S) (exchanged_var S) (halo_in true S) (halo_in false S).
Proof. exact (fun S given xs ranks dom U => conj (set_up_job S given xs ranks dom U) (conj (set_up_halos S given xs ranks dom U) (set_up_interiors S given xs ranks dom U))). Qed.
Print Assumptions C55_set_up.

(* The messages bring what is needed, and do not fail as long as nothing that is out of date is left out. *)
Theorem C55_messages : forall V S given xs ranks dom ord, set_up S given xs ranks dom -> order_ok ord ->
  (forall P M M' : nat -> cell -> V, code_exchange S xs ranks ord P M M' -> exchanged ranks (s_nstages S) (s_wf S) (exchanged_var S) (halo_in true S) (halo_in false S) (code_links S xs) P M M') /\
  forall steps dirty (P M : nat -> cell -> V), up_to_date S xs ranks steps dirty P M -> exists M', code_exchange S xs ranks ord P M M'.
Proof. exact (fun V S given xs ranks dom ord U Or => conj (@code_exchange_ok S given xs ranks dom U V ord Or) (@code_exchange_ex S given xs ranks dom U V ord Or)). Qed.
Print Assumptions C55_messages.

(* Full statement: as below for all settings that the code accepts.  Missing: [tb_room] as above; and sizes of ranks that are whole
   vectors at offsets that are not ([aligned_ranks]; without it the exchange is wrong, C13_stale_refuted).  What is not sent is
   assumed to be up to date ([up_to_date] in [code_exchange]); with the flags of the code it is, see C55_flag_job_partial. *)
Theorem C55_set_up_job_partial : forall V S given xs ranks dom ord (alloc : Z -> Z) (st : stencil V), set_up S given xs ranks dom -> order_ok ord ->
  job_stencil (j_nd (s_job S)) (exchanged_var S) (halo_in true S) (halo_in false S) st -> reads_in S st -> stage_indep alloc st ->
  forall first last L, NoDup L -> (forall x, In x L <-> to_do (s_nstages S) dom first last x) -> plain_run (direction first last) L ->
  forall M M' g, holds ranks (s_nstages S) (s_wf S) dom (exchanged_var S) (halo_in true S) (halo_in false S) (code_links S xs) alloc st M g ->
  code_job S xs ranks dom ord alloc st first last M M' ->
  holds ranks (s_nstages S) (s_wf S) dom (exchanged_var S) (halo_in true S) (halo_in false S) (code_links S xs) alloc st M' (exec alloc st L g) /\
  forall r v u q, exchanged_var S v = true -> keeps ranks (s_nstages S) (s_wf S) (halo_in true S) (halo_in false S) (code_links S xs) r v q -> M' r (v, u, q) = exec alloc st L g (v, u, q).
Proof. exact (fun V S given xs ranks dom ord alloc st U Or => @set_up_same S given xs ranks dom U V ord Or alloc st). Qed.
Print Assumptions C55_set_up_job_partial.

(* Two such jobs with any numbers of ranks. *)
Theorem C55_set_up_jobs_agree_partial : forall V S S' given given' xs xs' ranks ranks' dom ord ord' (alloc : Z -> Z) (st : stencil V),
  set_up S given xs ranks dom -> set_up S' given' xs' ranks' dom -> order_ok ord -> order_ok ord' ->
  j_nd (s_job S') = j_nd (s_job S) -> s_vars S' = s_vars S -> s_nstages S' = s_nstages S ->
  job_stencil (j_nd (s_job S)) (exchanged_var S) (halo_in true S) (halo_in false S) st -> reads_in S st -> stage_indep alloc st ->
  forall first last M1 M2 M1' M2' g,
  holds ranks (s_nstages S) (s_wf S) dom (exchanged_var S) (halo_in true S) (halo_in false S) (code_links S xs) alloc st M1 g ->
  holds ranks' (s_nstages S) (s_wf S') dom (exchanged_var S) (halo_in true S) (halo_in false S) (code_links S' xs') alloc st M2 g ->
  code_job S xs ranks dom ord alloc st first last M1 M1' -> code_job S' xs' ranks' dom ord' alloc st first last M2 M2' ->
  forall r r' c, Job_Spec.owns ranks r (snd c) -> Job_Spec.owns ranks' r' (snd c) -> M1' r c = M2' r' c.
Proof. exact set_up_agree. Qed.
Print Assumptions C55_set_up_jobs_agree_partial.

(* The two ranks of the example above, set up by the code: message from rank 1 to rank 0, interiors, and the values at the end. *)
Example C55_set_up_ex :
  set_up mini mini_given mini_ranks two_ranks (dom1 0 20) /\ order_ok walk /\
  job_stencil 1 (exchanged_var mini) (halo_in true mini) (halo_in false mini) (sum3 1) /\ reads_in mini (sum3 1) /\ stage_indep (fun _ => 2) (sum3 1) /\
  holds two_ranks 1 2 (dom1 0 20) (exchanged_var mini) (halo_in true mini) (halo_in false mini) (code_links mini mini_ranks) (fun _ => 2) (sum3 1) mini_start square /\
  code_job mini mini_ranks two_ranks (dom1 0 20) walk (fun _ => 2) (sum3 1) 0 3 mini_start mini_end /\
  map (fun a => (map (fun b => match mpi_buf mini false a b (mkXv [XStep 2; XDom 0 1 1 1] 1) with Some m => mb_box m | None => [] end) (neighbors mini mini_ranks a),
                 int_limit mini true mini_ranks 0 a 0, int_limit mini false mini_ranks 0 a 0)) mini_ranks = [([[(0, 2); (10, 12)]], 0, 8); ([[(0, 2); (8, 10)]], 12, 20)] /\
  mini_start 0%nat (0, 0, [10]) = 777 /\ [mini_end 0%nat (0, 0, [0]); mini_end 0%nat (0, 0, [9]); mini_end 1%nat (0, 0, [10])] = [145; 6858; 8397].
Proof.
  split; [exact mini_ok|]. split; [exact walk_ok|]. split; [exact mini_stencil|]. split; [exact mini_reads|]. split; [apply sum3_indep|]. split; [exact mini_holds|]. split; [exact mini_runs|].
  split; [vm_compute; reflexivity|]. split; [reflexivity|]. rewrite !mini_value; [vm_compute; reflexivity| | | | | |]; try lia; apply two_owns; cbn; [right|left|left]; lia.
Qed.

(* ---- with the flags of the code ---- *)
(* Every exchange goes through, whatever the flags say. *)
Theorem C55_flag_exchange : forall V S given xs ranks dom ord, set_up S given xs ranks dom -> order_ok ord -> forall self oth (P M : nat -> cell -> V),
  exists M' self' oth', flag_exchange S xs ord self oth P M M' self' oth'.
Proof. exact (fun V S given xs ranks dom ord U Or => @flag_exchange_ex S given xs ranks dom U V ord Or). Qed.
Print Assumptions C55_flag_exchange.

(* The whole job: ranks set up by the code, tiled passes, flags set by what the calls write, messages chosen by the flags.  When no
   unflagged value is out of date at the start (e.g. all flags are set), the ranks end up with the values of the plain run, in their
   halos too, and the flags are right for the next run.
   Full statement: for all settings that the code accepts.  Missing: [tb_room] and [aligned_ranks] as above. *)
Theorem C55_flag_job_partial : forall V S given xs ranks dom ord (alloc : Z -> Z) (st : stencil V) parts, set_up S given xs ranks dom -> order_ok ord ->
  job_stencil (j_nd (s_job S)) (exchanged_var S) (halo_in true S) (halo_in false S) st -> outputs_ok S parts alloc st -> reads_in S st -> stage_indep alloc st ->
  forall first last L, NoDup L -> (forall x, In x L <-> to_do (s_nstages S) dom first last x) -> plain_run (direction first last) L ->
  forall M self M' self' g, holds ranks (s_nstages S) (s_wf S) dom (exchanged_var S) (halo_in true S) (halo_in false S) (code_links S xs) alloc st M g -> flags_ok S xs ranks M self ->
  flag_job S xs ranks dom ord parts alloc st first last M self M' self' ->
  holds ranks (s_nstages S) (s_wf S) dom (exchanged_var S) (halo_in true S) (halo_in false S) (code_links S xs) alloc st M' (exec alloc st L g) /\ flags_ok S xs ranks M' self' /\
  forall r v u q, exchanged_var S v = true -> keeps ranks (s_nstages S) (s_wf S) (halo_in true S) (halo_in false S) (code_links S xs) r v q -> M' r (v, u, q) = exec alloc st L g (v, u, q).
Proof. exact (fun V S given xs ranks dom ord alloc st parts U Or Js Ou Ri Si first last => @flag_job_same S given xs ranks dom U V ord alloc st parts Or Js Ou first last Ri Si). Qed.
Print Assumptions C55_flag_job_partial.

(* Two such jobs. *)
Theorem C55_flag_jobs_agree_partial : forall V S S' given given' xs xs' ranks ranks' dom ord ord' (alloc : Z -> Z) (st : stencil V) parts,
  set_up S given xs ranks dom -> set_up S' given' xs' ranks' dom -> order_ok ord -> order_ok ord' ->
  j_nd (s_job S') = j_nd (s_job S) -> s_vars S' = s_vars S -> s_nstages S' = s_nstages S ->
  job_stencil (j_nd (s_job S)) (exchanged_var S) (halo_in true S) (halo_in false S) st -> outputs_ok S parts alloc st -> reads_in S st -> stage_indep alloc st ->
  forall first last M1 M2 self1 self2 M1' M2' self1' self2' g,
  holds ranks (s_nstages S) (s_wf S) dom (exchanged_var S) (halo_in true S) (halo_in false S) (code_links S xs) alloc st M1 g -> flags_ok S xs ranks M1 self1 ->
  holds ranks' (s_nstages S) (s_wf S') dom (exchanged_var S) (halo_in true S) (halo_in false S) (code_links S' xs') alloc st M2 g -> flags_ok S' xs' ranks' M2 self2 ->
  flag_job S xs ranks dom ord parts alloc st first last M1 self1 M1' self1' -> flag_job S' xs' ranks' dom ord' parts alloc st first last M2 self2 M2' self2' ->
  forall r r' c, Job_Spec.owns ranks r (snd c) -> Job_Spec.owns ranks' r' (snd c) -> M1' r c = M2' r' c.
Proof. exact flag_jobs_agree. Qed.
Print Assumptions C55_flag_jobs_agree_partial.

(* The job of C55_set_up_ex: all flags set at the start, none at the end. *)
Example C55_flag_ex : outputs_ok mini mini_parts (fun _ => 2) (sum3 1) /\ flags_ok mini mini_ranks two_ranks mini_start (fun _ _ _ => true) /\ exists self', flag_job mini mini_ranks two_ranks (dom1 0 20) walk mini_parts (fun _ => 2) (sum3 1) 0 3 mini_start (fun _ _ _ => true) mini_end self' /\ forall r u, (r < 2)%nat -> self' r 0 u = false.
Proof. split; [exact mini_outputs|]. split; [exact mini_flags_ok|]. destruct mini_flag_job as (self' & J & N). exists self'. split; [exact J|]. intros r u L. exact (N r L u). Qed.
