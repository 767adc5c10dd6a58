(* C04: A run of steps equals the two runs it is split into. *)
From Verif Require Import Base Cover_Spec Loops_Model Tile_Model Sched_Spec Tile_Spec TileCfg_Spec Tile4_Proofs Tile5_Proofs Tile_Examples Job_Model Job_Spec Job4_Proofs Job_Examples.

(* Full statement: as below for all settings that the code accepts.  Missing: with temporal blocking the room in the last block
   ([tb_room] in [tile_hyp]); without it the claim is false, see C04_small_last_block_refuted.
   Any number of ranks with halo exchanges, with or without overlapped communication; steps may go up or down.  Running
   [first..mid] and then the rest leaves the same values as one run at every point of every rank, and in all halos. *)
Theorem C04_split_job_partial : forall V ranks n h nst wf dom ex hl hr lk (alloc : Z -> Z) (st : stencil V),
  job_ok ranks n h nst wf dom -> job_stencil n ex hl hr st -> var_halos n h hl hr -> stage_indep alloc st -> interiors_ok ranks nst wf ex hl hr -> reads_linked ranks nst wf dom ex lk st ->
  forall first mid last M g Ma Mb Mc, first <= mid < last \/ last < mid <= first -> holds ranks nst wf dom ex hl hr lk alloc st M g ->
  runs_job ranks nst wf dom ex hl hr lk alloc st first mid M Ma -> runs_job ranks nst wf dom ex hl hr lk alloc st (mid + direction first last) last Ma Mb ->
  runs_job ranks nst wf dom ex hl hr lk alloc st first last M Mc ->
  (forall r c, owns ranks r (snd c) -> Mb r c = Mc r c) /\ forall r v u q, ex v = true -> keeps ranks nst wf hl hr lk r v q -> Mb r (v, u, q) = Mc r (v, u, q).
Proof. exact jobs_split. Qed.
Print Assumptions C04_split_job_partial.

(* One rank without neighbours: all of the memory is the same.  Steps may go up or down.  Running [first..mid] and then the rest evaluates what one run does,
   each instance once, and leaves the same memory. *)
Theorem C04_split_same_memory_partial : forall ss bbs mg_t bk_t ru overlap fr fm fb nt c dom, tile_hyp ss bbs mg_t bk_t ru overlap fr fm fb nt c dom ->
  forall first mid last, first <= mid < last \/ last < mid <= first ->
  forall regs regs1 regs2 l l1 l2,
  run_solution c first last = Ok regs -> runs_regions (programs dom regs) l ->
  run_solution c first mid = Ok regs1 -> runs_regions (programs dom regs1) l1 ->
  run_solution c (mid + direction first last) last = Ok regs2 -> runs_regions (programs dom regs2) l2 ->
  (forall d, In d ss -> d_first d = true /\ d_last d = true) ->
  forall V (alloc : Z -> Z) (st : stencil V), halo_stencil (length ss) (halo_of ss) st -> stage_indep alloc st ->
  (forall x, In x l <-> In x (l1 ++ l2)) /\ forall m cl, exec alloc st l2 (exec alloc st l1 m) cl = exec alloc st l m cl.
Proof. exact split_exec. Qed.
Print Assumptions C04_split_same_memory_partial.

(* With neighbours the two runs may evaluate other points of the extensions, but inside the rank they evaluate the same, each once. *)
Theorem C04_split_own_points_partial : forall ss bbs mg_t bk_t ru overlap fr fm fb nt c dom, tile_hyp ss bbs mg_t bk_t ru overlap fr fm fb nt c dom ->
  forall first mid last, first <= mid < last \/ last < mid <= first ->
  forall regs regs1 regs2 l l1 l2,
  run_solution c first last = Ok regs -> runs_regions (programs dom regs) l ->
  run_solution c first mid = Ok regs1 -> runs_regions (programs dom regs1) l1 ->
  run_solution c (mid + direction first last) last = Ok regs2 -> runs_regions (programs dom regs2) l2 ->
  forall x, in_rank ss (i_p x) -> (In x l <-> In x l1 \/ In x l2).
Proof. exact split_own. Qed.
Print Assumptions C04_split_own_points_partial.

Theorem C04_split_once_partial : forall ss bbs mg_t bk_t ru overlap fr fm fb nt c dom, tile_hyp ss bbs mg_t bk_t ru overlap fr fm fb nt c dom ->
  forall first mid last, first <= mid < last \/ last < mid <= first ->
  forall regs1 regs2 l1 l2,
  run_solution c first mid = Ok regs1 -> runs_regions (programs dom regs1) l1 ->
  run_solution c (mid + direction first last) last = Ok regs2 -> runs_regions (programs dom regs2) l2 -> NoDup (l1 ++ l2).
Proof. exact split_once. Qed.
Print Assumptions C04_split_once_partial.

(* Seven steps down, three per wave-front, split after step 8: 10..8 and 7..4. *)
Definition C04_d : sdim := mkSdim 1 1 0 20 1 true true 0 20 8 8 8 8 8 8.
Definition C04_regs (first last : Z) : list region :=
  match setup [C04_d] [[(0, 20)]] 3 0 false false f_nest f_omp f_nest 1 with Ok c => match run_solution c first last with Ok r => r | _ => [] end | _ => [] end.
Definition C04_init : cell -> Z := fun c => match c with (_, u, [x]) => if u =? 0 then x * x + 1 else 0 | _ => 0 end.
(* this stencil writes the next lower step *)
Definition C04_down : stencil Z := mkStencil Z
  (fun x => map (fun o => (0, i_t x, [nth 0 (i_p x) 0 + o])) [- 1; 0; 1]) (fun x => [(0, i_t x - 1, i_p x)]) (fun _ vs _ => fold_right Z.add 0 vs).
Example C04_ex :
  (exists c, tile_hyp [C04_d] [[(0, 20)]] 3 0 false false f_nest f_omp f_nest 1 c (dom1 0 20)) /\
  map e_t (concat (concat (C04_regs 10 4))) = [10; 9; 8; 10; 9; 8; 10; 9; 8; 7; 6; 5; 7; 6; 5; 7; 6; 5; 4; 4; 4] /\
  map e_t (concat (concat (C04_regs 7 4))) = [7; 6; 5; 7; 6; 5; 7; 6; 5; 4; 4; 4] /\
  (let run a b m := exec (fun _ => 2) C04_down (seq1 (C04_regs a b)) m in
   map (run 10 6 C04_init) [(0, 1, [0]); (0, 1, [7]); (0, 1, [19])] = map (run 7 6 (run 10 8 C04_init)) [(0, 1, [0]); (0, 1, [7]); (0, 1, [19])] /\
   run 10 6 C04_init (0, 1, [7]) = 12960).
Proof.
  split.
  - eexists. apply no_tb; [|reflexivity|apply dom1_inside; [reflexivity|intros i Hi; unfold near_rank; cbn; lia]].
    constructor; [split; [discriminate|]; constructor; [|constructor]; constructor; cbn; intros; try lia; discriminate|split; [discriminate|]; repeat constructor|lia|lia|discriminate|repeat split; discriminate].
  - split; [vm_compute; reflexivity|]. split; [vm_compute; reflexivity|]. split; [vm_compute; reflexivity|]. vm_compute. reflexivity.
Qed.

(* Two ranks of C55_ex: steps 0 to 4, and 0 to 2 followed by 3 to 4. *)
Definition C04_job (first last : Z) (M : nat -> cell -> Z) : nat -> cell -> Z := seq_job two_ranks (fun _ => 2) (sum3 1) swap_two 1 2 first last M.
Example C04_job_ex :
  runs_job two_ranks 1 2 (dom1 0 20) all_vars halo1 halo1 all_links (fun _ => 2) (sum3 1) 0 2 two_start (C04_job 0 2 two_start) /\
  runs_job two_ranks 1 2 (dom1 0 20) all_vars halo1 halo1 all_links (fun _ => 2) (sum3 1) 3 4 (C04_job 0 2 two_start) (C04_job 3 4 (C04_job 0 2 two_start)) /\
  runs_job two_ranks 1 2 (dom1 0 20) all_vars halo1 halo1 all_links (fun _ => 2) (sum3 1) 0 4 two_start (C04_job 0 4 two_start) /\
  job_ok two_ranks 1 (fun _ => 1) 1 2 (dom1 0 20) /\ interiors_ok two_ranks 1 2 all_vars halo1 halo1 /\
  holds two_ranks 1 2 (dom1 0 20) all_vars halo1 halo1 all_links (fun _ => 2) (sum3 1) two_start square /\
  map (C04_job 3 4 (C04_job 0 2 two_start) 1%nat) [(0, 1, [8]); (0, 1, [11]); (0, 1, [19])] = [16605; 30456; 34339] /\
  map (C04_job 0 4 two_start 1%nat) [(0, 1, [8]); (0, 1, [11]); (0, 1, [19])] = [16605; 30456; 34339].
Proof.
  split; [|split; [|split; [|split; [exact two_ok|split; [exact two_interiors|split; [exact two_holds|vm_compute; split; reflexivity]]]]]];
    (apply (seq_runs _ _ _ _ _ _ _ _ _ _ _ box_two); [exact two_box|exact swap_two_ok|]).
  - intros p [<-|[<-|[]]] [|[|[|r]]] k E; try discriminate; injection E as <-; vm_compute; reflexivity.
  - intros p [<-|[]] [|[|[|r]]] k E; try discriminate; injection E as <-; vm_compute; reflexivity.
  - intros p [<-|[<-|[<-|[]]]] [|[|[|r]]] k E; try discriminate; injection E as <-; vm_compute; reflexivity.
Qed.

(* Refuted without room in the last block (19 points, halo 2, blocks of 16 points and three steps, as in C03): running step 0 and
   then steps 1 and 2 gives other values than running steps 0 to 2. *)
Definition C04_w : sdim := mkSdim 1 2 0 19 1 true true 0 19 19 16 16 19 19 16.
Definition C04_cfg : tcfg :=
  match setup [C04_w] [[(0, 19)]] 3 3 false false f_nest f_omp f_nest 1 with Ok c => c | _ => mkTcfg [] [] 0 0 false f_nest f_omp f_nest 0 end.
Definition C04_w_regs (first last : Z) : list region := match run_solution C04_cfg first last with Ok r => r | _ => [] end.
Theorem C04_small_last_block_refuted : exists ss bbs mg_t bk_t ru fr fm fb nt c dom (alloc : Z -> Z) (st : stencil Z) regs regs1 regs2 l l1 l2,
  settings_ok ss bbs mg_t bk_t false fr fm fb nt /\ setup ss bbs mg_t bk_t ru false fr fm fb nt = Ok c /\ inside ss bbs (Z.max mg_t bk_t) dom /\
  halo_stencil (length ss) (halo_of ss) st /\ stage_indep alloc st /\ (forall d, In d ss -> d_first d = true /\ d_last d = true) /\
  run_solution c 0 2 = Ok regs /\ runs_regions (programs dom regs) l /\ run_solution c 0 0 = Ok regs1 /\ runs_regions (programs dom regs1) l1 /\
  run_solution c 1 2 = Ok regs2 /\ runs_regions (programs dom regs2) l2 /\
  exists m cl, exec alloc st l2 (exec alloc st l1 m) cl <> exec alloc st l m cl.
Proof.
  exists [C04_w], [[(0, 19)]], 3, 3, false, f_nest, f_omp, f_nest, 1, C04_cfg, (dom1 0 19), (fun _ => 2), (sum3 2), (C04_w_regs 0 2), (C04_w_regs 0 0), (C04_w_regs 1 2),
    (seq1 (C04_w_regs 0 2)), (seq1 (C04_w_regs 0 0)), (seq1 (C04_w_regs 1 2)).
  split; [constructor; [split; [discriminate|]; constructor; [|constructor]; constructor; cbn; intros; try lia; discriminate|split; [discriminate|]; repeat constructor|lia|lia|discriminate|repeat split; discriminate]|].
  split; [reflexivity|]. split; [apply dom1_inside; [reflexivity|]; intros i Hi; unfold near_rank; cbn; lia|]. split; [apply sum3_halo; cbn; lia|]. split; [apply sum3_indep|].
  split; [intros d [<-|[]]; split; reflexivity|].
  split; [vm_compute; reflexivity|]. split; [apply seq1_runs; vm_compute; reflexivity|]. split; [vm_compute; reflexivity|]. split; [apply seq1_runs; vm_compute; reflexivity|].
  split; [vm_compute; reflexivity|]. split; [apply seq1_runs; vm_compute; reflexivity|]. exists square, (0, 1, [16]). vm_compute. discriminate.
Qed.
Print Assumptions C04_small_last_block_refuted.
