(* C03: Temporal blocking covers every point once, and concurrent blocks do not disturb each other. *)
From Coq Require Import ZifyBool.
From Verif Require Import Base Cover_Spec Loops_Model Tile_Model Sched_Spec Tile_Spec TileCfg_Spec Tile4_Proofs Tile5_Proofs Tile_Examples.

(* Full statement: as below for every [tile_hyp] without its last field, i.e. for every block size the settings code accepts.
   That is false, see C03_small_last_block_refuted.  What is assumed in addition (field [th_tb]): every remainder block at the
   end of a mega-block is wide enough for both of its sides to move inwards ([tb_room]), and there are at most 8 dims.
   A region is one phase of one mega-block (all its blocks run concurrently); [l] = any order in which the threads may evaluate. *)
Theorem C03_blocks_partial : forall ss bbs mg_t bk_t ru overlap fr fm fb nt c dom, tile_hyp ss bbs mg_t bk_t ru overlap fr fm fb nt c dom ->
  forall first last, exists regs, run_solution c first last = Ok regs /\
  (forall V (alloc : Z -> Z) (st : stencil V), halo_stencil (length ss) (halo_of ss) st -> stage_indep alloc st ->
     forall g i i' th th' e e' x y, In g regs -> nth_error g i = Some th -> nth_error g i' = Some th' -> i <> i' -> In e th -> In e' th' ->
      event_task dom e x -> event_task dom e' y -> ~ conflict alloc st x y) /\
  forall l, runs_regions (programs dom regs) l ->
    NoDup l /\
    (forall x, In x l <-> to_do (Z.of_nat (length bbs)) dom first last x /\ in_reach ss (Z.of_nat (length bbs)) (Z.max mg_t bk_t) first x) /\
    forall V (alloc : Z -> Z) (st : stencil V), halo_stencil (length ss) (halo_of ss) st ->
      (forall a b, In a l -> In b l -> step_order (direction first last) a b -> conflict alloc st a b -> before l a b) /\
      (stage_indep alloc st -> forall r, Permutation r l -> plain_run (direction first last) r -> forall m cl, exec alloc st l m cl = exec alloc st r m cl).
Proof. exact tblocks. Qed.
Print Assumptions C03_blocks_partial.

Definition C03_regs (d : sdim) (n t : Z) : list region :=
  match setup [d] [[(0, n)]] t t false false f_nest f_omp f_nest 1 with Ok c => match run_solution c 0 (t - 1) with Ok r => r | _ => [] end | _ => [] end.
Definition C03_cfg (d : sdim) (n t : Z) : tcfg :=
  match setup [d] [[(0, n)]] t t false false f_nest f_omp f_nest 1 with Ok c => c | _ => mkTcfg [] [] 0 0 false f_nest f_omp f_nest 0 end.
(* 24 points, halo 1, blocks of 8, two steps: 16 = 2 blocks of 8 and a last one of 8 *)
Definition C03_d : sdim := mkSdim 1 1 0 24 1 true true 0 24 24 8 8 24 24 8.
Example C03_ex :
  tile_hyp [C03_d] [[(0, 24)]] 2 2 false false f_nest f_omp f_nest 1 (C03_cfg C03_d 24 2) (dom1 0 24) /\ c_tb (C03_cfg C03_d 24 2) = 2 /\
  halo_stencil 1 (halo_of [C03_d]) (sum3 1) /\
  map (map (map (fun e => (e_t e, e_box e)))) (C03_regs C03_d 24 2) =
    [[[(0, [(0, 5)]); (1, [(0, 4)])]; [(0, [(8, 13)]); (1, [(9, 12)])]; [(0, [(16, 21)]); (1, [(17, 20)])]];
     [[(0, [(5, 8)]); (1, [(4, 9)])]; [(0, [(13, 16)]); (1, [(12, 17)])]; [(0, [(21, 24)]); (1, [(20, 24)])]]].
Proof.
  split; [|split; [reflexivity|split; [apply sum3_halo; cbn; lia|vm_compute; reflexivity]]].
  constructor; [constructor; [split; [discriminate|]; constructor; [|constructor]; constructor; cbn; intros; try lia; discriminate|split; [discriminate|]; repeat constructor|lia|lia|discriminate|repeat split; discriminate]|reflexivity| |].
  - apply dom1_inside; [reflexivity|]. intros i Hi. unfold near_rank. cbn. lia.
  - intros _. split; [cbn; lia|]. constructor; [|constructor]. intros _. split; [exists 24; reflexivity|]. cbv zeta. vm_compute. right. left. reflexivity.
Qed.

(* 19 points, halo 2, one mega-block, blocks of 16, three steps: the code accepts these settings, but block 0 evaluates
   step 2 at points up to 18 in the phase in which block 1 evaluates step 1 at point 18, which is read there.
   The two conflict, and running the blocks one after the other (with one thread) gives a wrong result. *)
Definition C03_w : sdim := mkSdim 1 2 0 19 1 true true 0 19 19 16 16 19 19 16.
Definition C03_init : cell -> Z := fun c => match c with (_, u, [q]) => if u =? 0 then q * q else 0 | _ => 0 end.
Definition C03_plain : list inst := flat_map (fun t => map (fun i => mkInst t 0 [i]) (zrange 0 19)) [0; 1; 2].
Theorem C03_small_last_block_refuted : exists ss bbs mg_t bk_t ru fr fm fb nt c dom (alloc : Z -> Z) (st : stencil Z) regs,
  settings_ok ss bbs mg_t bk_t false fr fm fb nt /\ setup ss bbs mg_t bk_t ru false fr fm fb nt = Ok c /\ inside ss bbs (Z.max mg_t bk_t) dom /\
  halo_stencil (length ss) (halo_of ss) st /\ stage_indep alloc st /\ run_solution c 0 2 = Ok regs /\
  (exists g i i' th th' e e' x y, In g regs /\ nth_error g i = Some th /\ nth_error g i' = Some th' /\ i <> i' /\ In e th /\ In e' th' /\
     event_task dom e x /\ event_task dom e' y /\ conflict alloc st x y) /\
  (exists l r m cl, runs_regions (programs dom regs) l /\ Permutation r l /\ plain_run 1 r /\ exec alloc st l m cl <> exec alloc st r m cl).
Proof.
  exists [C03_w], [[(0, 19)]], 3, 3, false, f_nest, f_omp, f_nest, 1, (C03_cfg C03_w 19 3), (dom1 0 19), (fun _ => 2), (sum3 2), (C03_regs C03_w 19 3).
  split; [constructor; [split; [discriminate|]; constructor; [|constructor]; constructor; cbn; intros; try lia; discriminate|split; [discriminate|]; repeat constructor|lia|lia|discriminate|repeat split; discriminate]|].
  split; [reflexivity|]. split; [apply dom1_inside; [reflexivity|]; intros i Hi; unfold near_rank; cbn; lia|]. split; [apply sum3_halo; cbn; lia|]. split; [apply sum3_indep|]. split; [reflexivity|].
  assert (R : C03_regs C03_w 19 3 =
    [[[mkEv 0 0 [(0, 12)]; mkEv 1 0 [(0, 10)]; mkEv 2 0 [(0, 8)]]; [mkEv 0 0 [(16, 19)]]];
     [[mkEv 0 0 [(12, 16)]; mkEv 1 0 [(10, 18)]; mkEv 2 0 [(8, 19)]]; [mkEv 1 0 [(18, 19)]]]]) by (vm_compute; reflexivity).
  rewrite R. split.
  - eexists _, 0%nat, 1%nat, _, _, (mkEv 2 0 [(8, 19)]), (mkEv 1 0 [(18, 19)]), (mkInst 2 0 [16]), (mkInst 1 0 [18]).
    split; [right; left; reflexivity|]. split; [reflexivity|]. split; [reflexivity|]. split; [discriminate|]. split; [cbn; tauto|]. split; [cbn; tauto|].
    split; [repeat split; exists 16; split; [reflexivity|lia]|]. split; [repeat split; exists 18; split; [reflexivity|lia]|].
    exists (0, 0, [18]). right. split; [vm_compute; tauto|vm_compute; tauto].
  - exists (seq1 (C03_regs C03_w 19 3)), C03_plain, C03_init, (0, 1, [16]). rewrite <- R. split; [apply seq1_runs; vm_compute; reflexivity|]. split; [|split].
    + apply perm_check. vm_compute. reflexivity.
    + apply plain_check; [left; reflexivity|vm_compute; reflexivity].
    + vm_compute. discriminate.
Qed.
Print Assumptions C03_small_last_block_refuted.
