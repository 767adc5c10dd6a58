(* C54: tuning in the middle of a run does not change results. *)
From Coq Require Import ZifyBool.
From Verif Require Import Base Cover_Spec Loops_Model Tile_Model Sched_Spec Tile_Spec TileCfg_Spec Tile5_Proofs Tile_Examples
  Adjust_Model Tuner_Model Tuner_Spec Retune_Model Retune_Spec Retune_Proofs.

(* Full statement: after any call-backs of the auto-tuner, the tiling parameters in force are those that prepare_solution
   would compute for the sizes in force.  False if mega-blocks are tuned, see C54_mega_refuted.  Missing: targets that
   contain mega-blocks.  [c] = what was prepared with the sizes [k]; [retune c ..] = what is in force for the tuner state [s]. *)
Theorem C54_as_if_prepared_partial : forall e req k os s ss bbs ru overlap fr fm fb nt c,
  tuner_settings e req -> ~ In TMega (t_targets e) -> adjust_settings (t_a e) req = Ok k -> Forall measured os ->
  run_tuner e os (new_tuner e k req) = Ok s -> rank_dims (a_fold (t_a e)) (k_rank req) overlap ss ->
  setup (dims_of ss k) bbs (z_t (k_mega k)) (z_t (k_block k)) ru overlap fr fm fb nt = Ok c ->
  let ss' := dims_of ss (u_k s) in
  setup ss' bbs (z_t (k_mega (u_k s))) (z_t (k_block (u_k s))) ru overlap fr fm fb nt = Ok (retune c ss' (z_t (k_block (u_k s))) ru).
Proof. exact tuned_config. Qed.
Print Assumptions C54_as_if_prepared_partial.

(* Full statement: steps run with the tuned sizes leave the memory that the sizes before tuning would have left.
   Missing: targets that contain mega-blocks (false then), and, with temporal blocking, sizes without room in the last block
   (see C03).  Holds with neighbour ranks too: the same instances are evaluated, also in the extensions. *)
Theorem C54_same_results_partial : forall e req k os s ss bbs ru overlap fr fm fb nt c,
  tuner_settings e req -> ~ In TMega (t_targets e) -> adjust_settings (t_a e) req = Ok k -> Forall measured os ->
  run_tuner e os (new_tuner e k req) = Ok s -> rank_dims (a_fold (t_a e)) (k_rank req) overlap ss -> loops_ok (length ss) bbs fr fm fb nt ->
  setup (dims_of ss k) bbs (z_t (k_mega k)) (z_t (k_block k)) ru overlap fr fm fb nt = Ok c ->
  let ss' := dims_of ss (u_k s) in let c' := retune c ss' (z_t (k_block (u_k s))) ru in
  forall dom, inside (dims_of ss k) bbs (Z.max (z_t (k_mega k)) (z_t (k_block k))) dom ->
  has_room (dims_of ss k) bbs (z_t (k_mega k)) (z_t (k_block k)) ru c -> has_room ss' bbs (z_t (k_mega (u_k s))) (z_t (k_block (u_k s))) ru c' ->
  forall first last, exists regs regs', run_solution c first last = Ok regs /\ run_solution c' first last = Ok regs' /\
    forall l l', runs_regions (programs dom regs) l -> runs_regions (programs dom regs') l' ->
      (forall x, In x l <-> In x l') /\
      forall V (alloc : Z -> Z) (st : stencil V), halo_stencil (length ss) (halo_of ss) st -> stage_indep alloc st -> forall m cl, exec alloc st l m cl = exec alloc st l' m cl.
Proof. exact tuned_same. Qed.
Print Assumptions C54_same_results_partial.

(* 20 points, halo 1, mega-blocks of 12 points and 2 steps, blocks tuned from 12 down to 6 points. *)
Definition C54_z : sizes := mkSizes 0 [0].
Definition C54_req (mega : Z) : kset := mkKset (mkSizes 0 [20]) (mkSizes 2 [mega]) (mkSizes 0 [64]) C54_z C54_z C54_z C54_z C54_z C54_z C54_z C54_z 1.
Definition C54_e (g : target) : tenv := mkTenv (mkAenv [1] 0 1 false 64 false false) [g] 6 4 true.
Definition C54_k (g : target) (mega : Z) : kset := match adjust_settings (t_a (C54_e g)) (C54_req mega) with Ok k => k | _ => C54_req mega end.
Definition C54_os : list obs := [mkObs 1000 1 false true true; mkObs 500 1 false true true].
Definition C54_s (g : target) (mega : Z) : tstate :=
  let s := new_tuner (C54_e g) (C54_k g mega) (C54_req mega) in match run_tuner (C54_e g) C54_os s with Ok s' => s' | _ => s end.
Definition C54_ss : list sdim := [mkSdim 1 1 0 20 1 true true 0 20 0 0 0 0 0 0].
Definition C54_c (k : kset) : tcfg :=
  match setup (dims_of C54_ss k) [[(0, 20)]] (z_t (k_mega k)) (z_t (k_block k)) false false f_nest f_omp f_nest 1 with Ok c => c | _ => mkTcfg [] [] 0 0 false f_nest f_omp f_nest 0 end.
Definition C54_c' (g : target) (mega : Z) : tcfg :=
  retune (C54_c (C54_k g mega)) (dims_of C54_ss (u_k (C54_s g mega))) (z_t (k_block (u_k (C54_s g mega)))) false.
Definition C54_regs (c : tcfg) : list region := match run_solution c 0 1 with Ok r => r | _ => [] end.
Definition C54_init : cell -> Z := fun c => match c with (_, u, [q]) => if u =? 0 then q * q else 0 | _ => 0 end.
Example C54_hyp_ex : forall g mega, g <> TUnknown -> (g = TBlock /\ mega = 12 \/ g = TMega /\ mega = 0) ->
  tuner_settings (C54_e g) (C54_req mega) /\ adjust_settings (t_a (C54_e g)) (C54_req mega) = Ok (C54_k g mega) /\ Forall measured C54_os /\
  run_tuner (C54_e g) C54_os (new_tuner (C54_e g) (C54_k g mega) (C54_req mega)) = Ok (C54_s g mega) /\
  rank_dims (a_fold (t_a (C54_e g))) (k_rank (C54_req mega)) false C54_ss /\ loops_ok 1 [[(0, 20)]] f_nest f_omp f_nest 1 /\
  setup (dims_of C54_ss (C54_k g mega)) [[(0, 20)]] (z_t (k_mega (C54_k g mega))) (z_t (k_block (C54_k g mega))) false false f_nest f_omp f_nest 1 = Ok (C54_c (C54_k g mega)) /\
  inside (dims_of C54_ss (C54_k g mega)) [[(0, 20)]] (Z.max (z_t (k_mega (C54_k g mega))) (z_t (k_block (C54_k g mega)))) (dom1 0 20) /\
  c_tb (C54_c (C54_k g mega)) = 0 /\ c_tb (C54_c' g mega) = 0 /\ halo_stencil 1 (halo_of C54_ss) (sum3 1).
Proof.
  intros g mega Hg Hm. split; [constructor; [split; [discriminate|repeat constructor; lia]|split; [repeat constructor; lia|reflexivity]|repeat constructor|cbn; lia|repeat constructor; exact Hg]|].
  destruct Hm as [(-> & ->)|(-> & ->)];
    (split; [vm_compute; reflexivity|]; split; [repeat constructor; cbn; lia|]; split; [vm_compute; reflexivity|];
     split; [split; [reflexivity|]; intros [|[|j]] d E; try discriminate; inversion E; constructor; cbn; intros; try reflexivity; try lia; discriminate|];
     split; [constructor; [split; [discriminate|]; repeat constructor|lia|repeat split; discriminate]|]; split; [vm_compute; reflexivity|];
     split; [apply dom1_inside; [reflexivity|]; intros i Hi; unfold near_rank; cbn; lia|]; split; [vm_compute; reflexivity|]; split; [vm_compute; reflexivity|]; apply sum3_halo; cbn; lia).
Qed.
Example C54_ex :
  ~ In TMega (t_targets (C54_e TBlock)) /\ map z_d [k_mega (C54_k TBlock 12); k_block (C54_k TBlock 12)] = [[12]; [12]] /\
  map z_d [k_mega (u_k (C54_s TBlock 12)); k_block (u_k (C54_s TBlock 12))] = [[12]; [6]] /\
  map (map (map (fun e => (e_t e, e_box e)))) (C54_regs (C54_c' TBlock 12)) =
    [[[(0, [(0, 6)])]; [(0, [(6, 12)])]]; [[(1, [(0, 6)])]; [(1, [(6, 11)])]]; [[(0, [(12, 18)])]; [(0, [(18, 20)])]]; [[(1, [(11, 17)])]; [(1, [(17, 20)])]]].
Proof. split; [intros [Q|[]]; discriminate|]. split; [vm_compute; reflexivity|]. split; vm_compute; reflexivity. Qed.

(* Refuted: mega-blocks are a target.  The rank was prepared with one mega-block for all of it, so the wave-front angle is
   zero; the tuner makes mega-blocks smaller but keeps the angle.  Mega-block 0 then evaluates step 1 up to its end, where
   it reads values of step 0 that mega-block 1 has not computed. *)
Definition C54_plain : list inst := flat_map (fun t => map (fun i => mkInst t 0 [i]) (zrange 0 20)) [0; 1].
Theorem C54_mega_refuted : exists e req k os s ss bbs ru fr fm fb nt c dom (alloc : Z -> Z) (st : stencil Z) regs',
  tuner_settings e req /\ t_targets e = [TMega] /\ adjust_settings (t_a e) req = Ok k /\ Forall measured os /\
  run_tuner e os (new_tuner e k req) = Ok s /\ rank_dims (a_fold (t_a e)) (k_rank req) false ss /\ loops_ok (length ss) bbs fr fm fb nt /\
  setup (dims_of ss k) bbs (z_t (k_mega k)) (z_t (k_block k)) ru false fr fm fb nt = Ok c /\
  inside (dims_of ss k) bbs (Z.max (z_t (k_mega k)) (z_t (k_block k))) dom /\ z_t (k_block (u_k s)) = 0 /\
  halo_stencil (length ss) (halo_of ss) st /\ stage_indep alloc st /\
  (let c' := retune c (dims_of ss (u_k s)) (z_t (k_block (u_k s))) ru in run_solution c' 0 1 = Ok regs' /\ c_tb c' = 0) /\
  setup (dims_of ss (u_k s)) bbs (z_t (k_mega (u_k s))) (z_t (k_block (u_k s))) ru false fr fm fb nt <> Ok (retune c (dims_of ss (u_k s)) (z_t (k_block (u_k s))) ru) /\
  exists l r m cl, runs_regions (programs dom regs') l /\ Permutation r l /\ plain_run 1 r /\ exec alloc st l m cl <> exec alloc st r m cl.
Proof.
  exists (C54_e TMega), (C54_req 0), (C54_k TMega 0), C54_os, (C54_s TMega 0), C54_ss, [[(0, 20)]], false, f_nest, f_omp, f_nest, 1, (C54_c (C54_k TMega 0)), (dom1 0 20), (fun _ => 2), (sum3 1), (C54_regs (C54_c' TMega 0)).
  destruct (C54_hyp_ex TMega 0) as (A1 & A2 & A3 & A4 & A5 & A6 & A7 & A8 & A9 & A10 & A11); [discriminate|right; auto|].
  split; [exact A1|]. split; [reflexivity|]. split; [exact A2|]. split; [exact A3|]. split; [exact A4|]. split; [exact A5|]. split; [exact A6|]. split; [exact A7|]. split; [exact A8|].
  split; [vm_compute; reflexivity|]. split; [exact A11|]. split; [apply sum3_indep|]. split; [split; [vm_compute; reflexivity|exact A10]|]. split; [vm_compute; discriminate|].
  assert (R : C54_regs (C54_c' TMega 0) = [[[mkEv 0 0 [(0, 14)]]]; [[mkEv 1 0 [(0, 14)]]]; [[mkEv 0 0 [(14, 20)]]]; [[mkEv 1 0 [(14, 20)]]]]) by (vm_compute; reflexivity).
  exists (seq1 (C54_regs (C54_c' TMega 0))), C54_plain, C54_init, (0, 0, [13]). split; [apply seq1_runs; vm_compute; reflexivity|]. split; [|split].
  - apply perm_check. vm_compute. reflexivity.
  - apply plain_check; [left; reflexivity|vm_compute; reflexivity].
  - vm_compute. discriminate.
Qed.
Print Assumptions C54_mega_refuted.
