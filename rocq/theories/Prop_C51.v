(* C51: adjusted tile sizes are nested and fold-aligned. *)
From Verif Require Import Base Cover_Spec Loops_Model Tile_Model TileCfg_Spec Adjust_Model Adjust_Spec Adjust_Proofs Adjust2_Proofs.

(* For all sizes the user may give (zero, negative, too large): every level is fitted into the enclosing one, in units of
   the vector fold.  The default for blocks (pico-blocks when offloading) replaces zero first.  Nano-blocks are fitted to
   the sizes asked for unless the code picks slabs for several inner threads. *)
Theorem C51_nested : forall e k, let n := length (z_d (k_rank k)) in
  Forall (fun x => 1 <= x) (z_d (k_rank k)) -> Forall (fun x => 1 <= x) (a_fold e) -> length (a_fold e) = n ->
  Forall (fun s => length (z_d s) = n) [k_mega k; k_block k; k_micro k; k_nano k; k_pico k; k_rktile k; k_mgtile k; k_bktile k; k_mctile k; k_nntile k] ->
  exists k', adjust_settings e k = Ok k' /\ k_rank k' = k_rank k /\
    let dflt := fun l => map (fun x => if x =? 0 then a_def e else x) l in
    all_fit (z_d (k_rank k)) (a_fold e) (z_d (k_mega k)) (z_d (k_mega k')) /\
    all_fit (z_d (k_mega k')) (a_fold e) (if a_offload e then z_d (k_block k) else dflt (z_d (k_block k))) (z_d (k_block k')) /\
    all_fit (z_d (k_block k')) (a_fold e) (z_d (k_micro k)) (z_d (k_micro k')) /\
    nested (z_d (k_micro k')) (a_fold e) (z_d (k_nano k')) /\
    (a_threads e <= 1 \/ zsum (z_t (k_nano k) :: z_d (k_nano k)) <> 0 -> all_fit (z_d (k_micro k')) (a_fold e) (z_d (k_nano k)) (z_d (k_nano k'))) /\
    all_fit (z_d (k_nano k')) (a_fold e) (if a_offload e then dflt (z_d (k_pico k)) else z_d (k_pico k)) (z_d (k_pico k')) /\
    (a_tiling e = true ->
       all_fit (z_d (k_rank k)) (z_d (k_mega k')) (z_d (k_rktile k)) (z_d (k_rktile k')) /\
       all_fit (z_d (k_mega k')) (z_d (k_block k')) (z_d (k_mgtile k)) (z_d (k_mgtile k')) /\
       all_fit (z_d (k_block k')) (z_d (k_micro k')) (z_d (k_bktile k)) (z_d (k_bktile k')) /\
       all_fit (z_d (k_micro k')) (z_d (k_nano k')) (z_d (k_mctile k)) (z_d (k_mctile k')) /\
       all_fit (z_d (k_nano k')) (z_d (k_pico k')) (z_d (k_nntile k)) (z_d (k_nntile k'))).
Proof. exact nested_all. Qed.
Print Assumptions C51_nested.

(* Hence every level lies within the rank and is a whole number of folds, or all of the rank. *)
Theorem C51_aligned : forall e k k', let n := length (z_d (k_rank k)) in
  Forall (fun x => 1 <= x) (z_d (k_rank k)) -> Forall (fun x => 1 <= x) (a_fold e) -> length (a_fold e) = n ->
  Forall (fun s => length (z_d s) = n) [k_mega k; k_block k; k_micro k; k_nano k; k_pico k; k_rktile k; k_mgtile k; k_bktile k; k_mctile k; k_nntile k] ->
  adjust_settings e k = Ok k' ->
  Forall (fun s => nested (z_d (k_rank k)) (a_fold e) (z_d s)) [k_mega k'; k_block k'; k_micro k'; k_nano k'; k_pico k'].
Proof. exact aligned_all. Qed.
Print Assumptions C51_aligned.

(* Adjusting again, as the auto-tuner does, changes nothing. *)
Theorem C51_again : forall e k k', let n := length (z_d (k_rank k)) in
  Forall (fun x => 1 <= x) (z_d (k_rank k)) -> Forall (fun x => 1 <= x) (a_fold e) -> length (a_fold e) = n ->
  Forall (fun s => length (z_d s) = n) [k_mega k; k_block k; k_micro k; k_nano k; k_pico k; k_rktile k; k_mgtile k; k_bktile k; k_mctile k; k_nntile k] ->
  (0 < n)%nat -> 0 <= z_t (k_nano k) -> adjust_settings e k = Ok k' -> adjust_settings e k' = Ok k'.
Proof. exact again_all. Qed.
Print Assumptions C51_again.

(* The number reported for one level is the number of tiles needed: the product over the dims. *)
Theorem C51_counts : forall inner outer mults, length mults = length (z_d outer) -> length (z_d inner) = length (z_d outer) ->
  Forall (fun x => 1 <= x) (z_d outer) -> Forall (fun x => 1 <= x) mults ->
  exists cs, length cs = length (z_d outer) /\ snd (find_num_subsets inner outer mults) = zprod cs /\
    forall j o r c, nth_error (z_d outer) j = Some o -> nth_error (z_d (fst (find_num_subsets inner outer mults))) j = Some r -> nth_error cs j = Some c -> tiles_needed o r c.
Proof. exact counts_all. Qed.
Print Assumptions C51_counts.

(* Slabs for several inner threads, in two or more dims: one dim of the micro-block is cut into pieces of one fold, all other
   dims are left whole.  If some dim other than the inner one has a fold for each thread, such a dim is cut. *)
Theorem C51_slabs : forall e k k', let n := length (z_d (k_rank k)) in
  Forall (fun x => 1 <= x) (z_d (k_rank k)) -> Forall (fun x => 1 <= x) (a_fold e) -> length (a_fold e) = n ->
  Forall (fun s => length (z_d s) = n) [k_mega k; k_block k; k_micro k; k_nano k; k_pico k; k_rktile k; k_mgtile k; k_bktile k; k_mctile k; k_nntile k] ->
  (2 <= n)%nat -> 1 < a_threads e -> z_t (k_nano k) = 0 -> Forall (fun x => x = 0) (z_d (k_nano k)) -> adjust_settings e k = Ok k' ->
  exists j, (j < n)%nat /\
    nth j (z_d (k_nano k')) 0 = Z.min (nth j (a_fold e) 0) (nth j (z_d (k_micro k')) 0) /\
    (forall i, (i < n)%nat -> i <> j -> nth i (z_d (k_nano k')) 0 = nth i (z_d (k_micro k')) 0) /\
    forall i, (i < n)%nat -> i <> a_inner e -> a_threads e * nth i (a_fold e) 0 <= nth i (z_d (k_block k')) 0 ->
      j <> a_inner e /\ a_threads e * nth j (a_fold e) 0 <= nth j (z_d (k_block k')) 0.
Proof. exact slabs_all. Qed.
Print Assumptions C51_slabs.

(* The sizes meet the conditions of the theorems on temporal tiling (C02, C03, C04, C12) when the rank is at least a fold. *)
Theorem C51_tiling_conditions : forall e k k' overlap s j, let n := length (z_d (k_rank k)) in
  Forall (fun x => 1 <= x) (z_d (k_rank k)) -> Forall (fun x => 1 <= x) (a_fold e) -> length (a_fold e) = n ->
  Forall (fun s => length (z_d s) = n) [k_mega k; k_block k; k_micro k; k_nano k; k_pico k; k_rktile k; k_mgtile k; k_bktile k; k_mctile k; k_nntile k] ->
  adjust_settings e k = Ok k' -> (j < n)%nat -> nth j (a_fold e) 0 <= nth j (z_d (k_rank k)) 0 ->
  d_fold s = nth j (a_fold e) 0 -> d_rksz s = nth j (z_d (k_rank k')) 0 -> d_mgsz s = nth j (z_d (k_mega k')) 0 ->
  d_bksz s = nth j (z_d (k_block k')) 0 -> d_mcsz s = nth j (z_d (k_micro k')) 0 ->
  0 <= d_halo s -> (d_first s = false -> 1 < d_nranks s) -> (d_last s = false -> 1 < d_nranks s) ->
  (overlap = true -> d_nranks s <= 1 -> d_ib s <= d_rb s /\ d_rb s + d_rksz s <= d_ie s) ->
  dim_settings overlap s.
Proof. exact tiling_all. Qed.
Print Assumptions C51_tiling_conditions.

(* Refuted: in one dim, the comment says the block is divided equally among the inner threads.  The code divides the size in
   the step dim instead, so no nano-block size is chosen and one nano-block covers everything. *)
Theorem C51_one_dim_share_refuted : exists e k k',
  Forall (fun x => 1 <= x) (z_d (k_rank k)) /\ a_fold e = [1] /\ length (z_d (k_rank k)) = 1%nat /\
  adjust_settings e k = Ok k' /\ a_threads e = 4 /\ z_d (k_nano k) = [0] /\
  a_threads e * nth 0 (a_fold e) 0 <= nth 0 (z_d (k_block k')) 0 /\
  z_d (k_nano k') = z_d (k_block k').
Proof.
  pose (z := mkSizes 0 [0]).
  exists (mkAenv [1] 0 4 false 64 false false), (mkKset (mkSizes 0 [128]) z z z z z z z z z z 1).
  eexists. split; [constructor; [lia|constructor]|]. split; [reflexivity|]. split; [reflexivity|]. split; [vm_compute; reflexivity|].
  split; [reflexivity|]. split; [reflexivity|]. split; [cbn; lia|reflexivity].
Qed.
Print Assumptions C51_one_dim_share_refuted.

(* Refuted: the sizes of the tiles inside loops ('tile' paths of gen_loops.pl) are at least 1.  They are adjusted only under
   USE_TILING, which no file defines; otherwise they stay zero, and a loop generated with a tile path divides by zero. *)
Theorem C51_loop_tiles_refuted : exists e k k' f lds,
  let z := mkSizes 0 [0; 0] in
  a_tiling e = false /\ k = mkKset (mkSizes 0 [8; 8]) z z z z z z z z z z 1 /\
  adjust_settings e k = Ok k' /\ map l_tile lds = z_d (k_mgtile k') /\ f_tile f = true /\ accepted_path 2 f /\
  Forall (fun d => l_begin d < l_end d /\ 1 <= l_stride d /\ 1 <= l_align d) lds /\
  run_loops true 1 None [(f, lds)] = UB.
Proof.
  exists (mkAenv [1; 1] 1 1 false 4 false false). eexists. eexists. exists (mkFeats false false true false false false), [mkLdim 0 8 4 1 0 0; mkLdim 0 8 4 1 0 0].
  split; [reflexivity|]. split; [reflexivity|]. split; [vm_compute; reflexivity|]. split; [reflexivity|]. split; [reflexivity|]. split; [discriminate|].
  split; [repeat constructor; cbn; lia|]. vm_compute. reflexivity.
Qed.
Print Assumptions C51_loop_tiles_refuted.

(* Two dims, fold 4 x 2: a mega-block larger than the rank, no block size, a micro-block that is not a multiple of the fold. *)
Definition C51_e : aenv := mkAenv [4; 2] 1 2 true 32 false true.
Definition C51_k : kset :=
  let z := mkSizes 0 [0; 0] in mkKset (mkSizes 0 [50; 21]) (mkSizes 2 [500; 9]) (mkSizes 0 [0; -1]) (mkSizes 0 [13; 0]) z (mkSizes 0 [1; 1]) z z z z z 1.
Example C51_ex : exists k', adjust_settings C51_e C51_k = Ok k' /\
  map z_d [k_mega k'; k_block k'; k_micro k'; k_nano k'; k_pico k'] = [[50; 10]; [32; 10]; [16; 10]; [4; 10]; [4; 2]] /\
  map z_t [k_mega k'; k_block k'; k_micro k'] = [2; 0; 0] /\ map z_d [k_rktile k'; k_nntile k'] = [[50; 21]; [4; 10]] /\
  adjust_settings C51_e k' = Ok k' /\ snd (find_num_subsets (k_block k') (k_mega k') [4; 2]) = 2.
Proof. eexists. split; [vm_compute; reflexivity|]. repeat split; vm_compute; reflexivity. Qed.
Example C51_hyp_ex : hyp C51_e C51_k /\ (2 <= length (z_d (k_rank C51_k)))%nat /\ z_d (k_nano C51_k) = [0; 0].
Proof. repeat split; repeat constructor; cbn; lia. Qed.
