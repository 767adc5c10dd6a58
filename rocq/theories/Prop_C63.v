(* C63: Merging vars checks that they are compatible and keeps the solution correct.
   Full statement (include/aux/yk_var_api.hpp:1370-1397): fuse_vars() throws if dims or folds differ, for every var; after it
   the two vars are one for every further call; after prepare_solution() the vars of the solution have the sizes of the rank
   and their halos are covered; fixed-size vars of the user keep their sizes.
   Missing: all of this for a var of the solution that is merged with a var of the user, which is what the function is for
   (see the refutations: the test of is_user_var() in fuse_vars() is the wrong way round). *)
From Verif Require Import Base Cover_Spec Loops_Model Tile_Model Sched_Spec Tile_Spec TileCfg_Spec Tile5_Proofs Tile_Examples
  Rank_Model Resize_Model Exchange_Model Fuse_Model Fuse_Spec Fuse_Proofs FuseUpd_Proofs Fuse_Examples.
Open Scope Z_scope.

(* is_storage_layout_identical() answers the documented question. *)
Theorem C63_layout_identical : forall b o, shaped b -> shaped o -> allocated b -> allocated o -> kinds_agree b o ->
  layout_identical true b o = true <-> compatible b o /\ same_sizes b o.
Proof. exact layout_ok. Qed.
Print Assumptions C63_layout_identical.

Example C63_layout_ex :
  allocated (fx_fix 20 1 8) /\ allocated (fx_fix 30 1 4) /\ kinds_agree (fx_fix 20 1 8) (fx_fix 30 1 4) /\
  layout_identical true (fx_fix 20 1 8) (fx_fix 30 1 8) = true /\ layout_identical true (fx_fix 20 1 8) (fx_fix 30 1 4) = false /\
  layout_identical false (fx_fix 20 1 8) (fx_fix 30 1 4) = true /\ layout_identical false (fx_fix 20 1 8) (fx_fix 30 4 8) = false.
Proof.
  split; [apply fx_alloc; auto|]. split; [apply fx_alloc; auto|].
  split; [intros [|[|[|i]]] x y E1 E2 _; vm_compute in E1, E2; try discriminate; injection E1 as <-; injection E2 as <-; reflexivity|].
  vm_compute. auto.
Qed.

(* Merging into a var that the user made: an exception exactly for incompatible vars. *)
Theorem C63_fuse_user_partial : forall m this src b sb,
  base_of m this = Some b -> base_of m src = Some sb -> shaped b -> shaped sb -> b_user b = true ->
  (~ compatible b sb -> fuse_vars m this src = Throw) /\
  (compatible b sb -> exists m', fuse_vars m this src = Ok m' /\
     base_of m' this = Some (not_user sb) /\ base_of m' src = Some (not_user sb) /\
     forall h, h <> this -> nth_error (m_ref m') h = nth_error (m_ref m) h).
Proof. exact fuse_user. Qed.
Print Assumptions C63_fuse_user_partial.

Example C63_fuse_user_ex :
  base_of (fx_mem (fx_fix 20 1 8) (fx_fix 30 4 8)) 1 = Some (fx_fix 20 1 8) /\
  ~ compatible (fx_fix 20 1 8) (fx_fix 30 4 8) /\ fuse_vars (fx_mem (fx_fix 20 1 8) (fx_fix 30 4 8)) 1 2 = Throw /\
  compatible (fx_fix 20 1 8) (fx_fix 30 1 4) /\
  fuse_vars (fx_mem (fx_fix 20 1 8) (fx_fix 30 1 4)) 1 2 = Ok (mkM [fx_sol; fx_fix 20 1 8; not_user (fx_fix 30 1 4)] [0; 2; 2]%nat).
Proof.
  split; [reflexivity|]. split; [intros (_ & E); vm_compute in E; discriminate|]. split; [reflexivity|].
  split; [split; reflexivity|reflexivity].
Qed.

(* Whatever is done to one of two merged vars is done to the other: settings, storage and elements. *)
Theorem C63_alias_partial : forall m this src m' l, fuse_vars m this src = Ok m' -> Forall (keeps this src) l ->
  same_var (run_calls m' l) this src.
Proof. exact fused_alias. Qed.
Print Assumptions C63_alias_partial.

Example C63_alias_ex :
  let l := [(0%nat, CWrite 3 5); (2%nat, CFuse 0%nat); (1%nat, CSet 1 (SHalo (Some 4) None)); (2%nat, CWrite 4 6)] in
  exists m', fuse_vars (fx_mem (fx_fix 20 1 8) (fx_fix 30 1 4)) 0 1 = Ok m' /\ Forall (keeps 0 1) l /\
    option_map (fun b => (b_data b 3, b_data b 4, halos_at b 1)) (base_of (run_calls m' l) 0) = Some (5, 6, (4, 1)).
Proof. eexists. split; [reflexivity|]. split; [repeat constructor; discriminate|]. reflexivity. Qed.

(* After any calls in which no var of the solution is merged with one of the user, prepare_solution() gives all vars of the
   solution the sizes and offsets of the rank, and the largest halos, from which the angles of temporal tiles are made, cover
   the halos of all of them. *)
Theorem C63_halos_partial : forall x m l os m' mxs,
  solution_ok x m -> solution_sources x m l -> NoDup (map o_name os) ->
  update_info true x os (run_calls m l) = Ok (m', mxs) ->
  forall k o h, nth_error os k = Some o -> In h (x_orig x) ->
    exists b, base_of m' h = Some b /\ halos_within (o_name o) (nth k mxs 0) b /\ sized_as o b.
Proof. exact solution_halos. Qed.
Print Assumptions C63_halos_partial.

Example C63_halos_ex :
  let l := [(0%nat, CSet 1 (SHalo (Some 3) None)); (1%nat, CFuse 2%nat); (2%nat, CFuse 0%nat)] in
  let m := fx_mem (fx_fix 20 1 8) (fx_fix 30 1 4) in
  solution_ok fx_ctx m /\ solution_sources fx_ctx m l /\
  exists m', update_info true fx_ctx (fx_opts 16) (run_calls m l) = Ok (m', [3]) /\
    option_map (fun b => map r_dom (dims_of b)) (base_of m' 0) = Some [2; 16].
Proof.
  split; [apply fx_solution; apply fx_shaped|].
  split; [cbn; repeat split; intros [H|[]]; discriminate|].
  eexists. split; [vm_compute; reflexivity|]. vm_compute. reflexivity.
Qed.

(* The sizes of a fixed-size var of the user are left alone. *)
Theorem C63_fixed_size_partial : forall force x os m m' mxs h b,
  Forall shaped (m_bases m) -> update_info force x os m = Ok (m', mxs) ->
  left_alone b -> base_of m h = Some b -> base_of m' h = Some b.
Proof. exact fixed_alone. Qed.
Print Assumptions C63_fixed_size_partial.

Example C63_fixed_size_ex :
  let m := fx_mem (fx_fix 20 1 8) (fx_fix 30 1 4) in
  left_alone (fx_fix 20 1 8) /\ exists m', update_info true fx_ctx (fx_opts 16) m = Ok (m', [1]) /\
    option_map (fun b => map r_dom (dims_of b)) (base_of m' 0) = Some [2; 16] /\
    option_map (fun b => map r_dom (dims_of b)) (base_of m' 1) = Some [2; 8].
Proof. split; [split; reflexivity|]. eexists. split; [vm_compute; reflexivity|]. split; [vm_compute; reflexivity|]. vm_compute. reflexivity. Qed.

(* FALSE for a var of the solution: nothing is checked.  The source has another fold and another size than the rank; neither
   fuse_vars() nor the update of prepare_solution() throws. *)
Theorem C63_check_refuted : exists x m this src b sb os m1 m2 mxs b',
  solution_ok x m /\ In this (x_orig x) /\ base_of m this = Some b /\ base_of m src = Some sb /\
  ~ compatible b sb /\ fuse_vars m this src = Ok m1 /\
  update_info true x os m1 = Ok (m2, mxs) /\ base_of m2 this = Some b' /\ ~ compatible b b' /\ ~ Forall (fun o => sized_as o b') os.
Proof.
  exists fx_ctx, (fx_mem (fx_fix 20 1 8) (fx_fix 30 4 8)), 0%nat, 2%nat. do 2 eexists. exists (fx_opts 16). do 4 eexists.
  split; [apply fx_solution; apply fx_shaped|]. split; [cbn; auto|]. split; [reflexivity|]. split; [reflexivity|].
  split; [intros (_ & E); vm_compute in E; discriminate|]. split; [reflexivity|].
  split; [vm_compute; reflexivity|]. split; [reflexivity|]. split; [intros (_ & E); vm_compute in E; discriminate|].
  intros F. inversion F as [|? ? H _]; subst. destruct (H 1%nat _ eq_refl eq_refl) as (E & _). vm_compute in E. discriminate.
Qed.
Print Assumptions C63_check_refuted.

(* FALSE: after merging this var with a compatible var of the right size and halos, its halos are not counted any more, and a
   run with wave-front tiles leaves other values than a run without. *)
Theorem C63_halos_refuted : exists x m this src b sb os m1 m2 mxs b' l l0 c,
  solution_ok x m /\ In this (x_orig x) /\ base_of m this = Some b /\ base_of m src = Some sb /\
  compatible b sb /\ fuse_vars m this src = Ok m1 /\ update_info true x os m1 = Ok (m2, mxs) /\
  base_of m2 this = Some b' /\ Forall (fun o => sized_as o b') os /\ halos_within 1 1 b' /\ ~ halos_within 1 (nth 0 mxs 0) b' /\
  halo_stencil 1 (fun _ => 1) (sum3 1) /\ stage_indep (fun _ => 2) (sum3 1) /\
  runs_regions (programs (dom1 0 8) (fx_regs (fx_dim (nth 0 mxs 0)) 2)) l /\
  runs_regions (programs (dom1 0 8) (fx_regs (fx_dim (nth 0 mxs 0)) 0)) l0 /\
  exec (fun _ => 2) (sum3 1) l (fun _ => 1) c <> exec (fun _ => 2) (sum3 1) l0 (fun _ => 1) c.
Proof.
  exists fx_ctx, (fx_mem (fx_fix 20 1 8) (fx_fix 30 4 8)), 0%nat, 1%nat. do 2 eexists. exists (fx_opts 8). do 2 eexists. exists [0].
  eexists. exists (seq1 (fx_regs (fx_dim 0) 2)), (seq1 (fx_regs (fx_dim 0) 0)), (0, 0, [4]).
  split; [apply fx_solution; apply fx_shaped|]. split; [cbn; auto|]. split; [reflexivity|]. split; [reflexivity|].
  split; [split; reflexivity|]. split; [reflexivity|]. split; [vm_compute; reflexivity|]. split; [reflexivity|].
  split.
  { apply Forall_cons; [|apply Forall_nil]. intros [|[|[|i]]] d H H0; try discriminate; vm_compute in H0; injection H0 as <-; vm_compute; auto. }
  split.
  { intros [|[|[|i]]] d E1 E2; try discriminate; vm_compute in E2; injection E2 as <-; vm_compute; split; discriminate. }
  split.
  { intros H. destruct (H 1%nat _ eq_refl eq_refl) as (E & _). vm_compute in E. apply E. reflexivity. }
  split; [apply sum3_halo; lia|]. split; [apply sum3_indep|].
  split; [apply seq1_runs; vm_compute; reflexivity|]. split; [apply seq1_runs; vm_compute; reflexivity|].
  vm_compute. discriminate.
Qed.
Print Assumptions C63_halos_refuted.

(* FALSE: the distance up to which halos are exchanged, calculated by the compiler, is lost as well: the var of the solution was
   sent to the neighbour, the merged one is not. *)
Theorem C63_exchange_refuted : exists x m this src b sb m1 b' r r',
  solution_ok x m /\ In this (x_orig x) /\ base_of m this = Some b /\ base_of m src = Some sb /\ compatible b sb /\
  map (fun d => (r_lh d, r_rh d)) (dims_of b) = map (fun d => (r_lh d, r_rh d)) (dims_of sb) /\
  fuse_vars m this src = Ok m1 /\ base_of m1 this = Some b' /\
  mpi_buf (fx_set (xvar_of [1] b)) true r r' (xvar_of [1] b) <> None /\
  mpi_buf (fx_set (xvar_of [1] b')) true r r' (xvar_of [1] b') = None.
Proof.
  exists fx_ctx, (fx_mem (fx_fix 20 1 8) (fx_fix 30 4 8)), 0%nat, 1%nat. do 4 eexists. exists (fx_rank 0), (fx_rank 1).
  split; [apply fx_solution; apply fx_shaped|]. split; [cbn; auto|]. split; [reflexivity|]. split; [reflexivity|].
  split; [split; reflexivity|]. split; [reflexivity|]. split; [reflexivity|]. split; [reflexivity|].
  split; [vm_compute; discriminate|vm_compute; reflexivity].
Qed.
Print Assumptions C63_exchange_refuted.

(* FALSE: a fixed-size var of the user that was the source of a merge into another var of the user is resized. *)
Theorem C63_fixed_size_refuted : exists x m this src sb os m1 m2 mxs b',
  solution_ok x m /\ base_of m src = Some sb /\ left_alone sb /\ fuse_vars m this src = Ok m1 /\
  update_info true x os m1 = Ok (m2, mxs) /\ base_of m2 src = Some b' /\ map r_dom (dims_of b') <> map r_dom (dims_of sb).
Proof.
  exists fx_ctx, (fx_mem (fx_fix 20 1 8) (fx_fix 30 1 4)), 1%nat, 2%nat. eexists. exists (fx_opts 16). do 4 eexists.
  split; [apply fx_solution; apply fx_shaped|]. split; [reflexivity|]. split; [split; reflexivity|]. split; [reflexivity|].
  split; [vm_compute; reflexivity|]. split; [reflexivity|]. vm_compute. discriminate.
Qed.
Print Assumptions C63_fixed_size_refuted.

(* FALSE with a later merge of the source: the first var keeps the old data. *)
Theorem C63_alias_refuted : exists m m1 m2, fuse_vars m 0 1 = Ok m1 /\ fuse_vars m1 1 2 = Ok m2 /\ ~ same_var m2 0 1.
Proof.
  exists (fx_mem (fx_fix 20 1 8) (fx_fix 30 1 4)). do 2 eexists. split; [reflexivity|]. split; [reflexivity|].
  intros (E & _). apply (f_equal (option_map b_name)) in E. vm_compute in E. discriminate.
Qed.
Print Assumptions C63_alias_refuted.
