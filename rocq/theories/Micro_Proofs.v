From Coq Require Import ZifyBool.
From Verif Require Import Base ParFor_Model Bbox_Model Bbox_Spec Bbox2_Proofs Cover_Spec Cover_Proofs Idiv_Model Idiv_Proofs Loops_Model Loops_Spec LoopsRun_Proofs LoopsTop_Proofs Scan_Model Scan_Proofs
  Bind_Model Bind_Proofs Nano_Model Nano_Spec Nano_Proofs Nano2_Proofs Nano3_Proofs Micro_Model Micro_Spec.

Lemma nano_dims_maps : forall rofs folds picos b, length rofs = length b -> length folds = length b -> length picos = length b ->
  map nd_rofs (nano_dims rofs folds picos b) = rofs /\ map nd_fold (nano_dims rofs folds picos b) = folds /\
  map (fun d => (nd_begin d, nd_end d)) (nano_dims rofs folds picos b) = b.
Proof.
  intros rofs folds picos b. revert rofs folds picos. induction b as [|c b IH]; intros [|r rofs] [|f folds] [|p picos] H1 H2 H3; try discriminate; [repeat split|].
  cbn in *. destruct (IH rofs folds picos) as (A & B & C); try lia. rewrite A, B, C. destruct c. repeat split.
Qed.
Lemma nano_dims_ok : forall rofs folds picos b, Forall (fun x => 1 <= x) folds -> Forall (fun x => 1 <= x) picos -> nonempty_box b ->
  Forall dim_ok (nano_dims rofs folds picos b).
Proof.
  intros rofs folds picos b. revert rofs folds picos. induction b as [|c b IH]; intros [|r rofs] [|f folds] [|p picos] H1 H2 H3; try constructor; inversion H1; inversion H2; inversion H3; subst.
  - unfold dim_ok. cbn. repeat split; try assumption; lia.
  - apply IH; assumption.
Qed.

Lemma hits_vec : forall fi rofs folds vs p, hits (wr_hits fi rofs folds) (map (fun v => WVec (fst v) (snd v)) vs) p = hits (writes fi rofs folds) vs p.
Proof. intros. rewrite hits_map. apply hits_ext_in. intros (v & m) _. reflexivity. Qed.

Lemma map_fst_box : forall b p, Forall (fun c : Z * Z => snd c = fst c + 1) b -> list_eqb (map fst b) p = in_box b p.
Proof.
  induction b as [|c b IH]; intros [|x p] H; try reflexivity. inversion H; subst. cbn [map in_box]. rewrite <- (IH p H3).
  assert (E : in_iv c x = (fst c =? x)) by (unfold in_iv; lia). rewrite E.
  destruct (list_eqb (fst c :: map fst b) (x :: p)) eqn:Q.
  - apply list_eqb_iff in Q. injection Q as -> <-. rewrite Z.eqb_refl. symmetry. apply andb_true_iff. split; [reflexivity|]. apply list_eqb_iff. reflexivity.
  - destruct (fst c =? x) eqn:Q1; [|reflexivity]. destruct (list_eqb (map fst b) p) eqn:Q2; [|reflexivity]. apply list_eqb_iff in Q2. assert (fst c = x) by lia. subst. 
    exfalso. assert (list_eqb (fst c :: map fst b) (fst c :: map fst b) = true) by (apply list_eqb_iff; reflexivity). congruence.
Qed.

Lemma sub_unit : forall d i, l_stride d = 1 -> l_align d = 1 -> fst (sub_range true d i) < snd (sub_range true d i) -> snd (sub_range true d i) = fst (sub_range true d i) + 1.
Proof.
  intros d i Hs Ha. unfold sub_range, aligned_begin, adj_align. cbn [fst snd]. rewrite Hs, Ha. change (Z.min 1 1) with 1.
  rewrite round_down_flr_spec by lia. rewrite Z.div_1_r. lia.
Qed.

Lemma dbg_cover : forall aofs b, b <> [] -> length aofs = length b -> nonempty_box b ->
  exists ws, nano_dbg aofs b = Ok ws /\ forall fi rofs folds p, hits (wr_hits fi rofs folds) ws p = b2n (in_box b p).
Proof.
  intros aofs b Hb L Hn. unfold nano_dbg.
  set (ds := map (fun x : Z * Z * Z => mkLdim (fst (fst x)) (snd (fst x)) 1 1 (snd x) 0) (combine b aofs)).
  assert (Ed : map (fun d => (l_begin d, l_end d)) ds = b).
  { unfold ds. rewrite map_map. cbn. clear -L. revert aofs L. induction b as [|c b IH]; intros [|a aofs] L; try discriminate; cbn; [reflexivity|]. f_equal; [destruct c; reflexivity|apply IH; cbn in L; lia]. }
  assert (Hd : forall d, In d ds -> l_stride d = 1 /\ l_align d = 1 /\ l_begin d < l_end d).
  { intros d I. split; [|split].
    - unfold ds in I. apply in_map_iff in I as (x & <- & _). reflexivity.
    - unfold ds in I. apply in_map_iff in I as (x & <- & _). reflexivity.
    - apply (in_map (fun d => (l_begin d, l_end d))) in I. rewrite Ed in I. unfold nonempty_box in Hn. rewrite Forall_forall in Hn. apply (Hn _ I). }
  assert (W : Forall (wf_loop true) [(mkFeats false false false true false false, ds)]).
  { repeat constructor; cbn; [|discriminate]. apply Forall_forall. intros d I. destruct (Hd d I) as (A & B & C). unfold good. repeat split; lia. }
  assert (A : accepted false [(mkFeats false false false true false false, ds)]).
  { cbn [accepted]. destruct ds; [exact I|]. split; [|exact I]. unfold adj_feats. cbn. discriminate. }
  destruct (loops_cover true _ 1 ltac:(lia) W A) as (boxes & E & C & N & _). cbn [flat_map snd] in C. rewrite app_nil_r in C. unfold parent in C. rewrite Ed in C.
  rewrite E. cbn [rbind]. eexists. split; [reflexivity|]. intros. rewrite hits_map. unfold b2n. rewrite <- (C p). apply hits_ext_in. intros bx I. cbn [wr_hits]. apply map_fst_box.
  pose proof (calls_shape _ _ _ _ _ _ E I) as S. cbn [flat_map snd] in S. rewrite app_nil_r in S. rewrite Forall_forall in N. specialize (N bx I). clear -S N Hd.
  revert Hd. induction S as [|d c ds0 bx0 H S IH]; intros Hd; constructor.
  - inversion N; subst. destruct (Hd d (or_introl eq_refl)) as (A & B & _). destruct H as (i & ->). apply sub_unit; assumption.
  - apply IH; [inversion N; assumption|]. intros d' I'. apply Hd. right. exact I'.
Qed.

Lemma nano_cover : forall s n aofs b, mset_ok s n -> length b = n -> length aofs = n -> nonempty_box b ->
  exists ws, calc_nano_block s aofs b = Ok ws /\ forall p, hits (wr_hits (ms_fi s) (ms_rofs s) (ms_folds s)) ws p = b2n (in_box b p).
Proof.
  intros s n aofs b (Hn & Hnb & Hsl & Hin & Hfu & L1 & L2 & L3 & F1 & F2 & H63 & Hm & Ht & Ha) Lb La Ne. unfold calc_nano_block. destruct (ms_scalar s).
  - destruct (dbg_cover aofs b) as (ws & E & H); [destruct b; [cbn in *; lia|discriminate]|lia|exact Ne|]. exists ws. split; [exact E|]. intros. apply H.
  - destruct (nano_dims_maps (ms_rofs s) (ms_folds s) (ms_picos s) b) as (A & B & C); [lia|lia|lia|].
    assert (Ln : length (nano_dims (ms_rofs s) (ms_folds s) (ms_picos s) b) = n) by (rewrite <- (map_length nd_fold), B; exact L2).
    destruct (nano_block_cover (ms_fuel s) (ms_fi s) (ms_inner s) (nano_dims (ms_rofs s) (ms_folds s) (ms_picos s) b)) as (out & E & H).
    + apply nano_dims_ok; assumption.
    + rewrite B. exact H63.
    + lia.
    + lia.
    + lia.
    + rewrite E. cbn [rbind]. eexists. split; [reflexivity|]. intros p. rewrite hits_vec. rewrite A, B, C in H. rewrite (H p). reflexivity.
Qed.

Lemma set_ranges_maps : forall bx ds, length bx = length ds -> map (fun d => (l_begin d, l_end d)) (set_ranges bx ds) = bx.
Proof. induction bx as [|c bx IH]; intros [|d ds] L; try discriminate; [reflexivity|]. cbn. rewrite IH by (cbn in L; lia). destruct c. reflexivity. Qed.
Lemma set_ranges_length : forall bx ds, length bx = length ds -> length (set_ranges bx ds) = length ds.
Proof. induction bx as [|c bx IH]; intros [|d ds] L; try discriminate; [reflexivity|]. cbn. rewrite IH by (cbn in L; lia). reflexivity. Qed.
Lemma set_ranges_good : forall bx ds, Forall (fun d => fst d < snd d) bx -> Forall (fun d => 1 <= l_stride d /\ 1 <= l_align d) ds ->
  Forall (fun d => l_begin d < l_end d /\ 1 <= l_stride d /\ 1 <= l_align d) (set_ranges bx ds).
Proof. induction bx as [|c bx IH]; intros [|d ds] H1 H2; constructor; inversion H1; inversion H2; subst; cbn; [tauto|]. apply IH; assumption. Qed.

Lemma blocks_cover : forall s n ds, mset_ok s n -> length ds = n -> Forall (fun d => l_begin d < l_end d /\ 1 <= l_stride d /\ 1 <= l_align d) ds ->
  exists nbs, nano_blocks s ds = Ok nbs /\ exact_cover in_box nbs (in_box (map (fun d => (l_begin d, l_end d)) ds)) /\
    Forall (fun b => nonempty_box b /\ length b = n) nbs.
Proof.
  intros s n ds OK Ld Hd. pose proof OK as (Hn & Hnb & Hsl & Hin & Hfu & L1 & L2 & L3 & F1 & F2 & H63 & Hm & Ht & Ha). unfold nano_blocks.
  assert (Nd : ds <> []) by (destruct ds; [cbn in *; lia|discriminate]).
  destruct ((1 <? ms_nbt s) && ms_bind s).
  - destruct (bind_cover (ms_slab s) (ms_nbt s) (ms_k s) (ms_mf s) (ms_folds s) ds) as (out & E & C & _); try assumption.
    + lia.
    + eapply Forall_impl; [|exact Hd]. cbn. intros d (X1 & X2 & X3). split; assumption.
    + intros K. congruence.
    + rewrite Ld. exact Ha.
    + rewrite E. cbn [rbind]. eexists. split; [reflexivity|]. split; [exact C|].
      (* shape: every call is a box of the aligned loop *)
      assert (Hb : Forall (good true) (bind_dims (ms_slab s) (ms_k s) 0 (ms_folds s) ds)).
      { apply bind_good; try assumption. eapply Forall_impl; [|exact Hd]. cbn. unfold bind_ok. intros d (X1 & X2 & X3). split; assumption. }
      assert (W : Forall (wf_loop true) [(ms_mf s, bind_dims (ms_slab s) (ms_k s) 0 (ms_folds s) ds)]).
      { constructor; [|constructor]. split; [exact Hb|intros K; cbn in K; congruence]. }
      assert (Lb : length (bind_dims (ms_slab s) (ms_k s) 0 (ms_folds s) ds) = n) by (rewrite bind_length; lia).
      assert (A : accepted false [(ms_mf s, bind_dims (ms_slab s) (ms_k s) 0 (ms_folds s) ds)]).
      { cbn [accepted]. destruct (bind_dims _ _ _ _ _) eqn:Eb; [exact I|]. split; [|exact I]. rewrite Lb. exact Ha. }
      destruct (loops_cover true _ (ms_nbt s) ltac:(lia) W A) as (boxes & E2 & _ & N & Bi). cbn [flat_map snd] in Bi. rewrite app_nil_r in Bi.
      unfold bound_calls in E. rewrite E2 in E. cbn [rbind] in E. apply Forall_forall. intros b Ib. apply in_map_iff in Ib as ((t & b') & Eb & Ib). cbn in Eb. subst b'.
      destruct (rconcat_In _ _ _ _ _ _ E Ib) as (t' & o & _ & Eo & Io). injection Eo as <-. apply in_map_iff in Io as (b2 & Eb2 & If). injection Eb2 as _ ->. apply filter_In in If as (If & _).
      rewrite Forall_forall in N, Bi. split; [apply N; exact If|]. specialize (Bi b If). unfold box_inside in Bi. apply F2_len in Bi. rewrite map_length in Bi. lia.
  - assert (W : Forall (wf_loop true) [(ms_mf s, ds)]).
    { constructor; [|constructor]. split; [|intros K; cbn in K; congruence]. eapply Forall_impl; [|exact Hd]. cbn. unfold good. intros d (X1 & X2 & X3). repeat split; auto. }
    assert (A : accepted false [(ms_mf s, ds)]).
    { cbn [accepted]. destruct ds eqn:Eb; [exact I|]. rewrite <- Eb in *. split; [|exact I]. rewrite Ld. exact Ha. }
    destruct (loops_cover true _ (ms_nbt s) ltac:(lia) W A) as (boxes & E2 & C & N & Bi). cbn [flat_map snd] in Bi, C. rewrite app_nil_r in Bi, C.
    exists boxes. split; [exact E2|]. split; [exact C|]. apply Forall_forall. intros b If. rewrite Forall_forall in N, Bi. split; [apply N; exact If|]. specialize (Bi b If). unfold box_inside in Bi. apply F2_len in Bi. rewrite map_length in Bi. lia.
Qed.

Theorem range_cover : forall s n c cond dom pb ds, mset_ok s n -> dims_ok n ds -> 1 <= omp_num_threads c -> length dom = n ->
  Forall (fun d => fst d <= snd d) dom -> part_find_bbs c cond dom = Ok pb ->
  exists ws, calc_range s pb ds = Ok ws /\
    exact_cover (wr_hits (ms_fi s) (ms_rofs s) (ms_folds s)) ws
      (fun p => in_box (map (fun d => (l_begin d, l_end d)) ds) p && region dom cond p).
Proof.
  intros s n c cond dom pb ds OK (Ld & Hd) Hc Ldom Hdom E. pose proof OK as (Hn & _). unfold calc_range.
  set (mb := map (fun d => (l_begin d, l_end d)) ds).
  destruct (eval_cover c cond dom mb pb Hc) as (C & N); [destruct dom; [cbn in *; lia|discriminate]|exact Hdom|unfold mb; rewrite map_length; lia|exact E|].
  assert (LB : forall bx, In bx (eval_boxes pb mb) -> length bx = n).
  { intros bx I. unfold eval_boxes in I. destruct (pb_num pb =? 0); [contradiction|]. apply filter_In in I as (I & _). apply in_map_iff in I as (fb & <- & If).
    destruct (part_ok c cond dom Hc) as (pb' & E' & (_ & _) & G & _); [destruct dom; [cbn in *; lia|discriminate]|exact Hdom|].
    rewrite E in E'. injection E' as <-. unfold gboxes in G; rewrite Forall_forall in G. specialize (G fb If).
    assert (Lf : length fb = length dom) by (apply G). rewrite <- Ldom, <- Lf.
    assert (Lm : length mb = length fb) by (unfold mb; rewrite map_length; lia). clear -Lm. revert fb Lm. induction mb as [|(a & b) m IH]; intros [|(x & y) fb] L; try discriminate; [reflexivity|]. cbn. f_equal. apply IH. cbn in L. lia. }
  destruct (rconcat_bind_ex _ _ _ (fun bx => rbind (nano_blocks s (set_ranges bx ds)) (fun nbs => rconcat (map (calc_nano_block s (map l_aofs ds)) nbs)))
     (wr_hits (ms_fi s) (ms_rofs s) (ms_folds s)) (fun bx p => b2n (in_box bx p)) (fun _ => True) (eval_boxes pb mb)) as (ws & Ew & Hw).
  { intros bx I. specialize (LB bx I). rewrite Forall_forall in N. specialize (N bx I).
    destruct (blocks_cover s n (set_ranges bx ds) OK) as (nbs & En & Cn & Nn); [rewrite set_ranges_length; lia|apply set_ranges_good; assumption|].
    rewrite En. cbn [rbind]. rewrite set_ranges_maps in Cn by lia.
    destruct (rconcat_bind_ex _ _ _ (calc_nano_block s (map l_aofs ds)) (wr_hits (ms_fi s) (ms_rofs s) (ms_folds s)) (fun b p => b2n (in_box b p)) (fun _ => True) nbs) as (o & Eo & Ho).
    { intros b Ib. rewrite Forall_forall in Nn. destruct (Nn b Ib) as (N1 & N2). destruct (nano_cover s n (map l_aofs ds) b OK N2) as (w & Ew & Hw); [rewrite map_length; lia|exact N1|]. exists w. split; [exact Ew|]. intros. apply Hw. }
    exists o. split; [exact Eo|]. intros p _. rewrite Ho by exact Logic.I. unfold nsum. rewrite <- hits_sum. rewrite (Cn p). reflexivity. }
  exists ws. split; [exact Ew|]. intros p. rewrite Hw by exact Logic.I. unfold nsum. rewrite <- hits_sum. rewrite (C p). reflexivity.
Qed.
