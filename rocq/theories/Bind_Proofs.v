From Coq Require Import ZifyBool Permutation.
From Verif Require Import Base Cover_Spec Cover_Proofs Idiv_Model Idiv_Proofs Loops_Model Loops_Spec Scan_Model Bind_Model Loops_Proofs LoopsRun_Proofs LoopsTop_Proofs Scan_Proofs.

Lemma filter_parts : forall A (g : A -> Z) ts l, NoDup ts -> (forall a, In a l -> In (g a) ts) ->
  Permutation (flat_map (fun t => filter (fun a => g a =? t) l) ts) l.
Proof.
  intros A g ts l N. induction l as [|a l IH]; intros H.
  - cbn. induction ts as [|t ts IHt]; [constructor|]. cbn. inversion N; auto. apply IHt; auto. intros a [].
  - assert (Ha : In (g a) ts) by (apply H; left; reflexivity). apply in_split in Ha as (t1 & t2 & E). subst ts.
    specialize (IH ltac:(intros b Hb; apply H; right; exact Hb)).
    rewrite flat_map_app in *. cbn [flat_map] in *.
    assert (X : forall ts', ~ In (g a) ts' -> flat_map (fun t => filter (fun b => g b =? t) (a :: l)) ts' = flat_map (fun t => filter (fun b => g b =? t) l) ts').
    { induction ts' as [|t ts' IHt]; intros Hn; [reflexivity|]. cbn [flat_map filter]. destruct (g a =? t) eqn:E; [exfalso; apply Hn; left; lia|]. f_equal. apply IHt. intros K. apply Hn. right. exact K. }
    apply NoDup_remove_2 in N. rewrite !X by (intros K; apply N; apply in_app_iff; auto).
    cbn [filter]. rewrite Z.eqb_refl. cbn [app]. rewrite <- Permutation_middle. constructor. exact IH.
Qed.

Lemma bind_thr_range : forall slab nbt x, 1 <= slab -> 1 <= nbt -> 0 <= bind_thr slab nbt x < nbt.
Proof. intros slab nbt x Hs Hn. unfold bind_thr. rewrite imod_flr_spec by lia. apply Z.mod_pos_bound. lia. Qed.

Definition bind_ok (d : ldim) : Prop := l_begin d < l_end d /\ 1 <= l_align d.
Lemma bind_good : forall slab k folds ds i, 1 <= slab -> Forall (fun f => 1 <= f) folds -> Forall bind_ok ds ->
  Forall (good true) (bind_dims slab k i folds ds).
Proof.
  induction folds as [|f folds IH]; intros [|d ds] i Hs Hf Hd; cbn; try constructor; inversion Hf; inversion Hd; subst.
  - destruct H5 as (A & B). unfold bind_dim. destruct (Nat.eqb i k); unfold good; cbn; [lia|].
    pose proof (ROUND_UP_ge (l_end d - l_begin d) f ltac:(lia) ltac:(lia)). lia.
  - apply IH; assumption.
Qed.
Lemma bind_parent : forall slab k folds ds i, length folds = length ds -> map parent (bind_dims slab k i folds ds) = map parent ds.
Proof.
  induction folds as [|f folds IH]; intros [|d ds] i L; try discriminate L; [reflexivity|]. cbn. injection L as L. rewrite IH by exact L. f_equal.
  unfold bind_dim. destruct (Nat.eqb i k); reflexivity.
Qed.
Lemma bind_tile : forall slab k folds ds i, Forall (fun d => 1 <= l_tile d) ds -> Forall (fun d => 1 <= l_tile d) (bind_dims slab k i folds ds).
Proof.
  induction folds as [|f folds IH]; intros [|d ds] i H; cbn; constructor; inversion H; subst; [|apply IH; assumption]. unfold bind_dim. destruct (Nat.eqb i k); assumption.
Qed.
Lemma bind_length : forall slab k folds ds i, length folds = length ds -> length (bind_dims slab k i folds ds) = length ds.
Proof. induction folds as [|f folds IH]; intros [|d ds] i L; try discriminate L; [reflexivity|]. cbn. f_equal. apply IH. injection L as L. exact L. Qed.
Lemma bind_nth : forall slab k folds ds i j d, length folds = length ds -> nth_error ds j = Some d -> (i + j = k)%nat ->
  nth_error (bind_dims slab k i folds ds) j = Some (mkLdim (l_begin d) (l_end d) slab slab (l_aofs d) (l_tile d)).
Proof.
  induction folds as [|f folds IH]; intros [|d0 ds] i j d L Hj E; try discriminate L; destruct j; cbn in *; try discriminate.
  - injection Hj as ->. unfold bind_dim. replace (Nat.eqb i k) with true by (symmetry; apply Nat.eqb_eq; lia). reflexivity.
  - apply IH; [lia|exact Hj|lia].
Qed.

(* every nano-block is computed once, by one of the threads *)
Theorem bind_cover : forall slab nbt k f folds ds, 1 <= slab -> 1 <= nbt -> f_manual f = false ->
  length folds = length ds -> ds <> [] -> Forall (fun x => 1 <= x) folds -> Forall bind_ok ds -> (f_tile f = true -> Forall (fun d => 1 <= l_tile d) ds) ->
  adj_feats (length ds) false f <> None ->
  exists out, bound_calls slab nbt k f folds ds = Ok out /\
    exact_cover in_box (map snd out) (in_box (map parent ds)) /\
    Forall (fun tb => 0 <= fst tb < nbt) out.
Proof.
  intros slab nbt k f folds ds Hs Hn Hm L Hne Hf Hd Ht Ha. unfold bound_calls.
  assert (W : Forall (wf_loop true) [(f, bind_dims slab k 0 folds ds)]).
  { constructor; [|constructor]. split; cbn [fst snd]; [apply bind_good; assumption|]. intros T. apply bind_tile. auto. }
  assert (A : accepted false [(f, bind_dims slab k 0 folds ds)]).
  { pose proof (bind_length slab k folds ds 0 L) as BL. destruct (bind_dims slab k 0 folds ds) eqn:B; [destruct ds; [congruence|discriminate BL]|]. cbn [accepted]. rewrite BL. split; [exact Ha|exact I]. }
  destruct (loops_cover true _ nbt ltac:(lia) W A) as (blocks & E & C & _ & _).
  cbn [flat_map snd] in C. rewrite app_nil_r, bind_parent in C by exact L.
  rewrite (rconcat_map _ _ _ (fun t => map (fun b => (t, b)) (filter (fun b => bind_thr slab nbt (fst (nth k b (0, 0))) =? t) blocks)))
    by (intros t _; rewrite E; reflexivity).
  eexists. split; [reflexivity|]. split.
  - eapply exact_cover_perm; [|exact C]. symmetry.
    assert (X : forall ts, map snd (flat_map (fun t => map (fun b : list (Z * Z) => (t, b)) (filter (fun b => bind_thr slab nbt (fst (nth k b (0, 0))) =? t) blocks)) ts)
              = flat_map (fun t => filter (fun b => bind_thr slab nbt (fst (nth k b (0, 0))) =? t) blocks) ts).
    { induction ts as [|t ts IH]; [reflexivity|]. cbn [flat_map]. rewrite map_app, IH, map_map. f_equal. exact (map_id _). }
    rewrite X. apply filter_parts; [apply zseq_NoDup|]. intros b _. apply zseq_In. apply bind_thr_range; assumption.
  - apply Forall_forall. intros (t & b) Hb. apply in_flat_map in Hb as (t' & Ht' & Hb). apply in_map_iff in Hb as (b' & Eb & _). injection Eb as -> ->. apply zseq_In in Ht'. exact Ht'.
Qed.

(* the thread is a function of the position alone when slabs line up with the fixed offset *)
Theorem bind_position : forall slab nbt k f folds ds d out, 1 <= slab -> 1 <= nbt ->
  length folds = length ds -> nth_error ds k = Some d ->
  (slab | 4096 + l_aofs d) ->
  bound_calls slab nbt k f folds ds = Ok out ->
  forall t b x, In (t, b) out -> in_iv (nth k b (0, 0)) x = true -> t = ((x + 4096) / slab) mod nbt.
Proof.
  intros slab nbt k f folds ds d out Hs Hn L Hk (m & Em) E t b x Hb Hx. unfold bound_calls in E.
  destruct (rconcat_In _ _ _ _ _ _ E Hb) as (t' & o & _ & R & Ho).
  destruct (run_loops true nbt None _) as [blocks| | |] eqn:Er; cbn [rbind] in R; try discriminate. injection R as <-.
  apply in_map_iff in Ho as (b' & Eb & Ib). injection Eb as -> ->. apply filter_In in Ib as (Ib & Eb).
  pose proof (calls_shape _ _ _ _ _ _ Er Ib) as S. cbn [flat_map snd] in S. rewrite app_nil_r in S.
  pose proof (bind_nth slab k folds ds 0 k d L Hk eq_refl) as Bn.
  assert (N : forall (P : ldim -> Z * Z -> Prop) l1 l2 j a, Forall2 P l1 l2 -> nth_error l1 j = Some a -> P a (nth j l2 (0, 0))).
  { intros P. induction l1 as [|y l1 IH]; intros l2 j a F Hj; [destruct j; discriminate|]. inversion F; subst. destruct j; cbn in *; [injection Hj as <-; assumption|eapply IH; eassumption]. }
  destruct (N _ _ _ _ _ S Bn) as (i & Ei). cbn in Ei. rewrite Ei in *. clear N S.
  unfold sub_range, aligned_begin, adj_align in Eb, Hx. cbn [l_begin l_end l_stride l_align l_aofs fst snd] in Eb, Hx. rewrite Z.min_id in Eb, Hx.
  unfold in_iv in Hx. cbn [fst snd] in Hx.
  pose proof (round_down_flr_bounds (l_begin d - l_aofs d) slab ltac:(lia)) as (R1 & R2).
  set (r := round_down_flr (l_begin d - l_aofs d) slab) in *.
  apply Z.mod_divide in R2; [|lia]. destruct R2 as (q & Eq).
  unfold bind_thr in Eb. rewrite imod_flr_spec, idiv_flr_spec in Eb by lia.
  assert (D : forall y, r + l_aofs d + i * slab <= y < r + l_aofs d + (i + 1) * slab -> (y + 4096) / slab = q + i + m).
  { intros y Hy. symmetry. apply Z.div_unique with (r := y - (r + l_aofs d + i * slab)); [left; lia|]. rewrite Eq. nia. }
  apply Z.eqb_eq in Eb. rewrite <- Eb. f_equal. rewrite D by lia. symmetry. rewrite <- (D x) by lia. reflexivity.
Qed.
