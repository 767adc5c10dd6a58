From Verif Require Import Base Idiv_Model Idiv_Proofs MixedRadix Layout_Model Layout_Proofs
  Var_Model Var_Spec.

Lemma map2_cons : forall A B C (f : A -> B -> C) a l b r, map2 f (a :: l) (b :: r) = f a b :: map2 f l r.
Proof. reflexivity. Qed.

Lemma map2_length : forall A B C (f : A -> B -> C) l r, length l = length r ->
  length (map2 f l r) = length l.
Proof. intros. unfold map2. rewrite map_length, combine_length. lia. Qed.

Lemma map2_eq_len : forall A B C (f g : A -> B -> C) l r,
  (forall a b, In a l -> f a b = g a b) -> map2 f l r = map2 g l r.
Proof.
  induction l as [|a l IH]; intros [|b r] H; try reflexivity.
  rewrite !map2_cons. f_equal; [apply H; left; reflexivity|]. apply IH. intros; apply H; right; assumption.
Qed.

Lemma wrap_range : forall t n, 1 <= n -> 0 <= wrap_step t n < n.
Proof. intros. unfold wrap_step. rewrite imod_flr_spec by lia. apply Z.mod_pos_bound. lia. Qed.

Lemma wrap_eq : forall t u n, 1 <= n -> wrap_step t n = wrap_step u n <-> exists k, t = u + k * n.
Proof.
  intros t u n Hn. unfold wrap_step. rewrite !imod_flr_spec by lia. split.
  - intros E. exists (t / n - u / n). pose proof (Z.div_mod t n ltac:(lia)).
    pose proof (Z.div_mod u n ltac:(lia)). nia.
  - intros (k & ->). apply Z.mod_add. lia.
Qed.

(* ---- element vars ---- *)
Lemma elem_adj_in : forall d x, wf_dim d -> valid_index true d x ->
  0 <= elem_adj_idx d x < d_alloc d.
Proof.
  intros d x (H1 & H2 & H3 & H4 & H5 & H6 & H7) Hv. unfold elem_adj_idx, d_alloc.
  destruct (d_step d) eqn:Es.
  - destruct (H6 eq_refl) as (-> & Hd & _). apply wrap_range. assumption.
  - destruct Hv as [[_ Hv]|Hv]; [congruence|].
    destruct (d_domain d); [lia|]. destruct (H5 eq_refl). lia.
Qed.

Lemma elem_adj_eq : forall d x y, wf_dim d ->
  elem_adj_idx d x = elem_adj_idx d y <-> same_in_dim d x y.
Proof.
  intros d x y (H1 & H2 & H3 & H4 & H5 & H6 & H7). unfold elem_adj_idx, same_in_dim.
  destruct (d_step d) eqn:Es.
  - apply wrap_eq. apply H6. reflexivity.
  - lia.
Qed.

Lemma elem_adjs_in : forall ds idxs, Forall wf_dim ds -> Forall2 (valid_index true) ds idxs ->
  in_sizes (map d_alloc ds) (map2 elem_adj_idx ds idxs).
Proof.
  intros ds idxs Hw Hv. induction Hv as [|d x ds idxs Hx Hv IH]; [constructor|].
  inversion Hw; subst. rewrite map2_cons. cbn [map]. constructor; [|apply IH; assumption].
  apply elem_adj_in; assumption.
Qed.

Lemma adjs_eq : forall (f : vdim -> Z -> Z) ds a b,
  (forall d x y, In d ds -> f d x = f d y <-> same_in_dim d x y) ->
  length ds = length a -> length ds = length b ->
  map2 f ds a = map2 f ds b <-> same_elem ds a b.
Proof.
  induction ds as [|d ds IH]; intros [|x a] [|y b] Hf La Lb; cbn in La, Lb; try discriminate.
  - cbn. tauto.
  - rewrite !map2_cons. cbn [same_elem]. rewrite <- IH by (auto; intros; apply Hf; right; assumption).
    rewrite <- Hf by (left; reflexivity). split; [intros E; inversion E; auto|intros [-> ->]; reflexivity].
Qed.

Lemma gl_layout_inj : forall n p ss a b, Permutation p (seq 0 n) -> length ss = n ->
  in_sizes ss a -> in_sizes ss b -> gl_layout p ss a = gl_layout p ss b -> a = b.
Proof.
  intros n p ss a b Hp Hl Ha Hb E.
  destruct (gl_round1 n p ss Hp Hl a Ha) as (_ & <-).
  destruct (gl_round1 n p ss Hp Hl b Hb) as (_ & <-). rewrite E. reflexivity.
Qed.

Lemma valid_any : forall d x, valid_index false d x -> valid_index true d x.
Proof. intros d x [[H _]|H]; [discriminate|right; assumption]. Qed.

Lemma elem_storage : forall v a, wf_var v -> valid_indices true v a ->
  0 <= elem_index v a < zprod (map d_alloc (v_dims v)) /\
  forall b, valid_indices true v b ->
    (elem_index v a = elem_index v b <-> same_elem (v_dims v) a b).
Proof.
  intros v a (Hw & Hp & _) Ha.
  assert (Hl : length (map d_alloc (v_dims v)) = length (v_dims v)) by apply map_length.
  pose proof (elem_adjs_in _ _ Hw Ha) as Ia.
  split; [apply (gl_round1 _ _ _ Hp Hl _ Ia)|].
  intros b Hb. pose proof (elem_adjs_in _ _ Hw Hb) as Ib.
  rewrite Forall_forall in Hw.
  rewrite <- (adjs_eq elem_adj_idx (v_dims v) a b).
  - unfold elem_index. split; [|intros ->; reflexivity].
    apply (gl_layout_inj (length (v_dims v))); assumption.
  - intros d x y Hd. apply elem_adj_eq. auto.
  - eapply Forall2_length'; eassumption.
  - eapply Forall2_length'; eassumption.
Qed.

(* ---- folded vars ---- *)
Lemma wf_vec_alloc : forall d, wf_dim d -> d_alloc d = d_vec_alloc d * d_vlen d /\ 0 <= d_vec_alloc d.
Proof.
  intros d (H1 & H2 & H3 & H4 & H5 & H6 & H7). unfold d_vec_alloc.
  assert (E : d_alloc d = d_dom d + d_lpad d + d_rpad d).
  { unfold d_alloc. destruct (d_domain d); [lia|]. destruct (H5 eq_refl). lia. }
  rewrite E. rewrite Z.quot_div_nonneg by lia.
  pose proof (Z.div_mod (d_dom d + d_lpad d + d_rpad d) (d_vlen d) ltac:(lia)).
  split; [lia|]. apply Z.div_pos; lia.
Qed.

Lemma vec_adj_in : forall d x, wf_dim d -> valid_index true d x ->
  0 <= vec_adj_idx d x < d_vec_alloc d /\ 0 <= vec_elem_ofs d x < d_vlen d.
Proof.
  intros d x Hw Hv. destruct (wf_vec_alloc d Hw) as (Ea & Hnn).
  destruct Hw as (H1 & H2 & H3 & H4 & H5 & H6 & H7). unfold vec_adj_idx, vec_elem_ofs, vec_adj.
  destruct (d_step d) eqn:Es.
  - destruct (H6 eq_refl) as (Hdom & Hd & _). destruct (H5 Hdom) as (? & ? & Hvl).
    assert (d_vec_alloc d = d_dom d).
    { unfold d_vec_alloc, d_alloc. rewrite Hdom, Hvl. apply Z.quot_1_r. }
    pose proof (wrap_range x (d_dom d) Hd). lia.
  - destruct Hv as [[_ Hv]|Hv]; [congruence|].
    set (y := x + d_lpad d - (d_rofs d + d_lofs d)).
    assert (0 <= y < d_vec_alloc d * d_vlen d).
    { rewrite <- Ea. unfold d_alloc, y. destruct (d_domain d); [lia|]. destruct (H5 eq_refl). lia. }
    split; [|apply Z.mod_pos_bound; lia].
    split; [apply Z.div_pos; lia|]. apply Z.div_lt_upper_bound; lia.
Qed.

Lemma vec_adj_eq : forall d x y, wf_dim d ->
  (vec_adj_idx d x = vec_adj_idx d y /\ vec_elem_ofs d x = vec_elem_ofs d y) <-> same_in_dim d x y.
Proof.
  intros d x y (H1 & H2 & H3 & H4 & H5 & H6 & H7). unfold vec_adj_idx, vec_elem_ofs, same_in_dim.
  destruct (d_step d) eqn:Es.
  - rewrite wrap_eq by (apply H6; reflexivity). tauto.
  - split; [|intros ->; auto]. intros [Ed Em].
    pose proof (Z.div_mod (vec_adj d x) (d_vlen d) ltac:(lia)).
    pose proof (Z.div_mod (vec_adj d y) (d_vlen d) ltac:(lia)). unfold vec_adj in *. nia.
Qed.

Lemma vec_adjs_in : forall ds idxs, Forall wf_dim ds -> Forall2 (valid_index true) ds idxs ->
  in_sizes (map d_vec_alloc ds) (map2 vec_adj_idx ds idxs) /\
  in_sizes (map d_vlen ds) (map2 vec_elem_ofs ds idxs).
Proof.
  intros ds idxs Hw Hv. induction Hv as [|d x ds idxs Hx Hv IH]; [split; constructor|].
  inversion Hw; subst. rewrite !map2_cons. cbn [map].
  destruct (vec_adj_in d x) as (A & B); [assumption|assumption|].
  destruct IH as (C & D); [assumption|]. split; constructor; assumption.
Qed.

(* fold layout *)
Lemma fold_perm_perm : forall v, Permutation (fold_perm v) (seq 0 (length (fold_lens v))).
Proof.
  intros v. unfold fold_perm, fold_lens. rewrite map_length.
  destruct (v_fold_fi v); [apply Permutation_sym, Permutation_rev|apply Permutation_refl].
Qed.

Lemma fold_ofs_in : forall v ofs, (forall j, In j (v_foldp v) -> (j < length (v_dims v))%nat) ->
  in_sizes (map d_vlen (v_dims v)) ofs -> in_sizes (fold_lens v) (get_fold_ofs v ofs).
Proof.
  intros v ofs Hj Hin. unfold fold_lens, get_fold_ofs.
  pose proof (in_sizes_length _ _ Hin) as HL. rewrite map_length in HL.
  assert (Q : forall k, (k < length (v_dims v))%nat -> 0 <= nth k ofs 0 < nth k (map d_vlen (v_dims v)) 1).
  { intros k Hk. apply (in_sizes_dget _ _ (in_sizes_length _ _ Hin)) with (k := k) in Hin;
      [|rewrite map_length; exact Hk].
    unfold dget in Hin. rewrite (nth_indep (map d_vlen (v_dims v)) 0 1) in Hin by (rewrite map_length; assumption). exact Hin. }
  induction (v_foldp v) as [|j l IH]; cbn; constructor.
  - apply Q. apply Hj. left. reflexivity.
  - apply IH. intros; apply Hj; right; assumption.
Qed.

Lemma fold_ofs_inj : forall v a b,
  (forall j, (j < length (v_dims v))%nat -> nth j (map d_vlen (v_dims v)) 1 <> 1 -> In j (v_foldp v)) ->
  in_sizes (map d_vlen (v_dims v)) a -> in_sizes (map d_vlen (v_dims v)) b ->
  get_fold_ofs v a = get_fold_ofs v b -> a = b.
Proof.
  intros v a b Hj Ha Hb E.
  pose proof (in_sizes_length _ _ Ha) as La. pose proof (in_sizes_length _ _ Hb) as Lb.
  rewrite map_length in La, Lb.
  apply nth_ext with (d := 0) (d' := 0); [congruence|]. intros k Hk.
  assert (Hk' : (k < length (v_dims v))%nat) by lia.
  apply (in_sizes_dget _ _ (in_sizes_length _ _ Ha)) with (k := k) in Ha; [|rewrite map_length; assumption].
  apply (in_sizes_dget _ _ (in_sizes_length _ _ Hb)) with (k := k) in Hb; [|rewrite map_length; assumption].
  unfold dget in Ha, Hb. rewrite (nth_indep (map d_vlen (v_dims v)) 0 1) in Ha, Hb by (rewrite map_length; assumption).
  destruct (Z.eq_dec (nth k (map d_vlen (v_dims v)) 1) 1) as [E1|N1]; [lia|].
  specialize (Hj k Hk' N1). unfold get_fold_ofs in E.
  clear -E Hj. induction (v_foldp v) as [|x l IH]; [destruct Hj|]. cbn in E. inversion E.
  destruct Hj as [->|Hj]; auto.
Qed.

Lemma foldlens_pos : forall v, wf_var v -> v_vec v = true -> Forall (fun s => 0 < s) (fold_lens v).
Proof.
  intros v (Hw & _ & Hf) Hv. destruct (Hf Hv) as (_ & Hlt & _).
  apply Forall_forall. intros s Hs. unfold fold_lens in Hs. apply in_map_iff in Hs.
  destruct Hs as (j & <- & Hj). specialize (Hlt j Hj).
  rewrite Forall_forall in Hw.
  assert (In (nth j (map d_vlen (v_dims v)) 1) (map d_vlen (v_dims v))) as Hin
    by (apply nth_In; rewrite map_length; assumption).
  apply in_map_iff in Hin. destruct Hin as (d & <- & Hd). destruct (Hw d Hd) as (_ & _ & _ & ? & _). lia.
Qed.

Lemma fold_layout_bound : forall v ofs, wf_var v -> v_vec v = true ->
  in_sizes (map d_vlen (v_dims v)) ofs ->
  0 <= vec_fold_layout v (get_fold_ofs v ofs) < VLEN v.
Proof.
  intros v ofs Hwf Hv Hin. destruct Hwf as (Hw & Hp & Hf). destruct (Hf Hv) as (Hnd & Hlt & Hall).
  unfold vec_fold_layout, VLEN.
  apply (gl_round1 _ _ _ (fold_perm_perm v) eq_refl). apply fold_ofs_in; assumption.
Qed.

Lemma fold_layout_inj : forall v a b, wf_var v -> v_vec v = true ->
  in_sizes (map d_vlen (v_dims v)) a -> in_sizes (map d_vlen (v_dims v)) b ->
  vec_fold_layout v (get_fold_ofs v a) = vec_fold_layout v (get_fold_ofs v b) -> a = b.
Proof.
  intros v a b Hwf Hv Ha Hb E. destruct Hwf as (Hw & Hp & Hf). destruct (Hf Hv) as (Hnd & Hlt & Hall).
  apply (fold_ofs_inj v); try assumption.
  eapply gl_layout_inj; [apply fold_perm_perm|reflexivity| | |exact E]; apply fold_ofs_in; assumption.
Qed.

Lemma split_unique : forall q1 r1 q2 r2 n, 0 <= r1 < n -> 0 <= r2 < n ->
  q1 * n + r1 = q2 * n + r2 -> q1 = q2 /\ r1 = r2.
Proof. intros. assert (q1 = q2) by nia. subst. lia. Qed.

Lemma vec_storage : forall v a, wf_var v -> v_vec v = true -> valid_indices true v a ->
  0 <= vec_elem_index v a < zprod (map d_vec_alloc (v_dims v)) * VLEN v /\
  forall b, valid_indices true v b ->
    (vec_elem_index v a = vec_elem_index v b <-> same_elem (v_dims v) a b).
Proof.
  intros v a Hwf Hvec Ha. pose proof Hwf as (Hw & Hp & _).
  assert (Hl : length (map d_vec_alloc (v_dims v)) = length (v_dims v)) by apply map_length.
  destruct (vec_adjs_in _ _ Hw Ha) as (Ia & Oa).
  pose proof (fold_layout_bound v _ Hwf Hvec Oa) as Ba.
  destruct (gl_round1 _ _ _ Hp Hl _ Ia) as (Ga & _).
  unfold vec_elem_index. split; [nia|].
  intros b Hb. destruct (vec_adjs_in _ _ Hw Hb) as (Ib & Ob).
  pose proof (fold_layout_bound v _ Hwf Hvec Ob) as Bb.
  rewrite Forall_forall in Hw.
  assert (La : length (v_dims v) = length a) by (eapply Forall2_length'; eassumption).
  assert (Lb : length (v_dims v) = length b) by (eapply Forall2_length'; eassumption).
  assert (K : map2 vec_adj_idx (v_dims v) a = map2 vec_adj_idx (v_dims v) b /\
              map2 vec_elem_ofs (v_dims v) a = map2 vec_elem_ofs (v_dims v) b <->
              same_elem (v_dims v) a b).
  { clear -Hw La Lb. revert a b La Lb. induction (v_dims v) as [|d ds IH]; intros [|x a] [|y b] La Lb;
      cbn in La, Lb; try discriminate; [cbn; tauto|].
    rewrite !map2_cons. cbn [same_elem].
    rewrite <- IH by (auto; intros; apply Hw; right; assumption).
    rewrite <- vec_adj_eq by (apply Hw; left; reflexivity).
    split; [intros [E1 E2]; inversion E1; inversion E2; auto|
            intros [[-> ->] [-> ->]]; auto]. }
  rewrite <- K. split.
  - intros E. apply split_unique in E; [|assumption|assumption]. destruct E as (E1 & E2).
    split; [eapply (gl_layout_inj (length (v_dims v))); eassumption|].
    eapply fold_layout_inj; eassumption.
  - intros [-> ->]. reflexivity.
Qed.

(* either kind *)
Lemma var_storage : forall v a, wf_var v -> valid_indices true v a ->
  0 <= get_elem_ptr v a < storage_size v /\
  forall b, valid_indices true v b ->
    (get_elem_ptr v a = get_elem_ptr v b <-> same_elem (v_dims v) a b).
Proof.
  intros v a Hwf Ha. unfold get_elem_ptr, storage_size. destruct (v_vec v) eqn:E.
  - apply vec_storage; assumption.
  - apply elem_storage; assumption.
Qed.

Lemma vec_lane : forall v vo,
  wf_var v ->
  Forall (fun d => d_step d = false -> d_lpad d mod d_vlen d = 0 /\ d_lofs d mod d_vlen d = 0) (v_dims v) ->
  Forall2 (fun d (p : Z * Z) => 0 <= snd p < d_vlen d) (v_dims v) vo ->
  vec_elem_index v (map2 elem_of_vec (v_dims v) vo) =
  vec_ptr_norm v (map fst vo) * VLEN v + vec_fold_layout v (get_fold_ofs v (map snd vo)).
Proof.
  intros v vo (Hw & _ & _) Hal Ho. unfold vec_elem_index, vec_ptr_norm.
  assert (K : map2 vec_adj_idx (v_dims v) (map2 elem_of_vec (v_dims v) vo) =
              map2 vec_norm_adj_idx (v_dims v) (map fst vo) /\
              map2 vec_elem_ofs (v_dims v) (map2 elem_of_vec (v_dims v) vo) = map snd vo).
  { induction Ho as [|d p ds vo Hp Ho IH]; [split; reflexivity|].
    inversion Hw as [|? ? Hd Hw']; subst. inversion Hal as [|? ? Ha Hal']; subst.
    destruct (IH Hw' Hal') as (E1 & E2). cbn [map]. rewrite !map2_cons, E1, E2.
    destruct Hd as (H1 & H2 & H3 & H4 & H5 & H6 & H7).
    unfold vec_adj_idx, vec_norm_adj_idx, vec_elem_ofs, elem_of_vec.
    destruct (d_step d) eqn:Es.
    - destruct (H6 eq_refl) as (Hdom & _). destruct (H5 Hdom) as (_ & _ & Hvl).
      split; f_equal. lia.
    - destruct (Ha eq_refl) as (Al & Ao).
      pose proof (Z.div_mod (d_lpad d) (d_vlen d) ltac:(lia)) as Dl.
      pose proof (Z.div_mod (d_lofs d) (d_vlen d) ltac:(lia)) as Do.
      assert (Q1 : Z.quot (d_lpad d) (d_vlen d) = d_lpad d / d_vlen d)
        by (apply Z.quot_div_nonneg; lia).
      assert (Q2 : Z.quot (d_lofs d) (d_vlen d) = d_lofs d / d_vlen d).
      { symmetry. rewrite Ao, Z.add_0_r in Do. rewrite Do at 2.
        rewrite Z.mul_comm, Z.quot_mul by lia. reflexivity. }
      rewrite Q1, Q2.
      assert (E : vec_adj d (d_rofs d + fst p * d_vlen d + snd p) =
                  snd p + (fst p + d_lpad d / d_vlen d - d_lofs d / d_vlen d) * d_vlen d)
        by (unfold vec_adj; nia).
      rewrite E, Z.div_add, Z.mod_add by lia.
      rewrite Z.div_small, Z.mod_small by lia. split; f_equal; lia. }
  destruct K as (-> & ->). reflexivity.
Qed.

(* ---- check_indices ---- *)
Lemma check_index_spec : forall sw cs d x,
  fst (check_index sw cs d x) = true <-> valid_index (negb cs || sw) d x.
Proof.
  intros sw cs d x. unfold check_index, valid_index, get_first_local_index, get_last_local_index.
  destruct (d_step d) eqn:Es, (negb cs || sw) eqn:Ew; cbn [andb];
    try (split; [auto|reflexivity]);
    destruct ((d_rofs d + d_lofs d - d_lpad d <=? x) &&
              (x <=? d_rofs d + d_lofs d + d_dom d + d_rpad d - 1)) eqn:E; cbn;
    split; intros H; try discriminate; try reflexivity; try (right; lia);
    destruct H as [[? ?]|?]; try discriminate; lia.
Qed.

Lemma check_indices_spec : forall v sw strict cs idxs, length idxs = length (v_dims v) ->
  exists clipped,
  (valid_indices (negb cs || sw) v idxs /\ check_indices v sw strict cs idxs = Ok (true, idxs)) \/
  (~ valid_indices (negb cs || sw) v idxs /\
   check_indices v sw strict cs idxs = if strict then Throw else Ok (false, clipped)).
Proof.
  intros v sw strict cs idxs HL. unfold check_indices, valid_indices.
  replace (Nat.eqb (length idxs) (length (v_dims v))) with true by (symmetry; apply Nat.eqb_eq; assumption).
  cbn [negb]. set (r := map2 (check_index sw cs) (v_dims v) idxs).
  exists (map snd r).
  assert (K : forallb fst r = true <-> Forall2 (valid_index (negb cs || sw)) (v_dims v) idxs).
  { subst r. revert idxs HL. induction (v_dims v) as [|d ds IH]; intros [|x idxs] HL; cbn in HL; try discriminate.
    - cbn. split; [constructor|reflexivity].
    - rewrite map2_cons. cbn [forallb]. rewrite andb_true_iff, check_index_spec, IH by lia.
      split; [intros [A B]; constructor; assumption|intros A; inversion A; auto]. }
  assert (S : forallb fst r = true -> map snd r = idxs).
  { subst r. clear K. revert idxs HL. induction (v_dims v) as [|d ds IH]; intros [|x idxs] HL;
      cbn in HL; try discriminate; [reflexivity|].
    rewrite map2_cons. cbn [forallb map]. rewrite andb_true_iff. intros [A B]. f_equal; [|apply IH; [lia|assumption]].
    unfold check_index in *. destruct (d_step d && (negb cs || sw)); [reflexivity|].
    destruct ((get_first_local_index d <=? x) && (x <=? get_last_local_index d)); [reflexivity|discriminate]. }
  destruct (forallb fst r) eqn:E.
  - left. split; [apply K; reflexivity|]. rewrite andb_false_r. rewrite S by reflexivity. reflexivity.
  - right. split; [intros Q; apply K in Q; discriminate|]. destruct strict; reflexivity.
Qed.

(* ---- element access ---- *)
Lemma valid_len : forall b v idxs, valid_indices b v idxs -> length idxs = length (v_dims v).
Proof. intros. symmetry. eapply Forall2_length'. eassumption. Qed.

Lemma valid_weaken : forall b v idxs, valid_indices b v idxs -> valid_indices true v idxs.
Proof.
  intros b v idxs H. unfold valid_indices in *. induction H; constructor; [|assumption].
  destruct b; [assumption|apply valid_any; assumption].
Qed.

Lemma in_storage_valid : forall b v idxs, wf_var v -> valid_indices b v idxs ->
  in_storage v (get_elem_ptr v idxs) = true.
Proof.
  intros b v idxs Hw Hv. apply valid_weaken in Hv.
  destruct (var_storage v idxs Hw Hv) as (H & _). unfold in_storage. lia.
Qed.

Lemma get_element_ok : forall V sw v (m : Z -> V) idxs, wf_var v -> valid_indices sw v idxs ->
  get_element sw (mkState v (Some m)) idxs = Ok (m (get_elem_ptr v idxs)).
Proof.
  intros V sw v m idxs Hw Hv. unfold get_element. cbn [st_mem st_var].
  destruct (check_indices_spec v sw true true idxs (valid_len _ _ _ Hv)) as (c & [(_ & ->)|(N & _)]).
  - cbn. rewrite (in_storage_valid sw) by assumption. reflexivity.
  - exfalso. apply N. exact Hv.
Qed.

Lemma get_element_bad : forall V sw v (m : option (Z -> V)) idxs,
  ~ valid_indices sw v idxs -> get_element sw (mkState v m) idxs = Throw.
Proof.
  intros V sw v m idxs Hv. unfold get_element. cbn [st_mem st_var]. destruct m as [m|]; [|reflexivity].
  destruct (Nat.eq_dec (length idxs) (length (v_dims v))) as [L|L].
  - destruct (check_indices_spec v sw true true idxs L) as (c & [(Y & _)|(_ & ->)]); [|reflexivity].
    exfalso. apply Hv. exact Y.
  - unfold check_indices. replace (Nat.eqb (length idxs) (length (v_dims v))) with false
      by (symmetry; apply Nat.eqb_neq; assumption). reflexivity.
Qed.

Lemma set_element_ok : forall V sw v (m : Z -> V) x idxs strict, wf_var v -> valid_indices true v idxs ->
  set_element sw (mkState v (Some m)) x idxs strict =
  Ok (mkState v (Some (mem_upd m (get_elem_ptr v idxs) x)), 1).
Proof.
  intros V sw v m x idxs strict Hw Hv. unfold set_element. cbn [st_mem st_var].
  destruct (check_indices_spec v sw strict false idxs (valid_len _ _ _ Hv)) as (c & [(_ & ->)|(N & _)]).
  - cbn. rewrite (in_storage_valid true) by assumption. reflexivity.
  - exfalso. apply N. exact Hv.
Qed.

Lemma set_element_bad : forall V sw v (m : Z -> V) x idxs strict,
  length idxs = length (v_dims v) -> ~ valid_indices true v idxs ->
  set_element sw (mkState v (Some m)) x idxs strict =
  if strict then Throw else Ok (mkState v (Some m), 0).
Proof.
  intros V sw v m x idxs strict HL Hv. unfold set_element. cbn [st_mem st_var].
  destruct (check_indices_spec v sw strict false idxs HL) as (c & [(Y & _)|(_ & ->)]).
  - exfalso. apply Hv. exact Y.
  - destruct strict; reflexivity.
Qed.

Lemma add_element_ok : forall V vadd sw v (m : Z -> V) x idxs strict, wf_var v -> valid_indices sw v idxs ->
  add_to_element vadd sw (mkState v (Some m)) x idxs strict =
  Ok (mkState v (Some (mem_upd m (get_elem_ptr v idxs) (vadd (m (get_elem_ptr v idxs)) x))), 1).
Proof.
  intros V vadd sw v m x idxs strict Hw Hv. unfold add_to_element. cbn [st_mem st_var].
  destruct (check_indices_spec v sw strict true idxs (valid_len _ _ _ Hv)) as (c & [(_ & ->)|(N & _)]).
  - cbn. rewrite (in_storage_valid sw) by assumption. reflexivity.
  - exfalso. apply N. exact Hv.
Qed.

Lemma add_element_bad : forall V vadd sw v (m : Z -> V) x idxs strict,
  length idxs = length (v_dims v) -> ~ valid_indices sw v idxs ->
  add_to_element vadd sw (mkState v (Some m)) x idxs strict =
  if strict then Throw else Ok (mkState v (Some m), 0).
Proof.
  intros V vadd sw v m x idxs strict HL Hv. unfold add_to_element. cbn [st_mem st_var].
  destruct (check_indices_spec v sw strict true idxs HL) as (c & [(Y & _)|(_ & ->)]).
  - exfalso. apply Hv. exact Y.
  - destruct strict; reflexivity.
Qed.

Lemma same_elem_refl : forall ds a, length a = length ds -> same_elem ds a a.
Proof.
  induction ds as [|d ds IH]; intros [|x a] H; cbn in *; try discriminate; [trivial|].
  split; [|apply IH; lia]. unfold same_in_dim. destruct (d_step d); [exists 0; lia|reflexivity].
Qed.

Lemma element_rw : forall V (vadd : V -> V -> V) (sw : bool) (v : yvar) (m : Z -> V),
  wf_var v ->
  let s := mkState v (Some m) in
  (* a write *)
  (forall x idxs strict, valid_indices true v idxs ->
     exists s', set_element sw s x idxs strict = Ok (s', 1) /\ st_var s' = v /\
       (valid_indices sw v idxs -> get_element sw s' idxs = Ok x) /\
       (forall b, valid_indices sw v b -> same_elem (v_dims v) idxs b -> get_element sw s' b = Ok x) /\
       (forall b, ~ same_elem (v_dims v) idxs b -> get_element sw s' b = get_element sw s b)) /\
  (* an atomic add *)
  (forall x idxs strict, valid_indices sw v idxs ->
     exists s' old, add_to_element vadd sw s x idxs strict = Ok (s', 1) /\ st_var s' = v /\
       get_element sw s idxs = Ok old /\ get_element sw s' idxs = Ok (vadd old x) /\
       (forall b, ~ same_elem (v_dims v) idxs b -> get_element sw s' b = get_element sw s b)) /\
  (* invalid indices *)
  (forall x idxs strict, length idxs = length (v_dims v) -> ~ valid_indices true v idxs ->
     set_element sw s x idxs strict = if strict then Throw else Ok (s, 0)) /\
  (forall x idxs strict, length idxs = length (v_dims v) -> ~ valid_indices sw v idxs ->
     add_to_element vadd sw s x idxs strict = if strict then Throw else Ok (s, 0)) /\
  (forall idxs, ~ valid_indices sw v idxs -> get_element sw s idxs = Throw).
Proof.
  intros V vadd sw v m Hw s. subst s.
  assert (Other : forall idxs y b, valid_indices true v idxs -> ~ same_elem (v_dims v) idxs b ->
     get_element sw (mkState v (Some (mem_upd m (get_elem_ptr v idxs) y))) b =
     get_element sw (mkState v (Some m)) b).
  { intros idxs y b Hi Hne.
    unfold get_element. cbn [st_mem st_var].
    destruct (Nat.eq_dec (length b) (length (v_dims v))) as [L|L].
    - destruct (check_indices_spec v sw true true b L) as (c & [(Y & ->)|(_ & ->)]); [|reflexivity].
      cbn [rbind negb]. destruct (in_storage v (get_elem_ptr v b)); [|reflexivity].
      f_equal. unfold mem_upd. destruct (get_elem_ptr v b =? get_elem_ptr v idxs) eqn:E; [|reflexivity].
      apply Z.eqb_eq in E. exfalso. apply Hne.
      apply (var_storage v idxs Hw Hi); [|congruence]. eapply valid_weaken; exact Y.
    - unfold check_indices. replace (Nat.eqb (length b) (length (v_dims v))) with false
        by (symmetry; apply Nat.eqb_neq; assumption). reflexivity. }
  split; [|split; [|split; [|split]]].
  - intros x idxs strict Hi. eexists. split; [apply set_element_ok; assumption|].
    split; [reflexivity|].
    assert (S : forall b, valid_indices sw v b -> same_elem (v_dims v) idxs b ->
       get_element sw (mkState v (Some (mem_upd m (get_elem_ptr v idxs) x))) b = Ok x).
    { intros b Hb Hs. rewrite get_element_ok by assumption.
      apply (var_storage v idxs Hw Hi) in Hs; [|eapply valid_weaken; exact Hb].
      rewrite <- Hs. unfold mem_upd. rewrite Z.eqb_refl. reflexivity. }
    split; [intros Hi'; apply S; [assumption|]|].
    { apply same_elem_refl. eapply valid_len; exact Hi. }
    split; [exact S|]. intros b Hne. apply Other; assumption.
  - intros x idxs strict Hi. eexists. exists (m (get_elem_ptr v idxs)).
    split; [apply add_element_ok; assumption|]. split; [reflexivity|].
    split; [apply get_element_ok; assumption|].
    split; [|intros b Hne; apply Other; [eapply valid_weaken; exact Hi|assumption]].
    rewrite get_element_ok by assumption. unfold mem_upd. rewrite Z.eqb_refl. reflexivity.
  - intros. apply set_element_bad; assumption.
  - intros. apply add_element_bad; assumption.
  - intros. apply get_element_bad; assumption.
Qed.

(* ---- valid steps ---- *)
Lemma update_valid_step_spec : forall d t, d_step d = true -> wf_dim d ->
  let first dd := get_first_local_index dd in
  let last dd := get_last_local_index dd in
  let d' := update_valid_step d t in
  wf_dim d' /\ d_dom d' = d_dom d /\ last d' - first d' + 1 = d_dom d /\
  first d' <= t <= last d' /\
  (* minimal move *)
  (forall f, f <= t < f + d_dom d -> Z.abs (first d' - first d) <= Z.abs (f - first d)).
Proof.
  intros d t Hs Hw. destruct Hw as (H1 & H2 & H3 & H4 & H5 & H6 & H7).
  destruct (H6 Hs) as (Hd & Hn & Hr). destruct (H5 Hd) as (Hl & Hrp & Hv).
  cbn zeta. unfold update_valid_step.
  destruct (t <? get_first_local_index d) eqn:E1;
    [|destruct (get_last_local_index d <? t) eqn:E2];
    unfold wf_dim, get_first_local_index, get_last_local_index in *; cbn in *;
    rewrite ?Hs, ?Hd; repeat split; intros; auto; try lia; try congruence.
Qed.

Lemma update_dom : forall d t, d_dom (update_valid_step d t) = d_dom d.
Proof.
  intros. unfold update_valid_step. destruct (t <? _); [reflexivity|]. destruct (_ <? t); reflexivity.
Qed.

Lemma update_step : forall d t, d_step (update_valid_step d t) = d_step d.
Proof.
  intros. unfold update_valid_step. destruct (t <? _); [reflexivity|]. destruct (_ <? t); reflexivity.
Qed.

Lemma write_steps_cons : forall V (h : list (Z * V)) s w,
  write_steps s (w :: h) = write_steps (write_step s w) h.
Proof. reflexivity. Qed.

Lemma write_steps_dom : forall V (h : list (Z * V)) s, d_dom (fst (write_steps s h)) = d_dom (fst s).
Proof.
  induction h as [|w h IH]; intros s; [reflexivity|].
  rewrite write_steps_cons, IH. apply update_dom.
Qed.

Lemma write_steps_wf : forall V (h : list (Z * V)) s, d_step (fst s) = true -> wf_dim (fst s) ->
  d_step (fst (write_steps s h)) = true /\ wf_dim (fst (write_steps s h)).
Proof.
  induction h as [|w h IH]; intros s Hs Hw; [auto|]. rewrite write_steps_cons. apply IH; cbn.
  - rewrite update_step. assumption.
  - apply update_valid_step_spec; assumption.
Qed.

Lemma write_steps_other : forall V (h : list (Z * V)) s k,
  (forall w, In w h -> wrap_step (fst w) (d_dom (fst s)) <> k) ->
  snd (write_steps s h) k = snd s k.
Proof.
  induction h as [|w h IH]; intros s k H; [reflexivity|]. rewrite write_steps_cons, IH.
  - cbn. unfold mem_upd. destruct (k =? _) eqn:E; [|reflexivity].
    apply Z.eqb_eq in E. exfalso. apply (H w); [left; reflexivity|auto].
  - cbn. intros w' Hw'. rewrite update_dom. apply H. right. assumption.
Qed.

Lemma write_steps_app : forall V (h1 h2 : list (Z * V)) s,
  write_steps s (h1 ++ h2) = write_steps (write_steps s h1) h2.
Proof. intros. unfold write_steps. apply fold_left_app. Qed.

Lemma last_write : forall V (h1 h2 : list (Z * V)) t x s, 1 <= d_dom (fst s) ->
  (forall w, In w h2 -> forall k, fst w <> t + k * d_dom (fst s)) ->
  snd (write_steps s (h1 ++ (t, x) :: h2)) (wrap_step t (d_dom (fst s))) = x.
Proof.
  intros V h1 h2 t x s Hn H. rewrite write_steps_app.
  set (s1 := write_steps s h1). assert (Hd : d_dom (fst s1) = d_dom (fst s)) by apply write_steps_dom.
  change (write_steps s1 ((t, x) :: h2)) with (write_steps (write_step s1 (t, x)) h2).
  rewrite write_steps_other.
  - cbn. rewrite Hd. unfold mem_upd. rewrite Z.eqb_refl. reflexivity.
  - cbn. rewrite update_dom, Hd. intros w Hw E. apply wrap_eq in E; [|assumption].
    destruct E as (k & E). exact (H w Hw k E).
Qed.

Lemma window_after : forall V (h : list (Z * V)) (s : vdim * (Z -> V)) t x,
  d_step (fst s) = true -> wf_dim (fst s) ->
  let d' := fst (write_steps s (h ++ [(t, x)])) in
  d_dom d' = d_dom (fst s) /\
  get_last_local_index d' - get_first_local_index d' + 1 = d_dom (fst s) /\
  get_first_local_index d' <= t <= get_last_local_index d'.
Proof.
  intros V h s t x Hs Hw. cbn zeta. rewrite write_steps_app.
  destruct (write_steps_wf V h s Hs Hw) as (Hs1 & Hw1).
  destruct (update_valid_step_spec (fst (write_steps s h)) t Hs1 Hw1) as (_ & E & L & B & _).
  cbn. rewrite write_steps_dom in *. auto.
Qed.

Lemma window_forward : forall V (h : list (Z * V)) s, d_step (fst s) = true -> wf_dim (fst s) ->
  steps_in_order 1 h -> Forall (fun w => get_first_local_index (fst s) <= fst w) h ->
  get_first_local_index (fst s) <= get_first_local_index (fst (write_steps s h)).
Proof.
  induction h as [|w h IH]; intros s Hs Hw Ho Hh; [reflexivity|].
  inversion Hh as [|? ? Hw0 Hh']; subst. destruct Ho as (Ho1 & Ho2). rewrite write_steps_cons.
  destruct (update_valid_step_spec (fst s) (fst w) Hs Hw) as (W & E & L & B & _).
  assert (get_first_local_index (fst s) <= get_first_local_index (update_valid_step (fst s) (fst w))).
  { unfold update_valid_step. destruct (fst w <? _) eqn:E1; [lia|].
    destruct (_ <? fst w) eqn:E2; [|lia].
    unfold get_first_local_index, get_last_local_index in *. cbn in *.
    destruct Hw as (_ & _ & _ & _ & Q5 & Q6 & _). destruct (Q6 Hs) as (Q & _ & Qr). destruct (Q5 Q). lia. }
  etransitivity; [eassumption|]. apply (IH (write_step s w)).
  - cbn. rewrite update_step. assumption.
  - exact W.
  - assumption.
  - cbn. rewrite Forall_forall in *. intros w' Hw'. specialize (Ho1 w' Hw'). cbn in Ho1. lia.
Qed.

Lemma window_backward : forall V (h : list (Z * V)) s, d_step (fst s) = true -> wf_dim (fst s) ->
  steps_in_order (-1) h -> Forall (fun w => fst w <= get_last_local_index (fst s)) h ->
  get_last_local_index (fst (write_steps s h)) <= get_last_local_index (fst s).
Proof.
  induction h as [|w h IH]; intros s Hs Hw Ho Hh; [reflexivity|].
  inversion Hh as [|? ? Hw0 Hh']; subst. destruct Ho as (Ho1 & Ho2). rewrite write_steps_cons.
  destruct (update_valid_step_spec (fst s) (fst w) Hs Hw) as (W & E & L & B & _).
  assert (get_last_local_index (update_valid_step (fst s) (fst w)) <= get_last_local_index (fst s)).
  { unfold update_valid_step. destruct (fst w <? _) eqn:E1.
    - unfold get_first_local_index, get_last_local_index in *. cbn in *.
      destruct Hw as (_ & _ & _ & _ & Q5 & Q6 & _). destruct (Q6 Hs) as (Q & _ & Qr). destruct (Q5 Q). lia.
    - destruct (_ <? fst w) eqn:E2; lia. }
  etransitivity; [|eassumption]. apply (IH (write_step s w)).
  - cbn. rewrite update_step. assumption.
  - exact W.
  - assumption.
  - cbn. rewrite Forall_forall in *. intros w' Hw'. specialize (Ho1 w' Hw'). cbn in Ho1. lia.
Qed.

Lemma steps_in_order_app : forall V dir (h1 h2 : list (Z * V)),
  steps_in_order dir (h1 ++ h2) -> steps_in_order dir h2.
Proof. induction h1; intros h2 H; [assumption|]. destruct H. auto. Qed.

Lemma retained_step : forall V (dir : Z) (h1 h2 : list (Z * V)) t x (s : vdim * (Z -> V)),
  dir = 1 \/ dir = -1 -> d_step (fst s) = true -> wf_dim (fst s) ->
  steps_in_order dir (h1 ++ (t, x) :: h2) ->
  (forall w, In w h2 -> fst w <> t) ->
  let s' := write_steps s (h1 ++ (t, x) :: h2) in
  get_first_local_index (fst s') <= t <= get_last_local_index (fst s') ->
  snd s' (wrap_step t (d_dom (fst s))) = x.
Proof.
  intros V dir h1 h2 t x s Hdir Hs Hw Ho Hn. cbn zeta. intros Hwin.
  assert (Hdom : 1 <= d_dom (fst s)).
  { destruct Hw as (_ & _ & _ & _ & _ & Q6 & _). apply Q6. assumption. }
  apply last_write; [assumption|].
  intros w Hin k E.
  pose proof (steps_in_order_app _ _ _ _ Ho) as Ho2. destruct Ho2 as (Ho2 & Ho3).
  rewrite Forall_forall in Ho2. pose proof (Ho2 w Hin) as Hd. cbn in Hd. specialize (Hn w Hin).
  apply in_split in Hin. destruct Hin as (a & b & ->).
  replace (h1 ++ (t, x) :: a ++ w :: b) with ((h1 ++ (t, x) :: a) ++ [w] ++ b) in *
    by (rewrite <- app_assoc; reflexivity).
  rewrite app_assoc, write_steps_app in Hwin.
  destruct w as [u y]. cbn [fst] in *.
  destruct (window_after V (h1 ++ (t, x) :: a) s u y Hs Hw) as (WD & WL & WB).
  set (s1 := write_steps s ((h1 ++ (t, x) :: a) ++ [(u, y)])) in *.
  destruct (write_steps_wf V ((h1 ++ (t, x) :: a) ++ [(u, y)]) s Hs Hw) as (Hs1 & Hw1).
  fold s1 in Hs1, Hw1.
  apply steps_in_order_app in Ho3. destruct Ho3 as (Hb1 & Hb2). cbn [fst] in Hb1.
  destruct Hdir as [-> | ->].
  - assert (F : get_first_local_index (fst s1) <= get_first_local_index (fst (write_steps s1 b))).
    { apply window_forward; auto. rewrite Forall_forall in *. intros w' Hw'. specialize (Hb1 w' Hw'). lia. }
    assert (1 <= k) by nia. nia.
  - assert (F : get_last_local_index (fst (write_steps s1 b)) <= get_last_local_index (fst s1)).
    { apply window_backward; auto. rewrite Forall_forall in *. intros w' Hw'. specialize (Hb1 w' Hw'). lia. }
    assert (k <= -1) by nia. nia.
Qed.

Lemma step_wrap_spec : forall n, 1 <= n ->
  (forall t, 0 <= wrap_step t n < n) /\
  (forall t u, wrap_step t n = wrap_step u n <-> exists k, t = u + k * n) /\
  (forall t u, t <> u -> Z.abs (t - u) < n -> wrap_step t n <> wrap_step u n).
Proof.
  intros n Hn. split; [intros; apply wrap_range; assumption|].
  split; [intros; apply wrap_eq; assumption|].
  intros t u Hne Hab E. apply wrap_eq in E; [|assumption]. destruct E as (k & ->).
  assert (k = 0) by nia. subst. lia.
Qed.

Lemma vec_lane_read : forall V sw v (m : Z -> V) vo dflt,
  wf_var v -> v_vec v = true ->
  Forall (fun d => d_step d = false -> d_lpad d mod d_vlen d = 0 /\ d_lofs d mod d_vlen d = 0) (v_dims v) ->
  Forall2 (fun d (p : Z * Z) => 0 <= snd p < d_vlen d) (v_dims v) vo ->
  valid_indices sw v (map2 elem_of_vec (v_dims v) vo) ->
  let lane := vec_fold_layout v (get_fold_ofs v (map snd vo)) in
  0 <= lane < VLEN v /\
  get_element sw (mkState v (Some m)) (map2 elem_of_vec (v_dims v) vo) =
    Ok (nth (Z.to_nat lane) (read_vec_norm v m (map fst vo)) dflt).
Proof.
  intros V sw v m vo dflt Hw Hv Hal Ho Hi. cbn zeta.
  assert (B : 0 <= vec_fold_layout v (get_fold_ofs v (map snd vo)) < VLEN v).
  { apply fold_layout_bound; [assumption..|].
    clear - Ho. induction Ho; cbn; constructor; auto. }
  split; [exact B|].
  rewrite get_element_ok by assumption. f_equal. unfold read_vec_norm, get_elem_ptr. rewrite Hv.
  rewrite nth_map_zseq by assumption. f_equal. apply vec_lane; assumption.
Qed.

Lemma lanes_distinct : forall v p q, wf_var v -> v_vec v = true ->
  in_sizes (fold_lens v) p -> in_sizes (fold_lens v) q ->
  vec_fold_layout v p = vec_fold_layout v q -> p = q.
Proof.
  intros v p q Hw Hv Hp Hq E. unfold vec_fold_layout in E.
  eapply gl_layout_inj; try eassumption; [apply fold_perm_perm|].
  reflexivity.
Qed.
