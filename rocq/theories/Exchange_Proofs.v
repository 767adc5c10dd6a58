From Verif Require Import Base Idiv_Model Idiv_Proofs Tuple_Model MixedRadix Tuple_Proofs Resize_Model Resize_Proofs Rank_Model Rank_Spec Rank_Proofs Exchange_Model Exchange_Spec.
From Coq Require Import ZifyBool.

Lemma ru_bounds : forall x v, 1 <= v -> 0 <= x -> x <= ROUND_UP x v < x + v.
Proof. intros. apply ROUND_UP_bounds; lia. Qed.
Lemma ru_le_mult : forall x v n, 1 <= v -> 0 <= x -> x <= n -> Z.rem n v = 0 -> ROUND_UP x v <= n.
Proof.
  intros x v n Hv Hx Hn Hm. pose proof (ROUND_UP_bounds x v ltac:(lia) ltac:(lia)) as (B & M).
  rewrite Z.rem_mod_nonneg in Hm by lia. apply Z.mod_divide in M; try lia. apply Z.mod_divide in Hm; try lia.
  destruct M as (k & M). destruct Hm as (m & ->). rewrite M in *. assert (k - 1 < m) by (apply (Z.mul_lt_mono_pos_r v); lia). apply Z.mul_le_mono_nonneg_r; lia.
Qed.
Lemma zprod_ge1 : forall l, Forall (fun f => 1 <= f) l -> 1 <= zprod l.
Proof. intros l H. induction H as [|x l Hx H IH]; cbn; [lia|nia]. Qed.
Lemma zprod_gt1 : forall l j, Forall (fun f => 1 <= f) l -> (j < length l)%nat -> 1 < pos j l -> 1 < zprod l.
Proof.
  intros l j H. revert j. induction H as [|x l Hx H IH]; intros j Lj Hj; cbn in Lj; [lia|]. pose proof (zprod_ge1 l H). destruct j as [|j]; unfold pos in *; cbn [nth zprod fold_right] in *.
  - change (1 < x * zprod l). nia.
  - specialize (IH j ltac:(lia) Hj). change (1 < x * zprod l). nia.
Qed.
Lemma divide_rem : forall a b, 1 <= b -> 0 <= a -> Z.rem a b = 0 <-> (b | a).
Proof. intros. rewrite Z.rem_mod_nonneg by lia. apply Z.mod_divide. lia. Qed.
Lemma round_down_mult : forall a v, 1 <= v -> (v | a) -> round_down_flr a v = a.
Proof. intros a v Hv (k & ->). rewrite round_down_flr_spec by lia. rewrite Z.div_mul by lia. reflexivity. Qed.
Lemma round_up_mult' : forall a v, 1 <= v -> (v | a) -> round_up_flr a v = a.
Proof.
  intros a v Hv (k & ->). pose proof (round_up_flr_bounds (k * v) v ltac:(lia)) as (B & M). apply Z.mod_divide in M; try lia. destruct M as (m & M). rewrite M in *. assert (m - 1 < k) by (apply (Z.mul_lt_mono_pos_r v); lia). assert (k <= m) by (apply (Z.mul_le_mono_pos_r _ _ v); lia). f_equal. lia.
Qed.

Lemma max_halo_ge : forall S v j vlen lh rh, In v (s_vars S) -> In (XDom j vlen lh rh) (v_dims v) -> lh <= max_halo S j /\ rh <= max_halo S j.
Proof.
  intros S v j vlen lh rh. unfold max_halo.
  set (step := fun m (d : xd) => match d with XDom i _ lh rh => if (i =? j)%nat then Z.max (Z.max m lh) rh else m | _ => m end).
  assert (forall m d, m <= step m d) as Mo1. { intros m [| |i]; cbn; try lia. destruct (i =? j)%nat; lia. }
  assert (forall ds m, m <= fold_left step ds m) as Mo. { induction ds as [|d ds IH]; intros m; cbn; [lia|]. specialize (IH (step m d)). specialize (Mo1 m d). lia. }
  assert (forall ds m, In (XDom j vlen lh rh) ds -> lh <= fold_left step ds m /\ rh <= fold_left step ds m) as D.
  { induction ds as [|d ds IH]; intros m []; cbn [fold_left].
    - subst d. pose proof (Mo ds (step m (XDom j vlen lh rh))) as X. cbn in X. rewrite Nat.eqb_refl in X. cbn [step]. rewrite Nat.eqb_refl. lia.
    - apply IH. assumption. }
  generalize 0. induction (s_vars S) as [|w vs IH]; intros m []; cbn [fold_left].
  - subst w. intros I. specialize (D (v_dims v) m I). 
    assert (forall vs m, m <= fold_left (fun m v => fold_left step (v_dims v) m) vs m) as Mv.
    { induction vs0 as [|w vs0 IHv]; intros m0; cbn; [lia|]. pose proof (IHv (fold_left step (v_dims w) m0)). pose proof (Mo (v_dims w) m0). lia. }
    specialize (Mv vs (fold_left step (v_dims v) m)). lia.
  - intros I. apply IH; assumption.
Qed.
Lemma max_halo_nonneg : forall S j, 0 <= max_halo S j.
Proof.
  intros S j. unfold max_halo. assert (forall ds m, 0 <= m -> 0 <= fold_left (fun m (d : xd) => match d with XDom i _ lh rh => if (i =? j)%nat then Z.max (Z.max m lh) rh else m | _ => m end) ds m) as D.
  { induction ds as [|d ds IH]; intros m Hm; cbn [fold_left]; [exact Hm|]. apply IH. destruct d; try exact Hm. destruct (_ =? _)%nat; lia. }
  assert (forall vs m, 0 <= m -> 0 <= fold_left (fun m (v : xvar) => fold_left (fun m (d : xd) => match d with XDom i _ lh rh => if (i =? j)%nat then Z.max (Z.max m lh) rh else m | _ => m end) (v_dims v) m) vs m) as V.
  { induction vs as [|v vs IH]; intros m Hm; cbn [fold_left]; [exact Hm|]. apply IH, D, Hm. }
  apply V. lia.
Qed.

Section X.
  Variable S : xset.
  Variable given : list rank_in.
  Variable ranks : list xrank.
  Notation J := (s_job S).
  Notation nd := (j_nd (s_job S)).
  Hypothesis Wf : ranks_wf (s_job S) given.
  Hypothesis Rd : job_ready S given ranks.

  Definition fo (j : nat) : Z := pos j (j_fold J).
  Lemma fo_pos : forall j, (j < nd)%nat -> 1 <= fo j.
  Proof. intros j Lj. destruct Wf as (_ & _ & _ & L & _ & F & _). apply (pos_Forall (fun z => 1 <= z)); [exact F|lia]. Qed.
  Lemma nshift_nonneg : 0 <= num_wf_shifts S.
  Proof. destruct Rd as (_ & _ & A & B & _). unfold num_wf_shifts. destruct (0 <? s_wf S) eqn:E; [|lia]. pose proof (Z.mul_nonneg_nonneg _ _ B A); destruct (0 <? s_nstages S * s_wf S) eqn:E2; lia. Qed.
  Lemma shift_nonneg : forall r j, (j < nd)%nat -> 0 <= shift_pts S r j.
  Proof.
    intros r j Lj. unfold shift_pts. pose proof nshift_nonneg. pose proof (max_halo_nonneg S j). pose proof (fo_pos j Lj) as F. unfold fo in F.
    pose proof (ru_bounds (max_halo S j) (pos j (j_fold J)) F ltac:(lia)). destruct (_ || _); nia.
  Qed.
  Lemma shift_same : forall a b j, 1 < pos j (j_nranks J) -> shift_pts S a j = shift_pts S b j.
  Proof. intros a b j H. unfold shift_pts. replace (1 <? pos j (j_nranks J)) with true by lia. rewrite !orb_true_r. reflexivity. Qed.

  (* positions *)
  Lemma grid_ex : exists P : nat -> Z -> Z,
    (forall j, P j 0 = 0) /\ (forall j c, (j < nd)%nat -> 0 <= c < pos j (j_nranks J) -> P j c < P j (c + 1)) /\
    (forall r j, In r ranks -> (j < nd)%nat ->
      0 <= xr_c r j < pos j (j_nranks J) /\ xr_ofs r j = P j (xr_c r j) /\ xr_ofs r j + xr_size r j = P j (xr_c r j + 1)).
  Proof.
    destruct Rd as (H & _). destruct (setup_grid J given _ Wf H) as (P & P0 & Pm & _ & _ & Pc & _). exists P. split; [exact P0|]. split; [exact Pm|].
    intros r j I Lj. destruct (Pc (xr_o r) j ltac:(apply in_map; exact I) Lj) as (A & B & C & _). auto.
  Qed.
  Lemma coords_len : forall r, In r ranks -> length (o_coords (xr_o r)) = nd /\ length (o_sizes (xr_o r)) = nd /\ length (o_ofs (xr_o r)) = nd.
  Proof. intros r I. destruct Rd as (H & _). destruct (setup_grid J given _ Wf H) as (P & _ & _ & _ & Pl & _). apply Pl. apply in_map. exact I. Qed.
  Lemma same_xrank : forall a b, In a ranks -> In b ranks -> (forall j, (j < nd)%nat -> xr_c a j = xr_c b j) -> a = b.
  Proof.
    intros a b Ia Ib E. destruct Rd as (H & _). destruct (setup_grid J given _ Wf H) as (P & _ & _ & Nd & _). rewrite map_map in Nd.
    apply (NoDup_map_inj _ _ (fun r => o_coords (xr_o r)) ranks); auto. destruct (coords_len a Ia) as (La & _). destruct (coords_len b Ib) as (Lb & _).
    apply list_eq_pos; [lia|]. rewrite La. exact E.
  Qed.
  Lemma size_pos : forall r j, In r ranks -> (j < nd)%nat -> 0 < xr_size r j.
  Proof. intros r j I Lj. destruct grid_ex as (P & _ & Pm & Pr). destruct (Pr r j I Lj) as (A & B & C). specialize (Pm j (xr_c r j) Lj A). lia. Qed.
  Lemma ofs_same : forall a b j, In a ranks -> In b ranks -> (j < nd)%nat -> xr_c a j = xr_c b j -> xr_ofs a j = xr_ofs b j /\ xr_size a j = xr_size b j.
  Proof. intros a b j Ia Ib Lj E. destruct grid_ex as (P & _ & Pm & Pr). destruct (Pr a j Ia Lj) as (A & B & C). destruct (Pr b j Ib Lj) as (A' & B' & C'). rewrite <- E in *. lia. Qed.
  Lemma ofs_next : forall a b j, In a ranks -> In b ranks -> (j < nd)%nat -> xr_c b j = xr_c a j + 1 -> xr_ofs b j = xr_ofs a j + xr_size a j.
  Proof. intros a b j Ia Ib Lj E. destruct grid_ex as (P & _ & Pm & Pr). destruct (Pr a j Ia Lj) as (A & B & C). destruct (Pr b j Ib Lj) as (A' & B' & C'). rewrite E in *. lia. Qed.
  Lemma ofs_nonneg_end : forall a j, In a ranks -> (j < nd)%nat -> 0 <= xr_ofs a j /\ (xr_c a j = 0 -> xr_ofs a j = 0) /\
    (forall b, In b ranks -> xr_c a j = pos j (j_nranks J) - 1 -> xr_ofs b j + xr_size b j <= xr_ofs a j + xr_size a j).
  Proof.
    intros a j Ia Lj. destruct grid_ex as (P & P0 & Pm & Pr). destruct (Pr a j Ia Lj) as (A & B & C).
    assert (forall c d, 0 <= c <= d -> d <= pos j (j_nranks J) -> P j c <= P j d) as Mono.
    { intros c d Hc Hd. replace d with (c + (d - c)) by lia. assert (0 <= d - c) as H by lia. assert (c + (d - c) <= pos j (j_nranks J)) as H2 by lia. revert H2.
      pattern (d - c). apply natlike_ind; [intros; rewrite Z.add_0_r; lia| |exact H]. intros x Hx IH H2. replace (c + Z.succ x) with (c + x + 1) by lia.
      specialize (IH ltac:(lia)). specialize (Pm j (c + x) Lj ltac:(lia)). lia. }
    split; [rewrite B; rewrite <- (P0 j); apply Mono; lia|]. split; [intros E; rewrite E, P0 in B; exact B|].
    intros b Ib E. destruct (Pr b j Ib Lj) as (A' & B' & C'). rewrite C, C'. apply Mono; lia.
  Qed.
  Lemma size_ge : forall r j, In r ranks -> (j < nd)%nat -> 1 < pos j (j_nranks J) -> max_halo S j + shift_pts S r j <= xr_size r j.
  Proof.
    intros r j I Lj Hn. destruct Rd as (_ & _ & _ & _ & F). pose proof (proj1 (Forall_forall _ _) F r I) as (_ & _ & K). unfold size_ok in K. rewrite forallb_seq in K. specialize (K j Lj).
    replace (1 <? pos j (j_nranks J)) with true in K by lia. cbn [andb] in K. lia.
  Qed.

  (* rounding the outer indices is always possible *)
  Lemma can_round_true : forall r j vlen lh rh, In r ranks -> (j < nd)%nat -> vlen = 1 \/ vlen = fo j -> 0 <= lh -> 0 <= rh -> can_round S r j vlen lh rh = true.
  Proof.
    intros r j vlen lh rh Ir Lj Hv Hl Hr. pose proof (fo_pos j Lj) as F. pose proof (size_pos r j Ir Lj) as Sp. pose proof (shift_nonneg r j Lj) as Sh.
    unfold can_round, var_pads. set (d := mkR _ _ _ _ _ _ _ _ _ _ _ _ _ _ _ _ _ _ _).
    destruct Rd as (_ & _ & _ & _ & Fr). pose proof (proj1 (Forall_forall _ _) Fr r Ir) as (Mp & Ep & _).
    assert (0 <= pos j (xr_mp r) /\ 0 <= pos j (xr_ep r)) as (Hm & He).
    { split.
      - destruct (Nat.lt_ge_cases j (length (xr_mp r))) as [Q|Q]; [apply (pos_Forall (fun z => 0 <= z)); assumption|unfold pos; rewrite nth_overflow by exact Q; lia].
      - destruct (Nat.lt_ge_cases j (length (xr_ep r))) as [Q|Q]; [apply (pos_Forall (fun z => 0 <= z)); assumption|unfold pos; rewrite nth_overflow by exact Q; lia]. }
    destruct (new_pads_domain false (s_addl S) (vlen_gt1 S) d eq_refl) as (x & _ & ->).
    assert (lh + (if vlen_gt1 S then fo j else 0) <= base_l (vlen_gt1 S) d /\ rh + (if vlen_gt1 S then fo j else 0) <= base_r (vlen_gt1 S) d) as (Bl & Br).
    { unfold base_l, base_r, d; cbn [r_lh r_rh r_lwf r_rwf r_rle r_rre r_rlp r_rrp r_svl r_dom]. fold (fo j).
      set (wl := if is_first r j then 0 else shift_pts S r j). set (wr := if is_last S r j then 0 else shift_pts S r j).
      assert (0 <= wl /\ 0 <= wr) as (? & ?) by (unfold wl, wr; destruct (is_first r j), (is_last S r j); lia).
      pose proof (ru_bounds (Z.max (lh + wl + pos j (xr_ep r)) (pos j (xr_mp r))) (fo j) F ltac:(lia)).
      pose proof (ru_bounds (xr_size r j + Z.max (rh + wr + pos j (xr_ep r)) (pos j (xr_mp r))) (fo j) F ltac:(lia)). lia. }
    unfold outer_idx. cbv beta iota zeta.
    assert (1 <= vlen) as Hv1 by lia.
    assert (vlen = 1 \/ (vlen = fo j /\ vlen_gt1 S = true)) as Hv2.
    { destruct Hv as [Hv|Hv]; subst vlen; [left; reflexivity|]. destruct (Z.eq_dec (fo j) 1) as [E1|Ne]; [left; exact E1|]. right. split; [reflexivity|].
      unfold vlen_gt1. destruct Wf as (_ & _ & _ & Lf & _ & Ff & _). pose proof (zprod_gt1 (j_fold J) j Ff ltac:(lia)). unfold fo in *. lia. }
    assert (0 <= (if x then r_svl d else 0)) as Hx by (unfold d; cbn [r_svl]; fold (fo j); destruct x; lia).
    assert (0 <= (if is_first r j then lh else 0) <= lh) by (destruct (is_first r j); lia).
    assert (0 <= (if is_last S r j then rh else 0) <= rh) by (destruct (is_last S r j); lia).
    set (f0 := xr_ofs r j - (if is_first r j then lh else 0)). set (e0 := xr_ofs r j + xr_size r j - 1 + (if is_last S r j then rh else 0)).
    pose proof (round_down_flr_bounds f0 vlen ltac:(lia)) as (R1 & _). pose proof (round_up_flr_bounds (e0 + 1) vlen ltac:(lia)) as (R2 & _).
    assert (base_l (vlen_gt1 S) d >= lh + (vlen - 1) /\ base_r (vlen_gt1 S) d >= rh + (vlen - 1)) as (Q1 & Q2).
    { destruct Hv2 as [->|(-> & E)]; [destruct (vlen_gt1 S); lia|rewrite E in *; lia]. }
    subst f0 e0. apply andb_true_intro. split; apply negb_true_iff, Z.ltb_ge; lia.
  Qed.

  Lemma var_dom_ok : forall v j vlen lh rh, In v (s_vars S) -> In (XDom j vlen lh rh) (v_dims v) -> (j < nd)%nat /\ (vlen = 1 \/ vlen = fo j) /\ 0 <= lh /\ 0 <= rh.
  Proof.
    intros v j vlen lh rh Iv Id. destruct Rd as (_ & F & _). pose proof (proj1 (Forall_forall _ _) F v Iv) as K. unfold xvar_ok in K.
    exact (proj1 (Forall_forall _ _) K _ Id).
  Qed.
  Lemma vec_sym : forall a b, vec_ok S a b = vec_ok S b a.
  Proof. intros. unfold vec_ok. destruct (s_force S), (all_mults S a), (all_mults S b); reflexivity. Qed.
  Lemma var_vec_eq : forall a b v, In a ranks -> In v (s_vars S) -> var_vec_ok S a b v = vec_ok S a b.
  Proof.
    intros a b v Ia Iv. unfold var_vec_ok. replace (forallb _ _) with true; [apply andb_true_r|]. symmetry. apply forallb_forall. intros [| |j vlen lh rh] Id; try reflexivity.
    destruct (var_dom_ok v j vlen lh rh Iv Id) as (Lj & Hv & Hl & Hr). apply can_round_true; assumption.
  Qed.
  Lemma man_sym : forall a b, man_dist S a b = man_dist S b a.
  Proof. intros. unfold man_dist. f_equal. apply map_ext. intros j. unfold dlt. lia. Qed.
  Definition adj (a b : xrank) : Prop := forall j, (j < nd)%nat -> -1 <= dlt a b j <= 1.
  Lemma adj_sym : forall a b, adj a b -> adj b a.
  Proof. intros a b H j Lj. specialize (H j Lj). unfold dlt in *. lia. Qed.
  Lemma nranks_gt1 : forall a b j, In a ranks -> In b ranks -> (j < nd)%nat -> dlt a b j <> 0 -> 1 < pos j (j_nranks J).
  Proof. intros a b j Ia Ib Lj H. destruct grid_ex as (P & _ & _ & Pr). destruct (Pr a j Ia Lj) as (A & _). destruct (Pr b j Ib Lj) as (B & _). unfold dlt in H. lia. Qed.
  Lemma range_agree : forall a b vec v d, In a ranks -> In b ranks -> adj a b -> In v (s_vars S) -> In d (v_dims v) -> copy_range S true a b vec d = copy_range S false b a vec d.
  Proof.
    intros a b vec v [al|f n|j vlen lh rh] Ia Ib Ad Iv Id; try reflexivity. destruct (var_dom_ok v j vlen lh rh Iv Id) as (Lj & Hv & Hl & Hr).
    specialize (Ad j Lj). unfold copy_range. unfold outer_idx, halo_sizes.
    assert (dlt b a j = - dlt a b j) as Ed by (unfold dlt; lia). rewrite Ed.
    destruct (Z.eq_dec (dlt a b j) 0) as [E0|N0].
    - rewrite E0. cbn [Z.eqb Z.opp]. assert (xr_c a j = xr_c b j) as Ec by (unfold dlt in E0; lia). destruct (ofs_same a b j Ia Ib Lj Ec) as (-> & ->).
      unfold is_first, is_last. rewrite Ec. destruct vec; reflexivity.
    - pose proof (shift_same a b j (nranks_gt1 a b j Ia Ib Lj N0)) as Es. rewrite Es.
      assert (dlt a b j = -1 \/ dlt a b j = 1) as [E|E] by lia; rewrite E; change (- (-1)) with 1; change (-1 =? -1) with true; change (1 =? -1) with false; change (1 =? 1) with true; change (- (1)) with (-1); change (-1 =? -1) with true; cbv iota.
      + pose proof (ofs_next b a j Ib Ia Lj ltac:(unfold dlt in E; lia)) as O. destruct vec; cbn [fst snd]; f_equal; lia.
      + pose proof (ofs_next a b j Ia Ib Lj ltac:(unfold dlt in E; lia)) as O. destruct vec; cbn [fst snd]; f_equal; lia.
  Qed.
  Theorem agree : forall a b v, In a ranks -> In b ranks -> adj a b -> In v (s_vars S) -> mpi_buf S true a b v = mpi_buf S false b a v.
  Proof.
    intros a b v Ia Ib Ad Iv. unfold mpi_buf. rewrite (var_vec_eq a b), (var_vec_eq b a) by assumption. rewrite (vec_sym b a), (man_sym b a).
    assert (map (copy_range S true a b (vec_ok S a b)) (v_dims v) = map (copy_range S false b a (vec_ok S a b)) (v_dims v)) as ->.
    { apply map_ext_in. intros d Id. apply (range_agree a b _ v); assumption. }
    replace (existsb (fun d => match d with XDom j _ _ _ => (dlt b a j =? -1) || (dlt b a j =? 1) | _ => false end) (v_dims v))
      with (existsb (fun d => match d with XDom j _ _ _ => (dlt a b j =? -1) || (dlt a b j =? 1) | _ => false end) (v_dims v)); [reflexivity|].
    clear. induction (v_dims v) as [|d ds IH]; [reflexivity|]. cbn [existsb]. rewrite IH. f_equal. destruct d; try reflexivity. unfold dlt. lia.
  Qed.

  (* neighbors *)
  Lemma find_rank_spec : forall c r, length c = nd -> find_rank S ranks c = Some r -> In r ranks /\ forall j, (j < nd)%nat -> xr_c r j = pos j c.
  Proof.
    intros c r Lc H. unfold find_rank in H. apply find_some in H. destruct H as (I & H). split; [exact I|]. rewrite forallb_seq in H. intros j Lj. specialize (H j Lj). lia.
  Qed.
  Lemma neighbors_In : forall a b, In a ranks -> (In b (neighbors S ranks a) <-> In b ranks /\ adj a b /\ exists j, (j < nd)%nat /\ dlt a b j <> 0).
  Proof.
    intros a b Ia. unfold neighbors. rewrite in_flat_map. split.
    - intros (o & Io & H). destruct (neighbor_at S ranks a o) as [b'|] eqn:E; [|destruct H]. destruct H as [->|[]]. unfold neighbor_at in E.
      destruct (forallb _ _) eqn:F; [discriminate|]. apply find_rank_spec in E; [|rewrite map_length, seq_length; reflexivity]. destruct E as (Ib & E).
      assert (forall j, (j < nd)%nat -> dlt a b j = pos j o - 1) as D. { intros j Lj. unfold dlt. rewrite E, pos_map_seq by exact Lj. lia. }
      assert (forall j, (j < nd)%nat -> 0 <= pos j o < 3) as R.
      { unfold nb_offsets in Io. apply in_flat_map in Io. destruct Io as (i & Ii & Io). apply zseq_In in Ii.
        assert (allpos (repeat 3 nd)) as Ap by (apply Forall_forall; intros x Hx; apply repeat_spec in Hx; lia).
        rewrite unlayout_vals_point in Io by (auto; lia). destruct Io as [<-|[]]. pose proof (point_of_in (j_fi J) (repeat 3 nd) i Ap) as Q. intros j Lj.
        assert (forall ss os k, in_sizes ss os -> (k < length ss)%nat -> 0 <= pos k os < pos k ss) as Z.
        { clear. intros ss os k H. revert k. induction H as [|s o ss os Hs H IH]; intros k Lk; cbn in Lk; [lia|]. destruct k; unfold pos; cbn [nth]; [exact Hs|]. apply IH. lia. }
        specialize (Z _ _ j Q ltac:(rewrite repeat_length; exact Lj)). unfold pos in *. rewrite (nth_indep (repeat 3 nd) 0 3) in Z by (rewrite repeat_length; exact Lj). rewrite nth_repeat in Z. exact Z. }
      split; [exact Ib|]. split; [intros j Lj; rewrite D by exact Lj; specialize (R j Lj); lia|].
      apply not_true_iff_false in F. rewrite forallb_seq in F.
      destruct (forallb (fun j => dlt a b j =? 0) (seq 0 nd)) eqn:G.
      + exfalso. apply F. intros j Lj. rewrite forallb_seq in G. specialize (G j Lj). rewrite D in G by exact Lj. lia.
      + clear - G. induction (seq 0 nd) as [|x l IH] eqn:El in G |- *; [discriminate|]. 
        assert (exists j, In j (x :: l) /\ dlt a b j <> 0) as (j & Ij & Hj).
        { clear - G. induction (x :: l) as [|y m IH]; [discriminate|]. cbn in G. destruct (dlt a b y =? 0) eqn:E; [destruct (IH G) as (j & Ij & Hj); exists j; split; [right; exact Ij|exact Hj]|]. exists y. split; [left; reflexivity|lia]. }
        exists j. split; [|exact Hj]. rewrite <- El in Ij. apply in_seq in Ij. lia.
    - intros (Ib & Ad & (j0 & Lj0 & H0)). set (o := map (fun j => dlt a b j + 1) (seq 0 nd)). exists o.
      assert (forall j, (j < nd)%nat -> pos j o = dlt a b j + 1) as Po by (intros; apply pos_map_seq; assumption).
      split.
      + unfold nb_offsets. apply in_flat_map.
        assert (allpos (repeat 3 nd)) as Ap by (apply Forall_forall; intros x Hx; apply repeat_spec in Hx; lia).
        assert (in_sizes (repeat 3 nd) o) as Io.
        { unfold o. clear - Ad. assert (forall l, (forall j, In j l -> (j < nd)%nat) -> in_sizes (repeat 3 (length l)) (map (fun j => dlt a b j + 1) l)) as W.
          { induction l as [|x l IH]; intros H; [constructor|]. constructor; [specialize (Ad x (H x ltac:(left; reflexivity))); lia|]. apply IH. intros; apply H; right; assumption. }
          specialize (W (seq 0 nd)). rewrite seq_length in W. apply W. intros j Ij. apply in_seq in Ij. lia. }
        destruct (layout_bijection (j_fi J) (repeat 3 nd) Ap) as (B & _). destruct (B o Io) as (_ & R & U).
        exists (layout_vals (j_fi J) (repeat 3 nd) o). split; [apply zseq_In; exact R|]. rewrite U. left. reflexivity.
      + unfold neighbor_at. destruct (forallb _ _) eqn:F.
        * rewrite forallb_seq in F. specialize (F j0 Lj0). rewrite Po in F by exact Lj0. lia.
        * set (c := map (fun j => xr_c a j + pos j o - 1) (seq 0 nd)).
          assert (forall j, (j < nd)%nat -> pos j c = xr_c b j) as Pc. { intros j Lj. unfold c. rewrite pos_map_seq, Po by exact Lj. unfold dlt. lia. }
          destruct (find_rank S ranks c) as [b'|] eqn:E.
          -- left. apply find_rank_spec in E; [|unfold c; rewrite map_length, seq_length; reflexivity]. destruct E as (Ib' & E). apply same_xrank; auto.
             intros j Lj. rewrite E, Pc by exact Lj. reflexivity.
          -- unfold find_rank in E. apply (find_none _ _ E) in Ib. apply not_true_iff_false in Ib. apply Ib. apply forallb_seq. intros j Lj. rewrite Pc by exact Lj. apply Z.eqb_refl.
  Qed.

  Definition insl (a b : xrank) (v : xvar) (t : Z) (q : list Z) : Prop :=
    Forall2 (fun d x => match d with XStep _ => t <= x < t + 1 | _ => fst (copy_range S false a b (vec_ok S a b) d) <= x < snd (copy_range S false a b (vec_ok S a b) d) end) (v_dims v) q.
  Definition maxd (v : xvar) : Z := if 0 <? s_wf S then Z.of_nat nd else v_l1 v.
  Lemma F2_In_l : forall A B (R : A -> B -> Prop) l l' a, Forall2 R l l' -> In a l -> exists b, In b l' /\ R a b.
  Proof. intros A B R l l' a H. induction H; intros []; [subst; eexists; split; [left; reflexivity|assumption]|]. destruct (IHForall2 H1) as (b & I & Rb). exists b. split; [right; exact I|exact Rb]. Qed.
  Lemma F2_and : forall A B (R Q : A -> B -> Prop) l l', Forall2 R l l' -> Forall2 Q l l' -> Forall2 (fun a b => R a b /\ Q a b) l l'.
  Proof. intros A B R Q l l' H. induction H; intros H2; inversion H2; subst; constructor; auto. Qed.
  Lemma F2_impl_in : forall A B (R Q : A -> B -> Prop) l l', (forall a b, In a l -> R a b -> Q a b) -> Forall2 R l l' -> Forall2 Q l l'.
  Proof. intros A B R Q l l' H F. induction F; constructor; [apply H; [left; reflexivity|assumption]|]. apply IHF. intros; apply H; auto; right; assumption. Qed.

  Lemma buf_some : forall send a b v m, In a ranks -> In v (s_vars S) -> mpi_buf S send a b v = Some m ->
    mb_box m = map (copy_range S send a b (vec_ok S a b)) (v_dims v) /\ man_dist S a b <= maxd v /\
    exists j vlen lh rh, In (XDom j vlen lh rh) (v_dims v) /\ (dlt a b j = -1 \/ dlt a b j = 1).
  Proof.
    intros send a b v m Ia Iv H. unfold mpi_buf in H. rewrite var_vec_eq in H by assumption. fold (maxd v) in H. destruct (maxd v <? _) eqn:E1; [discriminate|].
    destruct (existsb _ (v_dims v)) eqn:E2; cbn [negb] in H; [|discriminate]. destruct (_ || _) in H; [discriminate|]. injection H as <-. cbn. split; [reflexivity|]. split; [lia|].
    apply existsb_exists in E2. destruct E2 as ([| |j vlen lh rh] & Id & E2); try discriminate. exists j, vlen, lh, rh. split; [exact Id|lia].
  Qed.
  Lemma dims_of : forall v j vlen lh rh (R : xd -> Z -> Prop) q, In (XDom j vlen lh rh) (v_dims v) -> Forall2 R (v_dims v) q -> exists x, R (XDom j vlen lh rh) x.
  Proof. intros v j vlen lh rh R q I H. destruct (F2_In_l _ _ _ _ _ _ H I) as (x & _ & Hx). eauto. Qed.

  Lemma recv_ranges : forall a b v j vlen lh rh, In a ranks -> In b ranks -> adj a b -> In v (s_vars S) -> In (XDom j vlen lh rh) (v_dims v) ->
    let r := copy_range S false a b (vec_ok S a b) (XDom j vlen lh rh) in
    (dlt a b j = -1 -> xr_ofs b j <= fst r /\ fst r <= xr_ofs a j - (lh + shift_pts S a j) /\ snd r = xr_ofs a j /\ xr_ofs a j = xr_ofs b j + xr_size b j) /\
    (dlt a b j = 1 -> fst r = xr_ofs a j + xr_size a j /\ xr_ofs a j + xr_size a j + (rh + shift_pts S a j) <= snd r /\ snd r <= xr_ofs b j + xr_size b j /\ xr_ofs b j = xr_ofs a j + xr_size a j) /\
    (dlt a b j = 0 -> fst r <= xr_ofs a j /\ xr_ofs a j + xr_size a j <= snd r /\ xr_ofs b j = xr_ofs a j /\ xr_size b j = xr_size a j /\
      (aligned_ranks S ranks -> (is_first a j = false -> fst r = xr_ofs a j) /\ (is_last S a j = false -> snd r = xr_ofs a j + xr_size a j))).
  Proof.
    intros a b v j vlen lh rh Ia Ib Ad Iv Id. cbv zeta. destruct (var_dom_ok v j vlen lh rh Iv Id) as (Lj & Hv & Hl & Hr). destruct (max_halo_ge S v j vlen lh rh Iv Id) as (Ml & Mr).
    pose proof (fo_pos j Lj) as F. assert (1 <= vlen) as Hv1 by lia. pose proof (shift_nonneg a j Lj) as Sh.
    assert (vec_ok S a b = true -> s_force S = false /\ Z.rem (xr_size a j) vlen = 0 /\ Z.rem (xr_size b j) vlen = 0) as Vm.
    { intros E. unfold vec_ok in E. apply andb_true_iff in E. destruct E as (E & Eb). apply andb_true_iff in E. destruct E as (Ef & Ea). unfold all_mults in Ea, Eb. rewrite forallb_seq in Ea, Eb.
      specialize (Ea j Lj). specialize (Eb j Lj). fold (fo j) in Ea, Eb. split; [destruct (s_force S); [discriminate|reflexivity]|]. destruct Hv as [->| ->]; [rewrite !Z.rem_1_r; auto|]. lia. }
    assert (forall x, (1 < pos j (j_nranks J)) -> 0 <= x -> x <= max_halo S j -> x + shift_pts S a j <= (if vec_ok S a b then ROUND_UP (x + shift_pts S a j) vlen else x + shift_pts S a j) <= xr_size b j) as RU.
    { intros x Hn Hx Hm. pose proof (size_ge b j Ib Lj Hn) as Sg. rewrite <- (shift_same a b j Hn) in Sg. destruct (vec_ok S a b) eqn:E; [|lia].
      destruct (Vm eq_refl) as (_ & _ & Vb). split; [apply ru_bounds; lia|]. apply ru_le_mult; lia. }
    unfold copy_range, outer_idx, halo_sizes.
    split; [|split]; intros E; rewrite E; change (-1 =? -1) with true; change (1 =? -1) with false; change (1 =? 1) with true; change (0 =? -1) with false; change (0 =? 1) with false; cbv iota.
    - pose proof (ofs_next b a j Ib Ia Lj ltac:(unfold dlt in E; lia)) as O. specialize (RU lh (nranks_gt1 a b j Ia Ib Lj ltac:(lia)) Hl Ml).
      destruct (vec_ok S a b); cbn [fst snd] in *; lia.
    - pose proof (ofs_next a b j Ia Ib Lj ltac:(unfold dlt in E; lia)) as O. specialize (RU rh (nranks_gt1 a b j Ia Ib Lj ltac:(lia)) Hr Mr).
      destruct (vec_ok S a b); cbn [fst snd] in *; lia.
    - destruct (ofs_same a b j Ia Ib Lj ltac:(unfold dlt in E; lia)) as (O1 & O2).
      assert (0 <= (if is_first a j then lh else 0)) by (destruct (is_first a j); lia). assert (0 <= (if is_last S a j then rh else 0)) by (destruct (is_last S a j); lia).
      set (f0 := xr_ofs a j - (if is_first a j then lh else 0)) in *. set (e0 := xr_ofs a j + xr_size a j - 1 + (if is_last S a j then rh else 0)) in *.
      pose proof (round_down_flr_bounds f0 vlen ltac:(lia)) as (R1 & _). pose proof (round_up_flr_bounds (e0 + 1) vlen ltac:(lia)) as (R2 & _).
      split; [destruct (vec_ok S a b); cbn [fst snd]; subst f0 e0; lia|]. split; [destruct (vec_ok S a b); cbn [fst snd]; subst f0 e0; lia|]. split; [lia|]. split; [lia|].
      intros Al. destruct (vec_ok S a b) eqn:Ev; cbn [fst snd].
      + destruct (Vm eq_refl) as (Vf & Va & Vb). destruct Al as [Al|Al]; [congruence|]. pose proof (proj1 (Forall_forall _ _) Al a Ia) as Aa.
        destruct (coords_len a Ia) as (_ & Lsz & Lof). destruct Wf as (_ & _ & _ & Lf & _).
        assert (forall l1 l2, length l1 = length l2 -> (forall k, (k < length l1)%nat -> (pos k l2 | pos k l1)) -> Forall2 (fun n f => (f | n)) l1 l2) as F2i.
        { clear. induction l1 as [|x l1 IH]; intros [|y l2] E H; try discriminate; constructor; [apply (H 0%nat); cbn; lia|]. apply IH; [cbn in E; lia|]. intros k Lk. apply (H (Datatypes.S k)). cbn. lia. }
        assert (forall l1 l2 k, Forall2 (fun n f => (f | n)) l1 l2 -> (k < length l1)%nat -> (pos k l2 | pos k l1)) as F2e.
        { clear. intros l1 l2 k H. revert k. induction H as [|x y l1 l2 Hx H IH]; intros k Lk; cbn in Lk; [lia|]. destruct k; unfold pos; cbn [nth]; [exact Hx|]. apply IH. lia. }
        assert (forall k, (k < nd)%nat -> Z.rem (xr_size a k) (fo k) = 0) as Am.
        { unfold vec_ok in Ev. apply andb_true_iff in Ev. destruct Ev as (Ev & _). apply andb_true_iff in Ev. destruct Ev as (_ & Ev). unfold all_mults in Ev. rewrite forallb_seq in Ev. intros k Lk. specialize (Ev k Lk). unfold fo. lia. }
        assert (Forall2 (fun n f => (f | n)) (o_sizes (xr_o a)) (j_fold J)) as Fa.
        { apply F2i; [lia|]. rewrite Lsz. intros k Lk. apply divide_rem; [apply fo_pos, Lk|pose proof (size_pos a k Ia Lk); unfold xr_size in *; lia|apply Am, Lk]. }
        specialize (Aa Fa).
        assert (vlen | xr_ofs a j) as D1. { destruct Hv as [->| ->]; [apply Z.divide_1_l|]. apply (F2e _ _ j Aa). lia. }
        assert (vlen | xr_ofs a j + xr_size a j) as D2. { apply Z.divide_add_r; [exact D1|]. apply divide_rem; [lia|pose proof (size_pos a j Ia Lj); lia|exact Va]. }
        split; intros Ef.
        * subst f0. rewrite Ef, Z.sub_0_r. apply round_down_mult; assumption.
        * subst e0. rewrite Ef. replace (xr_ofs a j + xr_size a j - 1 + 0 + 1) with (xr_ofs a j + xr_size a j) by lia. rewrite round_up_mult' by assumption. lia.
      + subst f0 e0. split; intros ->; lia.
  Qed.
  Lemma dlt_cases : forall a b j, adj a b -> (j < nd)%nat -> dlt a b j = -1 \/ dlt a b j = 0 \/ dlt a b j = 1.
  Proof. intros a b j Ad Lj. specialize (Ad j Lj). lia. Qed.

  Lemma own_not : forall a b v t q j vlen lh rh, In a ranks -> In b ranks -> adj a b -> In v (s_vars S) -> In (XDom j vlen lh rh) (v_dims v) -> dlt a b j = -1 \/ dlt a b j = 1 ->
    owns v a q -> ~ insl a b v t q.
  Proof.
    intros a b v t q j vlen lh rh Ia Ib Ad Iv Id D O H. destruct (recv_ranges a b v j vlen lh rh Ia Ib Ad Iv Id) as (R1 & R2 & _). cbv zeta in R1, R2.
    pose proof (F2_and _ _ _ _ _ _ O H) as B. destruct (F2_In_l _ _ _ _ _ _ B Id) as (x & _ & (X1 & X2)). unfold xr_ofs, xr_size in *.
    destruct D as [D|D]; [specialize (R1 D)|specialize (R2 D)]; lia.
  Qed.
  Lemma insl_owner : forall a b v t q g, In a ranks -> In b ranks -> In g ranks -> adj a b -> In v (s_vars S) -> aligned_ranks S ranks -> owns v g q -> insl a b v t q -> owns v b q.
  Proof.
    intros a b v t q g Ia Ib Ig Ad Iv Al Og H. pose proof (F2_and _ _ _ _ _ _ Og H) as B. eapply F2_impl_in; [|exact B].
    intros [al|f n|j vlen lh rh] x Id (X1 & X2); [exact I|exact X1|]. destruct (var_dom_ok v j vlen lh rh Iv Id) as (Lj & _).
    destruct (recv_ranges a b v j vlen lh rh Ia Ib Ad Iv Id) as (R1 & R2 & R3). cbv zeta in R1, R2, R3.
    destruct (ofs_nonneg_end a j Ia Lj) as (_ & Z0 & Ze). destruct (ofs_nonneg_end g j Ig Lj) as (Zg & _).
    change (pos j (o_ofs (xr_o g))) with (xr_ofs g j) in X1. change (pos j (o_sizes (xr_o g))) with (xr_size g j) in X1.
    change (pos j (o_ofs (xr_o b))) with (xr_ofs b j). change (pos j (o_sizes (xr_o b))) with (xr_size b j).
    destruct (dlt_cases a b j Ad Lj) as [D|[D|D]]; [specialize (R1 D); lia| |specialize (R2 D); lia]. specialize (R3 D). destruct R3 as (_ & _ & E1 & E2 & R3). specialize (R3 Al).
    destruct R3 as (Rf & Rl). unfold is_first, is_last in Rf, Rl. rewrite E1, E2. split.
    - destruct (xr_c a j =? 0) eqn:E; [rewrite Z0 by lia; lia|specialize (Rf eq_refl); lia].
    - destruct (xr_c a j =? pos j (j_nranks J) - 1) eqn:E; [specialize (Ze g Ig ltac:(lia)); lia|specialize (Rl eq_refl); lia].
  Qed.
  Lemma insl_cover : forall a b v t q ext, In a ranks -> In b ranks -> adj a b -> In v (s_vars S) -> (forall j, (j < nd)%nat -> ext j <= shift_pts S a j) ->
    owns v b q -> in_halo ext v a q -> step_in v q [t] -> insl a b v t q.
  Proof.
    intros a b v t q ext Ia Ib Ad Iv He Ob Ha Hs. pose proof (F2_and _ _ _ _ _ _ Ob (F2_and _ _ _ _ _ _ Ha Hs)) as B. eapply F2_impl_in; [|exact B].
    intros [al|f n|j vlen lh rh] x Id (X1 & X2 & X3); [destruct X3 as [->|[]]; lia|cbn [copy_range fst snd]; lia|]. destruct (var_dom_ok v j vlen lh rh Iv Id) as (Lj & _).
    destruct (recv_ranges a b v j vlen lh rh Ia Ib Ad Iv Id) as (R1 & R2 & R3). cbv zeta in R1, R2, R3. specialize (He j Lj).
    change (pos j (o_ofs (xr_o a))) with (xr_ofs a j) in X2. change (pos j (o_sizes (xr_o a))) with (xr_size a j) in X2.
    change (pos j (o_ofs (xr_o b))) with (xr_ofs b j) in X1. change (pos j (o_sizes (xr_o b))) with (xr_size b j) in X1.
    destruct (dlt_cases a b j Ad Lj) as [D|[D|D]]; [specialize (R1 D); lia|specialize (R3 D); lia|specialize (R2 D); lia].
  Qed.
  Lemma buf_exists : forall a b v t q ext, In a ranks -> In b ranks -> adj a b -> In v (s_vars S) -> (forall j, (j < nd)%nat -> ext j <= shift_pts S a j) ->
    owns v b q -> in_halo ext v a q -> step_in v q [t] -> ~ owns v a q -> man_dist S a b <= maxd v -> exists m, mpi_buf S false a b v = Some m.
  Proof.
    intros a b v t q ext Ia Ib Ad Iv He Ob Ha Hs Na Md. pose proof (insl_cover a b v t q ext Ia Ib Ad Iv He Ob Ha Hs) as Hi.
    unfold mpi_buf. rewrite var_vec_eq by assumption. fold (maxd v). replace (maxd v <? man_dist S a b) with false by lia.
    destruct (existsb _ (v_dims v)) eqn:E.
    - cbn [negb]. destruct (_ || _) eqn:Z; [|eauto]. exfalso. apply orb_true_iff in Z. rewrite map_length in Z. destruct Z as [Z|Z].
      + apply Nat.eqb_eq in Z. destruct (v_dims v); [discriminate|discriminate].
      + apply Z.eqb_eq in Z. rewrite map_map in Z. assert (Forall (fun x => 0 < x) (map (fun d => snd (copy_range S false a b (vec_ok S a b) d) - fst (copy_range S false a b (vec_ok S a b) d)) (v_dims v))) as P.
        { apply Forall_forall. intros y Iy. apply in_map_iff in Iy. destruct Iy as (d & <- & Id). destruct (F2_In_l _ _ _ _ _ _ Hi Id) as (x & _ & X). destruct d as [al|f n|j vlen lh rh].
          - destruct Rd as (_ & F & _). pose proof (proj1 (Forall_forall _ _) F v Iv) as K. pose proof (proj1 (Forall_forall _ _) K _ Id) as K2. cbn in *. lia.
          - lia.
          - lia. }
        apply zprod_pos in P. lia.
    - exfalso. apply Na. assert (forall j vlen lh rh, In (XDom j vlen lh rh) (v_dims v) -> dlt a b j = 0) as D0.
      { intros j vlen lh rh Id. destruct (var_dom_ok v j vlen lh rh Iv Id) as (Lj & _). specialize (Ad j Lj).
        destruct (Z.eq_dec (dlt a b j) 0) as [Q|Q]; [exact Q|]. exfalso. apply not_true_iff_false in E. apply E. apply existsb_exists. exists (XDom j vlen lh rh). split; [exact Id|lia]. }
      eapply F2_impl_in; [|exact Ob]. intros [al|f n|j vlen lh rh] x Id X; try exact X. specialize (D0 j vlen lh rh Id). destruct (var_dom_ok v j vlen lh rh Iv Id) as (Lj & _).
      destruct (ofs_same a b j Ia Ib Lj ltac:(unfold dlt in D0; lia)) as (O1 & O2). unfold xr_ofs, xr_size in *. lia.
  Qed.

  (* ---- the same vars have buffers on all ranks ---- *)
  Definition ext_of (j : nat) : Z := ROUND_UP (max_halo S j) (fo j) * num_wf_shifts S.
  Lemma ext_eq : forall a j, 1 < pos j (j_nranks J) -> shift_pts S a j = ext_of j.
  Proof. intros a j H. unfold shift_pts, ext_of, fo. replace (1 <? pos j (j_nranks J)) with true by lia. rewrite orb_true_r. reflexivity. Qed.
  Lemma ru_pos : forall x v, 1 <= v -> 0 <= x -> (ROUND_UP x v <> 0 <-> x <> 0) /\ 0 <= ROUND_UP x v.
  Proof. clear. intros x v Hv Hx. pose proof (ru_bounds x v Hv Hx). split; [|lia]. split; [|lia]. intros H1 ->. unfold ROUND_UP in H1. rewrite CEIL_DIV_spec in H1 by lia. rewrite (Z.div_small (0 + v - 1)) in H1; lia. Qed.
  Definition wd (send : bool) (a b : xrank) (d : xd) : Z := let r := copy_range S send a b (vec_ok S a b) d in snd r - fst r.
  (* which halo counts *)
  Definition rside (send : bool) (dl : Z) : bool := if send then dl =? -1 else dl =? 1.
  Lemma wd_ne : forall send a b v j vlen lh rh, In a ranks -> In b ranks -> In v (s_vars S) -> In (XDom j vlen lh rh) (v_dims v) ->
    0 <= wd send a b (XDom j vlen lh rh) /\
    (dlt a b j = 0 -> wd send a b (XDom j vlen lh rh) <> 0) /\
    (dlt a b j = -1 \/ dlt a b j = 1 -> (wd send a b (XDom j vlen lh rh) <> 0 <-> (if rside send (dlt a b j) then rh else lh) + ext_of j <> 0)) \/ (dlt a b j <> 0 /\ dlt a b j <> -1 /\ dlt a b j <> 1).
  Proof.
    intros send a b v j vlen lh rh Ia Ib Iv Id. destruct (var_dom_ok v j vlen lh rh Iv Id) as (Lj & Hv & Hl & Hr). pose proof (fo_pos j Lj) as Hf.
    destruct (Z.eq_dec (dlt a b j) 0) as [E0|N0]; [|destruct (Z.eq_dec (dlt a b j) (-1)) as [E1|N1]; [|destruct (Z.eq_dec (dlt a b j) 1) as [E2|N2]; [|right; auto]]]; left.
    - unfold wd, copy_range, outer_idx, halo_sizes. rewrite E0. change (0 =? -1) with false. change (0 =? 1) with false. cbv iota.
      pose proof (size_pos a j Ia Lj) as Sp.
      assert (0 <= (if is_first a j then lh else 0)) as X1 by (destruct (is_first a j); lia).
      assert (0 <= (if is_last S a j then rh else 0)) as X2 by (destruct (is_last S a j); lia).
      destruct (vec_ok S a b).
      + pose proof (round_down_flr_bounds (xr_ofs a j - (if is_first a j then lh else 0)) vlen ltac:(lia)).
        pose proof (round_up_flr_bounds (xr_ofs a j + xr_size a j - 1 + (if is_last S a j then rh else 0) + 1) vlen ltac:(lia)). cbn [fst snd]. split; [lia|]. split; lia.
      + cbn [fst snd]. split; [lia|]. split; lia.
    - pose proof (nranks_gt1 a b j Ia Ib Lj N0) as Hn. pose proof (ext_eq a j Hn) as Ee. pose proof (shift_nonneg a j Lj) as Es. rewrite Ee in Es.
      unfold wd, copy_range, outer_idx, halo_sizes. rewrite E1, Ee. change (-1 =? -1) with true. cbv iota. unfold rside. change (-1 =? -1) with true. change (-1 =? 1) with false.
      pose proof (ru_pos (lh + ext_of j) vlen ltac:(lia) ltac:(lia)) as (R1 & R1'). pose proof (ru_pos (rh + ext_of j) vlen ltac:(lia) ltac:(lia)) as (R2 & R2').
      destruct send, (vec_ok S a b); cbn [fst snd]; (split; [lia|split; [lia|intros _]]).
      + rewrite <- R2. split; lia.
      + split; lia.
      + rewrite <- R1. split; lia.
      + split; lia.
    - pose proof (nranks_gt1 a b j Ia Ib Lj N0) as Hn. pose proof (ext_eq a j Hn) as Ee. pose proof (shift_nonneg a j Lj) as Es. rewrite Ee in Es.
      unfold wd, copy_range, outer_idx, halo_sizes. rewrite E2, Ee. change (1 =? -1) with false. change (1 =? 1) with true. cbv iota. unfold rside. change (1 =? -1) with false. change (1 =? 1) with true.
      pose proof (ru_pos (lh + ext_of j) vlen ltac:(lia) ltac:(lia)) as (R1 & R1'). pose proof (ru_pos (rh + ext_of j) vlen ltac:(lia) ltac:(lia)) as (R2 & R2').
      destruct send, (vec_ok S a b); cbn [fst snd]; (split; [lia|split; [lia|intros _]]).
      + rewrite <- R1. split; lia.
      + split; lia.
      + rewrite <- R2. split; lia.
      + split; lia.
  Qed.
  Lemma zprod_ne : forall l, zprod l <> 0 <-> Forall (fun x => x <> 0) l.
  Proof. clear. induction l as [|x l IH]; cbn [zprod]; [split; [constructor|lia]|]. split; [intros H; constructor; [nia|apply IH; nia]|]. intros H. inversion H; subst. apply IH in H3. nia. Qed.
  Lemma buf_iff : forall send a b v, In a ranks -> In v (s_vars S) ->
    (mpi_buf S send a b v <> None <-> man_dist S a b <= maxd v /\ (exists j vlen lh rh, In (XDom j vlen lh rh) (v_dims v) /\ (dlt a b j = -1 \/ dlt a b j = 1)) /\
      Forall (fun d => wd send a b d <> 0) (v_dims v)).
  Proof.
    intros send a b v Ia Iv. unfold mpi_buf. rewrite var_vec_eq by assumption. fold (maxd v).
    assert (zprod (map (fun r => snd r - fst r) (map (copy_range S send a b (vec_ok S a b)) (v_dims v))) <> 0 <-> Forall (fun d => wd send a b d <> 0) (v_dims v)) as Ez.
    { rewrite zprod_ne, map_map, Forall_map. reflexivity. }
    destruct (maxd v <? man_dist S a b) eqn:E1; [split; [congruence|intros (X & _); lia]|].
    destruct (existsb _ (v_dims v)) eqn:E2; cbn [negb].
    - apply existsb_exists in E2. destruct E2 as ([| |j vlen lh rh] & Id & E2); try discriminate.
      assert (length (map (copy_range S send a b (vec_ok S a b)) (v_dims v)) <> 0%nat) as Ln by (rewrite map_length; destruct (v_dims v); [destruct Id|discriminate]).
      match goal with |- context [if ?x then None else Some _] => destruct x eqn:E3 end.
      + split; [intros X; exfalso; apply X; reflexivity|]. intros (_ & _ & X). apply Ez in X. lia.
      + split; [|discriminate]. intros _. split; [lia|]. split; [exists j, vlen, lh, rh; split; [exact Id|lia]|]. apply Ez. lia.
    - split; [congruence|]. intros (_ & (j & vlen & lh & rh & Id & Hd) & _). exfalso. apply not_true_iff_false in E2. apply E2. apply existsb_exists. exists (XDom j vlen lh rh). split; [exact Id|lia].
  Qed.
  Lemma has_iff : forall a v, In a ranks -> In v (s_vars S) -> (has_data S ranks a v = true <-> exists b send, In b (neighbors S ranks a) /\ mpi_buf S send a b v <> None).
  Proof.
    intros a v Ia Iv. unfold has_data. rewrite existsb_exists. split.
    - intros (b & Ib & H). destruct (mpi_buf S true a b v) eqn:E1; [exists b, true; split; [exact Ib|congruence]|]. destruct (mpi_buf S false a b v) eqn:E2; [|discriminate]. exists b, false. split; [exact Ib|congruence].
    - intros (b & send & Ib & H). exists b. split; [exact Ib|]. destruct send, (mpi_buf S true a b v), (mpi_buf S false a b v); congruence.
  Qed.
  Lemma step_rank : forall c j x, In c ranks -> (j < nd)%nat -> 0 <= x < pos j (j_nranks J) -> exists g, In g ranks /\ xr_c g j = x /\ forall i, (i < nd)%nat -> i <> j -> xr_c g i = xr_c c i.
  Proof.
    intros c j x Ic Lj Hx. destruct Rd as (H & _). destruct (setup_grid J given _ Wf H) as (P & _ & _ & _ & Pl & Pc & Pe).
    destruct (Pe (map (fun i => if (i =? j)%nat then x else xr_c c i) (seq 0 nd))) as (o & Io & Eo).
    { rewrite map_length, seq_length. reflexivity. }
    { intros i Li. rewrite pos_map_seq by exact Li. destruct (i =? j)%nat eqn:E; [assert (i = j) by lia; subst i; exact Hx|]. destruct (Pc (xr_o c) i ltac:(apply in_map; exact Ic) Li) as (Q & _). exact Q. }
    apply in_map_iff in Io. destruct Io as (g & <- & Ig). exists g. split; [exact Ig|]. unfold xr_c at 1. rewrite Eo. split; [rewrite pos_map_seq, Nat.eqb_refl by exact Lj; reflexivity|].
    intros i Li Ne. unfold xr_c at 1. rewrite Eo, pos_map_seq by exact Li. replace (i =? j)%nat with false by lia. reflexivity.
  Qed.
  Lemma man_one : forall c g j, (j < nd)%nat -> Z.abs (dlt c g j) = 1 -> (forall i, (i < nd)%nat -> i <> j -> dlt c g i = 0) -> man_dist S c g = 1.
  Proof.
    intros c g j Lj H1 H0. unfold man_dist.
    assert (forall m s, (s + m <= nd)%nat -> zsum (map (fun i => Z.abs (dlt c g i)) (seq s m)) = if ((s <=? j) && (j <? s + m))%nat then 1 else 0) as W.
    { induction m as [|m IH]; intros s Hs; cbn [seq map zsum fold_right].
      - destruct ((s <=? j) && (j <? s + 0))%nat eqn:E; [|reflexivity]. apply andb_true_iff in E. destruct E as (E1 & E2). apply Nat.leb_le in E1. apply Nat.ltb_lt in E2. lia.
      - change (fold_right Z.add 0 ?l) with (zsum l). rewrite IH by lia. destruct (Nat.eq_dec s j) as [->|Ne].
        + rewrite H1. destruct ((Datatypes.S j <=? j) && (j <? Datatypes.S j + m))%nat eqn:E; [apply andb_true_iff in E; destruct E as (E1 & _); apply Nat.leb_le in E1; lia|].
          replace ((j <=? j) && (j <? j + Datatypes.S m))%nat with true; [reflexivity|]. symmetry. apply andb_true_iff. split; [apply Nat.leb_le; lia|apply Nat.ltb_lt; lia].
        + rewrite H0 by lia. replace ((s <=? j) && (j <? s + Datatypes.S m))%nat with ((Datatypes.S s <=? j) && (j <? Datatypes.S s + m))%nat; [rewrite Z.add_0_l; reflexivity|].
          apply eq_true_iff_eq. rewrite !andb_true_iff, !Nat.leb_le, !Nat.ltb_lt. lia. }
    rewrite W by lia. replace ((0 <=? j) && (j <? 0 + nd))%nat with true; [reflexivity|]. symmetry. apply andb_true_iff. split; [apply Nat.leb_le; lia|apply Nat.ltb_lt; lia].
  Qed.
  Theorem same_vars_imp : forall a c v, In a ranks -> In c ranks -> In v (s_vars S) -> has_data S ranks a v = true -> has_data S ranks c v = true.
  Proof.
    intros a c v Ia Ic Iv H. apply has_iff in H; [|assumption..]. destruct H as (b & send & Ib & H). apply neighbors_In in Ib; [|exact Ia]. destruct Ib as (Ib & Ad & _).
    apply buf_iff in H; [|assumption..]. destruct H as (Md & (j & vlen & lh & rh & Id & Dj) & F). destruct (var_dom_ok v j vlen lh rh Iv Id) as (Lj & _).
    assert (1 < pos j (j_nranks J)) as Hn by (apply (nranks_gt1 a b j); auto; lia).
    (* the side that counts in dim j *)
    set (sd := rside send (dlt a b j)).
    assert (forall vl l r, In (XDom j vl l r) (v_dims v) -> (if sd then r else l) + ext_of j <> 0) as Hs.
    { intros vl l r Id'. pose proof (proj1 (Forall_forall _ _) F _ Id') as K. destruct (wd_ne send a b v j vl l r Ia Ib Iv Id') as [(_ & _ & K3)|K3]; [|lia]. apply K3; assumption. }
    assert (1 <= maxd v) as Hm.
    { assert (1 <= man_dist S a b); [|lia]. unfold man_dist. assert (forall l, In j l -> 1 <= zsum (map (fun i => Z.abs (dlt a b i)) l)) as W; [|apply W; apply in_seq; lia].
      clear - Dj. induction l as [|x l IH]; intros I; [destruct I|]. cbn [map zsum fold_right]. change (fold_right Z.add 0 ?l) with (zsum l).
      assert (0 <= zsum (map (fun i => Z.abs (dlt a b i)) l)) as N. { clear. induction l as [|y l IH]; [cbn; lia|]. cbn [map zsum fold_right]. change (fold_right Z.add 0 ?l) with (zsum l). lia. }
      destruct I as [->|I]; [lia|]. specialize (IH I). lia. }
    destruct grid_ex as (P & _ & _ & Pr). destruct (Pr c j Ic Lj) as (Hc & _).
    assert (exists g, In g ranks /\ (dlt c g j = -1 \/ dlt c g j = 1) /\ forall i, (i < nd)%nat -> i <> j -> dlt c g i = 0) as (g & Ig & Dg & D0).
    { destruct (Z.eq_dec (xr_c c j) 0) as [Z0|Z0].
      - destruct (step_rank c j (xr_c c j + 1) Ic Lj ltac:(lia)) as (g & Ig & E1 & E0). exists g. split; [exact Ig|]. split; [unfold dlt; lia|]. intros i Li Ne. unfold dlt. rewrite E0 by assumption. lia.
      - destruct (step_rank c j (xr_c c j - 1) Ic Lj ltac:(lia)) as (g & Ig & E1 & E0). exists g. split; [exact Ig|]. split; [unfold dlt; lia|]. intros i Li Ne. unfold dlt. rewrite E0 by assumption. lia. }
    apply has_iff; [assumption..|]. exists g, (if sd then dlt c g j =? -1 else dlt c g j =? 1).
    split. { apply neighbors_In; [exact Ic|]. split; [exact Ig|]. split; [|exists j; split; [exact Lj|lia]]. intros i Li. destruct (Nat.eq_dec i j) as [->|Ne]; [lia|]. rewrite D0 by assumption. lia. }
    apply buf_iff; [assumption..|]. split; [rewrite (man_one c g j) by (assumption || lia); exact Hm|]. split; [exists j, vlen, lh, rh; auto|].
    apply Forall_forall. intros d Idd. destruct d as [al|f n|i vl l r].
    - pose proof (proj1 (Forall_forall _ _) F _ Idd) as K. exact K.
    - pose proof (proj1 (Forall_forall _ _) F _ Idd) as K. exact K.
    - destruct (var_dom_ok v i vl l r Iv Idd) as (Li & _). set (snd' := if sd then dlt c g j =? -1 else dlt c g j =? 1). destruct (wd_ne snd' c g v i vl l r Ic Ig Iv Idd) as [(_ & K2 & K3)|K3].
      + destruct (Nat.eq_dec i j) as [->|Ne]; [|apply K2, D0; assumption]. apply K3; [exact Dg|]. specialize (Hs vl l r Idd).
        replace (rside snd' (dlt c g j)) with sd; [exact Hs|]. subst snd'. unfold rside. destruct sd, Dg as [-> | ->]; reflexivity.
      + destruct (Nat.eq_dec i j) as [->|Ne]; [lia|]. rewrite D0 in K3 by assumption. lia.
  Qed.
  Theorem same_vars : forall a c v, In a ranks -> In c ranks -> In v (s_vars S) -> has_data S ranks a v = has_data S ranks c v.
  Proof. intros a c v Ia Ic Iv. apply eq_true_iff_eq. split; apply same_vars_imp; assumption. Qed.
  (* ---- the exchange ---- *)
  Variable Val : Type.
  Variable ord : bool -> list (Z * Z) -> list (list Z).
  Hypothesis Or : order_ok ord.
  Lemma put_spec : forall pts (f : list Z -> Val) rest vals, exists vals', put Val pts (map f pts ++ rest) vals = Some (rest, vals') /\
    forall q, (In q pts /\ vals' q = f q) \/ (~ In q pts /\ vals' q = vals q).
  Proof.
    clear. intros pts f rest. induction pts as [|p pts IH]; intros vals; cbn [map app put].
    - exists vals. split; [reflexivity|]. intros q. right. split; [intros []|reflexivity].
    - destruct (IH (fun q => if list_eq_dec Z.eq_dec q p then f p else vals q)) as (w & E & H). exists w. split; [exact E|]. intros q. destruct (H q) as [(I & V)|(N & V)].
      + left. split; [right; exact I|exact V].
      + destruct (list_eq_dec Z.eq_dec q p) as [->|Ne]; [left; split; [left; reflexivity|exact V]|]. right. split; [|exact V]. intros [E2|I]; [congruence|contradiction].
  Qed.
  Lemma unpack_spec : forall v b steps (f : list Z -> Val) vals, exists vals', unpack Val ord v steps b (pack Val ord v steps b f) vals = Some vals' /\
    forall q, ((exists t, In t steps /\ In q (ord (mb_vec b) (step_box v t (mb_box b)))) /\ vals' q = f q) \/
              (~ (exists t, In t steps /\ In q (ord (mb_vec b) (step_box v t (mb_box b)))) /\ vals' q = vals q).
  Proof.
    clear. intros v b steps f. induction steps as [|t r IH]; intros vals; cbn [unpack pack flat_map].
    - exists vals. split; [reflexivity|]. intros q. right. split; [intros (t & [] & _)|reflexivity].
    - destruct (put_spec (ord (mb_vec b) (step_box v t (mb_box b))) f (pack Val ord v r b f) vals) as (w & E & H). unfold pack in E at 1. rewrite E.
      destruct (IH w) as (w' & E' & H'). exists w'. split; [exact E'|]. intros q. destruct (H' q) as [((t' & It & I) & V)|(N & V)].
      + left. split; [exists t'; split; [right; exact It|exact I]|exact V].
      + destruct (H q) as [(I & V')|(N' & V')]; [left; split; [exists t; split; [left; reflexivity|exact I]|congruence]|]. right. split; [|congruence].
        intros (t' & [->|It] & I); [contradiction|]. apply N. eauto.
  Qed.
  Lemma step_box_map : forall v t f, step_box v t (map f (v_dims v)) = map (fun d => match d with XStep _ => (t, t + 1) | _ => f d end) (v_dims v).
  Proof. clear. intros v t f. unfold step_box. induction (v_dims v) as [|d ds IH]; [reflexivity|]. cbn [map combine]. rewrite IH. destruct d; reflexivity. Qed.
  Lemma in_step_box : forall a b v t q vec m, In a ranks -> In v (s_vars S) -> mpi_buf S false a b v = Some m -> (In q (ord vec (step_box v t (mb_box m))) <-> insl a b v t q).
  Proof.
    intros a b v t q vec m Ia Iv E. destruct (buf_some false a b v m Ia Iv E) as (-> & _). rewrite (Or vec). rewrite step_box_map. unfold insl.
    generalize (v_dims v). clear. intros l. revert q. induction l as [|d l IH]; intros q.
    - split; intros H; inversion H; constructor.
    - cbn [map]. split; intros H; inversion H; subst; constructor; try (apply IH; assumption); destruct d; cbn [fst snd] in *; assumption.
  Qed.
  Variable v : xvar.
  Variable steps : list Z.
  Variable dirty : xrank -> bool.
  Variable st : xrank -> list Z -> Val.
  Hypothesis Iv : In v (s_vars S).
  Definition gets (a b : xrank) (q : list Z) : Prop := dirty b = true /\ mpi_buf S false a b v <> None /\ exists t, In t steps /\ insl a b v t q.
  Lemma recv_spec : forall a b vals, In a ranks -> In b ranks -> adj a b -> exists vals', recv_from S Val ord v steps dirty st a b vals = Ok vals' /\
    forall q, (gets a b q /\ vals' q = st b q) \/ (~ gets a b q /\ vals' q = vals q).
  Proof.
    intros a b vals Ia Ib Ad. unfold recv_from. rewrite (agree b a v Ib Ia (adj_sym a b Ad) Iv). unfold gets. destruct (mpi_buf S false a b v) as [m|] eqn:E.
    - destruct (dirty b) eqn:D.
      + destruct (unpack_spec v m steps (st b) vals) as (w & E2 & H). rewrite E2. exists w. split; [reflexivity|]. intros q. destruct (H q) as [((t & It & I) & V)|(N & V)].
        * left. split; [|exact V]. split; [reflexivity|]. split; [discriminate|]. exists t. split; [exact It|]. apply (in_step_box a b v t q (mb_vec m) m); assumption.
        * right. split; [|exact V]. intros (_ & _ & t & It & I). apply N. exists t. split; [exact It|]. apply (in_step_box a b v t q (mb_vec m) m); assumption.
      + exists vals. split; [reflexivity|]. intros q. right. split; [intros (X & _); discriminate|reflexivity].
    - exists vals. split; [reflexivity|]. intros q. right. split; [intros (_ & X & _); congruence|reflexivity].
  Qed.
  Lemma fold_spec : forall a l vals, In a ranks -> (forall b, In b l -> In b ranks /\ adj a b) ->
    exists vals', fold_left (fun acc b => rbind acc (recv_from S Val ord v steps dirty st a b)) l (Ok vals) = Ok vals' /\
    forall q, (exists b, In b l /\ gets a b q /\ vals' q = st b q) \/ ((forall b, In b l -> ~ gets a b q) /\ vals' q = vals q).
  Proof.
    intros a l. induction l as [|b l IH]; intros vals Ia H; cbn [fold_left].
    - exists vals. split; [reflexivity|]. intros q. right. split; [intros b []|reflexivity].
    - destruct (H b ltac:(left; reflexivity)) as (Ib & Ad). destruct (recv_spec a b vals Ia Ib Ad) as (w & E & R). cbn [rbind]. rewrite E.
      destruct (IH w Ia ltac:(intros; apply H; right; assumption)) as (w' & E' & R'). exists w'. split; [exact E'|]. intros q. destruct (R' q) as [(b' & I' & G & V)|(N & V)].
      + left. exists b'. split; [right; exact I'|]. auto.
      + destruct (R q) as [(G & V')|(N' & V')]; [left; exists b; split; [left; reflexivity|]; split; [exact G|congruence]|]. right. split; [|congruence].
        intros b' [->|I']; [exact N'|apply N, I'].
  Qed.
  Lemma next_adj : forall n a b, In a ranks -> In b ranks -> next_to n a b -> adj a b /\ man_dist S a b <= n /\ exists j, (j < nd)%nat /\ dlt a b j <> 0.
  Proof.
    intros n a b Ia Ib (Ne & _ & F & M). destruct (coords_len a Ia) as (La & _). destruct (coords_len b Ib) as (Lb & _).
    assert (forall l1 l2 j, Forall2 (fun x y => Z.abs (x - y) <= 1) l1 l2 -> (j < length l1)%nat -> Z.abs (pos j l1 - pos j l2) <= 1) as W.
    { clear. intros l1 l2 j H. revert j. induction H as [|x y l1 l2 Hx H IH]; intros j Lj; cbn in Lj; [lia|]. destruct j; unfold pos; cbn [nth]; [exact Hx|]. apply IH. lia. }
    assert (forall l1 l2, length l1 = length l2 -> zsum (map (fun e : Z * Z => Z.abs (fst e - snd e)) (combine l1 l2)) = zsum (map (fun j => Z.abs (pos j l2 - pos j l1)) (seq 0 (length l1)))) as W2.
    { clear. induction l1 as [|x l1 IH]; intros [|y l2] E; try discriminate; [reflexivity|]. cbn [combine map length seq zsum fold_right fst snd]. rewrite <- seq_shift, map_map.
      change (fold_right Z.add 0 ?l) with (zsum l). rewrite IH by (cbn in E; lia). 
      assert (Z.abs (x - y) = Z.abs (pos 0 (y :: l2) - pos 0 (x :: l1))) as -> by (unfold pos; cbn [nth]; lia). reflexivity. }
    split; [intros j Lj; specialize (W _ _ j F ltac:(lia)); unfold dlt, xr_c; lia|]. split.
    - rewrite W2 in M by lia. rewrite La in M. exact M.
    - destruct (forallb (fun j => dlt a b j =? 0) (seq 0 nd)) eqn:G.
      + exfalso. apply Ne. apply same_xrank; auto. intros j Lj. rewrite forallb_seq in G. specialize (G j Lj). unfold dlt in G. lia.
      + assert (forall l, forallb (fun j => dlt a b j =? 0) l = false -> exists j, In j l /\ dlt a b j <> 0) as K.
        { clear. induction l as [|y m IH]; intros G; [discriminate|]. cbn in G. destruct (dlt a b y =? 0) eqn:E; [destruct (IH G) as (j & Ij & Hj); exists j; split; [right; exact Ij|exact Hj]|]. exists y. split; [left; reflexivity|lia]. }
        destruct (K _ G) as (j & Ij & Hj). exists j. apply in_seq in Ij. split; [lia|exact Hj].
  Qed.
  (* every point: the packed value of a rank that sends it, or unchanged *)
  Theorem exchange_gets : forall a vals, In a ranks -> exists vals', exchange_rank S Val ord ranks v steps dirty st vals a = Ok vals' /\
    forall q, (exists b, In b ranks /\ adj a b /\ gets a b q /\ vals' q = st b q) \/
      ((forall b, In b ranks -> next_to (maxd v) a b -> ~ gets a b q) /\ vals' q = vals q).
  Proof.
    intros a vals Ia. unfold exchange_rank.
    destruct (fold_spec a (neighbors S ranks a) vals Ia) as (w & E & H). { intros b Ib. apply neighbors_In in Ib; [|exact Ia]. tauto. }
    exists w. split; [exact E|]. intros q. destruct (H q) as [(b & Ib & G & V)|(N & V)].
    - left. exists b. apply neighbors_In in Ib; [|exact Ia]. destruct Ib as (Ib & Ad & _). auto.
    - right. split; [|exact V]. intros b Ib Nx. apply N. apply neighbors_In; [exact Ia|]. destruct (next_adj _ a b Ia Ib Nx) as (Ad & _ & Dj). auto.
  Qed.
  Theorem exchange_ok : forall a vals, In a ranks -> exists vals', exchange_rank S Val ord ranks v steps dirty st vals a = Ok vals' /\
    (forall q, owns v a q -> vals' q = vals q) /\
    (aligned_ranks S ranks -> forall ext b t q x, In b ranks -> next_to (maxd v) a b -> dirty b = true -> (forall j, (j < nd)%nat -> ext j <= shift_pts S a j) ->
      owns v b q -> in_halo ext v a q -> ~ owns v a q -> In t steps -> step_in v q [t] -> (forall g, In g ranks -> owns v g q -> st g q = x) -> vals' q = x).
  Proof.
    intros a vals Ia. unfold exchange_rank.
    destruct (fold_spec a (neighbors S ranks a) vals Ia) as (w & E & H). { intros b Ib. apply neighbors_In in Ib; [|exact Ia]. tauto. }
    exists w. split; [exact E|]. split.
    - intros q O. destruct (H q) as [(b & Ib & (_ & G & t & _ & I) & _)|(_ & V)]; [|exact V]. exfalso.
      apply neighbors_In in Ib; [|exact Ia]. destruct Ib as (Ib & Ad & _). destruct (mpi_buf S false a b v) as [m|] eqn:Em; [|congruence].
      destruct (buf_some false a b v m Ia Iv Em) as (_ & _ & j & vlen & lh & rh & Id & D). exact (own_not a b v t q j vlen lh rh Ia Ib Ad Iv Id D O I).
    - intros Al ext b t q x Ib Nx Db He Ob Hh Na It Hs Hx. destruct (next_adj _ a b Ia Ib Nx) as (Ad & Md & Dj). destruct (H q) as [(b' & Ib' & (_ & _ & t' & _ & I) & V)|(N & _)].
      + apply neighbors_In in Ib'; [|exact Ia]. destruct Ib' as (Ib' & Ad' & _). rewrite V. apply Hx; [exact Ib'|]. apply (insl_owner a b' v t' q b); assumption.
      + exfalso. apply (N b); [apply neighbors_In; [exact Ia|]; auto|]. split; [exact Db|]. destruct (buf_exists a b v t q ext Ia Ib Ad Iv He Ob Hh Hs Na Md) as (m & ->).
        split; [discriminate|]. exists t. split; [exact It|]. apply (insl_cover a b v t q ext); assumption.
  Qed.
End X.

Lemma aligned_auto : forall S given ranks, ranks_wf (s_job S) given -> job_ready S given ranks -> j_find (s_job S) = true ->
  (forall j, (j < j_nd (s_job S))%nat -> 0 < pos j (j_gsz (s_job S))) -> Forall (fun n => 0 < n) (j_nranks (s_job S)) ->
  zprod (j_nranks (s_job S)) = Z.of_nat (length given) -> (forall r j, In r given -> (j < j_nd (s_job S))%nat -> pos j (k_sizes r) = 0) ->
  aligned_ranks S ranks.
Proof.
  intros S given ranks Wf Rd Fi Gp Np Cnt Au. right. apply Forall_forall. intros r Ir _. destruct (coords_len S given ranks Wf Rd r Ir) as (_ & _ & Lo).
  destruct Rd as (H & _). pose proof (auto_aligned _ _ _ Wf Fi Gp Np Cnt Au H (xr_o r)) as D. specialize (fun j => D j ltac:(apply in_map; exact Ir)).
  destruct Wf as (_ & _ & _ & Lf & _). revert Lo Lf D. generalize (j_nd (s_job S)), (o_ofs (xr_o r)), (j_fold (s_job S)). clear. intros n l f Lo Lf D. rewrite <- Lo in *. clear n Lo.
  revert f Lf D. induction l as [|x l IH]; intros [|y f] Lf D; try discriminate; constructor.
  - apply (D O). cbn. lia.
  - apply IH; [cbn in Lf; lia|]. intros j Lj. apply (D (Datatypes.S j)). cbn. lia.
Qed.
