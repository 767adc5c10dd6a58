(* The events of one mega-block: what they cover, and in which order. *)
From Coq Require Import ZifyBool Bool.
From Verif Require Import Base Cover_Spec Idiv_Model Idiv_Proofs Loops_Model Loops_Spec LoopsTop_Proofs Scan_Model Scan_Proofs Combo_Model Combo_Spec Combo_Proofs
  Tile_Model Sched_Spec Sched_Proofs Sched2_Proofs TileLoops_Proofs TileGeo_Proofs TileSteps_Proofs.

Definition td0 : tdim := mkTdim 1 0 1 0 0 0 0 0 1 0 1 0 1 1 1 1 1 1 1.

(* --- lists of dims --- *)
Lemma shift_mega_len : forall wf sec k ds bbs base old j0, length bbs = length ds -> length base = length ds -> length old = length ds ->
  length (snd (shift_mega wf sec j0 k ds bbs base old)) = length ds.
Proof.
  induction ds as [|d ds IH]; intros [|b bbs] [|a base] [|o old] j0 L1 L2 L3; cbn in *; try lia.
  destruct (snd (shift1 wf sec j0 k d b a) <=? fst (shift1 wf sec j0 k d b a)) eqn:E; [cbn; lia|].
  specialize (IH bbs base old (S j0) ltac:(lia) ltac:(lia) ltac:(lia)). destruct (shift_mega wf sec (S j0) k ds bbs base old) as (ok, l). cbn in *. lia.
Qed.
Lemma shift_mega_spec : forall wf sec k ds bbs base old j0, length bbs = length ds -> length base = length ds -> length old = length ds ->
  let r := shift_mega wf sec j0 k ds bbs base old in
  let s := fun j => shift1 wf sec (j0 + j) k (nth j ds td0) (nth j bbs iv0) (nth j base iv0) in
  (fst r = true <-> forall j, (j < length ds)%nat -> fst (s j) < snd (s j)) /\
  (fst r = true -> forall j, (j < length ds)%nat -> nth j (snd r) iv0 = s j).
Proof.
  induction ds as [|d ds IH]; intros [|b bbs] [|a base] [|o old] j0 L1 L2 L3; cbv zeta; cbn [length] in *; try lia.
  - cbn. split; [split; [intros _ j Hj; lia|reflexivity]|intros _ j Hj; lia].
  - cbn [shift_mega]. specialize (IH bbs base old (S j0) ltac:(lia) ltac:(lia) ltac:(lia)). cbv zeta in IH.
    destruct (shift_mega wf sec (S j0) k ds bbs base old) as (ok, l). cbn [fst snd] in IH. destruct IH as (I1 & I2).
    destruct (snd (shift1 wf sec j0 k d b a) <=? fst (shift1 wf sec j0 k d b a)) eqn:E; cbn [fst snd].
    + split; [|discriminate]. split; [discriminate|]. intros H. specialize (H 0%nat ltac:(lia)). cbn [nth] in H. rewrite Nat.add_0_r in H. lia.
    + split.
      * rewrite I1. split.
        -- intros H [|j] Hj; cbn [nth]; [rewrite Nat.add_0_r; lia|]. specialize (H j ltac:(lia)). rewrite Nat.add_succ_comm in H. exact H.
        -- intros H j Hj. specialize (H (S j) ltac:(lia)). cbn [nth] in H. rewrite Nat.add_succ_comm. exact H.
      * intros Hok [|j] Hj; cbn [nth]; [rewrite Nat.add_0_r; reflexivity|]. rewrite (I2 Hok j ltac:(lia)), Nat.add_succ_comm. reflexivity.
Qed.
Lemma shift_micro_spec : forall one phase mask k ds mb adj blk mega ix j0 p,
  length mb = length ds -> length adj = length ds -> length blk = length ds -> length mega = length ds -> length ix = length ds ->
  ((exists box, shift_micro one phase mask j0 k ds mb adj blk mega ix = Some box /\ in_box box p = true) <->
   (length p = length ds /\ forall j, (j < length ds)%nat ->
      exists r, micro1 one ((0 <? phase) && Z.testbit mask (Z.of_nat (j0 + j))) k (nth j ds td0) (nth j mb iv0) (nth j adj iv0) (nth j blk iv0) (nth j mega iv0) (nth j ix iv0) = Some r /\ pt_in r (nth j p 0))).
Proof.
  induction ds as [|d ds IH]; intros [|m mb] [|a adj] [|b blk] [|g mega] [|x ix] j0 p L1 L2 L3 L4 L5; cbn [length] in *; try lia.
  - cbn [shift_micro]. split.
    + intros (box & E & H). injection E as <-. destruct p; [|discriminate]. split; [reflexivity|intros j Hj; lia].
    + intros (L & _). exists []. split; [reflexivity|]. destruct p; [reflexivity|discriminate].
  - cbn [shift_micro]. split.
    + intros (box & E & H).
      destruct (micro1 one ((0 <? phase) && Z.testbit mask (Z.of_nat j0)) k d m a b g x) as [r|] eqn:E1; [|discriminate].
      destruct (shift_micro one phase mask (S j0) k ds mb adj blk mega ix) as [l|] eqn:E2; [|discriminate]. injection E as <-.
      destruct p as [|y p]; [discriminate|]. cbn [in_box] in H. apply andb_true_iff in H. destruct H as (H1 & H2).
      destruct (proj1 (IH mb adj blk mega ix (S j0) p ltac:(lia) ltac:(lia) ltac:(lia) ltac:(lia) ltac:(lia))) as (A & B); [exists l; split; assumption|].
      split; [cbn; lia|]. intros [|j] Hj; cbn [nth].
      * rewrite Nat.add_0_r. exists r. split; [exact E1|]. unfold in_iv in H1. unfold pt_in. lia.
      * rewrite <- Nat.add_succ_comm. apply B. lia.
    + intros (L & H). destruct p as [|y p]; [discriminate|]. cbn [length] in L.
      destruct (H 0%nat ltac:(lia)) as (r & E & Hr). cbn [nth] in E, Hr. rewrite Nat.add_0_r in E. rewrite E.
      destruct (proj2 (IH mb adj blk mega ix (S j0) p ltac:(lia) ltac:(lia) ltac:(lia) ltac:(lia) ltac:(lia))) as (l & E2 & Hl).
      { split; [lia|]. intros j Hj. specialize (H (S j) ltac:(lia)). cbn [nth] in H. rewrite Nat.add_succ_comm. exact H. }
      rewrite E2. exists (r :: l). split; [reflexivity|]. cbn [in_box]. apply andb_true_iff. split; [unfold in_iv; unfold pt_in in Hr; lia|exact Hl].
Qed.

Lemma choose : forall A (P : nat -> A -> Prop) N d, (forall j, (j < N)%nat -> exists m, P j m) ->
  exists l, length l = N /\ forall j, (j < N)%nat -> P j (nth j l d).
Proof.
  intros A P N. revert P. induction N as [|N IH]; intros P d Ex; [exists []; split; [reflexivity|intros j Hj; lia]|].
  destruct (Ex 0%nat ltac:(lia)) as (m & Hm). destruct (IH (fun j => P (S j)) d) as (l & L & Hl); [intros j Hj; apply Ex; lia|].
  exists (m :: l). split; [cbn; lia|]. intros [|j] Hj; cbn [nth]; [exact Hm|apply Hl; lia].
Qed.

(* --- bit masks --- *)
Lemma filter_sub : forall A (f g : A -> bool) l, (forall x, In x l -> f x = true -> g x = true) ->
  (length (filter f l) <= length (filter g l))%nat /\ (length (filter f l) = length (filter g l) -> forall x, In x l -> f x = g x).
Proof.
  intros A f g l. induction l as [|a l IH]; intros H; [split; [reflexivity|intros _ x []]|].
  destruct IH as (I1 & I2); [intros; apply H; [right; assumption|assumption]|].
  cbn [filter]. destruct (f a) eqn:Ef, (g a) eqn:Eg; cbn [length].
  - split; [lia|]. intros E x [<-|Hx]; [congruence|apply I2; [lia|exact Hx]].
  - rewrite (H a (or_introl eq_refl) Ef) in Eg. discriminate.
  - split; [lia|intros E; lia].
  - split; [exact I1|]. intros E x [<-|Hx]; [congruence|apply I2; [exact E|exact Hx]].
Qed.
Lemma mask_sub : forall n k k' m m', 0 <= n -> subset_mask n k m -> subset_mask n k' m' ->
  (forall j, 0 <= j < n -> Z.testbit m j = true -> Z.testbit m' j = true) -> k <= k' /\ (k = k' -> m = m').
Proof.
  intros n k k' m m' Hn (B & C) (B' & C') H.
  destruct (filter_sub _ (Z.testbit m) (Z.testbit m') (zseq n)) as (F1 & F2); [intros x Hx; apply zseq_In in Hx; apply H; exact Hx|].
  split; [lia|]. intros E. assert (G : length (filter (Z.testbit m) (zseq n)) = length (filter (Z.testbit m') (zseq n))) by lia.
  apply Z.bits_inj'. intros i Hi. destruct (Z_lt_le_dec i n) as [L|L].
  - apply (F2 G). apply zseq_In. lia.
  - assert (T : forall x, 0 <= x < 2 ^ n -> Z.testbit x i = false).
    { intros x Hx. destruct (Z.eq_dec x 0) as [->|N]; [apply Z.bits_0|]. apply Z.bits_above_log2; [lia|].
      apply Z.lt_le_trans with n; [|exact L]. apply Z.log2_lt_pow2; lia. }
    rewrite (T m B), (T m' B'). reflexivity.
Qed.
Lemma mask_of : forall (f : nat -> bool) (n : nat), exists m, 0 <= m < 2 ^ Z.of_nat n /\ forall j, (j < n)%nat -> Z.testbit m (Z.of_nat j) = f j.
Proof.
  intros f n. induction n as [|n (m & B & H)]; [exists 0; split; [cbn; lia|intros j Hj; lia]|].
  exists (if f n then Z.setbit m (Z.of_nat n) else m).
  assert (P : 2 ^ Z.of_nat (S n) = 2 * 2 ^ Z.of_nat n) by (rewrite Nat2Z.inj_succ, Z.pow_succ_r by lia; reflexivity).
  assert (T : Z.testbit m (Z.of_nat n) = false).
  { destruct (Z.eq_dec m 0) as [->|N]; [apply Z.bits_0|]. apply Z.bits_above_log2; [lia|]. apply Z.log2_lt_pow2; lia. }
  destruct (f n) eqn:E.
  - split.
    + rewrite Z.setbit_spec'.
      assert (L : Z.land m (2 ^ Z.of_nat n) = 0).
      { apply Z.bits_inj'. intros i Hi. rewrite Z.land_spec, Z.bits_0, Z.pow2_bits_eqb by lia.
        destruct (Z.eqb_spec (Z.of_nat n) i) as [<-|Ne]; [rewrite T; reflexivity|apply andb_false_r]. }
      assert (G : Z.lor m (2 ^ Z.of_nat n) = m + 2 ^ Z.of_nat n) by (rewrite <- Z.lxor_lor by exact L; symmetry; apply Z.add_nocarry_lxor; exact L).
      rewrite G. lia.
    + intros j Hj. rewrite Z.setbit_eqb by lia. destruct (Z.eqb_spec (Z.of_nat n) (Z.of_nat j)) as [Ej|Nj].
      * apply Nat2Z.inj in Ej. subst j. rewrite E. reflexivity.
      * cbn. apply H. lia.
  - split; [lia|]. intros j Hj. destruct (Nat.eq_dec j n) as [->|Nj]; [rewrite T, E; reflexivity|apply H; lia].
Qed.

(* --- loop dims of the levels --- *)
Definition linv (d : tdim) (l : ldim) : Prop := l_align l = t_fold d /\ l_aofs l = t_rb d.
Lemma RU2 : forall x f, 0 < f -> 0 < x -> x + f <= ROUND_UP x f * 2.
Proof. intros x f Hf Hx. pose proof (ROUND_UP_bounds x f Hf ltac:(lia)) as (A & _). pose proof (ROUND_UP_ge x f Hf ltac:(lia)). lia. Qed.
Lemma strides_pos : forall f sz l, 0 < f -> 1 <= sz -> sz <= l_stride (set_strides_from_inner f sz l).
Proof. intros f sz l Hf Hs. cbn. pose proof (ROUND_UP_bounds sz f Hf ltac:(lia)) as (A & _). destruct (l_end l - l_begin l <? ROUND_UP sz f); lia. Qed.

Lemma block_dim_ok : forall c d md blk, 1 <= t_fold d -> 1 <= t_mcsz d -> (f_tile (c_fb c) = true -> 1 <= t_bktile d) -> fst blk < snd blk -> linv d md ->
  let l := block_dim c d md blk in
  good true l /\ (f_tile (c_fb c) = true -> 1 <= l_tile l) /\ l_begin l = fst blk /\ snd blk <= l_end l /\ (t_bksz d <= t_mcsz d -> l_end l - l_begin l + l_align l <= l_stride l).
Proof.
  intros c d md blk Hf Hm Ht Hb (La & Lo). unfold block_dim. cbv zeta.
  set (w := if tbb c then snd blk - fst blk else 0). assert (Hw : 0 <= w) by (subst w; destruct (tbb c); lia). clearbody w.
  set (l1 := create_inner (t_fold d) md (fst blk) (snd blk)).
  pose proof (strides_pos (t_fold d) (t_mcsz d) l1 ltac:(lia) Hm) as S.
  pose proof (RU2 (snd blk + w - fst blk) (t_fold d) ltac:(lia) ltac:(lia)) as R.
  unfold adjust_from_settings, set_range, set_tile, good. cbn [l_begin l_end l_stride l_align l_aofs l_tile].
  change (l_begin (set_strides_from_inner (t_fold d) (t_mcsz d) l1)) with (fst blk).
  change (l_end (set_strides_from_inner (t_fold d) (t_mcsz d) l1)) with (snd blk).
  change (l_align (set_strides_from_inner (t_fold d) (t_mcsz d) l1)) with (l_align md). rewrite La.
  split; [|split; [|split; [reflexivity|split; [lia|]]]].
  - split; [lia|]. split; [|intros _; lia]. destruct (t_bksz d <=? t_mcsz d); lia.
  - intros Ft. specialize (Ht Ft). destruct (t_bksz d <=? t_bktile d); lia.
  - intros H. destruct (t_bksz d <=? t_mcsz d) eqn:E; lia.
Qed.
Lemma mega_dim_ok : forall ft d ld r, 1 <= t_fold d -> 1 <= t_bksz d -> (ft = true -> 1 <= t_mgtile d) -> linv d ld ->
  let l := mega_dim d ld r in
  linv d l /\ l_begin l = fst r /\ l_end l = snd r /\
  (fst r < snd r -> good true l /\ (ft = true -> 1 <= l_tile l) /\ (t_mgsz d <= t_bksz d -> l_end l - l_begin l + l_align l <= l_stride l) /\
                    (t_bksz d < t_mgsz d -> t_bksz d <= l_stride l)).
Proof.
  intros ft d ld r Hf Hb Ht (La & Lo). unfold mega_dim. cbv zeta.
  pose proof (strides_pos (t_fold d) (t_bksz d) ld ltac:(lia) Hb) as S.
  unfold adjust_from_settings, set_range, set_tile, good, linv. cbn [l_begin l_end l_stride l_align l_aofs l_tile].
  change (l_align (set_strides_from_inner (t_fold d) (t_bksz d) ld)) with (l_align ld).
  change (l_aofs (set_strides_from_inner (t_fold d) (t_bksz d) ld)) with (l_aofs ld). rewrite La, Lo.
  split; [split; reflexivity|]. split; [reflexivity|]. split; [reflexivity|]. intros Hr.
  pose proof (RU2 (snd r - fst r) (t_fold d) ltac:(lia) ltac:(lia)) as R.
  split; [split; [lia|split; [|intros _; lia]]|split; [|split]].
  - destruct (t_mgsz d <=? t_bksz d); lia.
  - intros Ft. specialize (Ht Ft). destruct (t_mgsz d <=? t_mgtile d); lia.
  - intros H. destruct (t_mgsz d <=? t_bksz d) eqn:E; lia.
  - intros H. destruct (t_mgsz d <=? t_bksz d) eqn:E; [lia|exact S].
Qed.

Lemma mb_order0 : forall k d (m m' adj : Z * Z) p, fst adj <= fst m -> fst m < snd m -> fst m' < snd m' -> snd m' <= snd adj -> snd m <= fst m' ->
  mb_in k d m adj p -> mb_in k d m' adj p -> False.
Proof.
  intros k d (s, e) (s', e') (a, z) p A1 A2 A3 A4 L (_ & M1) (M2 & _). unfold mb_sh in *. cbn [fst snd] in *.
  destruct ((s <=? a) && (z <=? e)) eqn:E1; [lia|]. destruct ((s' <=? a) && (z <=? e')) eqn:E2; [lia|].
  specialize (M1 ltac:(lia)). specialize (M2 ltac:(lia)). lia.
Qed.
Lemma zone_order0 : forall d (b b' mega ix : Z * Z) p, blk_ok mega b -> blk_ok mega b' -> snd b <= fst b' ->
  zone true false 0 d b mega ix p -> zone true false 0 d b' mega ix p -> False.
Proof.
  intros d (s, e) (s', e') (ms, me) (i, j) p (B1 & B2 & B3) (B1' & B2' & B3') L Z1 Z2.
  unfold zone, z_start, z_stop in *. cbn [fst snd orb andb negb] in *. rewrite !Z.mul_0_r in *.
  destruct (s' <=? ms) eqn:E1; [lia|]. destruct (me <=? e) eqn:E2; [lia|]. cbn [andb] in *. lia.
Qed.

Definition tile_ok (f : feats) (x : Z) : Prop := f_tile f = true -> 1 <= x.
Record dim_ok (c : tcfg) (nsh : Z) (d : tdim) (h : Z) : Prop := mkDimOk {
  o_h : 0 <= h;
  o_fold : 1 <= t_fold d;
  o_rk : t_rb d < t_re d;
  o_wa : 0 <= t_wa d;
  o_sz : 1 <= t_mgsz d /\ 1 <= t_bksz d /\ 1 <= t_mcsz d;
  o_tile : tile_ok (c_fr c) (t_rktile d) /\ tile_ok (c_fm c) (t_mgtile d) /\ tile_ok (c_fb c) (t_bktile d);
  o_wsp : t_wsp d = t_wa d * nsh;
  o_lx : t_lx d = 0 \/ t_lx d = t_wa d * nsh;
  o_rx : t_rx d = 0 \/ t_rx d = t_wa d * nsh;
  o_wf : wfb c = true -> h <= t_wa d \/ t_rksz d <= t_mgsz d;
  o_ext : c_overlap c = true -> ext_left d = true \/ ext_right d = true -> h <= t_wa d;
  o_tb : tbb c = true -> (h <= t_ta d \/ t_mgsz d <= t_bksz d) /\ (h <= t_ma d \/ t_bksz d <= t_mcsz d) }.

Section Tile.
  Variables (c : tcfg) (h : nat -> Z) (nsh : Z) (K : Z -> Z -> Z) (dom : Z -> list Z -> Prop).
  Notation n := (length (c_dims c)).
  Notation D j := (nth j (c_dims c) td0).
  Notation bb s j := (nth j (stage_bb c s) iv0).
  Hypothesis Hn : (0 < n)%nat.
  Hypothesis Hbb : forall s, 0 <= s < c_nst c -> length (stage_bb c s) = n.
  Hypothesis Hnsh : 0 <= nsh.
  Hypothesis Hdim : forall j, (j < n)%nat -> dim_ok c nsh (D j) (h j).
  Hypothesis Hnt : 0 < c_nt c.
  Hypothesis Hfr : adj_feats n false (c_fr c) <> None.
  Hypothesis Hfm : adj_feats n false (c_fm c) <> None.
  Hypothesis Hfb : adj_feats n false (c_fb c) <> None.
  Hypothesis Hpr : plain (c_fr c).
  Hypothesis Hpb : plain (c_fb c).
  Hypothesis Hn8 : tbb c = true -> (n <= 8)%nat.

  Definition task (e : event) (x : inst) : Prop := i_t x = e_t e /\ i_s x = e_s e /\ in_box (e_box e) (i_p x) = true /\ dom (i_s x) (i_p x).
  Definition Kx (x : inst) : Z := K (i_t x) (i_s x).
  Definition near (p q : list Z) (k : Z) : Prop := forall j, (j < n)%nat -> Z.abs (nth j q 0 - nth j p 0) <= h j * k.
  Definition bad (y x : inst) : Prop := Kx y <= Kx x /\ near (i_p x) (i_p y) (Kx x - Kx y).
  Definition esep (e e' : event) : Prop := sep bad (task e) (task e').
  Lemma esep_pt : forall e e', (forall p q, in_box (e_box e) p = true -> in_box (e_box e') q = true -> K (e_t e') (e_s e') <= K (e_t e) (e_s e) ->
    near p q (K (e_t e) (e_s e) - K (e_t e') (e_s e')) -> False) -> esep e e'.
  Proof.
    intros e e' H x y (X1 & X2 & X3 & _) (Y1 & Y2 & Y3 & _) (B1 & B2). unfold Kx in *. rewrite X1, X2, Y1, Y2 in *. exact (H _ _ X3 Y3 B1 B2).
  Qed.
  Lemma esep_K : forall e e', K (e_t e) (e_s e) < K (e_t e') (e_s e') -> esep e e'.
  Proof. intros e e' H. apply esep_pt. intros; lia. Qed.
  Lemma near0 : forall p q, length p = n -> length q = n -> near p q 0 -> p = q.
  Proof.
    intros p q L1 L2 H. apply (nth_ext p q 0 0); [congruence|]. intros j Hj. specialize (H j ltac:(lia)). lia.
  Qed.

  (* one event *)
  Definition ixr (sec : section) (k s : Z) (mega0 : list (Z * Z)) (j : nat) : Z * Z := shift1 (wfb c) sec j k (D j) (bb s j) (nth j mega0 iv0).
  Definition zc (one : bool) (phase mask msn k : Z) (sec : section) (s : Z) (blk mega mega0 : list (Z * Z)) (p : list Z) : Prop :=
    length p = n /\ forall j, (j < n)%nat -> pt_in (ixr sec (msn + k) s mega0 j) (nth j p 0) /\
      zone one ((0 <? phase) && Z.testbit mask (Z.of_nat j)) k (D j) (nth j blk iv0) (nth j mega iv0) (ixr sec (msn + k) s mega0 j) (nth j p 0).
  Definition mc (k : Z) (mb adj : list (Z * Z)) (p : list Z) : Prop :=
    forall j, (j < n)%nat -> mb_in k (D j) (nth j mb iv0) (nth j adj iv0) (nth j p 0).

  Lemma micro_event_in : forall sec one phase mask msn k t s mb adj blk mega mega0,
    0 <= s < c_nst c -> length mb = n -> length adj = n -> length blk = n -> length mega = n -> length mega0 = n ->
    let es := micro_event c sec one phase mask msn k t s mb adj blk mega mega0 in
    (es = [] \/ exists e, es = [e]) /\
    (forall e, In e es -> e_t e = t /\ e_s e = s /\ forall p, in_box (e_box e) p = true -> zc one phase mask msn k sec s blk mega mega0 p /\ mc k mb adj p) /\
    (forall p, zc one phase mask msn k sec s blk mega mega0 p -> mc k mb adj p -> exists e, In e es /\ in_box (e_box e) p = true).
  Proof.
    intros sec one phase mask msn k t s mb adj blk mega mega0 Hs L1 L2 L3 L4 L5 es. subst es. unfold micro_event.
    pose proof (shift_mega_spec (wfb c) sec (msn + k) (c_dims c) (stage_bb c s) mega0 mega0 0 (Hbb s Hs) L5 L5) as SM. cbv zeta in SM.
    pose proof (shift_mega_len (wfb c) sec (msn + k) (c_dims c) (stage_bb c s) mega0 mega0 0 (Hbb s Hs) L5 L5) as SL.
    destruct (shift_mega (wfb c) sec 0 (msn + k) (c_dims c) (stage_bb c s) mega0 mega0) as (ok, ix). cbn [fst snd] in SM, SL. destruct SM as (S1 & S2).
    destruct ok.
    2:{ split; [left; reflexivity|]. split; [intros e []|]. intros p (Lp & H) _. exfalso.
        assert (E : false = true); [|discriminate E]. apply S1. intros j Hj. destruct (H j Hj) as (P & _). unfold pt_in, ixr in P. cbn [Nat.add]. lia. }
    specialize (S2 eq_refl). cbn [Nat.add] in S2.
    pose proof (shift_micro_spec one phase mask k (c_dims c) mb adj blk mega ix 0) as SP.
    split; [|split].
    - destruct (shift_micro one phase mask 0 k (c_dims c) mb adj blk mega ix); [right; eexists; reflexivity|left; reflexivity].
    - intros e He. destruct (shift_micro one phase mask 0 k (c_dims c) mb adj blk mega ix) as [box|] eqn:E; [|destruct He].
      destruct He as [<-|[]]. cbn [e_t e_s e_box]. split; [reflexivity|]. split; [reflexivity|]. intros p Hp.
      destruct (proj1 (SP p L1 L2 L3 L4 SL) (ex_intro _ box (conj eq_refl Hp))) as (Lp & H).
      assert (G : forall j, (j < n)%nat -> pt_in (nth j ix iv0) (nth j p 0) /\ zone one ((0 <? phase) && Z.testbit mask (Z.of_nat j)) k (D j) (nth j blk iv0) (nth j mega iv0) (nth j ix iv0) (nth j p 0) /\ mb_in k (D j) (nth j mb iv0) (nth j adj iv0) (nth j p 0)).
      { intros j Hj. apply micro1_in. exact (H j Hj). }
      split; [split; [exact Lp|]|].
      + intros j Hj. destruct (G j Hj) as (G1 & G2 & _). rewrite (S2 j Hj) in G1, G2. split; assumption.
      + intros j Hj. apply (G j Hj).
    - intros p (Lp & H) Hm. destruct (proj2 (SP p L1 L2 L3 L4 SL)) as (box & E & Hb).
      { split; [exact Lp|]. intros j Hj. apply micro1_in. rewrite (S2 j Hj). destruct (H j Hj) as (A & B). split; [exact A|]. split; [exact B|apply Hm; exact Hj]. }
      rewrite E. exists (mkEv t s box). split; [left; reflexivity|exact Hb].
  Qed.

  (* the steps and stages of a block, numbered from [a] *)
  Fixpoint enum (a : Z) (todo : list (Z * Z)) : Prop :=
    match todo with [] => True | (t, s) :: r => K t s = a /\ 0 <= s < c_nst c /\ enum (a + 1) r end.
  Lemma enum_In : forall todo a t s, enum a todo -> In (t, s) todo -> a <= K t s < a + Z.of_nat (length todo) /\ 0 <= s < c_nst c.
  Proof using c K.
    clear -c K.
    induction todo as [|(t0, s0) todo IH]; intros a t s H I; [destruct I|]. destruct H as (E & Hs & H). cbn [length]. destruct I as [I|I].
    - injection I as <- <-. lia.
    - destruct (IH (a + 1) t s H I). lia.
  Qed.

  Lemma micro_events_in : forall sec one phase mask msn K0 mb adj blk mega mega0,
    length mb = n -> length adj = n -> length blk = n -> length mega = n -> length mega0 = n ->
    forall todo k0, enum (K0 + msn + k0) todo ->
    let es := micro_events c sec one phase mask msn k0 todo mb adj blk mega mega0 in
    (forall e, In e es -> In (e_t e, e_s e) todo /\ forall p, in_box (e_box e) p = true ->
       zc one phase mask msn (K (e_t e) (e_s e) - K0 - msn) sec (e_s e) blk mega mega0 p /\ mc (K (e_t e) (e_s e) - K0 - msn) mb adj p) /\
    pairs esep es /\
    (forall t s p, In (t, s) todo -> zc one phase mask msn (K t s - K0 - msn) sec s blk mega mega0 p -> mc (K t s - K0 - msn) mb adj p ->
       exists e, In e es /\ e_t e = t /\ e_s e = s /\ in_box (e_box e) p = true).
  Proof.
    intros sec one phase mask msn K0 mb adj blk mega mega0 L1 L2 L3 L4 L5. induction todo as [|(t, s) todo IH]; intros k0 En; cbv zeta.
    - split; [intros e []|]. split; [exact I|intros t s p []].
    - cbn [micro_events]. destruct En as (Ek & Hs & En). replace (K0 + msn + k0 + 1) with (K0 + msn + (k0 + 1)) in En by lia.
      specialize (IH (k0 + 1) En). cbv zeta in IH.
      destruct (micro_event_in sec one phase mask msn k0 t s mb adj blk mega mega0 Hs L1 L2 L3 L4 L5) as (A0 & A1 & A2).
      set (es1 := micro_event c sec one phase mask msn k0 t s mb adj blk mega mega0) in *.
      set (es2 := micro_events c sec one phase mask msn (k0 + 1) todo mb adj blk mega mega0) in *.
      destruct IH as (B1 & B2 & B3). replace k0 with (K t s - K0 - msn) in A1, A2 by lia.
      split; [|split].
      + intros e He. apply in_app_or in He. destruct He as [He|He].
        * destruct (A1 e He) as (E1 & E2 & E3). rewrite E1, E2. split; [left; reflexivity|exact E3].
        * destruct (B1 e He) as (E1 & E2). split; [right; exact E1|exact E2].
      + apply pairs_app. split; [destruct A0 as [->|(e & ->)]; [exact I|split; [intros y []|exact I]]|]. split; [exact B2|].
        intros e e' He He'. apply esep_K. destruct (A1 e He) as (-> & -> & _). destruct (B1 e' He') as (I' & _).
        pose proof (enum_In _ _ _ _ En I'). lia.
      + intros t' s' p I Z1 M1. destruct I as [I|I].
        * injection I as <- <-. destruct (A2 p Z1 M1) as (e & He & Hp). exists e. destruct (A1 e He) as (E1 & E2 & _).
          split; [apply in_or_app; left; exact He|]. split; [exact E1|]. split; assumption.
        * destruct (B3 t' s' p I Z1 M1) as (e & He & R). exists e. split; [apply in_or_app; right; exact He|exact R].
  Qed.

  Lemma near_sub : forall p q k, near p q k -> forall j, (j < n)%nat -> Z.abs (nth j q 0 - nth j p 0) <= h j * k.
  Proof. intros p q k H. exact H. Qed.

  (* the micro-blocks of one block and shape *)
  Lemma mbs_sep : forall sec one phase mask msn K0 blk mega mega0 (mlds : list ldim) todo,
    length mlds = n -> length blk = n -> length mega = n -> length mega0 = n -> (forall j, (j < n)%nat -> linv (D j) (nth j mlds ld0)) ->
    (forall j, (j < n)%nat -> fst (nth j blk iv0) < snd (nth j blk iv0)) -> enum (K0 + msn) todo ->
    (tbb c = false -> (length todo <= 1)%nat) ->
    let lds := zip3 (block_dim c) (c_dims c) mlds blk in
    exists mbs, run_loops true (c_nt c) None [(c_fb c, lds)] = Ok mbs /\
    let es := flat_map (fun mb => micro_events c sec one phase mask msn 0 todo mb (ranges lds) blk mega mega0) mbs in
    (forall e, In e es -> In (e_t e, e_s e) todo /\ forall p, in_box (e_box e) p = true ->
       zc one phase mask msn (K (e_t e) (e_s e) - K0 - msn) sec (e_s e) blk mega mega0 p) /\
    pairs esep es /\
    (forall t s p, In (t, s) todo -> zc one phase mask msn (K t s - K0 - msn) sec s blk mega mega0 p ->
       exists e, In e es /\ e_t e = t /\ e_s e = s /\ in_box (e_box e) p = true).
  Proof.
    intros sec one phase mask msn K0 blk mega mega0 mlds todo L1 L2 L3 L4 Inv Hb En T1 lds.
    assert (Ll : length lds = n) by (apply zip3_length; assumption).
    assert (Hl : forall j, (j < n)%nat -> nth j lds ld0 = block_dim c (D j) (nth j mlds ld0) (nth j blk iv0)) by (intros j Hj; apply zip3_nth; assumption).
    assert (Hk : forall j, (j < n)%nat -> let l := nth j lds ld0 in good true l /\ (f_tile (c_fb c) = true -> 1 <= l_tile l) /\ (t_bksz (D j) <= t_mcsz (D j) -> l_end l - l_begin l + l_align l <= l_stride l)).
    { intros j Hj. cbv zeta. rewrite (Hl j Hj). destruct (Hdim j Hj).
      destruct (block_dim_ok c (D j) (nth j mlds ld0) (nth j blk iv0)) as (A & B & _ & _ & C); try lia; [apply o_tile0|apply Hb; exact Hj|apply Inv; exact Hj|]. tauto. }
    assert (LO : loops_ok (c_fb c) lds).
    { split; [intros E; rewrite E in Ll; cbn in Ll; lia|]. split; [rewrite Ll; exact Hfb|].
      split; apply Forall_nth' with ld0; intros j Hj; rewrite Ll in Hj; apply (Hk j Hj). }
    destruct (loops_level (c_nt c) (c_fb c) lds Hnt LO) as (mbs & E & M1 & M2 & _ & M4). rewrite Ll in M1, M2, M4.
    exists mbs. split; [exact E|]. cbv zeta.
    assert (Lr : length (ranges lds) = n) by (unfold ranges; rewrite map_length; exact Ll).
    assert (En' : enum (K0 + msn + 0) todo) by (rewrite Z.add_0_r; exact En).
    assert (ME : forall mb, In mb mbs -> _) by (intros mb Hmb; exact (micro_events_in sec one phase mask msn K0 mb (ranges lds) blk mega mega0 (proj1 (M1 mb Hmb)) Lr L2 L3 L4 todo 0 En')).
    cbv zeta in ME.
    assert (Kr : forall t s, In (t, s) todo -> 0 <= K t s - K0 - msn) by (intros t s Hi; pose proof (enum_In _ _ _ _ En Hi); lia).
    split; [|split].
    - intros e He. apply in_flat_map in He. destruct He as (mb & Hmb & He). destruct (ME mb Hmb) as (A & _). destruct (A e He) as (A1 & A2).
      split; [exact A1|]. intros p Hp. apply (A2 p Hp).
    - rewrite flat_map_concat_map. apply pairs_concat.
      + intros l Hl'. apply in_map_iff in Hl'. destruct Hl' as (mb & <- & Hmb). apply (ME mb Hmb).
      + apply pairs_map. eapply pairs_impl; [|exact (M4 Hpb)]. intros mb mb' Hmb Hmb' (j & Hj & Hlt) e e' He He'.
        destruct (ME mb Hmb) as (A & _). destruct (A e He) as (A1 & A2). clear A.
        destruct (ME mb' Hmb') as (A' & _). destruct (A' e' He') as (A1' & A2'). clear A'.
        apply esep_pt. intros p q Hp Hq HK Hnear. destruct (A2 p Hp) as (Zp & Mp). destruct (A2' q Hq) as (Zq & Mq).
        specialize (Mp j Hj). specialize (Mq j Hj). destruct (Hk j Hj) as (G & _ & Gs).
        rewrite (ranges_nth lds j ltac:(lia)) in Mp, Mq.
        pose proof (proj2 (M1 mb Hmb) j Hj) as C1. pose proof (proj2 (M1 mb' Hmb') j Hj) as C2.
        destruct (is_cut_in _ _ G C1) as (B1 & B2 & B3). destruct (is_cut_in _ _ G C2) as (B1' & B2' & B3').
        destruct (Hdim j Hj) as [Oh Of Ork Owa Osz Otile Owsp Olx Orx Owf Oext Otb].
        assert (Kd : forall x y, x - (K0 + msn) - (y - (K0 + msn)) = x - y) by (intros; lia).
        destruct (bool_dec (tbb c) true) as [TB|TB]; [|apply not_true_is_false in TB].
        * destruct (proj2 (Otb TB)) as [Ha|Hs].
          -- apply (mb_order (D j) (h j) (K (e_t e) (e_s e) - K0 - msn) (K (e_t e') (e_s e') - K0 - msn) (nth j mb iv0) (nth j mb' iv0) (l_begin (nth j lds ld0), l_end (nth j lds ld0)) (nth j p 0) (nth j q 0)); cbn [fst snd]; try assumption; try lia.
             specialize (Hnear j Hj). nia.
          -- pose proof (cut_single _ _ G (Gs Hs) C1) as E1. pose proof (cut_single _ _ G (Gs Hs) C2) as E2. rewrite E1, E2 in *. cbn in *. lia.
        * assert (Et : K (e_t e) (e_s e) = K (e_t e') (e_s e')).
          { pose proof (enum_In _ _ _ _ En A1). pose proof (enum_In _ _ _ _ En A1'). specialize (T1 TB). lia. }
          rewrite Et in *. rewrite Z.sub_diag in Hnear. assert (p = q) by (apply near0; [apply Zp|apply Zq|exact Hnear]). subst q.
          apply (mb_order0 (K (e_t e') (e_s e') - K0 - msn) (D j) (nth j mb iv0) (nth j mb' iv0) (l_begin (nth j lds ld0), l_end (nth j lds ld0)) (nth j p 0)); cbn [fst snd]; assumption || lia.
    - intros t s p Hi Zp. set (k := K t s - K0 - msn) in *.
      assert (S : exists mb, length mb = n /\ forall j, (j < n)%nat -> is_cut (nth j lds ld0) (nth j mb iv0) /\
        (fst (nth j mb iv0) = l_begin (nth j lds ld0) \/ fst (nth j mb iv0) <= nth j p 0 + t_ma (D j) * k) /\
        (snd (nth j mb iv0) = l_end (nth j lds ld0) \/ nth j p 0 + t_ma (D j) * k < snd (nth j mb iv0))).
      { assert (Ex : forall j, (j < n)%nat -> exists m, is_cut (nth j lds ld0) m /\ (fst m = l_begin (nth j lds ld0) \/ fst m <= nth j p 0 + t_ma (D j) * k) /\ (snd m = l_end (nth j lds ld0) \/ nth j p 0 + t_ma (D j) * k < snd m)).
        { intros j Hj. destruct (cut_select (nth j lds ld0) (fun x => x <=? nth j p 0 + t_ma (D j) * k) (proj1 (Hk j Hj))) as (m & A & B & C).
          exists m. split; [exact A|]. split; [destruct B; [left; assumption|right; lia]|destruct C; [left; assumption|right; lia]]. }
        exact (choose _ (fun j m => is_cut (nth j lds ld0) m /\ (fst m = l_begin (nth j lds ld0) \/ fst m <= nth j p 0 + t_ma (D j) * k) /\ (snd m = l_end (nth j lds ld0) \/ nth j p 0 + t_ma (D j) * k < snd m)) n iv0 Ex). }
      destruct S as (mb & Lm & Hmb).
      assert (In1 : In mb mbs) by (apply M2; [exact Lm|intros j Hj; apply (Hmb j Hj)]).
      destruct (ME mb In1) as (_ & _ & C). destruct (C t s p Hi Zp) as (e & He & R).
      { fold k. intros j Hj. rewrite (ranges_nth lds j ltac:(lia)). destruct (Hmb j Hj) as (C1 & C2 & C3). destruct (is_cut_in _ _ (proj1 (Hk j Hj)) C1) as (B1 & B2 & B3).
        unfold mb_in, mb_sh. cbn [fst snd]. 
        destruct ((fst (nth j mb iv0) <=? l_begin (nth j lds ld0)) && (l_end (nth j lds ld0) <=? snd (nth j mb iv0))) eqn:E1; lia. }
      exists e. split; [apply in_flat_map; exists mb; split; assumption|exact R].
  Qed.

  (* --- lists of regions --- *)
  Definition evs (rs : list region) : list event := concat (concat rs).
  Definition cross (Q Q' : Z -> Z -> list Z -> Prop) : Prop :=
    forall t s p t' s' q, Q t s p -> Q' t' s' q -> K t' s' <= K t s -> near p q (K t s - K t' s') -> False.
  Definition ereg_ok (g : region) : Prop :=
    (forall th, In th g -> pairs esep th) /\ pairs (fun th th' => forall e e', In e th -> In e' th' -> esep e e' /\ esep e' e) g.
  Definition ereg_before (g g' : region) : Prop := forall e e', In e (concat g) -> In e' (concat g') -> esep e e'.
  Record good_regs (rs : list region) (Q : Z -> Z -> list Z -> Prop) : Prop := mkGr {
    gr_ok : forall g, In g rs -> ereg_ok g;
    gr_pairs : pairs ereg_before rs;
    gr_sound : forall e p, In e (evs rs) -> in_box (e_box e) p = true -> Q (e_t e) (e_s e) p;
    gr_compl : forall t s p, dom s p -> Q t s p -> exists e, In e (evs rs) /\ e_t e = t /\ e_s e = s /\ in_box (e_box e) p = true }.

  Lemma evs_In : forall rs e, In e (evs rs) <-> exists g, In g rs /\ In e (concat g).
  Proof.
    intros rs e. unfold evs. rewrite in_concat. split.
    - intros (th & A & B). apply in_concat in A. destruct A as (g & A1 & A2). exists g. split; [exact A1|]. apply in_concat. exists th. split; assumption.
    - intros (g & A & B). apply in_concat in B. destruct B as (th & B1 & B2). exists th. split; [|exact B2]. apply in_concat. exists g. split; assumption.
  Qed.
  Lemma gr_weak : forall rs (Q Q' : Z -> Z -> list Z -> Prop), (forall t s p, Q t s p -> Q' t s p) -> (forall t s p, dom s p -> Q' t s p -> Q t s p) -> good_regs rs Q -> good_regs rs Q'.
  Proof.
    intros rs Q Q' E1 E2 [A B C D]. constructor; [exact A|exact B| |].
    - intros e p He Hp. apply E1. apply C; assumption.
    - intros t s p Hd H. apply D; [exact Hd|]. apply E2; assumption.
  Qed.
  Lemma gr_iff : forall rs Q Q', (forall t s p, Q t s p <-> Q' t s p) -> good_regs rs Q -> good_regs rs Q'.
  Proof. intros rs Q Q' E. apply gr_weak; [apply E|]. intros t s p _. apply E. Qed.
  Lemma gr_nil : forall Q : Z -> Z -> list Z -> Prop, (forall t s p, ~ Q t s p) -> good_regs [] Q.
  Proof. intros Q H. constructor; [intros g []|exact I|intros e p []|]. intros t s p _ HQ. destruct (H t s p HQ). Qed.
  Lemma gr_concat : forall (X : Type) (Qi : X -> Z -> Z -> list Z -> Prop) xs rss,
    Forall2 (fun x rs => good_regs rs (Qi x)) xs rss -> pairs (fun x x' => cross (Qi x) (Qi x')) xs ->
    good_regs (concat rss) (fun t s p => exists x, In x xs /\ Qi x t s p).
  Proof.
    intros X Qi xs rss F. induction F as [|x rs xs rss G F IH]; intros P.
    - apply gr_nil. intros t s p (x & [] & _).
    - destruct P as (P1 & P2). specialize (IH P2). cbn [concat]. destruct G as [A B C E], IH as [A' B' C' E'].
      assert (Es : forall e, In e (evs (rs ++ concat rss)) <-> In e (evs rs) \/ In e (evs (concat rss))) by (intros e; unfold evs; rewrite !concat_app, in_app_iff; tauto).
      constructor.
      + intros g Hg. apply in_app_or in Hg. destruct Hg; [apply A|apply A']; assumption.
      + apply pairs_app. split; [exact B|]. split; [exact B'|]. intros g g' Hg Hg' e e' He He'. apply esep_pt. intros p q Hp Hq HK Hnear.
        pose proof (C e p (proj2 (evs_In _ _) (ex_intro _ g (conj Hg He))) Hp) as Q1.
        destruct (C' e' q (proj2 (evs_In _ _) (ex_intro _ g' (conj Hg' He'))) Hq) as (x' & Hx' & Q2).
        exact (P1 x' Hx' _ _ _ _ _ _ Q1 Q2 HK Hnear).
      + intros e p He Hp. apply Es in He. destruct He as [He|He]; [exists x; split; [left; reflexivity|apply C; assumption]|].
        destruct (C' e p He Hp) as (x' & Hx' & Q2). exists x'. split; [right; exact Hx'|exact Q2].
      + intros t s p Hd (x' & [<-|Hx'] & H).
        * destruct (E t s p Hd H) as (e & He & R). exists e. split; [apply Es; left; exact He|exact R].
        * destruct (E' t s p Hd (ex_intro _ x' (conj Hx' H))) as (e & He & R). exists e. split; [apply Es; right; exact He|exact R].
  Qed.

  (* the points of a mega-block at shift [k] *)
  Definition pm (sec : section) (k s : Z) (M : list (Z * Z)) (p : list Z) : Prop :=
    length p = n /\ forall j, (j < n)%nat -> pt_in (ixr sec k s M j) (nth j p 0).

  (* the loop dims of a mega-block *)
  Definition mega_ok (mlds : list ldim) : Prop := length mlds = n /\ forall j, (j < n)%nat -> let l := nth j mlds ld0 in
    linv (D j) l /\ good true l /\ (f_tile (c_fm c) = true -> 1 <= l_tile l) /\ (t_mgsz (D j) <= t_bksz (D j) -> l_end l - l_begin l + l_align l <= l_stride l).
  Definition wide (tsh : Z) (mlds : list ldim) : Prop := forall j b, (j < n)%nat -> is_cut (nth j mlds ld0) b -> l_begin (nth j mlds ld0) < fst b ->
    2 * t_ta (D j) * tsh <= t_tw (D j) /\ 2 * t_ta (D j) * tsh <= snd b - fst b.
  Definition cuts (mlds : list ldim) (blk : list (Z * Z)) : Prop := length blk = n /\ forall j, (j < n)%nat -> is_cut (nth j mlds ld0) (nth j blk iv0).

  Lemma bit_phase : forall phase mask j, subset_mask (Z.of_nat n) phase mask -> (j < n)%nat ->
    (0 <? phase) && Z.testbit mask (Z.of_nat j) = Z.testbit mask (Z.of_nat j).
  Proof.
    intros phase mask j (B & C) Hj. destruct (0 <? phase) eqn:E; [reflexivity|]. cbn.
    destruct (Z.testbit mask (Z.of_nat j)) eqn:T; [|reflexivity]. exfalso.
    assert (I : In (Z.of_nat j) (filter (Z.testbit mask) (zseq (Z.of_nat n)))) by (apply filter_In; split; [apply zseq_In; lia|exact T]).
    destruct (filter (Z.testbit mask) (zseq (Z.of_nat n))); [destruct I|cbn in C; lia].
  Qed.

  Lemma zc_sep : forall tsh mlds sec msn mega0 phase mask k1 s blk p phase' mask' k2 s' blk' q, tbb c = true -> mega_ok mlds -> wide tsh mlds ->
    cuts mlds blk -> cuts mlds blk' -> subset_mask (Z.of_nat n) phase mask -> subset_mask (Z.of_nat n) phase' mask' ->
    0 <= k2 -> k2 <= k1 -> k1 <= tsh -> near p q (k1 - k2) ->
    zc false phase mask msn k1 sec s blk (ranges mlds) mega0 p -> zc false phase' mask' msn k2 sec s' blk' (ranges mlds) mega0 q ->
    phase' <= phase /\ (phase' = phase -> mask' = mask /\ blk' = blk).
  Proof.
    intros tsh mlds sec msn mega0 phase mask k1 s blk p phase' mask' k2 s' blk' q TB (Lm & MO) W (Lb & Cb) (Lb' & Cb') SM SM' K0 K12 Kt Nr (Lp & Zp) (Lq & Zq).
    assert (F : forall j, (j < n)%nat -> (Z.testbit mask (Z.of_nat j) = false -> Z.testbit mask' (Z.of_nat j) = false /\ nth j blk' iv0 = nth j blk iv0) /\
      (Z.testbit mask (Z.of_nat j) = true -> Z.testbit mask' (Z.of_nat j) = true -> nth j blk' iv0 = nth j blk iv0)).
    { intros j Hj. destruct (Hdim j Hj) as [Oh Of Ork Owa Osz Otile Owsp Olx Orx Owf Oext Otb]. destruct (MO j Hj) as (Li & G & _ & Sg).
      specialize (Cb j Hj). specialize (Cb' j Hj). destruct (is_cut_in _ _ G Cb) as (B1 & B2 & B3). destruct (is_cut_in _ _ G Cb') as (B1' & B2' & B3').
      destruct (Zp j Hj) as (P1 & P2). destruct (Zq j Hj) as (Q1 & Q2). rewrite (bit_phase _ _ _ SM Hj) in P2. rewrite (bit_phase _ _ _ SM' Hj) in Q2.
      rewrite (ranges_nth mlds j ltac:(lia)) in P2, Q2. set (mega := (l_begin (nth j mlds ld0), l_end (nth j mlds ld0))) in *.
      assert (Ok1 : blk_ok mega (nth j blk iv0)) by (unfold blk_ok, mega; cbn [fst snd]; lia).
      assert (Ok2 : blk_ok mega (nth j blk' iv0)) by (unfold blk_ok, mega; cbn [fst snd]; lia).
      assert (Ap : apart (nth j blk iv0) (nth j blk' iv0)) by (apply (cut_cases _ _ _ G Cb Cb')).
      assert (Ha : h j <= t_ta (D j) \/ (one_blk mega (nth j blk iv0) /\ one_blk mega (nth j blk' iv0))).
      { destruct (proj1 (Otb TB)) as [Ha|Hs]; [left; exact Ha|right]. rewrite (cut_single _ _ G (Sg Hs) Cb), (cut_single _ _ G (Sg Hs) Cb'). split; split; reflexivity. }
      specialize (Nr j Hj). split.
      - intros E. rewrite E in P2. exact (zone_base (D j) (h j) Oh mega k1 k2 _ _ _ _ _ _ _ Ok1 Ok2 Ap Ha K0 K12 Nr Q1 P2 Q2).
      - intros E E'. rewrite E in P2. rewrite E' in Q2. apply (zone_bridge (D j) (h j) Oh mega tsh k1 k2 _ _ _ _ _ _ Ok1 Ok2 Ap Ha K0 K12 Kt Nr) with (2 := P2) (3 := Q2).
        intros L. apply (W j (nth j blk' iv0) Hj Cb' L). }
    destruct (mask_sub (Z.of_nat n) phase' phase mask' mask ltac:(lia) SM' SM) as (A & B).
    { intros j Hj T. destruct (Z.testbit mask j) eqn:E; [reflexivity|]. destruct (F (Z.to_nat j) ltac:(lia)) as (F1 & _). rewrite Z2Nat.id in F1 by lia.
      destruct (F1 E) as (F2 & _). congruence. }
    split; [exact A|]. intros E. specialize (B E). split; [exact B|]. subst mask'.
    apply (nth_ext _ _ iv0 iv0); [congruence|]. intros j Hj. rewrite Lb' in Hj. destruct (F j Hj) as (F1 & F2).
    destruct (Z.testbit mask (Z.of_nat j)); [apply F2; reflexivity|apply F1; reflexivity].
  Qed.

  (* one thread *)
  Record good_evs (es : list event) (Q : Z -> Z -> list Z -> Prop) : Prop := mkGe {
    ge_pairs : pairs esep es;
    ge_sound : forall e p, In e es -> in_box (e_box e) p = true -> Q (e_t e) (e_s e) p;
    ge_compl : forall t s p, Q t s p -> exists e, In e es /\ e_t e = t /\ e_s e = s /\ in_box (e_box e) p = true }.
  Lemma ge_iff : forall es Q Q', (forall t s p, Q t s p <-> Q' t s p) -> good_evs es Q -> good_evs es Q'.
  Proof.
    intros es Q Q' E [B C D]. constructor; [exact B| |].
    - intros e p He Hp. apply E. apply C; assumption.
    - intros t s p H. apply D. apply E. exact H.
  Qed.
  Lemma ge_concat : forall (X : Type) (Qi : X -> Z -> Z -> list Z -> Prop) xs ess,
    Forall2 (fun x es => good_evs es (Qi x)) xs ess -> pairs (fun x x' => cross (Qi x) (Qi x')) xs ->
    good_evs (concat ess) (fun t s p => exists x, In x xs /\ Qi x t s p).
  Proof.
    intros X Qi xs ess F. induction F as [|x es xs ess G F IH]; intros P.
    - constructor; [exact I|intros e p []|intros t s p (x & [] & _)].
    - destruct P as (P1 & P2). specialize (IH P2). cbn [concat]. destruct G as [B C E], IH as [B' C' E'].
      constructor.
      + apply pairs_app. split; [exact B|]. split; [exact B'|]. intros e e' He He'. apply esep_pt. intros p q Hp Hq HK Hnear.
        destruct (C' e' q He' Hq) as (x' & Hx' & Q2). exact (P1 x' Hx' _ _ _ _ _ _ (C e p He Hp) Q2 HK Hnear).
      + intros e p He Hp. apply in_app_or in He. destruct He as [He|He]; [exists x; split; [left; reflexivity|apply C; assumption]|].
        destruct (C' e p He Hp) as (x' & Hx' & Q2). exists x'. split; [right; exact Hx'|exact Q2].
      + intros t s p (x' & [<-|Hx'] & H).
        * destruct (E t s p H) as (e & He & R). exists e. split; [apply in_or_app; left; exact He|exact R].
        * destruct (E' t s p (ex_intro _ x' (conj Hx' H))) as (e & He & R). exists e. split; [apply in_or_app; right; exact He|exact R].
  Qed.
  Lemma gr_region : forall (X : Type) (Qi : X -> Z -> Z -> list Z -> Prop) xs ths,
    Forall2 (fun x es => good_evs es (Qi x)) xs ths -> pairs (fun x x' => cross (Qi x) (Qi x') /\ cross (Qi x') (Qi x)) xs ->
    good_regs [ths] (fun t s p => exists x, In x xs /\ Qi x t s p).
  Proof.
    intros X Qi xs ths F P.
    assert (E1 : forall e, In e (evs [ths]) <-> In e (concat ths)) by (intros e; unfold evs; cbn [concat]; rewrite app_nil_r; tauto).
    constructor.
    - intros g [<-|[]]. split.
      + intros th Hth. destruct (F2_In_r _ _ _ _ _ _ F Hth) as (x & _ & G). apply G.
      + eapply F2_pairs; [exact F|]. eapply pairs_impl; [|exact P]. intros x x' _ _ (C1 & C2) th th' G G' e e' He He'. split.
        * apply esep_pt. intros p q Hp Hq. apply C1; [apply (ge_sound _ _ G)|apply (ge_sound _ _ G')]; assumption.
        * apply esep_pt. intros p q Hp Hq. apply C2; [apply (ge_sound _ _ G')|apply (ge_sound _ _ G)]; assumption.
    - split; [intros y []|exact I].
    - intros e p He Hp. apply E1 in He. apply in_concat in He. destruct He as (th & Hth & He).
      destruct (F2_In_r _ _ _ _ _ _ F Hth) as (x & Hx & G). exists x. split; [exact Hx|]. apply (ge_sound _ _ G); assumption.
    - intros t s p _ (x & Hx & H). destruct (F2_In_l _ _ _ _ _ _ F Hx) as (th & Hth & G). destruct (ge_compl _ _ G t s p H) as (e & He & R).
      exists e. split; [apply E1; apply in_concat; exists th; split; assumption|exact R].
  Qed.
  Lemma rmap_good : forall (X Y : Type) (f : X -> res Y) (G : X -> Y -> Prop) l, (forall x, In x l -> exists y, f x = Ok y /\ G x y) ->
    exists ys, rmap f l = Ok ys /\ Forall2 G l ys.
  Proof.
    clear. intros X Y f G l. induction l as [|a l IH]; intros H; [exists []; split; [reflexivity|constructor]|].
    destruct (H a (or_introl eq_refl)) as (y & E & Hy). destruct IH as (ys & E' & F); [intros; apply H; right; assumption|].
    exists (y :: ys). cbn [rmap]. rewrite E. cbn [rbind]. rewrite E'. split; [reflexivity|constructor; assumption].
  Qed.

  (* a block with temporal blocking *)
  Definition Qb (todo : list (Z * Z)) (sec : section) (msn K0 : Z) (mlds : list ldim) (mega0 : list (Z * Z)) (phase : Z) (blk : list (Z * Z)) (t s : Z) (p : list Z) : Prop :=
    In (t, s) todo /\ exists mask, subset_mask (Z.of_nat n) phase mask /\ zc false phase mask msn (K t s - K0 - msn) sec s blk (ranges mlds) mega0 p.
  Lemma Qb_sep : forall todo sec msn K0 mlds mega0 tsh phase phase' blk blk' t s p t' s' q, tbb c = true -> mega_ok mlds -> wide tsh mlds ->
    enum (K0 + msn) todo -> Z.of_nat (length todo) <= tsh + 1 -> cuts mlds blk -> cuts mlds blk' ->
    Qb todo sec msn K0 mlds mega0 phase blk t s p -> Qb todo sec msn K0 mlds mega0 phase' blk' t' s' q -> K t' s' <= K t s -> near p q (K t s - K t' s') ->
    phase' <= phase /\ (phase' = phase -> blk' = blk).
  Proof.
    intros todo sec msn K0 mlds mega0 tsh phase phase' blk blk' t s p t' s' q TB MO W En Lt C1 C2 (I1 & m & S1 & Z1) (I2 & m' & S2 & Z2) HK Nr.
    pose proof (enum_In _ _ _ _ En I1) as E1. pose proof (enum_In _ _ _ _ En I2) as E2.
    destruct (zc_sep tsh mlds sec msn mega0 phase m (K t s - K0 - msn) s blk p phase' m' (K t' s' - K0 - msn) s' blk' q) as (A & B); try assumption; try lia.
    - replace (K t s - K0 - msn - (K t' s' - K0 - msn)) with (K t s - K t' s') by lia. exact Nr.
    - split; [exact A|]. intros E. apply B. exact E.
  Qed.
  Lemma calc_block_tb : forall sec msn phase b e mega0 mlds blk K0 tsh, tbb c = true -> mega_ok mlds -> wide tsh mlds -> cuts mlds blk -> length mega0 = n ->
    0 <= phase <= Z.of_nat n -> enum (K0 + msn) (todo_of c None b e) -> Z.of_nat (length (todo_of c None b e)) <= tsh + 1 ->
    exists es, calc_block c sec None msn (Z.of_nat n + 1) phase b e mega0 mlds blk = Ok es /\
      good_evs es (Qb (todo_of c None b e) sec msn K0 mlds mega0 phase blk).
  Proof.
    intros sec msn phase b e mega0 mlds blk K0 tsh TB MO W CB L0 Hph En Lt. unfold calc_block. rewrite TB. cbv zeta.
    set (todo := todo_of c None b e) in *. set (N := Z.of_nat n) in *.
    assert (E1 : (N + 1 =? 1) = false) by lia. rewrite E1.
    destruct (n_choose_k_set_bij N phase (Z.to_nat N)) as (B1 & B2 & B3 & B4); [specialize (Hn8 TB); lia|specialize (Hn8 TB); lia|lia|].
    rewrite B1. cbn [rbind]. set (bn := binom (Z.to_nat N) (Z.to_nat phase)) in *. destruct MO as (Lm & MO'). assert (MO := conj Lm MO' : mega_ok mlds). destruct CB as (Lb & CB'). assert (CB := conj Lb CB' : cuts mlds blk).
    pose (Qs := fun (r : Z) t s p => In (t, s) todo /\ exists mask, n_choose_k_set (Z.to_nat N) N phase r = Ok mask /\ zc false phase mask msn (K t s - K0 - msn) sec s blk (ranges mlds) mega0 p).
    match goal with |- exists es, rbind (rmap ?f _) _ = _ /\ _ => destruct (rmap_good _ _ f (fun r es => good_evs es (Qs r)) (zseq bn)) as (ess & E & F) end.
    - intros r Hr. apply zseq_In in Hr. destruct (B2 r Hr) as (m & Em & Sm). rewrite Em. cbn [rbind].
      destruct (mbs_sep sec false phase m msn K0 blk (ranges mlds) mega0 mlds todo) as (mbs & E2 & G1 & G2 & G3); try assumption.
      + unfold ranges. rewrite map_length. exact Lm.
      + intros j Hj. apply (MO' j Hj).
      + intros j Hj. apply (is_cut_in _ _ (proj1 (proj2 (MO' j Hj))) (CB' j Hj)).
      + intros X. rewrite TB in X. discriminate X.
      + rewrite E2. cbn [rbind]. eexists. split; [reflexivity|]. constructor; [exact G2| |].
        * intros ev p He Hp. destruct (G1 ev He) as (A1 & A2). split; [exact A1|]. exists m. split; [exact Em|apply A2; exact Hp].
        * intros t s p (I1 & m' & Em' & Zp). assert (m' = m) by congruence. subst m'. exact (G3 t s p I1 Zp).
    - rewrite E. cbn [rbind]. eexists. split; [reflexivity|]. eapply ge_iff; [|apply (ge_concat _ Qs _ _ F)].
      + intros t s p. split.
        * intros (r & Hr & I1 & m & Em & Zp). apply zseq_In in Hr. destruct (B2 r Hr) as (m' & Em' & Sm). assert (m' = m) by congruence. subst m'.
          split; [exact I1|]. exists m. split; assumption.
        * intros (I1 & m & Sm & Zp). destruct (B4 m Sm) as (r & Hr & Em). exists r. split; [apply zseq_In; exact Hr|]. split; [exact I1|]. exists m. split; assumption.
      + apply pairs_impl with (P := fun r r' => r <> r').
        2:{ pose proof (zseq_NoDup bn) as Nd. clear -Nd. induction Nd as [|x l Hx Nd IH]; [exact I|]. split; [|exact IH]. intros y Hy ->. contradiction. }
        intros r r' Hr Hr' Ne t s p t' s' q (I1 & m & Em & Zp) (I2 & m' & Em' & Zq) HK Nr. apply zseq_In in Hr, Hr'.
        pose proof (enum_In _ _ _ _ En I1) as Ek1. pose proof (enum_In _ _ _ _ En I2) as Ek2.
        assert (S1 : subset_mask N phase m) by (destruct (B2 r Hr) as (x & Ex & Sx); congruence).
        assert (S2 : subset_mask N phase m') by (destruct (B2 r' Hr') as (x & Ex & Sx); congruence).
        destruct (zc_sep tsh mlds sec msn mega0 phase m (K t s - K0 - msn) s blk p phase m' (K t' s' - K0 - msn) s' blk q) as (_ & B); try assumption; try lia.
        * replace (K t s - K0 - msn - (K t' s' - K0 - msn)) with (K t s - K t' s') by lia. exact Nr.
        * destruct (B eq_refl) as (Bm & _). apply Ne. apply B3; try assumption. congruence.
  Qed.

  Lemma mega_loops : forall mlds, mega_ok mlds -> exists blks, run_loops true (c_nt c) None [(c_fm c, mlds)] = Ok blks /\
    (forall B, In B blks <-> cuts mlds B) /\
    pairs (fun B B' => exists j, (j < n)%nat /\ (snd (nth j B iv0) <= fst (nth j B' iv0) \/ snd (nth j B' iv0) <= fst (nth j B iv0))) blks.
  Proof.
    intros mlds (Lm & MO).
    assert (LO : loops_ok (c_fm c) mlds).
    { split; [intros E; rewrite E in Lm; cbn in Lm; lia|]. split; [rewrite Lm; exact Hfm|].
      split; apply Forall_nth' with ld0; intros j Hj; rewrite Lm in Hj; apply (MO j Hj). }
    destruct (loops_level (c_nt c) (c_fm c) mlds Hnt LO) as (blks & E & M1 & M2 & M3 & _). rewrite Lm in M1, M2, M3.
    exists blks. split; [exact E|]. split; [|exact M3]. intros B. split; [apply M1|intros (A1 & A2); apply M2; assumption].
  Qed.

  (* one layer with temporal blocking: the phases *)
  Lemma tb_layer : forall sec msn b e mega0 mlds K0 tsh, tbb c = true -> mega_ok mlds -> wide tsh mlds -> length mega0 = n ->
    enum (K0 + msn) (todo_of c None b e) -> Z.of_nat (length (todo_of c None b e)) <= tsh + 1 ->
    exists r, rmap (fun phase => rbind (run_loops true (c_nt c) None [(c_fm c, mlds)]) (fun blks =>
                rmap (calc_block c sec None msn (Z.of_nat n + 1) phase b e mega0 mlds) blks)) (zseq (Z.of_nat n + 1)) = Ok r /\
      good_regs r (fun t s p => In (t, s) (todo_of c None b e) /\ pm sec (K t s - K0) s mega0 p).
  Proof.
    intros sec msn b e mega0 mlds K0 tsh TB MO W L0 En Lt. set (todo := todo_of c None b e) in *.
    destruct (mega_loops mlds MO) as (blks & Eb & Hb & Pb).
    pose (Qp := fun phase t s p => exists blk, In blk blks /\ Qb todo sec msn K0 mlds mega0 phase blk t s p).
    match goal with |- exists r, rmap ?f ?l = _ /\ _ => destruct (rmap_good _ _ f (fun phase g => good_regs [g] (Qp phase)) l) as (gs & E & F) end.
    - intros phase Hph. apply zseq_In in Hph. rewrite Eb. cbn [rbind].
      destruct (rmap_good _ _ (calc_block c sec None msn (Z.of_nat n + 1) phase b e mega0 mlds) (fun blk es => good_evs es (Qb todo sec msn K0 mlds mega0 phase blk)) blks) as (ths & E & F).
      + intros blk Hblk. apply (calc_block_tb sec msn phase b e mega0 mlds blk K0 tsh); try assumption; [apply Hb; exact Hblk|lia].
      + exists ths. split; [exact E|]. apply gr_region with (1 := F).
        eapply pairs_impl; [|exact Pb]. intros B B' HB HB' (j & Hj & Hd). apply Hb in HB, HB'.
        assert (Ne : B <> B').
        { intros <-. destruct (MO) as (_ & MO'). destruct (is_cut_in _ _ (proj1 (proj2 (MO' j Hj))) (proj2 HB j Hj)). lia. }
        split; intros t s p t' s' q Q1 Q2 HK Nr.
        * destruct (Qb_sep _ _ _ _ _ _ tsh _ _ _ _ _ _ _ _ _ _ TB MO W En Lt HB HB' Q1 Q2 HK Nr) as (_ & X). apply Ne. symmetry. apply X. reflexivity.
        * destruct (Qb_sep _ _ _ _ _ _ tsh _ _ _ _ _ _ _ _ _ _ TB MO W En Lt HB' HB Q1 Q2 HK Nr) as (_ & X). apply Ne. apply X. reflexivity.
    - exists gs. split; [exact E|].
      assert (F' : Forall2 (fun x rs => good_regs rs (Qp x)) (zseq (Z.of_nat n + 1)) (map (fun g => [g]) gs)).
      { clear -F. induction F as [|x g xs gs G F IH]; constructor; assumption. }
      replace gs with (concat (map (fun g : region => [g]) gs)) by (clear; induction gs as [|g gs IH]; [reflexivity|cbn; rewrite IH; reflexivity]).
      eapply gr_iff; [|apply (gr_concat _ Qp _ _ F')].
      + intros t s p. split.
        * intros (ph & Hph & blk & Hblk & I1 & m & Sm & Lp & Zp). split; [exact I1|]. split; [exact Lp|]. intros j Hj.
          destruct (Zp j Hj) as (A & _). replace (msn + (K t s - K0 - msn)) with (K t s - K0) in A by lia. exact A.
        * intros (I1 & Lp & Hp). set (k := K t s - K0 - msn).
          assert (Ex : forall j, (j < n)%nat -> exists x : (Z * Z) * bool, is_cut (nth j mlds ld0) (fst x) /\
             zone false (snd x) k (D j) (fst x) (nth j (ranges mlds) iv0) (ixr sec (msn + k) s mega0 j) (nth j p 0)).
          { intros j Hj. destruct MO as (Lm & MO'). destruct (cut_select (nth j mlds ld0) (fun x => x + t_ta (D j) * k <=? nth j p 0) (proj1 (proj2 (MO' j Hj)))) as (m & A & B & C).
            destruct (zone_some (D j) (nth j (ranges mlds) iv0) k m (ixr sec (msn + k) s mega0 j) (nth j p 0)) as (br & Hbr).
            - replace (msn + k) with (K t s - K0) by lia. apply Hp. exact Hj.
            - rewrite (ranges_nth mlds j ltac:(lia)). cbn [fst snd]. destruct B; [left; assumption|right; lia].
            - rewrite (ranges_nth mlds j ltac:(lia)). cbn [fst snd]. destruct C; [left; assumption|right; lia].
            - exists (m, br). split; assumption. }
          destruct (choose _ _ n (iv0, false) Ex) as (bl & Lbl & Hbl).
          destruct (mask_of (fun j => snd (nth j bl (iv0, false))) n) as (m & Bm & Tm).
          set (ph := Z.of_nat (length (filter (Z.testbit m) (zseq (Z.of_nat n))))).
          assert (Sm : subset_mask (Z.of_nat n) ph m) by (split; [exact Bm|reflexivity]).
          assert (Hph : 0 <= ph <= Z.of_nat n).
          { subst ph. pose proof (filter_sub _ (Z.testbit m) (fun _ => true) (zseq (Z.of_nat n)) ltac:(reflexivity)) as (X & _).
            assert (Y : length (filter (fun _ : Z => true) (zseq (Z.of_nat n))) = length (zseq (Z.of_nat n))) by (clear; induction (zseq (Z.of_nat n)) as [|a l IH]; [reflexivity|cbn; rewrite IH; reflexivity]).
            rewrite zseq_length in Y. lia. }
          exists ph. split; [apply zseq_In; lia|]. exists (map fst bl). 
          assert (Cb : cuts mlds (map fst bl)).
          { split; [rewrite map_length; exact Lbl|]. intros j Hj. rewrite (map_nth' _ _ _ _ (iv0, false)) by lia. apply (Hbl j Hj). }
          split; [apply Hb; exact Cb|]. split; [exact I1|]. exists m. split; [exact Sm|]. fold k. split; [exact Lp|]. intros j Hj.
          split; [replace (msn + k) with (K t s - K0) by lia; apply Hp; exact Hj|].
          rewrite (bit_phase _ _ _ Sm Hj), (Tm j Hj), (map_nth' _ _ _ _ (iv0, false)) by lia. apply (Hbl j Hj).
      + apply pairs_impl with (P := fun x y => x < y).
        2:{ clear. unfold zseq. generalize (Z.to_nat (Z.of_nat n + 1)). intros N. generalize 0%nat at 1. revert N. induction N as [|N IH]; intros a; [exact I|].
            cbn [seq map]. split; [|apply IH]. intros y Hy. apply in_map_iff in Hy. destruct Hy as (z & <- & Hz). apply in_seq in Hz. lia. }
        intros ph ph' _ _ Hlt t s p t' s' q (B & HB & Q1) (B' & HB' & Q2) HK Nr. apply Hb in HB, HB'.
        destruct (Qb_sep _ _ _ _ _ _ tsh _ _ _ _ _ _ _ _ _ _ TB MO W En Lt HB HB' Q1 Q2 HK Nr) as (X & _). lia.
  Qed.

  (* one stage of one step without temporal blocking *)
  Definition linvs (lds : list ldim) : Prop := length lds = n /\ forall j, (j < n)%nat -> linv (D j) (nth j lds ld0).
  Lemma mega_dims : forall lds rng, linvs lds -> length rng = n -> let lds' := zip3 mega_dim (c_dims c) lds rng in
    linvs lds' /\ (forall j, (j < n)%nat -> nth j lds' ld0 = mega_dim (D j) (nth j lds ld0) (nth j rng iv0)) /\
    ((forall j, (j < n)%nat -> fst (nth j rng iv0) < snd (nth j rng iv0)) -> mega_ok lds').
  Proof.
    intros lds rng (Ll & Hl) Lr lds'.
    assert (E : forall j, (j < n)%nat -> nth j lds' ld0 = mega_dim (D j) (nth j lds ld0) (nth j rng iv0)) by (intros j Hj; apply zip3_nth; assumption).
    assert (L : length lds' = n) by (apply zip3_length; assumption).
    assert (MD : forall j, (j < n)%nat -> let l := mega_dim (D j) (nth j lds ld0) (nth j rng iv0) in _) by
      (intros j Hj; destruct (Hdim j Hj); apply (mega_dim_ok (f_tile (c_fm c)) (D j) (nth j lds ld0) (nth j rng iv0)); try lia; [apply o_tile0|apply Hl; exact Hj]).
    cbv zeta in MD. split; [|split; [exact E|]].
    - split; [exact L|]. intros j Hj. rewrite (E j Hj). apply (MD j Hj).
    - intros Hr. split; [exact L|]. intros j Hj. cbv zeta. rewrite (E j Hj). destruct (MD j Hj) as (A & _ & _ & B). destruct (B (Hr j Hj)) as (B1 & B2 & B3 & _).
      repeat split; try apply A; assumption || apply B1.
  Qed.
  Definition Qpl (t0 s0 : Z) (sec : section) (msn : Z) (mlds : list ldim) (mega0 blk : list (Z * Z)) (t s : Z) (p : list Z) : Prop :=
    t = t0 /\ s = s0 /\ zc true 0 0 msn 0 sec s blk (ranges mlds) mega0 p.
  Lemma plain_stage : forall sec k b e s mega0 lds K0, tbb c = false -> length mega0 = n -> linvs lds -> 0 <= s < c_nst c ->
    todo_of c (Some s) b e = [(b, s)] -> K b s = K0 + k ->
    let '(ok, rng) := shift_mega (wfb c) sec 0 k (c_dims c) (stage_bb c s) mega0 (ranges lds) in
    let lds' := zip3 mega_dim (c_dims c) lds rng in
    linvs lds' /\
    exists r, (if ok then rbind (run_loops true (c_nt c) None [(c_fm c, lds')]) (fun blks =>
                 rbind (rmap (calc_block c sec (Some s) k 1 0 b e mega0 lds') blks) (fun r => Ok [r])) else Ok []) = Ok r /\
      good_regs r (fun t s' p => In (t, s') [(b, s)] /\ pm sec (K t s' - K0) s' mega0 p).
  Proof.
    intros sec k b e s mega0 lds K0 TB L0 LI Hs Et Ek.
    assert (Lr : length (ranges lds) = n) by (unfold ranges; rewrite map_length; apply LI).
    pose proof (shift_mega_spec (wfb c) sec k (c_dims c) (stage_bb c s) mega0 (ranges lds) 0 (Hbb s Hs) L0 Lr) as SM. cbv zeta in SM.
    pose proof (shift_mega_len (wfb c) sec k (c_dims c) (stage_bb c s) mega0 (ranges lds) 0 (Hbb s Hs) L0 Lr) as SL.
    destruct (shift_mega (wfb c) sec 0 k (c_dims c) (stage_bb c s) mega0 (ranges lds)) as (ok, rng). cbn [fst snd] in SM, SL. destruct SM as (S1 & S2). cbn [Nat.add] in S1, S2.
    destruct (mega_dims lds rng LI SL) as (LI' & Hnth & MO). set (lds' := zip3 mega_dim (c_dims c) lds rng) in *. cbv zeta. split; [exact LI'|].
    destruct ok.
    2:{ exists []. split; [reflexivity|]. apply gr_nil. intros t s' p ([I1|[]] & Lp & Hp). injection I1 as <- <-.
        assert (X : false = true); [|discriminate X]. apply S1. intros j Hj. specialize (Hp j Hj). unfold pt_in, ixr in Hp. rewrite Ek in Hp. replace (K0 + k - K0) with k in Hp by lia. lia. }
    assert (S3 := proj1 S1 eq_refl). specialize (S2 eq_refl). assert (MO' : mega_ok lds') by (apply MO; intros j Hj; rewrite (S2 j Hj); apply S3; exact Hj). clear MO S1.
    destruct (mega_loops lds' MO') as (blks & Eb & Hb & Pb). rewrite Eb. cbn [rbind].
    assert (En : enum (K0 + k) [(b, s)]) by (cbn; lia).
    destruct (rmap_good _ _ (calc_block c sec (Some s) k 1 0 b e mega0 lds') (fun blk es => good_evs es (Qpl b s sec k lds' mega0 blk)) blks) as (ths & E & F).
    { intros blk Hblk. apply Hb in Hblk. destruct Hblk as (Lb & Cb). destruct MO' as (Lm & MO'). unfold calc_block. rewrite TB, Et. cbv zeta. cbn [Z.eqb Pos.eqb].
      destruct (mbs_sep sec true 0 0 k K0 blk (ranges lds') mega0 lds' [(b, s)]) as (mbs & E2 & G1 & G2 & G3); try assumption.
      - unfold ranges. rewrite map_length. exact Lm.
      - intros j Hj. apply (MO' j Hj).
      - intros j Hj. apply (is_cut_in _ _ (proj1 (proj2 (MO' j Hj))) (Cb j Hj)).
      - intros _. cbn. lia.
      - rewrite E2. cbn [rbind]. eexists. split; [reflexivity|]. constructor; [exact G2| |].
        + intros ev p He Hp. destruct (G1 ev He) as ([A1|[]] & A2). injection A1 as Ea Eb'. split; [congruence|]. split; [congruence|].
          specialize (A2 p Hp). rewrite <- Ea, <- Eb' in A2 at 1. rewrite Ek in A2. replace (K0 + k - K0 - k) with 0 in A2 by lia. exact A2.
        + intros t s' p (-> & -> & Zp). apply (G3 b s p); [left; reflexivity|]. rewrite Ek. replace (K0 + k - K0 - k) with 0 by lia. exact Zp. }
    rewrite E. cbn [rbind]. eexists. split; [reflexivity|]. eapply gr_iff; [|apply (gr_region _ _ _ _ F)].
    - intros t s' p. split.
      + intros (blk & Hblk & -> & -> & Lp & Zp). split; [left; reflexivity|]. split; [exact Lp|]. intros j Hj. destruct (Zp j Hj) as (A & _).
        rewrite Ek. replace (K0 + k - K0) with (k + 0) by lia. exact A.
      + intros ([I1|[]] & Lp & Hp). injection I1 as <- <-. rewrite Ek in Hp. replace (K0 + k - K0) with (k + 0) in Hp by lia.
        assert (Ex : forall j, (j < n)%nat -> exists x : Z * Z, is_cut (nth j lds' ld0) x /\
             zone true false 0 (D j) x (nth j (ranges lds') iv0) (ixr sec (k + 0) s mega0 j) (nth j p 0)).
        { intros j Hj. destruct MO' as (Lm & MO'). destruct (cut_select (nth j lds' ld0) (fun x => x <=? nth j p 0) (proj1 (proj2 (MO' j Hj)))) as (m & A & B & C).
          exists m. split; [exact A|]. rewrite (ranges_nth lds' j ltac:(lia)). specialize (Hp j Hj). unfold pt_in in Hp.
          destruct (is_cut_in _ _ (proj1 (proj2 (MO' j Hj))) A) as (A1 & A2 & A3).
          unfold zone, z_start, z_stop. cbn [fst snd orb andb negb]. rewrite !Z.mul_0_r.
          destruct (fst m <=? l_begin (nth j lds' ld0)) eqn:E1, (l_end (nth j lds' ld0) <=? snd m) eqn:E2; lia. }
        destruct (choose _ _ n iv0 Ex) as (bl & Lbl & Hbl). exists bl. split; [apply Hb; split; [exact Lbl|intros j Hj; apply (Hbl j Hj)]|].
        split; [reflexivity|]. split; [reflexivity|]. split; [exact Lp|]. intros j Hj. split; [apply Hp; exact Hj|]. cbn [Z.ltb Z.compare andb]. apply (Hbl j Hj).
    - eapply pairs_impl; [|exact Pb]. intros B B' HB HB' (j & Hj & Hd). apply Hb in HB, HB'.
      destruct MO' as (Lm & MO'). destruct (MO' j Hj) as (_ & G & _). 
      destruct (is_cut_in _ _ G (proj2 HB j Hj)) as (A1 & A2 & A3). destruct (is_cut_in _ _ G (proj2 HB' j Hj)) as (A1' & A2' & A3').
      assert (X : forall X X' p, X = nth j B iv0 /\ X' = nth j B' iv0 \/ X' = nth j B iv0 /\ X = nth j B' iv0 ->
         zone true false 0 (D j) X (nth j (ranges lds') iv0) (ixr sec (k + 0) s mega0 j) p -> zone true false 0 (D j) X' (nth j (ranges lds') iv0) (ixr sec (k + 0) s mega0 j) p -> False).
      { intros X X' p HX Z1 Z2. rewrite (ranges_nth lds' j ltac:(lia)) in Z1, Z2.
        destruct HX as [(-> & ->)|(-> & ->)], Hd as [Hd|Hd];
        ((apply (zone_order0 _ _ _ _ _ _) with (4 := Z1) (5 := Z2); unfold blk_ok; cbn [fst snd]; lia) || (apply (zone_order0 _ _ _ _ _ _) with (4 := Z2) (5 := Z1); unfold blk_ok; cbn [fst snd]; lia)). }
      split; intros t s' p t' s'' q (-> & -> & Lp & Zp) (-> & -> & Lq & Zq) HK Nr; rewrite Z.sub_diag in Nr; pose proof (near0 p q Lp Lq Nr); subst q;
      destruct (Zp j Hj) as (_ & Z1); destruct (Zq j Hj) as (_ & Z2); cbn [Z.ltb Z.compare andb] in Z1, Z2; eapply X; [|exact Z1|exact Z2|idtac|exact Z1|exact Z2]; tauto.
  Qed.

  Fixpoint enum3 (a : Z) (todo : list (Z * Z * Z)) : Prop :=
    match todo with [] => True | (b, e, s) :: r => todo_of c (Some s) b e = [(b, s)] /\ K b s = a /\ 0 <= s < c_nst c /\ enum3 (a + 1) r end.
  Lemma enum3_In : forall todo a b e s, enum3 a todo -> In (b, e, s) todo -> a <= K b s.
  Proof using c K.
    clear -c K. induction todo as [|((b0, e0), s0) todo IH]; intros a b e s H I; [destruct I|]. destruct H as (_ & E & _ & H). destruct I as [I|I].
    - injection I as <- <- <-. lia.
    - pose proof (IH (a + 1) b e s H I). lia.
  Qed.
  Lemma mega_plain_good : forall sec mega0 K0, tbb c = false -> length mega0 = n -> forall todo lds k, linvs lds -> enum3 (K0 + k) todo ->
    exists r, mega_plain c sec mega0 lds k todo = Ok r /\
      good_regs r (fun t s p => In (t, s) (map (fun x => (fst (fst x), snd x)) todo) /\ pm sec (K t s - K0) s mega0 p).
  Proof.
    intros sec mega0 K0 TB L0. induction todo as [|((b, e), s) todo IH]; intros lds k LI En.
    - exists []. split; [reflexivity|]. apply gr_nil. intros t s p ([] & _).
    - destruct En as (Et & Ek & Hs & En). cbn [mega_plain]. pose proof (plain_stage sec k b e s mega0 lds K0 TB L0 LI Hs Et Ek) as PS.
      destruct (shift_mega (wfb c) sec 0 k (c_dims c) (stage_bb c s) mega0 (ranges lds)) as (ok, rng). cbv zeta in PS |- *. destruct PS as (LI' & r & E & G).
      rewrite E. cbn [rbind]. replace (K0 + k + 1) with (K0 + (k + 1)) in En by lia. destruct (IH _ (k + 1) LI' En) as (rs & E' & G'). rewrite E'. cbn [rbind].
      eexists. split; [reflexivity|].
      pose (Qi := fun (x : bool) t s' p => if x then In (t, s') [(b, s)] /\ pm sec (K t s' - K0) s' mega0 p else In (t, s') (map (fun x => (fst (fst x), snd x)) todo) /\ pm sec (K t s' - K0) s' mega0 p).
      assert (GC : good_regs (concat [r; rs]) (fun t s p => exists x, In x [true; false] /\ Qi x t s p)).
      { apply gr_concat; [constructor; [exact G|constructor; [exact G'|constructor]]|]. split; [|split; [intros y []|exact I]].
        intros y [<-|[]] t s1 p t' s' q ([I1|[]] & _) (I2 & _) HK _. injection I1 as <- <-. apply in_map_iff in I2. destruct I2 as (((b2, e2), s2) & E2 & I2).
        cbn in E2. injection E2 as <- <-. pose proof (enum3_In _ _ _ _ _ En I2). lia. }
      cbn [concat] in GC. rewrite app_nil_r in GC. eapply gr_iff; [|exact GC]. intros t s' p. cbn [map fst snd In]. split.
      + intros (x & [<-|[<-|[]]] & H); cbn in H; tauto.
      + intros ([H|H] & P); [exists true; split; [left; reflexivity|cbn; tauto]|exists false; split; [right; left; reflexivity|cbn; tauto]].
  Qed.

  (* with temporal blocking: one layer after the other *)
  Variable tsh : Z.
  Hypothesis Htw : tbb c = true -> forall j, (j < n)%nat -> t_bksz (D j) < t_mgsz (D j) -> 2 * t_ta (D j) * tsh <= t_tw (D j) /\ 2 * t_ta (D j) * tsh <= t_bksz (D j).
  (* the last of several blocks of a mega-block is wide enough *)
  Definition last_wide (M : list (Z * Z)) : Prop := forall j ld msn b, (j < n)%nat -> linv (D j) ld -> 0 <= msn ->
    l_end ld - l_begin ld = snd (nth j M iv0) - fst (nth j M iv0) -> t_bksz (D j) < t_mgsz (D j) ->
    is_cut (mega_dim (D j) ld (fst (nth j M iv0) - t_wa (D j) * msn, snd (nth j M iv0) - t_wa (D j) * msn)) b ->
    fst (nth j M iv0) - t_wa (D j) * msn < fst b -> snd b = snd (nth j M iv0) - t_wa (D j) * msn -> 2 * t_ta (D j) * tsh <= snd b - fst b.
  Lemma enum_app : forall l r a, enum a (l ++ r) <-> enum a l /\ enum (a + Z.of_nat (length l)) r.
  Proof using c K.
    clear -c K. induction l as [|(t, s) l IH]; intros r a; cbn [app enum length].
    - rewrite Z.add_0_r. tauto.
    - rewrite IH. replace (a + 1 + Z.of_nat (length l)) with (a + Z.of_nat (S (length l))) by lia. tauto.
  Qed.
  Lemma mega_tb_good : forall sec mega0 K0, tbb c = true -> length mega0 = n -> (forall j, (j < n)%nat -> fst (nth j mega0 iv0) < snd (nth j mega0 iv0)) -> last_wide mega0 ->
    forall chunks lds msn, linvs lds -> (forall j, (j < n)%nat -> l_end (nth j lds ld0) - l_begin (nth j lds ld0) = snd (nth j mega0 iv0) - fst (nth j mega0 iv0)) ->
    0 <= msn -> enum (K0 + msn) (flat_map (fun be => todo_of c None (fst be) (snd be)) chunks) ->
    (forall b e, In (b, e) chunks -> Z.of_nat (length (todo_of c None b e)) = Z.abs (e - b) * c_nst c /\ Z.of_nat (length (todo_of c None b e)) <= tsh + 1) ->
    exists r, mega_tb c sec mega0 lds msn chunks = Ok r /\
      good_regs r (fun t s p => In (t, s) (flat_map (fun be => todo_of c None (fst be) (snd be)) chunks) /\ pm sec (K t s - K0) s mega0 p).
  Proof.
    intros sec mega0 K0 TB L0 H0 LW. induction chunks as [|(b, e) chunks IH]; intros lds msn LI Wd Hm En Lc.
    - exists []. split; [reflexivity|]. apply gr_nil. intros t s p ([] & _).
    - cbn [flat_map fst snd] in En. apply enum_app in En. destruct En as (En1 & En2). destruct (Lc b e (or_introl eq_refl)) as (Lc1 & Lc2).
      assert (Lso : length (shift_only msn (c_dims c) mega0) = n) by (unfold shift_only; rewrite map_length, combine_length; lia).
      assert (Nso : forall j, (j < n)%nat -> nth j (shift_only msn (c_dims c) mega0) iv0 = (fst (nth j mega0 iv0) - t_wa (D j) * msn, snd (nth j mega0 iv0) - t_wa (D j) * msn)).
      { intros j Hj. unfold shift_only. rewrite (map_nth' _ _ _ _ (td0, iv0)) by (rewrite combine_length; lia). rewrite combine_nth by congruence. reflexivity. }
      destruct (mega_dims lds (shift_only msn (c_dims c) mega0) LI Lso) as (LI' & Hnth & MO). cbn [mega_tb].
      set (lds' := zip3 mega_dim (c_dims c) lds (shift_only msn (c_dims c) mega0)) in *.
      assert (MO' : mega_ok lds') by (apply MO; intros j Hj; rewrite (Nso j Hj); cbn [fst snd]; specialize (H0 j Hj); lia). clear MO.
      assert (MD : forall j, (j < n)%nat -> let l := mega_dim (D j) (nth j lds ld0) (nth j (shift_only msn (c_dims c) mega0) iv0) in _) by
        (intros j Hj; destruct (Hdim j Hj); apply (mega_dim_ok (f_tile (c_fm c)) (D j) (nth j lds ld0) (nth j (shift_only msn (c_dims c) mega0) iv0)); try lia; [apply o_tile0|apply LI; exact Hj]).
      cbv zeta in MD.
      assert (W : wide tsh lds').
      { intros j B Hj CB Hlt. destruct MO' as (Lm & MO'). destruct (MO' j Hj) as (_ & G & _ & Sg). rewrite (Hnth j Hj), (Nso j Hj) in *.
        specialize (MD j Hj). rewrite (Nso j Hj) in MD. destruct MD as (_ & Eb & Ee & R). cbn [fst snd] in Eb, Ee, R. specialize (H0 j Hj). destruct (R ltac:(lia)) as (_ & _ & _ & R4).
        destruct (Z_le_gt_dec (t_mgsz (D j)) (t_bksz (D j))) as [L|L].
        - rewrite (cut_single _ _ G (Sg L) CB) in Hlt. cbn in Hlt. lia.
        - destruct (Htw TB j Hj ltac:(lia)) as (T1 & T2). split; [exact T1|]. specialize (R4 ltac:(lia)).
          destruct (is_cut_in _ _ G CB) as (A1 & A2 & A3). destruct (Z_lt_le_dec (snd B) (l_end (mega_dim (D j) (nth j lds ld0) (fst (nth j mega0 iv0) - t_wa (D j) * msn, snd (nth j mega0 iv0) - t_wa (D j) * msn)))) as [X|X].
          + rewrite (cut_width _ _ G CB Hlt X). lia.
          + apply (LW j (nth j lds ld0) msn B Hj); try assumption; try lia; [apply LI; exact Hj|apply Wd; exact Hj]. }
      destruct (tb_layer sec msn b e mega0 lds' K0 tsh TB MO' W L0 En1 Lc2) as (r & E & G). rewrite E. cbn [rbind].
      assert (Wd' : forall j, (j < n)%nat -> l_end (nth j lds' ld0) - l_begin (nth j lds' ld0) = snd (nth j mega0 iv0) - fst (nth j mega0 iv0)).
      { intros j Hj. rewrite (Hnth j Hj). destruct (MD j Hj) as (_ & Eb & Ee & _). rewrite Eb, Ee, (Nso j Hj). cbn [fst snd]. lia. }
      destruct (IH lds' (msn + Z.abs (e - b) * c_nst c) LI' Wd') as (rs & E' & G').
      { unfold c_nst. nia. }
      { rewrite <- Lc1. rewrite Z.add_assoc. exact En2. }
      { intros b' e' Hi. apply Lc. right. exact Hi. }
      rewrite E'. cbn [rbind]. eexists. split; [reflexivity|].
      pose (Qi := fun (x : bool) t s' p => if x then In (t, s') (todo_of c None b e) /\ pm sec (K t s' - K0) s' mega0 p else In (t, s') (flat_map (fun be => todo_of c None (fst be) (snd be)) chunks) /\ pm sec (K t s' - K0) s' mega0 p).
      assert (GC : good_regs (concat [r; rs]) (fun t s p => exists x, In x [true; false] /\ Qi x t s p)).
      { apply gr_concat; [constructor; [exact G|constructor; [exact G'|constructor]]|]. split; [|split; [intros y []|exact I]].
        intros y [<-|[]] t s1 p t' s' q (I1 & _) (I2 & _) HK _. pose proof (enum_In _ _ _ _ En1 I1). pose proof (enum_In _ _ _ _ En2 I2). lia. }
      cbn [concat] in GC. rewrite app_nil_r in GC. eapply gr_iff; [|exact GC]. intros t s' p. cbn [flat_map fst snd]. rewrite in_app_iff. split.
      + intros (x & [<-|[<-|[]]] & H); cbn in H; tauto.
      + intros ([H|H] & P); [exists true; split; [left; reflexivity|cbn; tauto]|exists false; split; [right; left; reflexivity|cbn; tauto]].
  Qed.

  Hypothesis Hts : tbb c = true -> c_tb c * c_nst c <= tsh + 1.
  Lemma enum3_of : forall l a, enum a (map (fun x => (fst (fst x), snd x)) l) -> (forall b e s, In (b, e, s) l -> todo_of c (Some s) b e = [(b, s)]) -> enum3 a l.
  Proof using c K.
    clear -c K. induction l as [|((b, e), s) l IH]; intros a En H; [exact I|]. cbn [map fst snd enum] in En. destruct En as (E1 & E2 & E3).
    split; [apply H; left; reflexivity|]. split; [exact E1|]. split; [exact E2|]. apply IH; [exact E3|]. intros; apply H; right; assumption.
  Qed.
  Lemma calc_mega_good : forall sec sel b e rlds M K0, length M = n -> (forall j, (j < n)%nat -> fst (nth j M iv0) < snd (nth j M iv0)) -> linvs rlds ->
    (tbb c = true -> sel = None /\ last_wide M) -> enum K0 (todo_of c sel b e) ->
    exists r, calc_mega_block c sec sel b e rlds M = Ok r /\
      good_regs r (fun t s p => In (t, s) (todo_of c sel b e) /\ pm sec (K t s - K0) s M p).
  Proof.
    intros sec sel b e rlds M K0 LM HM (Lr & LI) HT En. unfold calc_mega_block. cbv zeta.
    set (lds := zip3 (fun d ld m => create_inner (t_fold d) ld (fst m) (snd m)) (c_dims c) rlds M).
    assert (Ll : length lds = n) by (apply zip3_length; assumption).
    assert (Nl : forall j, (j < n)%nat -> nth j lds ld0 = create_inner (t_fold (D j)) (nth j rlds ld0) (fst (nth j M iv0)) (snd (nth j M iv0))).
    { intros j Hj. unfold lds. rewrite (zip3_nth _ _ _ _ _ _ _ _ td0 ld0 iv0) by assumption. reflexivity. }
    assert (LI' : linvs lds) by (split; [exact Ll|]; intros j Hj; rewrite (Nl j Hj); exact (LI j Hj)).
    destruct (bool_dec (tbb c) true) as [TB|TB]; [|apply not_true_is_false in TB]; rewrite TB.
    - destruct (HT TB) as (-> & LW). assert (Htb : 1 <= c_tb c) by (unfold tbb in TB; lia). replace (Z.max (c_tb c) 1) with (c_tb c) by lia.
      destruct (mega_tb_good sec M K0 TB LM HM LW (step_chunks b e (c_tb c * dir_of b e)) lds 0 LI') as (r & E & G).
      + intros j Hj. rewrite (Nl j Hj). reflexivity.
      + lia.
      + rewrite Z.add_0_r, todo_chunks by exact Htb. exact En.
      + intros b' e' Hc. destruct (chunk_In _ _ _ _ _ Htb Hc) as (i & H1 & H2 & H3 & H4 & _). rewrite todo_len, sel_all_len.
        split; [reflexivity|]. specialize (Hts TB). assert (Z.abs (e' - b') <= c_tb c); [|unfold c_nst in *; nia].
        rewrite H3, H4. assert (Ed : dir_of b e = 1 \/ dir_of b e = -1) by (unfold dir_of; destruct (b <=? e); lia). destruct Ed as [-> | ->]; lia.
      + exists r. split; [exact E|]. rewrite todo_chunks in G by exact Htb. exact G.
    - set (l3 := flat_map (fun be => map (fun s => (fst be, snd be, s)) (sel_stages c sel)) (step_chunks b e (Z.max (c_tb c) 1 * dir_of b e))).
      assert (Emax : Z.max (c_tb c) 1 = 1) by (unfold tbb in TB; lia).
      assert (E3 : map (fun x => (fst (fst x), snd x)) l3 = todo_of c sel b e).
      { unfold l3, todo_of, micro_steps. rewrite Emax. rewrite Z.mul_1_l. generalize (step_chunks b e (dir_of b e)). intros l. induction l as [|x l IH]; [reflexivity|].
        cbn [flat_map map]. rewrite map_app, IH, map_map. reflexivity. }
      destruct (mega_plain_good sec M K0 TB LM l3 lds 0 LI') as (r & E & G).
      + rewrite Z.add_0_r. apply enum3_of; [rewrite E3; exact En|]. intros b' e' s H. unfold l3 in H. apply in_flat_map in H. destruct H as ((b1, e1) & Hc & H).
        apply in_map_iff in H. destruct H as (s1 & X & _). cbn [fst snd] in X. injection X as <- <- <-. apply todo_one.
        rewrite Emax in Hc. destruct (chunk_In _ _ _ _ _ (Z.le_refl 1) Hc) as (i & H1 & H2 & H3 & H4 & _). rewrite H3, H4.
        assert (Ed : dir_of b e = 1 \/ dir_of b e = -1) by (unfold dir_of; destruct (b <=? e); lia). destruct Ed as [-> | ->]; lia.
      + exists r. split; [exact E|]. rewrite E3 in G. exact G.
  Qed.

  (* --- one pass over the rank --- *)
  Definition rk_e (d : tdim) : Z := if wfb c && (t_rx d =? 0) then ext_e d + t_wsp d else ext_e d.
  Definition prk (sec : section) (k s : Z) (p : list Z) : Prop := length p = n /\ forall j, (j < n)%nat ->
    ext_b (D j) <= nth j p 0 + t_wa (D j) * k < rk_e (D j) /\ pt_in (bb s j) (nth j p 0) /\ ext_in (D j) k (nth j p 0) /\ sec_in (wfb c) sec j k (D j) (nth j p 0).
  Definition rlds : list ldim := map (rank_dim c) (c_dims c).
  Lemma rlds_nth : forall j, (j < n)%nat -> nth j rlds ld0 = rank_dim c (D j).
  Proof. intros j Hj. unfold rlds. apply map_nth'. exact Hj. Qed.
  Lemma rank_dim_ok : forall j, (j < n)%nat -> let l := rank_dim c (D j) in
    good true l /\ (f_tile (c_fr c) = true -> 1 <= l_tile l) /\ linv (D j) l /\ l_begin l = ext_b (D j) /\ l_end l = rk_e (D j) /\ (t_rksz (D j) <= t_mgsz (D j) -> l_end l - l_begin l + l_align l <= l_stride l).
  Proof.
    intros j Hj. destruct (Hdim j Hj) as [Oh Of Ork Owa Osz Otile Owsp Olx Orx Owf Oext Otb]. cbv zeta. unfold rank_dim, adjust_from_settings. fold (rk_e (D j)).
    cbn [l_begin l_end l_stride l_align l_aofs l_tile]. unfold good, linv. cbn [l_begin l_end l_stride l_align l_aofs l_tile].
    assert (P : 0 <= t_wa (D j) * nsh) by nia.
    assert (R : ext_b (D j) < rk_e (D j)) by (unfold rk_e, ext_b, ext_e; destruct (wfb c && (t_rx (D j) =? 0)); lia).
    pose proof (RU2 (rk_e (D j) - ext_b (D j)) (t_fold (D j)) ltac:(lia) ltac:(lia)) as W.
    split; [split; [exact R|split; [|intros _; lia]]|split; [|split; [split; reflexivity|split; [reflexivity|split; [reflexivity|]]]]].
    - destruct (t_rksz (D j) <=? t_mgsz (D j)); lia.
    - intros Ft. apply (proj1 Otile) in Ft. destruct (t_rksz (D j) <=? t_rktile (D j)); lia.
    - intros L. destruct (t_rksz (D j) <=? t_mgsz (D j)) eqn:E; lia.
  Qed.
  Lemma shift_ok : forall k, 0 <= k <= nsh -> forall j, (j < n)%nat -> 0 <= t_wa (D j) * k /\ (t_lx (D j) <> 0 -> t_wa (D j) * k <= t_lx (D j)) /\ (t_rx (D j) <> 0 -> t_wa (D j) * k <= t_rx (D j)).
  Proof. intros k Hk j Hj. destruct (Hdim j Hj) as [Oh Of Ork Owa Osz _ Owsp Olx Orx Owf Oext Otb]. assert (t_wa (D j) * k <= t_wa (D j) * nsh) by nia. nia. Qed.
  Lemma pm_in : forall sec k s M p, 0 <= k <= nsh ->
    (pm sec k s M p <-> length p = n /\ forall j, (j < n)%nat -> fst (nth j M iv0) <= nth j p 0 + t_wa (D j) * k < snd (nth j M iv0) /\
       pt_in (bb s j) (nth j p 0) /\ ext_in (D j) k (nth j p 0) /\ sec_in (wfb c) sec j k (D j) (nth j p 0)).
  Proof.
    intros sec k s M p Hk. unfold pm, ixr. split; intros (L & H); (split; [exact L|]); intros j Hj; destruct (shift_ok k Hk j Hj) as (S1 & S2 & S3); apply (shift1_in (wfb c) sec j k (D j) (bb s j) (nth j M iv0) (nth j p 0) S1 S2 S3); apply H; exact Hj.
  Qed.
  Hypothesis Hdom : forall s p, dom s p -> forall j, (j < n)%nat -> ext_b (D j) <= nth j p 0 < ext_e (D j).
  Hypothesis HLW : tbb c = true -> forall M, cuts rlds M -> last_wide M.

  Lemma rank_sec_good : forall sec sel b e K0, (tbb c = true -> sel = None) -> enum K0 (todo_of c sel b e) ->
    Z.of_nat (length (todo_of c sel b e)) <= nsh + 1 -> (wfb c = false -> (length (todo_of c sel b e) <= 1)%nat) ->
    exists r, rbind (run_loops true (c_nt c) None [(c_fr c, rlds)]) (fun megas =>
                rbind (rmap (calc_mega_block c sec sel b e rlds) megas) (fun r => Ok (concat r))) = Ok r /\
      good_regs r (fun t s p => In (t, s) (todo_of c sel b e) /\ prk sec (K t s - K0) s p).
  Proof.
    intros sec sel b e K0 HT En Ln Lw. set (todo := todo_of c sel b e) in *.
    assert (Lr : length rlds = n) by (unfold rlds; apply map_length).
    assert (RD : forall j, (j < n)%nat -> let l := nth j rlds ld0 in
      good true l /\ (f_tile (c_fr c) = true -> 1 <= l_tile l) /\ linv (D j) l /\ l_begin l = ext_b (D j) /\ l_end l = rk_e (D j) /\ (t_rksz (D j) <= t_mgsz (D j) -> l_end l - l_begin l + l_align l <= l_stride l)).
    { intros j Hj. cbv zeta. rewrite (rlds_nth j Hj). exact (rank_dim_ok j Hj). }
    assert (LO : loops_ok (c_fr c) rlds).
    { split; [intros E; rewrite E in Lr; cbn in Lr; lia|]. split; [rewrite Lr; exact Hfr|].
      split; apply Forall_nth' with ld0; intros j Hj; rewrite Lr in Hj; apply (RD j Hj). }
    destruct (loops_level (c_nt c) (c_fr c) rlds Hnt LO) as (megas & E & M1 & M2 & _ & M4). rewrite Lr in M1, M2, M4. specialize (M4 Hpr). rewrite E. cbn [rbind].
    assert (LIr : linvs rlds) by (split; [exact Lr|intros j Hj; apply (RD j Hj)]).
    assert (MC : forall M, In M megas <-> cuts rlds M) by (intros M; split; [apply M1|intros (A1 & A2); apply M2; assumption]).
    assert (Kr : forall t s, In (t, s) todo -> 0 <= K t s - K0 <= nsh) by (intros t s I1; pose proof (enum_In _ _ _ _ En I1); lia).
    destruct (rmap_good _ _ (calc_mega_block c sec sel b e rlds) (fun M r => good_regs r (fun t s p => In (t, s) todo /\ pm sec (K t s - K0) s M p)) megas) as (rs & E2 & F).
    { intros M HM. apply MC in HM. apply calc_mega_good; [apply HM| |exact LIr| |exact En].
      - intros j Hj. apply (is_cut_in _ _ (proj1 (RD j Hj)) (proj2 HM j Hj)).
      - intros TB. split; [apply HT; exact TB|]. apply HLW; [exact TB|exact HM]. }
    rewrite E2. cbn [rbind]. eexists. split; [reflexivity|]. eapply gr_iff; [|apply (gr_concat _ _ _ _ F)].
    - intros t s p. split.
      + intros (M & HM & I1 & P). split; [exact I1|]. apply MC in HM. apply (pm_in _ _ _ _ _ (Kr t s I1)) in P. destruct P as (Lp & P). split; [exact Lp|].
        intros j Hj. destruct (P j Hj) as (P1 & P2). split; [|exact P2]. destruct (RD j Hj) as (G & _ & _ & B1 & B2 & _). destruct (is_cut_in _ _ G (proj2 HM j Hj)). lia.
      + intros (I1 & Lp & P).
        assert (Ex : forall j, (j < n)%nat -> exists x : Z * Z, is_cut (nth j rlds ld0) x /\ fst x <= nth j p 0 + t_wa (D j) * (K t s - K0) < snd x).
        { intros j Hj. destruct (RD j Hj) as (G & _ & _ & B1 & B2 & _). destruct (P j Hj) as (P1 & _).
          destruct (cut_select (nth j rlds ld0) (fun x => x <=? nth j p 0 + t_wa (D j) * (K t s - K0)) G) as (m & A & B & C). exists m. split; [exact A|]. lia. }
        destruct (choose _ _ n iv0 Ex) as (M & LM & HM). exists M. split; [apply MC; split; [exact LM|intros j Hj; apply (HM j Hj)]|]. split; [exact I1|].
        apply (pm_in _ _ _ _ _ (Kr t s I1)). split; [exact Lp|]. intros j Hj. split; [apply (HM j Hj)|apply (P j Hj)].
    - eapply pairs_impl; [|exact M4]. intros M M' HM HM' (j & Hj & Hlt) t s p t' s' q (I1 & P) (I2 & Q) HK Nr. apply MC in HM, HM'.
      apply (pm_in _ _ _ _ _ (Kr t s I1)) in P. apply (pm_in _ _ _ _ _ (Kr t' s' I2)) in Q. destruct P as (Lp & P), Q as (Lq & Q).
      destruct (P j Hj) as (P1 & _). destruct (Q j Hj) as (Q1 & _). specialize (Nr j Hj).
      destruct (bool_dec (wfb c) true) as [WF|WF]; [|apply not_true_is_false in WF].
      + destruct (o_wf _ _ _ _ (Hdim j Hj) WF) as [Ha|Hs].
        * eapply (mega_order (D j) (h j) (K t s - K0) (K t' s' - K0)); [exact Ha|lia| |apply P1|apply Q1|exact Hlt].
          replace (K t s - K0 - (K t' s' - K0)) with (K t s - K t' s') by lia. exact Nr.
        * destruct (RD j Hj) as (G & _ & _ & _ & _ & Sg). rewrite (cut_single _ _ G (Sg Hs) (proj2 HM j Hj)), (cut_single _ _ G (Sg Hs) (proj2 HM' j Hj)) in Hlt. cbn in Hlt.
          destruct G as (G1 & _). lia.
      + specialize (Lw WF). pose proof (enum_In _ _ _ _ En I1). pose proof (enum_In _ _ _ _ En I2). assert (EK : K t s = K t' s') by lia. rewrite EK in *. rewrite Z.sub_diag in Nr. lia.
  Qed.

  (* the MPI sections *)
  Definition sec_before (a b : section) : Prop :=
    match a, b with
    | SecExt i lft, SecExt i' lft' => (i < i')%nat \/ (i = i' /\ lft = true /\ lft' = false)
    | SecExt _ _, SecInt => True
    | _, _ => False
    end.
  Lemma ext_In : forall ds j i lft, In (SecExt i lft) (exteriors j ds) <->
    exists i0, (i0 < length ds)%nat /\ i = (j + i0)%nat /\ (if lft then ext_left (nth i0 ds td0) else ext_right (nth i0 ds td0)) = true.
  Proof.
    clear. induction ds as [|d ds IH]; intros j i lft; cbn [exteriors length]; [split; [intros []|intros (i0 & H & _); lia]|].
    rewrite !in_app_iff, IH. split.
    - intros [H|[H|(i0 & H1 & H2 & H3)]].
      + destruct (ext_left d) eqn:E; [|destruct H]. destruct H as [H|[]]. injection H as <- <-. exists 0%nat. split; [lia|]. split; [lia|exact E].
      + destruct (ext_right d) eqn:E; [|destruct H]. destruct H as [H|[]]. injection H as <- <-. exists 0%nat. split; [lia|]. split; [lia|exact E].
      + exists (S i0). split; [lia|]. split; [lia|exact H3].
    - intros ([|i0] & H1 & H2 & H3); cbn [nth] in H3.
      + replace (j + 0)%nat with j in H2 by lia. subst i. destruct lft; rewrite H3; [left|right; left]; left; reflexivity.
      + right. right. exists i0. split; [lia|]. split; [lia|exact H3].
  Qed.
  Lemma ext_shape : forall ds j x, In x (exteriors j ds) -> exists i lft, x = SecExt i lft.
  Proof.
    clear. induction ds as [|d ds IH]; intros j x H; cbn [exteriors] in H; [destruct H|]. rewrite !in_app_iff in H. destruct H as [H|[H|H]]; [| |exact (IH _ _ H)].
    - destruct (ext_left d); [destruct H as [<-|[]]; do 2 eexists; reflexivity|destruct H].
    - destruct (ext_right d); [destruct H as [<-|[]]; do 2 eexists; reflexivity|destruct H].
  Qed.
  Lemma ext_pairs : forall ds j, pairs sec_before (exteriors j ds).
  Proof.
    clear. induction ds as [|d ds IH]; intros j; cbn [exteriors]; [exact I|].
    assert (R : forall x, In x (exteriors (S j) ds) -> exists i lft, x = SecExt i lft /\ (j < i)%nat).
    { intros x H. destruct (ext_shape _ _ _ H) as (i & lft & ->). exists i, lft. split; [reflexivity|]. apply ext_In in H. destruct H as (i0 & _ & -> & _). lia. }
    apply pairs_app. split; [destruct (ext_left d); [split; [intros y []|exact I]|exact I]|]. split.
    - apply pairs_app. split; [destruct (ext_right d); [split; [intros y []|exact I]|exact I]|]. split; [apply IH|].
      intros x y Hx Hy. destruct (ext_right d); [|destruct Hx]. destruct Hx as [<-|[]]. destruct (R y Hy) as (i & lft & -> & L). left. exact L.
    - intros x y Hx Hy. destruct (ext_left d); [|destruct Hx]. destruct Hx as [<-|[]]. apply in_app_or in Hy. destruct Hy as [Hy|Hy].
      + destruct (ext_right d); [|destruct Hy]. destruct Hy as [<-|[]]. right. tauto.
      + destruct (R y Hy) as (i & lft & -> & L). left. exact L.
  Qed.
  Lemma secs_pairs : pairs sec_before (exteriors 0 (c_dims c) ++ [SecInt]).
  Proof.
    apply pairs_app. split; [apply ext_pairs|]. split; [split; [intros y []|exact I]|]. intros x y Hx [<-|[]].
    destruct (ext_shape _ _ _ Hx) as (i & lft & ->). exact I.
  Qed.
  Lemma first_not : forall (P : nat -> Prop) N, (forall j, P j \/ ~ P j) -> (forall j, (j < N)%nat -> P j) \/ (exists j, (j < N)%nat /\ ~ P j /\ forall i, (i < j)%nat -> P i).
  Proof.
    clear. intros P N Dec. induction N as [|N IH]; [left; intros j Hj; lia|]. destruct IH as [H|(j & H1 & H2)]; [|right; exists j; split; [lia|exact H2]].
    destruct (Dec N) as [H'|H']; [left; intros j Hj; destruct (Nat.eq_dec j N) as [->|]; [exact H'|apply H; lia]|right; exists N; split; [lia|split; assumption]].
  Qed.
  Lemma rank_pass_good : forall sel b e K0, (tbb c = true -> sel = None) -> enum K0 (todo_of c sel b e) ->
    Z.of_nat (length (todo_of c sel b e)) <= nsh + 1 -> (wfb c = false -> (length (todo_of c sel b e) <= 1)%nat) ->
    exists r, rank_pass c sel b e = Ok r /\
      good_regs r (fun t s p => In (t, s) (todo_of c sel b e) /\ prk SecAll (K t s - K0) s p).
  Proof.
    intros sel b e K0 HT En Ln Lw. unfold rank_pass, rank_part. cbv zeta. fold rlds.
    match goal with |- exists r, rbind (rmap ?f _) _ = _ /\ _ => destruct (rmap_good _ _ f (fun sec r => good_regs r (fun t s p => In (t, s) (todo_of c sel b e) /\ prk sec (K t s - K0) s p)) (exterior_sections c ++ interior_sections c)) as (rs & E & F) end.
    { intros sec _. apply rank_sec_good; assumption. }
    rewrite E. cbn [rbind]. eexists. split; [reflexivity|].
    assert (Kr : forall t s, In (t, s) (todo_of c sel b e) -> 0 <= K t s - K0 <= nsh) by (intros t s I1; pose proof (enum_In _ _ _ _ En I1); lia).
    eapply gr_weak; [| |apply (gr_concat _ _ _ _ F)].
    - intros t s p (sec & _ & I1 & Lp & P). split; [exact I1|]. split; [exact Lp|]. intros j Hj. destruct (P j Hj) as (P1 & P2 & P3 & _).
      split; [exact P1|]. split; [exact P2|]. split; [exact P3|exact I].
    - intros t s p Hd (I1 & Lp & P). unfold exterior_sections, interior_sections. destruct (bool_dec (c_overlap c) true) as [OV|OV]; [|apply not_true_is_false in OV]; rewrite OV.
      2:{ exists SecAll. split; [left; reflexivity|]. split; [exact I1|]. split; [exact Lp|exact P]. }
      set (k := K t s - K0) in *. pose (Pi := fun j => int_b (wfb c) (D j) k <= nth j p 0 < int_e (wfb c) (D j) k).
      destruct (first_not Pi n) as [A|(j & Hj & Nj & A)]; [intros j; unfold Pi; lia| |].
      + exists SecInt. split; [apply in_or_app; right; left; reflexivity|]. split; [exact I1|]. split; [exact Lp|]. intros j Hj. destruct (P j Hj) as (P1 & P2 & P3 & _).
        split; [exact P1|]. split; [exact P2|]. split; [exact P3|exact (A j Hj)].
      + (* dim [j] is the first one outside the interior *)
        pose proof (Hdom s p Hd j Hj) as PE. unfold Pi in Nj.
        assert (S : exists lft : bool, (if lft then ext_left (D j) else ext_right (D j)) = true /\ sec_in (wfb c) (SecExt j lft) j k (D j) (nth j p 0)).
        { unfold sec_in. rewrite Nat.eqb_refl. destruct (Z_lt_le_dec (nth j p 0) (int_b (wfb c) (D j) k)) as [L|L].
          - exists true. split; [|exact L]. unfold int_b in L. destruct (ext_left (D j)) eqn:X; [reflexivity|]. rewrite andb_false_r in L. unfold ext_left in X. lia.
          - exists false. split; [|lia]. assert (L' : int_e (wfb c) (D j) k <= nth j p 0) by lia. unfold int_e in L'. destruct (ext_right (D j)) eqn:X; [reflexivity|].
            rewrite andb_false_r in L'. unfold ext_right in X. lia. }
        destruct S as (lft & S1 & S2). exists (SecExt j lft). split; [apply in_or_app; left; apply ext_In; exists j; split; [exact Hj|split; [reflexivity|exact S1]]|].
        split; [exact I1|]. split; [exact Lp|]. intros i Hi. destruct (P i Hi) as (P1 & P2 & P3 & _). split; [exact P1|]. split; [exact P2|]. split; [exact P3|].
        destruct (Nat.eq_dec i j) as [->|Ne]; [exact S2|]. unfold sec_in. rewrite (proj2 (Nat.eqb_neq i j) Ne).
        destruct (Nat.ltb i j) eqn:X; [|exact I]. apply A. apply Nat.ltb_lt. exact X.
    - unfold exterior_sections, interior_sections. destruct (bool_dec (c_overlap c) true) as [OV|OV]; [|apply not_true_is_false in OV]; rewrite OV; [|cbn [app]; split; [intros y []|exact I]].
      eapply pairs_impl; [|exact secs_pairs]. intros a b' Ha Hb' SB t s p t' s' q (I1 & Lp & P) (I2 & Lq & Q) HK Nr.
      destruct a as [| |i lft]; try destruct SB. assert (Hi : (i < n)%nat /\ (if lft then ext_left (D i) else ext_right (D i)) = true).
      { apply in_app_or in Ha. destruct Ha as [Ha|[Ha|[]]]; [|discriminate Ha]. apply ext_In in Ha. destruct Ha as (i0 & H1 & H2 & H3). cbn in H2. subst i0. split; assumption. }
      destruct Hi as (Hi & Fl). destruct (P i Hi) as (_ & _ & _ & P4). destruct (Q i Hi) as (_ & _ & _ & Q4). cbn [sec_in] in P4. rewrite Nat.eqb_refl in P4.
      specialize (Nr i Hi). pose proof (o_ext _ _ _ _ (Hdim i Hi) OV) as Oe.
      assert (Kd : K t s - K0 - (K t' s' - K0) = K t s - K t' s') by lia. rewrite <- Kd in Nr.
      assert (WK : wfb c = false -> K t s - K0 = K t' s' - K0).
      { intros WF. specialize (Lw WF). pose proof (enum_In _ _ _ _ En I1). pose proof (enum_In _ _ _ _ En I2). lia. }
      assert (HK' : K t' s' - K0 <= K t s - K0) by lia.
      destruct lft.
      + assert (Q5 : int_b (wfb c) (D i) (K t' s' - K0) <= nth i q 0).
        { destruct b' as [| |i' lft']; [destruct SB|exact (proj1 Q4)|]. cbn [sec_in sec_before] in *. destruct (Nat.eqb_spec i i') as [<-|Ne].
          - destruct SB as [SB|(_ & _ & ->)]; [lia|apply Q4].
          - destruct SB as [SB|(SB & _)]; [|congruence]. rewrite (proj2 (Nat.ltb_lt i i') SB) in Q4. apply Q4. }
        exact (int_b_order (D i) (h i) (wfb c) _ _ _ _ (fun X => Oe (or_introl X)) WK Fl HK' Nr P4 Q5).
      + assert (Q5 : nth i q 0 < int_e (wfb c) (D i) (K t' s' - K0)).
        { destruct b' as [| |i' lft']; [destruct SB|exact (proj2 Q4)|]. cbn [sec_in sec_before] in *. destruct (Nat.eqb_spec i i') as [<-|Ne].
          - destruct SB as [SB|(_ & X & _)]; [lia|discriminate X].
          - destruct SB as [SB|(SB & _)]; [|congruence]. rewrite (proj2 (Nat.ltb_lt i i') SB) in Q4. apply Q4. }
        exact (int_e_order (D i) (h i) (wfb c) _ _ _ _ (fun X => Oe (or_intror X)) WK Fl HK' Nr (proj1 P4) Q5).
  Qed.

  (* what is evaluated while messages are under way *)
  Lemma rank_int_good : forall sel b e K0, (tbb c = true -> sel = None) -> enum K0 (todo_of c sel b e) ->
    Z.of_nat (length (todo_of c sel b e)) <= nsh + 1 -> (wfb c = false -> (length (todo_of c sel b e) <= 1)%nat) ->
    exists r, rank_part c (interior_sections c) sel b e = Ok r /\
      forall ev p, In ev (evs r) -> in_box (e_box ev) p = true -> c_overlap c = true /\ forall j, (j < n)%nat -> t_ib (D j) <= nth j p 0 < t_ie (D j).
  Proof.
    intros sel b e K0 HT En Ln Lw. unfold rank_part. cbv zeta. fold rlds.
    match goal with |- exists r, rbind (rmap ?f _) _ = _ /\ _ => destruct (rmap_good _ _ f (fun sec r => good_regs r (fun t s p => In (t, s) (todo_of c sel b e) /\ prk sec (K t s - K0) s p)) (interior_sections c)) as (rs & E & F) end.
    { intros sec _. apply rank_sec_good; assumption. }
    rewrite E. cbn [rbind]. eexists. split; [reflexivity|]. intros ev p He Hp. unfold interior_sections in F.
    destruct (c_overlap c); [split; [reflexivity|]|inversion F; subst; destruct He].
    inversion F as [|? r ? ? G1 G2]; subst. inversion G2; subst. cbn [concat] in He. rewrite app_nil_r in He. destruct G1 as [_ _ Gs _]. destruct (Gs ev p He Hp) as (I1 & _ & P).
    pose proof (enum_In _ _ _ _ En I1) as (Kr & _). intros j Hj. destruct (P j Hj) as (_ & _ & _ & Q). cbn [sec_in] in Q. unfold int_b, int_e in Q.
    destruct (Hdim j Hj) as [Oh Of Ork Owa Osz _ Owsp Olx Orx Owf Oext Otb]. destruct (wfb c && ext_left (D j)), (wfb c && ext_right (D j)); nia.
  Qed.
End Tile.
