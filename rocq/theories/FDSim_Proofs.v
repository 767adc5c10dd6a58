From Coq Require Import QArith Qcanon ZifyBool.
From Verif Require Import Base FD_Model FD_Spec FD_Proofs.
Open Scope Z_scope.

Section Sim.
  Variables (o N : Z) (x0 : Qc) (x : Z -> Qc).
  Hypothesis Ho : 1 <= o.
  Hypothesis HN : o + 1 <= N.

  Definition ix (m n v : Z) : Z := m * m_idx o N + n * n_idx N + v.

  Lemma ix_eq : forall m n v, ix m n v = N * (m * (o + 1) + n) + v.
  Proof. intros. unfold ix, m_idx, n_idx. ring. Qed.

  Lemma ix_inj : forall m n v m' n' v', 0 <= v < N -> 0 <= v' < N -> ix m n v = ix m' n' v' ->
    v = v' /\ m * (o + 1) + n = m' * (o + 1) + n'.
  Proof.
    intros m n v m' n' v' H1 H2 E. rewrite !ix_eq in E.
    generalize dependent (m * (o + 1) + n). generalize dependent (m' * (o + 1) + n'). intros a b E. clear - H1 H2 E.
    assert (b = a) by nia. subst. lia.
  Qed.

  Lemma ix_bound : forall m n v, 0 <= m <= o -> 0 <= n < N -> 0 <= v < N -> 0 <= ix m n v < dsz o N.
  Proof.
    intros m n v Hm Hn Hv. rewrite ix_eq. unfold dsz, m_idx, n_idx.
    assert (0 <= m * (o + 1)) by nia. assert (m * (o + 1) <= o * (o + 1)) by nia.
    assert (o * (o + 1) <= o * N) by nia.
    assert (m * (o + 1) + n + 1 <= (o + 1) * N) by lia. nia.
  Qed.

  Lemma get_ok : forall d m n v, 0 <= m <= o -> 0 <= n < N -> 0 <= v < N -> dget o N d (ix m n v) = Ok (d (ix m n v)).
  Proof. intros d m n v H1 H2 H3. pose proof (ix_bound m n v H1 H2 H3). unfold dget. replace ((0 <=? ix m n v) && (ix m n v <? dsz o N)) with true by lia. reflexivity. Qed.
  Lemma set_ok : forall d m n v y, 0 <= m <= o -> 0 <= n < N -> 0 <= v < N ->
    dset o N d (ix m n v) y = Ok (fun k => if k =? ix m n v then y else d k).
  Proof. intros d m n v y H1 H2 H3. pose proof (ix_bound m n v H1 H2 H3). unfold dset. replace ((0 <=? ix m n v) && (ix m n v <? dsz o N)) with true by lia. reflexivity. Qed.

  Definition dl (n m v : Z) : Qc := delta x0 x (Z.to_nat n) (Z.to_nat m) v.

  Lemma delta_zero : forall n m v, (n < m)%nat -> delta x0 x n m v = 0%Qc.
  Proof.
    induction n; intros m v H; cbn [delta].
    - destruct m; [lia|reflexivity].
    - destruct m as [|j]; [lia|].
      destruct (v <? Z.of_nat (S n)).
      + rewrite (IHn (S j) v), (IHn j v) by lia. ring.
      + rewrite (IHn (S j) (Z.of_nat n)), (IHn j (Z.of_nat n)) by lia. ring.
  Qed.

  Definition Inv (n : Z) (d : Z -> Qc) : Prop :=
    (forall m v, 0 <= m <= o -> 0 <= v <= n -> d (ix m n v) = dl n m v) /\
    (forall m k v, n <= k < m -> m <= o -> 0 <= v < N -> d (ix m k v) = 0%Qc).

  (* during row n: cells in [done] have their new value, all others that of d0 *)
  Definition Part (n : Z) (d0 : Z -> Qc) (done : Z -> Z -> Prop) (d : Z -> Qc) : Prop :=
    (forall m v, 0 <= m <= Z.min n o -> 0 <= v <= n -> done m v -> d (ix m n v) = dl n m v) /\
    (forall i, (forall m v, 0 <= m <= Z.min n o -> 0 <= v <= n -> done m v -> i <> ix m n v) -> d i = d0 i).

  Lemma part_prev : forall n d0 done d m v, Part n d0 done d -> 1 <= n < N -> 0 <= v < N ->
    d (ix m (n - 1) v) = d0 (ix m (n - 1) v).
  Proof.
    intros n d0 done d m v (_ & H) Hn Hv. apply H. intros m' v' Hm' Hv' _ E.
    apply ix_inj in E as (_ & E); [|lia|lia].
    assert ((m - m') * (o + 1) = 1) by lia.
    clear - H0 Ho. assert (m - m' = 0 \/ m - m' >= 1 \/ m - m' <= -1) as [?|[?|?]] by lia; nia.
  Qed.

  Lemma part_set : forall n d0 done d m v y, Part n d0 done d -> 0 <= m <= Z.min n o -> 0 <= v <= n -> 1 <= n < N -> y = dl n m v ->
    Part n d0 (fun m' v' => done m' v' \/ (m' = m /\ v' = v)) (fun k => if k =? ix m n v then y else d k).
  Proof.
    intros n d0 done d m v y (H1 & H2) Hm Hv Hn Ey. split.
    - intros m' v' Hm' Hv' D. destruct (ix m' n v' =? ix m n v) eqn:E.
      + assert (ix m' n v' = ix m n v) as E2 by lia. apply ix_inj in E2 as (-> & E2); [|lia|lia].
        assert (m' = m) as -> by nia. assumption.
      + destruct D as [D|(-> & ->)]; [apply H1; assumption|lia].
    - intros i Hi. destruct (i =? ix m n v) eqn:E.
      + exfalso. apply (Hi m v); [assumption|assumption|right; auto|lia].
      + apply H2. intros m' v' A B D. apply Hi; auto.
  Qed.

  Lemma part_ext : forall n d0 done done' d, (forall m v, 0 <= m <= Z.min n o -> 0 <= v <= n -> (done m v <-> done' m v)) ->
    Part n d0 done d -> Part n d0 done' d.
  Proof.
    intros n d0 done done' d E (H1 & H2). split.
    - intros m v A B D. apply H1; auto. apply E; assumption.
    - intros i Hi. apply H2. intros m v A B D. apply Hi; auto. apply E; assumption.
  Qed.

  Lemma dl_lt : forall n m v, 1 <= n -> 0 <= m -> v < n ->
    dl n m v = (((x n - x0) * dl (n - 1) m v - zq m * (if 0 <? m then dl (n - 1) (m - 1) v else 0)) * (1 / (x n - x v)))%Qc.
  Proof.
    intros n m v Hn Hm Hv. unfold dl.
    replace (Z.to_nat n) with (S (Z.to_nat (n - 1))) by lia. cbn [delta].
    replace (Z.of_nat (S (Z.to_nat (n - 1)))) with n by lia. replace (v <? n) with true by lia.
    rewrite Z2Nat.id by lia.
    destruct (Z.to_nat m) as [|j] eqn:E.
    - replace (0 <? m) with false by lia. reflexivity.
    - replace (0 <? m) with true by lia. replace (Z.to_nat (m - 1)) with j by lia. reflexivity.
  Qed.

  Definition czc (n : Z) : Qc := cc x (Z.to_nat n).

  Lemma dl_eq : forall n m, 1 <= n -> 0 <= m ->
    dl n m n = ((zq m * (if 0 <? m then dl (n - 1) (m - 1) (n - 1) else 0) - (x (n - 1) - x0) * dl (n - 1) m (n - 1)) * (czc (n - 1) / czc n))%Qc.
  Proof.
    intros n m Hn Hm. unfold dl, czc.
    replace (Z.to_nat n) with (S (Z.to_nat (n - 1))) by lia. cbn [delta].
    replace (Z.of_nat (S (Z.to_nat (n - 1)))) with n by lia. replace (n <? n) with false by lia.
    rewrite !Z2Nat.id by lia.
    destruct (Z.to_nat m) as [|j] eqn:E.
    - replace (0 <? m) with false by lia. reflexivity.
    - replace (0 <? m) with true by lia. replace (Z.to_nat (m - 1)) with j by lia. reflexivity.
  Qed.

  Lemma inner_v : forall n d0 v, 1 <= n < N -> Inv (n - 1) d0 -> 0 <= v < n ->
    forall d, Part n d0 (fun m' v' => v' < v) d ->
    exists d', rfold (body_vm o N x0 x n v (x n - x v)%Qc) (zseq (Z.min n o + 1)) d = Ok d' /\
      Part n d0 (fun m' v' => v' < v + 1) d'.
  Proof.
    intros n d0 v Hn (I1 & I2) Hv d HP.
    destruct (rfold_zseq _ (body_vm o N x0 x n v (x n - x v)%Qc)
      (fun i d => Part n d0 (fun m' v' => v' < v \/ (v' = v /\ m' < i)) d) (Z.min n o + 1) d) as (d' & E & P').
    - lia.
    - eapply part_ext; [|exact HP]. intros; cbn. lia.
    - intros m s Hm Hs.
      unfold body_vm.
      change (m * m_idx o N + (n - 1) * n_idx N + v) with (ix m (n - 1) v).
      change ((m - 1) * m_idx o N + (n - 1) * n_idx N + v) with (ix (m - 1) (n - 1) v).
      change (m * m_idx o N + n * n_idx N + v) with (ix m n v).
      rewrite get_ok by lia. cbn [rbind]. rewrite (part_prev n d0 _ s m v Hs) by lia. rewrite I1 by lia.
      set (sv := (zq m * (if 0 <? m then dl (n - 1) (m - 1) v else 0))%Qc).
      assert (Es : (if 0 <? m then rbind (dget o N s (ix (m - 1) (n - 1) v)) (fun b => Ok (zq m * b)%Qc) else Ok 0%Qc) = Ok sv).
      { unfold sv. destruct (0 <? m) eqn:E0.
        - rewrite get_ok by lia. cbn [rbind]. rewrite (part_prev n d0 _ s (m - 1) v Hs) by lia. rewrite I1 by lia. reflexivity.
        - f_equal. ring. }
      rewrite Es. cbn [rbind]. rewrite set_ok by lia. eexists. split; [reflexivity|].
      eapply part_ext; [|apply (part_set n d0 _ s m v _ Hs)]; try lia.
      + intros m' v' _ _. cbn. lia.
      + unfold sv. rewrite (dl_lt n m v) by lia. reflexivity.
    - exists d'. split; [exact E|]. eapply part_ext; [|exact P']. intros m' v' Hm' Hv'. cbn. lia.
  Qed.

  Definition wp (n : Z) (k : Z) : Qc := wprod x n (Z.to_nat k).
  Lemma wp_S : forall n k, 0 <= k -> wp n (k + 1) = (wp n k * (x n - x k))%Qc.
  Proof. intros. unfold wp. replace (Z.to_nat (k + 1)) with (S (Z.to_nat k)) by lia. cbn [wprod]. rewrite Z2Nat.id by lia. reflexivity. Qed.

  Lemma row : forall n d0, 1 <= n < N -> Inv (n - 1) d0 ->
    exists d', body_n o N x0 x (czc (n - 1), d0) n = Ok (czc n, d') /\ Inv n d'.
  Proof.
    intros n d0 Hn HI. unfold body_n. cbn [fst snd].
    destruct (rfold_zseq _ (body_v o N x0 x n)
      (fun v st => fst st = wp n v /\ Part n d0 (fun m' v' => v' < v) (snd st)) n (1%Qc, d0)) as ((c2 & d1) & E & Ec & P1).
    - lia.
    - split; [reflexivity|]. split; [intros; lia|reflexivity].
    - intros v (c & s) Hv (Hc & Hs). cbn [fst snd] in *. unfold body_v. cbn [fst snd].
      destruct (inner_v n d0 v Hn HI Hv s Hs) as (d' & E & P'). rewrite E. cbn [rbind].
      eexists. split; [reflexivity|]. cbn [fst snd]. split; [|exact P']. rewrite wp_S, Hc by lia. reflexivity.
    - rewrite E. cbn [rbind fst snd] in *.
      assert (c2 = czc n) as -> by (rewrite Ec; unfold czc, cc, wp; rewrite Z2Nat.id by lia; reflexivity).
      destruct HI as (I1 & I2).
      destruct (rfold_zseq _ (body_m o N x0 x n (czc (n - 1)) (czc n))
        (fun i d => Part n d0 (fun m' v' => v' < n \/ m' < i) d) (Z.min n o + 1) d1) as (d' & E2 & P2).
      + lia.
      + eapply part_ext; [|exact P1]. intros m' v' Hm' Hv'. cbn. lia.
      + intros m s Hm Hs. unfold body_m.
        replace (m * m_idx o N + (n - 1) * n_idx N + n - 1) with (ix m (n - 1) (n - 1)) by (unfold ix; ring).
        change ((m - 1) * m_idx o N + (n - 1) * n_idx N + (n - 1)) with (ix (m - 1) (n - 1) (n - 1)).
        change (m * m_idx o N + n * n_idx N + n) with (ix m n n).
        set (sv := (zq m * (if 0 <? m then dl (n - 1) (m - 1) (n - 1) else 0))%Qc).
        assert (Es : (if 0 <? m then rbind (dget o N s (ix (m - 1) (n - 1) (n - 1))) (fun b => Ok (zq m * b)%Qc) else Ok 0%Qc) = Ok sv).
        { unfold sv. destruct (0 <? m) eqn:E0.
          - rewrite get_ok by lia. cbn [rbind]. rewrite (part_prev n d0 _ s (m - 1) (n - 1) Hs) by lia. rewrite I1 by lia. reflexivity.
          - f_equal. ring. }
        rewrite Es. cbn [rbind]. rewrite get_ok by lia. cbn [rbind].
        rewrite (part_prev n d0 _ s m (n - 1) Hs) by lia. rewrite I1 by lia.
        rewrite set_ok by lia. eexists. split; [reflexivity|].
        eapply part_ext; [|apply (part_set n d0 _ s m n _ Hs)]; try lia.
        * intros m' v' Hm' Hv'. cbn. lia.
        * unfold sv. rewrite (dl_eq n m) by lia. reflexivity.
      + rewrite E2. cbn [rbind]. eexists. split; [reflexivity|]. destruct P2 as (Q1 & Q2). split.
        * intros m v Hm Hv. destruct (Z.leb_spec m (Z.min n o)) as [L|L].
          -- apply Q1; lia.
          -- rewrite Q2.
             ++ unfold dl. rewrite delta_zero by lia. apply I2; lia.
             ++ intros m' v' Hm' Hv' _ E3. apply ix_inj in E3 as (_ & E3); [|lia|lia]. nia.
        * intros m k v Hk Hmo Hv. rewrite Q2; [apply I2; lia|].
          intros m' v' Hm' Hv' _ E3. apply ix_inj in E3 as (_ & E3); [|lia|lia].
          assert (m' = m \/ m' <= m - 1 \/ m' >= m + 1) as [->|[L|L]] by lia; nia.
  Qed.

  Lemma init_inv : Inv 0 (fun k => if k =? 0 then 1%Qc else d_init k).
  Proof.
    split.
    - intros m v Hm Hv. assert (v = 0) by lia. subst v. unfold dl. cbn [Z.to_nat].
      change (delta x0 x 0 (Z.to_nat m) 0) with (match Z.to_nat m with O => 1%Qc | _ => 0%Qc end).
      rewrite ix_eq. unfold d_init. destruct (Z.to_nat m) eqn:E.
      + assert (m = 0) by lia. subst m. replace (N * (0 * (o + 1) + 0) + 0 =? 0) with true by lia. reflexivity.
      + assert (1 <= m * (o + 1)) by nia. assert (N * (m * (o + 1) + 0) + 0 <> 0) by nia. replace (N * (m * (o + 1) + 0) + 0 =? 0) with false by lia. reflexivity.
    - intros m k v Hk Hm Hv. rewrite ix_eq. unfold d_init.
      assert (1 <= m * (o + 1)) by nia. assert (1 <= m * (o + 1) + k) by lia. assert (N * (m * (o + 1) + k) + v <> 0) by nia. replace (N * (m * (o + 1) + k) + v =? 0) with false by lia. reflexivity.
  Qed.

  Theorem fd_coeff_spec : fd_coeff o N x0 x = Ok (map (fun i => dl (N - 1) o i) (zseq N)).
  Proof.
    unfold fd_coeff.
    assert (dset o N d_init 0 1%Qc = Ok (fun k => if k =? 0 then 1%Qc else d_init k)) as ->.
    { unfold dset. assert (0 < dsz o N) by (unfold dsz, m_idx, n_idx; nia). replace ((0 <=? 0) && (0 <? dsz o N)) with true by lia. reflexivity. }
    cbn [rbind].
    destruct (rfold_zrange _ (body_n o N x0 x) (fun n st => fst st = czc (n - 1) /\ Inv (n - 1) (snd st)) 1 N
                (1%Qc, fun k => if k =? 0 then 1%Qc else d_init k)) as ((c & d) & E & _ & HI).
    - lia.
    - split; [reflexivity|]. exact init_inv.
    - intros n (c & s) Hn (Hc & Hs). cbn [fst snd] in *. rewrite Hc.
      destruct (row n s Hn Hs) as (d' & E & HI). exists (czc n, d'). split; [exact E|]. cbn [fst snd].
      replace (n + 1 - 1) with n by lia. auto.
    - rewrite E. cbn [rbind snd] in *.
      destruct (rfold_zseq _ (fun acc i => rbind (dget o N d (o * m_idx o N + (N - 1) * n_idx N + i)) (fun y => Ok (acc ++ [y])))
        (fun i acc => acc = map (fun i => dl (N - 1) o i) (zseq i)) N []) as (acc & E2 & Ea).
      + lia.
      + reflexivity.
      + intros i acc Hi Ha. change (o * m_idx o N + (N - 1) * n_idx N + i) with (ix o (N - 1) i).
        rewrite get_ok by lia. cbn [rbind]. eexists. split; [reflexivity|].
        rewrite zseq_succ, map_app by lia. cbn [map]. rewrite Ha. do 2 f_equal. apply HI; lia.
      + rewrite E2, Ea. reflexivity.
  Qed.
End Sim.

Lemma wsum_weighted : forall n (pts : list Qc) (w : Z -> Qc) f, n = length pts ->
  weighted_sum (map w (zseq (Z.of_nat n))) pts f = wsum n (fun v => w v * f (nth (Z.to_nat v) pts 0%Qc))%Qc.
Proof.
  intros n pts w f. revert n. induction pts as [|p pts IH] using rev_ind; intros n Hn.
  - subst n. reflexivity.
  - rewrite app_length in Hn. cbn in Hn. destruct n as [|n]; [lia|]. 
    replace (Z.of_nat (S n)) with (Z.of_nat n + 1) by lia. rewrite zseq_succ, map_app by lia. cbn [map].
    rewrite wsum_S. rewrite Nat2Z.id. rewrite app_nth2 by lia. replace (n - length pts)%nat with 0%nat by lia. cbn [nth].
    unfold weighted_sum in *.
    assert (combine (map w (zseq (Z.of_nat n)) ++ [w (Z.of_nat n)]) (pts ++ [p]) =
            combine (map w (zseq (Z.of_nat n))) pts ++ [(w (Z.of_nat n), p)]) as ->.
    { assert (L : length (map w (zseq (Z.of_nat n))) = length pts) by (rewrite map_length, zseq_length; lia).
      revert L. generalize (map w (zseq (Z.of_nat n))) as a. generalize pts as b. clear.
      induction b as [|y b IH]; intros [|z a] L; try discriminate; cbn; [reflexivity|]. f_equal. apply IH. cbn in L. congruence. }
    rewrite fold_right_app. cbn [fold_right fst snd].
    assert (FR : forall l acc, fold_right (fun wx a => (fst wx * f (snd wx) + a)%Qc) acc l =
      (fold_right (fun wx a => (fst wx * f (snd wx) + a)%Qc) 0%Qc l + acc)%Qc).
    { clear. induction l as [|y l IH]; intros acc; cbn; [ring|]. rewrite IH. ring. }
    rewrite FR, (IH n) by lia.
    rewrite (wsum_ext n _ (fun v => w v * f (nth (Z.to_nat v) (pts ++ [p]) 0%Qc))%Qc).
    + ring.
    + intros v Hv. rewrite app_nth1 by lia. reflexivity.
Qed.

Theorem fd_exact : forall order x0 (pts : list Qc), 1 <= order -> order + 1 <= Z.of_nat (length pts) -> NoDup pts ->
  exists ws, get_arbitrary_fd_coefficients order x0 pts = Ok ws /\ length ws = length pts /\
    forall p, (length p <= length pts)%nat -> weighted_sum ws pts (peval p) = deriv_at (Z.to_nat order) p x0.
Proof.
  intros order x0 pts Ho HN ND. unfold get_arbitrary_fd_coefficients.
  replace (order <? 1) with false by lia. replace (Z.of_nat (length pts) <? 2) with false by lia.
  set (x := fun i => nth (Z.to_nat i) pts 0%Qc).
  rewrite fd_coeff_spec by assumption.
  eexists. split; [reflexivity|]. split; [rewrite map_length, zseq_length; lia|].
  intros p Hp. rewrite wsum_weighted by reflexivity.
  destruct (length pts) as [|n] eqn:L; [lia|].
  rewrite <- (delta_exact x0 x (S n)) with (n := n); [|..|lia|lia].
  - apply wsum_ext. intros v Hv. unfold dl. replace (Z.to_nat (Z.of_nat (S n) - 1)) with n by lia. reflexivity.
  - intros i j Hi Hj Hij C. apply Hij. unfold x in C.
    assert (Z.to_nat i = Z.to_nat j); [|lia].
    apply (proj1 (NoDup_nth pts 0%Qc) ND); [lia|lia|assumption].
Qed.

Lemma zq_inj : forall a b, zq a = zq b -> a = b.
Proof. intros a b H. unfold zq in H. apply Q2Qc_eq_iff in H. unfold Qeq in H. cbn in H. lia. Qed.

Lemma zrange_pts_nodup : forall b e, NoDup (map zq (zrange b e)).
Proof.
  intros. apply FinFun.Injective_map_NoDup; [exact zq_inj|].
  unfold zrange. apply FinFun.Injective_map_NoDup; [intros ? ? ?; lia|]. apply zseq_NoDup.
Qed.

Lemma fd_center : forall order radius, 1 <= order <= 2 * radius -> 1 <= radius ->
  exists ws, get_center_fd_coefficients order radius = Ok ws /\ length ws = Z.to_nat (2 * radius + 1) /\
    forall p, (length p <= Z.to_nat (2 * radius + 1))%nat ->
      weighted_sum ws (map zq (zrange (- radius) (radius + 1))) (peval p) = deriv_at (Z.to_nat order) p 0%Qc.
Proof.
  intros order radius H1 H2. unfold get_center_fd_coefficients. replace (radius <? 1) with false by lia.
  assert (L : length (map zq (zrange (- radius) (radius + 1))) = Z.to_nat (2 * radius + 1)) by (rewrite map_length, zrange_length; f_equal; lia).
  rewrite <- L. apply fd_exact; [lia|rewrite L; lia|apply zrange_pts_nodup].
Qed.

Lemma fd_forward : forall order accuracy, 1 <= order <= accuracy ->
  exists ws, get_forward_fd_coefficients order accuracy = Ok ws /\ length ws = Z.to_nat (accuracy + 1) /\
    forall p, (length p <= Z.to_nat (accuracy + 1))%nat ->
      weighted_sum ws (map zq (zrange 0 (accuracy + 1))) (peval p) = deriv_at (Z.to_nat order) p 0%Qc.
Proof.
  intros order radius H1. unfold get_forward_fd_coefficients. replace (radius <? 1) with false by lia.
  assert (L : length (map zq (zrange 0 (radius + 1))) = Z.to_nat (radius + 1)) by (rewrite map_length, zrange_length; f_equal; lia).
  rewrite <- L. apply fd_exact; [lia|rewrite L; lia|apply zrange_pts_nodup].
Qed.

Lemma fd_backward : forall order accuracy, 1 <= order <= accuracy ->
  exists ws, get_backward_fd_coefficients order accuracy = Ok ws /\ length ws = Z.to_nat (accuracy + 1) /\
    forall p, (length p <= Z.to_nat (accuracy + 1))%nat ->
      weighted_sum ws (map zq (zrange (- accuracy) 1)) (peval p) = deriv_at (Z.to_nat order) p 0%Qc.
Proof.
  intros order radius H1. unfold get_backward_fd_coefficients. replace (radius <? 1) with false by lia.
  assert (L : length (map zq (zrange (- radius) 1)) = Z.to_nat (radius + 1)) by (rewrite map_length, zrange_length; f_equal; lia).
  rewrite <- L. apply fd_exact; [lia|rewrite L; lia|apply zrange_pts_nodup].
Qed.

Lemma fd_errors : forall order x0 pts, order < 1 \/ (length pts < 2)%nat -> get_arbitrary_fd_coefficients order x0 pts = Throw.
Proof.
  intros order x0 pts H. unfold get_arbitrary_fd_coefficients. destruct (order <? 1) eqn:E; [reflexivity|].
  replace (Z.of_nat (length pts) <? 2) with true by lia. reflexivity.
Qed.
