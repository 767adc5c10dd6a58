(* Proofs about the decimal literals of Print_Model. *)
From Coq Require Import String QArith Qabs Qpower Lqa.
From Verif Require Import Base Expr_Model Expr_Spec Print_Model Print_Spec.
Open Scope Z_scope.

Definition good_exp (n d k : Z) : Prop := let '(a, b) := scale n d k in b <= a /\ a < 10 * b.

Lemma exp_down f : forall n d k, 0 < n -> 0 < d -> k <= 0 -> (let '(a, b) := scale n d k in a < 10 * b) ->
  k + Z.log2 d + 2 <= Z.of_nat f -> exists K, find_exp f n d k = Ok K /\ good_exp n d K.
Proof.
  induction f as [|f IH]; intros n d k Hn Hd Hk Hu Hf.
  - exfalso. unfold scale in Hu. destruct (Z.leb_spec 0 k) as [E|E].
    + pose proof (Z.log2_nonneg d). lia.
    + assert (H1 : d < 2 ^ (Z.log2 d + 1)) by (apply Z.log2_spec; lia).
      assert (H2 : 2 ^ (Z.log2 d + 1) <= 10 ^ (Z.log2 d + 1)) by (apply Z.pow_le_mono_l; pose proof (Z.log2_nonneg d); lia).
      assert (H3 : 10 ^ (Z.log2 d + 1) * 10 <= 10 ^ (- k)).
      { rewrite Z.mul_comm, <- Z.pow_succ_r by (pose proof (Z.log2_nonneg d); lia). apply Z.pow_le_mono_r; lia. }
      nia.
  - cbn [find_exp]. destruct (scale n d k) as [a b] eqn:Es.
    destruct (Z.ltb_spec a b) as [E|E].
    + apply IH; auto; [lia| |lia]. unfold scale in *.
      destruct (Z.leb_spec 0 k) as [E0|E0].
      * assert (k = 0) by lia. subst k. change (0 <=? 0 - 1) with false. cbv iota. injection Es as Ea Eb; subst a b.
        change (- (0 - 1)) with 1. rewrite ?Z.mul_1_r in E. rewrite Z.pow_1_r. lia.
      * replace (0 <=? k - 1) with false by lia. injection Es as Ea Eb; subst a b.
        replace (- (k - 1)) with (Z.succ (- k)) by lia. rewrite Z.pow_succ_r by lia. lia.
    + destruct (Z.leb_spec (10 * b) a) as [E2|E2]; [lia|].
      exists k. split; [reflexivity|]. unfold good_exp. rewrite Es. lia.
Qed.
Lemma exp_up f : forall n d k, 0 < n -> 0 < d -> 0 <= k -> d * 10 ^ k <= n ->
  Z.log2 n + 2 - k <= Z.of_nat f -> exists K, find_exp f n d k = Ok K /\ good_exp n d K.
Proof.
  assert (L : forall n d k, 0 < d -> 0 <= k -> d * 10 ^ k <= n -> k <= Z.log2 n).
  { intros n d k Hd Hk H. rewrite <- (Z.log2_pow2 k) by lia. apply Z.log2_le_mono.
    assert (2 ^ k <= 10 ^ k) by (apply Z.pow_le_mono_l; lia). pose proof (Z.pow_pos_nonneg 10 k). nia. }
  induction f as [|f IH]; intros n d k Hn Hd Hk Hu Hf.
  - exfalso. specialize (L n d k Hd Hk Hu). lia.
  - cbn [find_exp]. unfold scale. replace (0 <=? k) with true by lia. cbv iota beta.
    replace (n <? d * 10 ^ k) with false by lia.
    destruct (Z.leb_spec (10 * (d * 10 ^ k)) n) as [E|E].
    + apply IH; auto; try lia. rewrite Z.pow_add_r by lia. lia.
    + exists k. split; [reflexivity|]. unfold good_exp, scale. replace (0 <=? k) with true by lia. lia.
Qed.
Lemma exp_found n d : 0 < n -> 0 < d ->
  exists K, find_exp (Z.to_nat (Z.log2 n + Z.log2 d + 4)) n d 0 = Ok K /\ good_exp n d K.
Proof.
  intros Hn Hd. pose proof (Z.log2_nonneg n). pose proof (Z.log2_nonneg d). destruct (Z.leb_spec d n) as [E|E].
  - apply exp_up; auto; try lia.
  - apply exp_down; auto; try lia. unfold scale. cbn [Z.leb]. replace (0 <=? 0) with true by lia. lia.
Qed.

Lemma rnd_even_best n d M : 0 < d -> Z.abs (rnd_even n d * d - n) <= Z.abs (M * d - n).
Proof.
  intros Hd. unfold rnd_even. pose proof (Z.div_mod n d ltac:(lia)) as D. pose proof (Z.mod_pos_bound n d Hd) as B.
  set (m := n / d) in *. set (r := n mod d) in *.
  assert (C : M <= m \/ m + 1 <= M) by lia.
  assert (M * d <= m * d \/ (m + 1) * d <= M * d) by nia.
  destruct (Z.ltb_spec (2 * r) d), (Z.ltb_spec d (2 * r)), (Z.even m); nia.
Qed.

(* Powers of ten *)
Definition ten (j : Z) : Q := Qpower 10 j.
Lemma ten_pos j : (0 < ten j)%Q.
Proof. apply Qpower_0_lt. reflexivity. Qed.
Lemma ten_add a b : (ten (a + b) == ten a * ten b)%Q.
Proof. apply Qpower_plus. discriminate. Qed.
Lemma ten_nonneg j : 0 <= j -> (ten j == inject_Z (10 ^ j))%Q.
Proof. intros H. unfold ten. rewrite Zpower_Qpower by lia. reflexivity. Qed.
Lemma dec_val_ten m j : (dec_val m j == inject_Z m * ten j)%Q.
Proof.
  unfold dec_val. destruct (Z.leb_spec 0 j) as [E|E].
  - rewrite inject_Z_mult, ten_nonneg by lia. reflexivity.
  - assert (H : (ten j * ten (- j) == 1)%Q) by (rewrite <- ten_add; replace (j + - j) with 0 by lia; reflexivity).
    rewrite (ten_nonneg (- j)) in H by lia. pose proof (Z.pow_pos_nonneg 10 (- j) ltac:(lia) ltac:(lia)) as P.
    assert (Q1 : (m # Z.to_pos (10 ^ (- j)) == inject_Z m * / inject_Z (10 ^ (- j)))%Q).
    { rewrite (Qmake_Qdiv m). unfold Qdiv. replace (Zpos (Z.to_pos (10 ^ (- j)))) with (10 ^ (- j)) by (rewrite Z2Pos.id; lia). reflexivity. }
    rewrite Q1. assert (Q2 : ~ (inject_Z (10 ^ (- j)) == 0)%Q).
    { intros C. apply (inject_Z_injective (10 ^ (- j)) 0) in C. lia. }
    transitivity (inject_Z m * (ten j * inject_Z (10 ^ (- j))) * / inject_Z (10 ^ (- j)))%Q; [rewrite H; ring|field; exact Q2].
Qed.
Lemma scale_ten n d j : 0 < d -> let '(a, b) := scale n d j in 0 < b /\ (inject_Z n * inject_Z b == inject_Z a * inject_Z d * ten j)%Q.
Proof.
  intros Hd. unfold scale. destruct (Z.leb_spec 0 j) as [E|E].
  - pose proof (Z.pow_pos_nonneg 10 j ltac:(lia) E). split; [nia|]. rewrite inject_Z_mult, ten_nonneg by lia. ring.
  - split; [auto|]. rewrite inject_Z_mult.
    assert (H : (ten j * ten (- j) == 1)%Q) by (rewrite <- ten_add; replace (j + - j) with 0 by lia; reflexivity).
    rewrite (ten_nonneg (- j)) in H by lia.
    transitivity (inject_Z n * inject_Z d * (ten j * inject_Z (10 ^ (- j))))%Q; [rewrite H; ring|ring].
Qed.

Lemma Qabs_inject z : (Qabs (inject_Z z) == inject_Z (Z.abs z))%Q.
Proof. unfold inject_Z. cbn. reflexivity. Qed.
(* distance in units *)
Lemma dist_scaled (q u : Q) (a b M : Z) : (0 < u)%Q -> 0 < b -> (q * inject_Z b == inject_Z a * u)%Q ->
  (Qabs (inject_Z M * u - q) * inject_Z b == inject_Z (Z.abs (M * b - a)) * u)%Q.
Proof.
  intros Hu Hb H. assert (Hb' : (0 < inject_Z b)%Q) by (rewrite (Zlt_Qlt 0 b) in Hb; exact Hb).
  rewrite <- (Qabs_pos (inject_Z b)) by (apply Qlt_le_weak; auto). rewrite <- Qabs_Qmult.
  assert (E : ((inject_Z M * u - q) * inject_Z b == inject_Z (M * b - a) * u)%Q).
  { unfold Z.sub. rewrite inject_Z_plus, inject_Z_mult, inject_Z_opp.
    transitivity (inject_Z M * inject_Z b * u - q * inject_Z b)%Q; [ring|]. rewrite H. ring. }
  rewrite E, Qabs_Qmult, Qabs_inject, (Qabs_pos u) by (apply Qlt_le_weak; auto). reflexivity.
Qed.

Lemma nearest_comp q q' p p' : (q == q')%Q -> (p == p')%Q -> nearest16 q p -> nearest16 q' p'.
Proof.
  intros Hq Hp [(m & j & H1 & H2) H]. split.
  - exists m, j. split; auto. rewrite <- Hp. auto.
  - intros x Hx. rewrite <- Hq, <- Hp. apply H. auto.
Qed.
Lemma digits_opp p : digits16 p -> digits16 (- p).
Proof.
  intros (m & j & H1 & H2). exists (- m), j. split; [lia|]. rewrite H2, inject_Z_opp. ring.
Qed.
Lemma nearest_opp q p : nearest16 q p -> nearest16 (- q) (- p).
Proof.
  intros [H1 H2]. split; [apply digits_opp; auto|]. intros p' Hp'.
  specialize (H2 (- p')%Q (digits_opp p' Hp')).
  assert (E1 : (- p - - q == - (p - q))%Q) by ring. assert (E2 : (p' - - q == - (- p' - q))%Q) by ring.
  rewrite E1, E2, !Qabs_opp. auto.
Qed.

Lemma Qabs_le_dist (q p x : Q) : (p <= x -> x <= q -> Qabs (x - q) <= Qabs (p - q))%Q.
Proof.
  intros H1 H2. rewrite (Qabs_neg (x - q)) by lra. rewrite (Qabs_neg (p - q)) by lra. lra.
Qed.

Lemma dec16_ok q : ~ (q == 0)%Q -> exists p, dec16 q = Ok p /\ nearest16 (Qabs q) p /\ (0 <= p)%Q.
Proof.
  intros Hq. unfold dec16. set (n := Z.abs (Qnum q)). set (d := Zpos (Qden q)).
  assert (Hn : 0 < n). { assert (Qnum q <> 0) by (intros C; apply Hq; unfold Qeq; rewrite C; reflexivity). lia. }
  assert (Hd : 0 < d) by reflexivity.
  destruct (exp_found n d Hn Hd) as (K & -> & HK). cbn [rbind].
  assert (Qq : (Qabs q * inject_Z d == inject_Z n)%Q).
  { destruct q as [x y]. unfold Qeq, Qmult, inject_Z, n, d; cbn. lia. }
  assert (Hd' : (0 < inject_Z d)%Q) by (rewrite (Zlt_Qlt 0 d) in Hd; exact Hd).
  pose proof (scale_ten n d (K - 15) Hd) as S1. destruct (scale n d (K - 15)) as [a b]. destruct S1 as [Hb S1].
  assert (Hb' : (0 < inject_Z b)%Q) by (rewrite (Zlt_Qlt 0 b) in Hb; exact Hb).
  pose proof (scale_ten n d K Hd) as S2. unfold good_exp in HK. destruct (scale n d K) as [a' b']. destruct S2 as [Hb2 S2].
  assert (Hb2' : (0 < inject_Z b')%Q) by (rewrite (Zlt_Qlt 0 b') in Hb2; exact Hb2).
  set (u := ten (K - 15)) in *. assert (Hu : (0 < u)%Q) by apply ten_pos.
  assert (EK : (ten K == u * inject_Z (10 ^ 15))%Q).
  { unfold u. rewrite <- (ten_nonneg 15) by lia. rewrite <- ten_add. replace (K - 15 + 15) with K by lia. reflexivity. }
  (* q in units *)
  assert (QA : (Qabs q * inject_Z b == inject_Z a * u)%Q).
  { apply (Qmult_inj_r _ _ (inject_Z d)); [lra|]. transitivity (inject_Z n * inject_Z b)%Q; [rewrite <- Qq; ring|]. rewrite S1. ring. }
  assert (QA' : (Qabs q * inject_Z b' == inject_Z a' * ten K)%Q).
  { apply (Qmult_inj_r _ _ (inject_Z d)); [lra|]. transitivity (inject_Z n * inject_Z b')%Q; [rewrite <- Qq; ring|]. rewrite S2. ring. }
  (* 10^15 <= a/b <= 10^16 *)
  assert (LO : (ten K <= Qabs q)%Q).
  { apply (Qmult_le_r _ _ (inject_Z b')); auto. rewrite QA'. rewrite Qmult_comm. apply Qmult_le_r; [apply ten_pos|].
    rewrite <- Zle_Qle. lia. }
  assert (HI : (Qabs q <= ten K * 10)%Q).
  { apply (Qmult_le_r _ _ (inject_Z b')); auto. rewrite QA'.
    apply Qle_trans with (inject_Z (10 * b') * ten K)%Q; [apply Qmult_le_r; [apply ten_pos|rewrite <- Zle_Qle; lia]|].
    rewrite inject_Z_mult. apply Qle_lteq. right. ring. }
  assert (Ha1 : 10 ^ 15 * b <= a).
  { rewrite Zle_Qle. apply (Qmult_le_r _ _ u); auto. rewrite <- QA, inject_Z_mult.
    apply Qle_trans with (ten K * inject_Z b)%Q; [rewrite EK; apply Qle_lteq; right; ring|]. apply Qmult_le_r; auto. }
  assert (Ha2 : a <= 10 ^ 16 * b).
  { rewrite Zle_Qle. apply (Qmult_le_r _ _ u); auto. rewrite <- QA, inject_Z_mult.
    apply Qle_trans with (ten K * 10 * inject_Z b)%Q; [apply Qmult_le_r; auto|].
    rewrite EK. change (10 ^ 16) with (10 ^ 15 * 10). rewrite inject_Z_mult. change (inject_Z 10) with 10%Q. apply Qle_lteq; right; ring. }
  set (m := rnd_even a b).
  assert (Best : forall M, Z.abs (m * b - a) <= Z.abs (M * b - a)) by (intros; apply rnd_even_best; auto).
  assert (Hm : 0 <= m <= 10 ^ 16).
  { unfold m, rnd_even. pose proof (Z.div_le_lower_bound a b (10 ^ 15) Hb ltac:(lia)).
    pose proof (Z.div_le_upper_bound a b (10 ^ 16) Hb ltac:(lia)). pose proof (Z.div_mod a b ltac:(lia)) as D.
    pose proof (Z.mod_pos_bound a b Hb) as MB.
    destruct (Z.eq_dec (a / b) (10 ^ 16)) as [E|E].
    - rewrite E in D. assert (a mod b = 0) as -> by lia. replace (2 * 0 <? b) with true by lia. lia.
    - destruct (2 * (a mod b) <? b), (b <? 2 * (a mod b)), (Z.even (a / b)); lia. }
  exists (dec_val m (K - 15)). split; [reflexivity|]. split.
  - split; [exists m, (K - 15); split; [lia|apply dec_val_ten]|].
    assert (Dist : forall M, (Qabs (inject_Z m * u - Qabs q) <= Qabs (inject_Z M * u - Qabs q))%Q).
    { intros M. apply (Qmult_le_r _ _ (inject_Z b)); auto. rewrite !(dist_scaled (Qabs q) u a b) by auto.
      apply Qmult_le_r; auto. rewrite <- Zle_Qle. apply Best. }
    intros p' (M & j' & HM & Hp'). rewrite Hp', !dec_val_ten. fold u.
    destruct (Z.leb_spec (K - 15) j') as [E|E].
    + assert (E2 : (inject_Z M * ten j' == inject_Z (M * 10 ^ (j' - (K - 15))) * u)%Q).
      { rewrite inject_Z_mult, <- (ten_nonneg (j' - (K - 15))) by lia. unfold u.
        rewrite <- Qmult_assoc, <- ten_add. replace (j' - (K - 15) + (K - 15)) with j' by lia. reflexivity. }
      rewrite E2. apply Dist.
    + apply Qle_trans with (1 := Dist (10 ^ 15)). apply Qabs_le_dist.
      * apply Qle_trans with (ten (j' + 16)).
        { rewrite ten_add, (ten_nonneg 16), (Qmult_comm (ten j')) by lia. apply Qmult_le_r; [apply ten_pos|]. rewrite <- Zle_Qle. lia. }
        apply Qle_trans with (ten K); [|rewrite EK; apply Qle_lteq; right; ring].
        assert (EK2 : (ten K == inject_Z (10 ^ (K - (j' + 16))) * ten (j' + 16))%Q).
        { rewrite <- (ten_nonneg (K - (j' + 16))) by lia. rewrite <- (ten_add (K - (j' + 16)) (j' + 16)).
          replace (K - (j' + 16) + (j' + 16)) with K by lia. reflexivity. }
        rewrite EK2. rewrite <- (Qmult_1_l (ten (j' + 16))) at 1.
        apply Qmult_le_r; [apply ten_pos|]. change 1%Q with (inject_Z 1). rewrite <- Zle_Qle.
        pose proof (Z.pow_pos_nonneg 10 (K - (j' + 16)) ltac:(lia) ltac:(lia)). lia.
      * apply Qle_trans with (2 := LO). rewrite EK. apply Qle_lteq; right; ring.
  - rewrite dec_val_ten. apply Qmult_le_0_compat; [rewrite (Zle_Qle 0 m) in Hm; apply Hm|apply Qlt_le_weak, ten_pos].
Qed.
