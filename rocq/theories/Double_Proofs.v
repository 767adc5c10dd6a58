(* Decimal numbers that are read back as the same double. *)
From Coq Require Import String QArith Qabs Qpower Lqa.
From Verif Require Import Base Expr_Model Expr_Spec Print_Model Print_Spec.
Open Scope Z_scope.

Lemma two_pos e : (0 < Qpower 2 e)%Q.
Proof. apply Qpower_0_lt. reflexivity. Qed.
Lemma two_add a b : (Qpower 2 (a + b) == Qpower 2 a * Qpower 2 b)%Q.
Proof. apply Qpower_plus. discriminate. Qed.
Lemma two_nonneg j : 0 <= j -> (Qpower 2 j == inject_Z (2 ^ j))%Q.
Proof. intros H. rewrite Zpower_Qpower by lia. reflexivity. Qed.
Lemma abs_scaled m e : (Qabs (inject_Z m * Qpower 2 e) == inject_Z (Z.abs m) * Qpower 2 e)%Q.
Proof.
  rewrite Qabs_Qmult. rewrite (Qabs_pos (Qpower 2 e)) by (apply Qlt_le_weak, two_pos). unfold inject_Z. cbn. reflexivity.
Qed.
Lemma inj_le a b : a <= b -> (inject_Z a <= inject_Z b)%Q.
Proof. intros. rewrite <- Zle_Qle. auto. Qed.

Lemma normal q : double q -> ~ (q == 0)%Q -> ~ power2 q -> exists m e, 2 ^ 52 < Z.abs m < 2 ^ 53 /\ (q == inject_Z m * Qpower 2 e)%Q.
Proof.
  intros (m & e & H1 & H2) H0 HP.
  assert (Hm : m <> 0). { intros ->. apply H0. rewrite H2. ring. }
  set (k := 52 - Z.log2 (Z.abs m)).
  pose proof (Z.log2_spec (Z.abs m) ltac:(lia)) as [L1 L2]. pose proof (Z.log2_nonneg (Z.abs m)) as L0.
  assert (Hk : 0 <= k).
  { unfold k. assert (Z.log2 (Z.abs m) < 53) by (apply Z.log2_lt_pow2; lia). lia. }
  assert (P2 : 0 < 2 ^ k) by (apply Z.pow_pos_nonneg; lia).
  assert (A1 : 2 ^ 52 <= Z.abs (m * 2 ^ k)).
  { replace 52 with (Z.log2 (Z.abs m) + k) by (unfold k; lia). rewrite Z.pow_add_r by lia. rewrite Z.abs_mul, (Z.abs_eq (2 ^ k)) by lia. nia. }
  assert (A2 : Z.abs (m * 2 ^ k) < 2 ^ 53).
  { replace 53 with (Z.succ (Z.log2 (Z.abs m)) + k) by (unfold k; lia). rewrite Z.pow_add_r by lia. rewrite Z.abs_mul, (Z.abs_eq (2 ^ k)) by lia. nia. }
  assert (A3 : (q == inject_Z (m * 2 ^ k) * Qpower 2 (e - k))%Q).
  { rewrite H2, inject_Z_mult, <- (two_nonneg k Hk), <- Qmult_assoc, <- two_add. replace (k + (e - k)) with e by lia. reflexivity. }
  exists (m * 2 ^ k), (e - k). split; [|exact A3]. split; [|exact A2].
  destruct (Z.eq_dec (Z.abs (m * 2 ^ k)) (2 ^ 52)) as [E|]; [|lia].
  exfalso. apply HP. exists (52 + (e - k)). rewrite A3, abs_scaled, E, two_add. rewrite (two_nonneg 52) by lia. reflexivity.
Qed.

Lemma double_next m e : Z.abs m <= 2 ^ 53 -> double (inject_Z m * Qpower 2 e).
Proof.
  intros H. destruct (Z.eq_dec (Z.abs m) (2 ^ 53)) as [E|].
  - exists (Z.sgn m * 2 ^ 52), (e + 1). split.
    + rewrite Z.abs_mul. assert (Z.abs (Z.sgn m) <= 1) by lia. change (Z.abs (2 ^ 52)) with (2 ^ 52). change (2 ^ 53) with (2 * 2 ^ 52). nia.
    + rewrite two_add. rewrite (two_nonneg 1) by lia. change (2 ^ 1) with 2.
      assert (M : m = Z.sgn m * 2 ^ 52 * 2). { rewrite <- Z.mul_assoc. change (2 ^ 52 * 2) with (2 ^ 53). rewrite <- E. symmetry. rewrite Z.mul_comm. apply Z.abs_sgn. }
      rewrite M at 1. rewrite (inject_Z_mult (Z.sgn m * 2 ^ 52) 2). ring.
  - exists m, e. split; [lia|reflexivity].
Qed.

Lemma gap q m e f : 2 ^ 52 < Z.abs m -> (q == inject_Z m * Qpower 2 e)%Q -> double f -> ~ (f == q)%Q -> (Qpower 2 e <= Qabs (f - q))%Q.
Proof.
  intros Hm Hq (m' & e' & H1 & H2) Hne. destruct (Z_le_gt_dec e e') as [L|L].
  - assert (P2 : 0 < 2 ^ (e' - e)) by (apply Z.pow_pos_nonneg; lia).
    assert (F : (f - q == inject_Z (m' * 2 ^ (e' - e) - m) * Qpower 2 e)%Q).
    { rewrite H2, Hq. unfold Z.sub at 1. rewrite inject_Z_plus, inject_Z_opp, inject_Z_mult, <- two_nonneg by lia.
      replace e' with ((e' - e) + e) at 1 by lia. rewrite two_add. ring. }
    rewrite F, abs_scaled. set (z := m' * 2 ^ (e' - e) - m) in *.
    assert (Hz : z <> 0). { intros C. apply Hne. rewrite C in F. assert (f - q == 0)%Q by (rewrite F; ring). lra. }
    rewrite <- (Qmult_1_l (Qpower 2 e)) at 1. apply Qmult_le_compat_r; [|apply Qlt_le_weak, two_pos].
    change 1%Q with (inject_Z 1). apply inj_le. lia.
  - assert (P2 : 0 < 2 ^ (e - 1 - e')) by (apply Z.pow_pos_nonneg; lia).
    assert (Af : (Qabs f <= inject_Z (2 ^ 52) * Qpower 2 e)%Q).
    { rewrite H2, abs_scaled. apply Qle_trans with (inject_Z (2 ^ 53 * 2 ^ (e - 1 - e')) * Qpower 2 e')%Q.
      - apply Qmult_le_compat_r; [|apply Qlt_le_weak, two_pos]. apply inj_le. nia.
      - rewrite inject_Z_mult, <- (two_nonneg (e - 1 - e')), <- Qmult_assoc, <- two_add by lia. replace (e - 1 - e' + e') with (e - 1) by lia.
        replace e with (1 + (e - 1)) at 2 by lia. rewrite two_add. rewrite (two_nonneg 1) by lia. change (2 ^ 53) with (2 ^ 52 * 2).
        rewrite inject_Z_mult. change (2 ^ 1) with 2. rewrite <- Qmult_assoc. apply Qle_refl. }
    assert (Aq : (inject_Z (2 ^ 52 + 1) * Qpower 2 e <= Qabs q)%Q).
    { rewrite Hq, abs_scaled. apply Qmult_le_compat_r; [|apply Qlt_le_weak, two_pos]. apply inj_le. lia. }
    rewrite inject_Z_plus in Aq. change (inject_Z 1) with 1%Q in Aq.
    pose proof (Qabs_triangle_reverse q f) as T. rewrite (Qabs_Qminus q f) in T. lra.
Qed.

Lemma abs_half x g : (0 < g -> Qabs x < Qabs (g - x) -> Qabs x < Qabs (- g - x) -> 2 * Qabs x < g)%Q.
Proof.
  intros Hg H1 H2. revert H1 H2. apply (Qabs_case x); apply (Qabs_case (g - x)); apply (Qabs_case (- g - x)); intros; lra.
Qed.

Theorem read_back q p d : double q -> ~ (q == 0)%Q -> ~ power2 q -> digits16 d -> reads_as d q -> nearest16 q p -> reads_as p q.
Proof.
  intros Dq H0 HP Hd [_ Hr] [_ Hn]. destruct (normal q Dq H0 HP) as (m & e & Hm & Hq).
  set (g := Qpower 2 e) in *. pose proof (two_pos e) as Hg. fold g in Hg.
  assert (U : forall s, s = 1 \/ s = -1 -> (Qabs (q - d) < Qabs (q + inject_Z s * g - d))%Q).
  { intros s Hs. assert (Df : double (inject_Z (m + s) * g)) by (apply double_next; lia).
    assert (Ef : (inject_Z (m + s) * g == q + inject_Z s * g)%Q) by (rewrite Hq, inject_Z_plus; ring).
    destruct (Hr _ Df) as [C|C].
    - exfalso. rewrite Ef in C. destruct Hs; subst s; [change (inject_Z 1) with 1%Q in C|change (inject_Z (-1)) with (-1)%Q in C]; lra.
    - rewrite Ef in C. exact C. }
  assert (X : (2 * Qabs (d - q) < g)%Q).
  { apply abs_half; auto.
    - pose proof (U 1 ltac:(auto)) as V. rewrite (Qabs_Qminus q d) in V. eapply Qlt_le_trans; [exact V|].
      assert (E : (q + inject_Z 1 * g - d == g - (d - q))%Q) by (change (inject_Z 1) with 1%Q; ring). rewrite E. apply Qle_refl.
    - pose proof (U (-1) ltac:(auto)) as V. rewrite (Qabs_Qminus q d) in V. eapply Qlt_le_trans; [exact V|].
      assert (E : (q + inject_Z (-1) * g - d == - g - (d - q))%Q) by (change (inject_Z (-1)) with (-1)%Q; ring). rewrite E. apply Qle_refl. }
  specialize (Hn d Hd). split; [exact Dq|]. intros f Df. destruct (Qeq_dec f q) as [E|E]; [left; auto|right].
  pose proof (gap q m e f ltac:(lia) Hq Df E) as G. fold g in G.
  pose proof (Qabs_triangle (f - p) (p - q)) as T.
  assert (E2 : (f - p + (p - q) == f - q)%Q) by ring. rewrite E2 in T.
  rewrite (Qabs_Qminus q p). lra.
Qed.

(* The constants theorem in terms of the parser *)
Lemma dec_exact q p : digits16 q -> nearest16 q p -> (p == q)%Q.
Proof.
  intros D [_ H]. specialize (H q D). assert (E : (q - q == 0)%Q) by ring. rewrite E in H. change (Qabs 0) with 0%Q in H.
  pose proof (Qle_Qabs (p - q)). pose proof (Qle_Qabs (- (p - q))) as G. rewrite Qabs_opp in G. lra.
Qed.

Lemma above f : double f -> (Qpower 2 (-24) < f -> Qpower 2 (-24) + Qpower 2 (-76) <= f)%Q.
Proof.
  intros (m & e & H1 & H2) Hlt.
  assert (Q24 : (Qpower 2 (-24) == inject_Z (2 ^ 52) * Qpower 2 (-76))%Q).
  { rewrite <- (two_nonneg 52) by lia. rewrite <- two_add. reflexivity. }
  pose proof (two_pos (-76)) as Hg. set (g := Qpower 2 (-76)) in *. rewrite Q24 in *. clear Q24.
  destruct (Z_le_gt_dec (-76) e) as [L|L].
  - assert (F : (f == inject_Z (m * 2 ^ (e + 76)) * g)%Q).
    { rewrite H2, inject_Z_mult, <- (two_nonneg (e + 76)) by lia. unfold g. rewrite <- Qmult_assoc, <- two_add. replace (e + 76 + -76) with e by lia. reflexivity. }
    set (z := m * 2 ^ (e + 76)) in *. rewrite F in Hlt |- *.
    apply Qmult_lt_r in Hlt; auto. rewrite <- Zlt_Qlt in Hlt.
    apply Qle_trans with (inject_Z (2 ^ 52 + 1) * g)%Q; [rewrite inject_Z_plus; change (inject_Z 1) with 1%Q; apply Qle_lteq; right; ring|].
    apply Qmult_le_compat_r; [apply inj_le; lia|apply Qlt_le_weak; auto].
  - exfalso. assert (P2 : 0 < 2 ^ (-77 - e)) by (apply Z.pow_pos_nonneg; lia).
    assert (A : (f <= inject_Z (2 ^ 52) * g)%Q); [|lra].
    rewrite H2. apply Qle_trans with (inject_Z (2 ^ 53 * 2 ^ (-77 - e)) * Qpower 2 e)%Q.
    + apply Qmult_le_compat_r; [|apply Qlt_le_weak, two_pos]. apply inj_le. nia.
    + rewrite inject_Z_mult, <- (two_nonneg (-77 - e)), <- Qmult_assoc, <- two_add by lia. replace (-77 - e + e) with (-77) by lia.
      apply Qle_lteq. right. reflexivity.
Qed.
Lemma power_reads : reads_as (5960464477539063 # 100000000000000000000000) (Qpower 2 (-24)).
Proof.
  split; [exists 1, (-24); split; [reflexivity|reflexivity]|].
  assert (Hd : (Qpower 2 (-24) < 5960464477539063 # 100000000000000000000000)%Q) by reflexivity.
  assert (Hg : (2 * (5960464477539063 # 100000000000000000000000) < 2 * Qpower 2 (-24) + Qpower 2 (-76))%Q) by reflexivity.
  set (d := (5960464477539063 # 100000000000000000000000)%Q) in *. clearbody d.
  intros f Df. pose proof (above f Df) as A. set (q := Qpower 2 (-24)) in *. set (g := Qpower 2 (-76)) in *. clearbody q g.
  assert (E1 : (Qabs (q - d) == d - q)%Q) by (rewrite Qabs_neg by lra; ring).
  destruct (Qlt_le_dec q f) as [L|L].
  - right. specialize (A L). pose proof (Qle_Qabs (f - d)). lra.
  - destruct (Qeq_dec f q) as [E|E]; [left; auto|right].
    assert (Hl : (f < q)%Q) by (apply Qle_lteq in L; destruct L; [auto|contradiction]).
    pose proof (Qle_Qabs (- (f - d))) as G. rewrite Qabs_opp in G. lra.
Qed.
