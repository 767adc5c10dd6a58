(* Proofs for Cond_Model: the printed constants. *)
From Coq Require Import String QArith Qabs Qpower Lqa.
From Verif Require Import Base Expr_Model Expr_Spec Print_Model Print_Spec Dec_Proofs PrintEval_Proofs Cond_Model Cond_Spec Cond_Proofs.
Open Scope Z_scope.

Lemma rnd_even_unique n d M : 0 < d -> 2 * Z.abs (M * d - n) < d -> rnd_even n d = M.
Proof.
  intros Hd H. pose proof (rnd_even_best n d M Hd) as B. set (r := rnd_even n d) in *.
  destruct (Z.eq_dec r M) as [E|E]; [auto|exfalso]. assert (r <= M - 1 \/ M + 1 <= r) by lia.
  assert (r * d <= (M - 1) * d \/ (M + 1) * d <= r * d) by nia. lia.
Qed.
Lemma ten_le a b : a <= b -> (ten a <= ten b)%Q.
Proof.
  intros H. replace b with (a + (b - a)) by lia. rewrite ten_add, (ten_nonneg (b - a)) by lia.
  pose proof (ten_pos a) as P. pose proof (Z.pow_pos_nonneg 10 (b - a) ltac:(lia) ltac:(lia)) as P2.
  assert (P3 : (1 <= inject_Z (10 ^ (b - a)))%Q) by (change 1%Q with (inject_Z 1); rewrite <- Zle_Qle; lia). nra.
Qed.
Lemma ten_lt_inv a b : (ten a < ten b)%Q -> a < b.
Proof. intros H. destruct (Z_lt_le_dec a b) as [L|L]; [auto|]. pose proof (ten_le b a L). lra. Qed.

(* the printed digits of a number close to M units *)
Lemma digits_of (q : Q) (j M : Z) : (Qabs (Qabs q - inject_Z M * ten j) < (1 # 2) * ten j)%Q ->
  let '(a, b) := scale (Z.abs (Qnum q)) (Zpos (Qden q)) j in rnd_even a b = M.
Proof.
  intros H. set (n := Z.abs (Qnum q)). set (d := Zpos (Qden q)).
  assert (Hd : 0 < d) by reflexivity. assert (Hd' : (0 < inject_Z d)%Q) by (rewrite (Zlt_Qlt 0 d) in Hd; exact Hd).
  assert (Qq : (Qabs q * inject_Z d == inject_Z n)%Q).
  { destruct q as [x y]. unfold Qeq, Qmult, inject_Z, n, d; cbn. lia. }
  pose proof (scale_ten n d j Hd) as S1. destruct (scale n d j) as [a b]. destruct S1 as [Hb S1].
  assert (Hb' : (0 < inject_Z b)%Q) by (rewrite (Zlt_Qlt 0 b) in Hb; exact Hb).
  set (u := ten j) in *. assert (Hu : (0 < u)%Q) by apply ten_pos.
  assert (QA : (Qabs q * inject_Z b == inject_Z a * u)%Q).
  { apply (Qmult_inj_r _ _ (inject_Z d)); [lra|]. transitivity (inject_Z n * inject_Z b)%Q; [rewrite <- Qq; ring|]. rewrite S1. ring. }
  pose proof (dist_scaled (Qabs q) u a b M Hu Hb QA) as D.
  rewrite Qabs_Qminus in H.
  assert (L : (inject_Z (Z.abs (M * b - a)) * u < (1 # 2) * u * inject_Z b)%Q).
  { rewrite <- D. apply Qmult_lt_compat_r; auto. }
  apply rnd_even_unique; [auto|]. rewrite Zlt_Qlt, inject_Z_mult. change (inject_Z 2) with 2%Q.
  set (x := inject_Z (Z.abs (M * b - a))) in *. set (y := inject_Z b) in *. clearbody x y u. clear - L Hu.
  apply (Qmult_lt_r _ _ u Hu). lra.
Qed.

Lemma dec_fix_ok q M : (Qabs (Qabs q - inject_Z M * ten (-6)) < (1 # 2) * ten (-6))%Q -> (dec_fix q == inject_Z M * ten (-6))%Q.
Proof.
  intros H. pose proof (digits_of q (-6) M H) as D. unfold dec_fix. destruct (scale _ _ (-6)) as [a b]. rewrite D. apply dec_val_ten.
Qed.
Lemma good_exp_bounds q K : good_exp (Z.abs (Qnum q)) (Zpos (Qden q)) K -> (ten K <= Qabs q /\ Qabs q < ten (K + 1))%Q.
Proof.
  intros H. set (n := Z.abs (Qnum q)) in *. set (d := Zpos (Qden q)) in *.
  assert (Hd : 0 < d) by reflexivity. assert (Hd' : (0 < inject_Z d)%Q) by (rewrite (Zlt_Qlt 0 d) in Hd; exact Hd).
  assert (Qq : (Qabs q * inject_Z d == inject_Z n)%Q).
  { destruct q as [x y]. unfold Qeq, Qmult, inject_Z, n, d; cbn. lia. }
  unfold good_exp in H. pose proof (scale_ten n d K Hd) as S1. destruct (scale n d K) as [a b]. destruct S1 as [Hb S1].
  assert (Hb' : (0 < inject_Z b)%Q) by (rewrite (Zlt_Qlt 0 b) in Hb; exact Hb).
  assert (QA : (Qabs q * inject_Z b == inject_Z a * ten K)%Q).
  { apply (Qmult_inj_r _ _ (inject_Z d)); [lra|]. transitivity (inject_Z n * inject_Z b)%Q; [rewrite <- Qq; ring|]. rewrite S1. ring. }
  destruct H as [H1 H2]. rewrite Zle_Qle in H1. rewrite Zlt_Qlt, inject_Z_mult in H2.
  assert (E1 : (ten (K + 1) == 10 * ten K)%Q) by (rewrite ten_add; change (ten 1) with 10%Q; ring).
  pose proof (ten_pos K) as Hu. split.
  - apply (Qmult_le_r _ _ (inject_Z b) Hb'). rewrite QA. rewrite (Qmult_comm (ten K)). apply Qmult_le_compat_r; lra.
  - apply (Qmult_lt_r _ _ (inject_Z b) Hb'). rewrite QA, E1. change (inject_Z 10) with 10%Q in H2.
    setoid_replace (10 * ten K * inject_Z b)%Q with (10 * inject_Z b * ten K)%Q by ring.
    apply (Qmult_lt_r _ _ (ten K) Hu). auto.
Qed.
Lemma dec_sci6_ok q m j : ~ (q == 0)%Q -> 10 ^ 6 <= m < 10 ^ 7 ->
  (Qabs (Qabs q - inject_Z m * ten j) < (1 # 2) * ten (j - 1))%Q ->
  exists p, dec_sci 6 q = Ok p /\ (p == inject_Z m * ten j)%Q.
Proof.
  intros Hq Hm H. unfold dec_sci.
  assert (Hn : 0 < Z.abs (Qnum q)). { assert (Qnum q <> 0) by (intros C; apply Hq; unfold Qeq; rewrite C; reflexivity). lia. }
  destruct (exp_found (Z.abs (Qnum q)) (Zpos (Qden q)) Hn eq_refl) as (K & -> & HK). cbn [rbind].
  apply good_exp_bounds in HK. destruct HK as [B1 B2].
  assert (T : (ten j == 10 * ten (j - 1))%Q).
  { replace j with (j - 1 + 1) at 1 by lia. rewrite ten_add. change (ten 1) with 10%Q. ring. }
  assert (T6 : (ten (j + 6) == inject_Z (10 ^ 6) * ten j)%Q) by (rewrite ten_add, (ten_nonneg 6) by lia; ring).
  assert (T7 : (ten (j + 7) == inject_Z (10 ^ 7) * ten j)%Q) by (rewrite ten_add, (ten_nonneg 7) by lia; ring).
  assert (T5 : (ten (j + 5) == inject_Z (10 ^ 5) * ten j)%Q) by (rewrite ten_add, (ten_nonneg 5) by lia; ring).
  pose proof (ten_pos (j - 1)) as Hu. destruct Hm as [M1 M2].
  assert (M2' : m <= 10 ^ 7 - 1) by lia. rewrite Zle_Qle in M1, M2'.
  change (inject_Z (10 ^ 6)) with (1000000 # 1)%Q in *. change (inject_Z (10 ^ 7 - 1)) with (9999999 # 1)%Q in *.
  change (inject_Z (10 ^ 7)) with (10000000 # 1)%Q in *. change (inject_Z (10 ^ 5)) with (100000 # 1)%Q in *.
  apply Qabs_Qlt_condition in H. destruct H as [H1 H2].
  assert (Hj : (0 < ten j)%Q) by apply ten_pos.
  assert (P1 : ((1000000 # 1) * ten j <= inject_Z m * ten j)%Q) by (apply Qmult_le_compat_r; lra).
  assert (P2 : (inject_Z m * ten j <= (9999999 # 1) * ten j)%Q) by (apply Qmult_le_compat_r; lra).
  assert (K1 : K < j + 7). { apply ten_lt_inv. rewrite T7. set (tj := ten j) in *. set (t1 := ten (j - 1)) in *. set (mt := (inject_Z m * tj)%Q) in *.
    clearbody tj t1 mt. lra. }
  assert (K2 : j + 5 < K + 1). { apply ten_lt_inv. rewrite T5. set (tj := ten j) in *. set (t1 := ten (j - 1)) in *. set (mt := (inject_Z m * tj)%Q) in *.
    clearbody tj t1 mt. lra. }
  assert (K = j + 6 \/ K = j + 5) as [EK|EK] by lia; subst K.
  - replace (j + 6 - 6) with j by lia.
    assert (Dg : (Qabs (Qabs q - inject_Z m * ten j) < (1 # 2) * ten j)%Q).
    { apply Qabs_Qlt_condition. set (tj := ten j) in *. set (t1 := ten (j - 1)) in *. set (mt := (inject_Z m * tj)%Q) in *. clearbody tj t1 mt. split; lra. }
    pose proof (digits_of q j m Dg) as D. destruct (scale _ _ j) as [a b]. rewrite D. eexists. split; [reflexivity|]. apply dec_val_ten.
  - replace (j + 5 - 6) with (j - 1) by lia.
    assert (E10 : (inject_Z (10 * m) * ten (j - 1) == inject_Z m * ten j)%Q) by (rewrite inject_Z_mult, T; change (inject_Z 10) with 10%Q; ring).
    assert (Dg : (Qabs (Qabs q - inject_Z (10 * m) * ten (j - 1)) < (1 # 2) * ten (j - 1))%Q).
    { rewrite E10. apply Qabs_Qlt_condition. split; lra. }
    pose proof (digits_of q (j - 1) (10 * m) Dg) as D. destruct (scale _ _ (j - 1)) as [a b]. rewrite D. eexists. split; [reflexivity|].
    rewrite dec_val_ten. exact E10.
Qed.

Section Consts.
  Variable rnd : Q -> Q.
  Variable vars : string -> option Z.
  Variable gsize : string -> Z.
  Hypothesis RM : forall a b, (a <= b)%Q -> (rnd a <= rnd b)%Q.
  Lemma rnd_eq a b : (a == b)%Q -> (rnd a == rnd b)%Q.
  Proof. intros H. apply Qle_antisym; apply RM; rewrite H; apply Qle_refl. Qed.

  Definition const_good (fmt : Q -> res ctext) (q : Q) : Prop :=
    exists t c, fmt q = Ok t /\ utx t c /\ ((0 <= q)%Q -> nomin t) /\ decs c = [] /\
      match q_int q with
      | Some z => xev rnd vars gsize c = Some (VInt false z)
      | None => exists p, xev rnd vars gsize c = Some (VDbl p) /\ (p == q)%Q
      end.
  Lemma int_const q z : (Qabs q < inject_Z (2 ^ 31))%Q -> q_int q = Some z ->
    utx (cint z) (if z <? 0 then XNeg (XI (- z)) else XI z) /\ ((0 <= q)%Q -> nomin (cint z)) /\
    xev rnd vars gsize (if z <? 0 then XNeg (XI (- z)) else XI z) = Some (VInt false z).
  Proof.
    intros H Eq. pose proof (q_int_some q z Eq) as Ez. rewrite <- Ez in H. rewrite Qabs_inject in H. rewrite <- Zlt_Qlt in H.
    change (2 ^ 31) with 2147483648 in H.
    assert (Ri : forall k, - 2147483648 < k < 2147483648 -> in_int k = true) by (intros; unfold in_int; lia).
    unfold cint. destruct (Z.ltb_spec z 0) as [E|E].
    - split; [apply u_neg; [apply u_tok; reflexivity|exact I]|]. split.
      + intros Q0. exfalso. rewrite <- Ez in Q0. change 0%Q with (inject_Z 0) in Q0. rewrite <- Zle_Qle in Q0. lia.
      + cbn [xev]. rewrite Ri by lia. unfold mk_int. rewrite Z.opp_involutive, Ri by lia. reflexivity.
    - split; [apply u_tok; reflexivity|]. split; [intros; exact I|]. cbn [xev]. rewrite Ri by lia. reflexivity.
  Qed.
  Lemma signed_const q p : ~ (q == 0)%Q -> (rnd p == Qabs q)%Q ->
    exists c, utx (signed q p) c /\ ((0 <= q)%Q -> nomin (signed q p)) /\ decs c = [] /\
      exists v, xev rnd vars gsize c = Some (VDbl v) /\ (v == q)%Q.
  Proof.
    intros Hz Hp. unfold signed. destruct (Z.ltb_spec (Qnum q) 0) as [N0|N0].
    - assert (Ql : (q < 0)%Q) by (unfold Qlt; cbn; lia).
      exists (XNeg (XR p)). split; [apply u_neg; [apply u_tok; reflexivity|exact I]|]. split; [intros C; exfalso; lra|].
      split; [reflexivity|]. eexists. split; [reflexivity|]. rewrite Hp, Qabs_neg by lra. ring.
    - assert (Qg : (0 <= q)%Q) by (unfold Qle; cbn; lia).
      exists (XR p). split; [apply u_tok; reflexivity|]. split; [intros; exact I|]. split; [reflexivity|].
      eexists. split; [reflexivity|]. rewrite Hp, Qabs_pos by auto. reflexivity.
  Qed.
  Lemma not_int q : q_int q = None -> Qeq_bool (inject_Z (Z.quot (Qnum q) (Zpos (Qden q)))) q = false /\ ~ (q == 0)%Q.
  Proof.
    intros Eq. split.
    - destruct (Qeq_bool _ q) eqn:E; [|reflexivity]. apply Qeq_bool_iff in E. rewrite (q_int_eq q _ E) in Eq. discriminate.
    - intros C. rewrite (q_int_eq q 0) in Eq; [discriminate|]. rewrite C. reflexivity.
  Qed.
  Lemma int_case fmt q z : (Qabs q < inject_Z (2 ^ 31))%Q -> q_int q = Some z -> fmt q = Ok (cint z) -> const_good fmt q.
  Proof.
    intros H Eq F. destruct (int_const q z H Eq) as (H1 & H2 & H3). exists (cint z), (if z <? 0 then XNeg (XI (- z)) else XI z).
    rewrite Eq. refine (conj F (conj H1 (conj H2 (conj _ H3)))). destruct (z <? 0); reflexivity.
  Qed.

  Lemma short_ok q : short_const rnd q -> const_good fmt_domain q.
  Proof.
    intros [H C]. destruct (q_int q) as [z|] eqn:Eq.
    - apply (int_case _ q z H Eq). unfold fmt_domain. rewrite (to_int_small q H). cbn [rbind].
      pose proof (q_int_some q z Eq) as Ez. rewrite (quot_int q z Ez).
      replace (Qeq_bool (inject_Z z) q) with true by (symmetry; apply Qeq_bool_iff; auto). reflexivity.
    - destruct (not_int q Eq) as [E Hz]. destruct C as [C|C]; [congruence|].
      unfold const_good. rewrite Eq. unfold fmt_domain. rewrite (to_int_small q H). cbn [rbind]. rewrite E.
      destruct C as [((R1 & R2) & m & C1 & C2)|(R & m & j & Hm & C1 & C2)].
      + replace (negb (Qle_bool (1 # 10000) q) || Qle_bool 100000 q) with false.
        2:{ symmetry. apply orb_false_iff. split; [apply negb_false_iff, Qle_bool_iff; auto|].
            destruct (Qle_bool 100000 q) eqn:E2; [|reflexivity]. apply Qle_bool_iff in E2. exfalso. lra. }
        assert (Qp : (Qabs q == q)%Q) by (apply Qabs_pos; lra).
        assert (D : (dec_fix q == inject_Z m * ten (-6))%Q) by (apply dec_fix_ok; rewrite Qp; exact C2).
        destruct (signed_const q (dec_fix q) Hz) as (c & U1 & U2 & U3 & U4).
        { rewrite (rnd_eq _ _ D), Qp. exact C1. }
        exists (signed q (dec_fix q)), c. exact (conj eq_refl (conj U1 (conj U2 (conj U3 U4)))).
      + replace (negb (Qle_bool (1 # 10000) q) || Qle_bool 100000 q) with true.
        2:{ symmetry. apply orb_true_iff. destruct (Qlt_le_dec q (1 # 10000)) as [L|L].
            - left. apply negb_true_iff. destruct (Qle_bool (1 # 10000) q) eqn:E2; [|reflexivity]. apply Qle_bool_iff in E2. exfalso. lra.
            - right. apply Qle_bool_iff. destruct (Qlt_le_dec q 100000) as [L2|L2]; [exfalso; apply R; split; auto|auto]. }
        destruct (dec_sci6_ok q m j Hz Hm C2) as (p & -> & D). cbn [rbind].
        destruct (signed_const q p Hz) as (c & U1 & U2 & U3 & U4).
        { rewrite (rnd_eq _ _ D). exact C1. }
        exists (signed q p), c. exact (conj eq_refl (conj U1 (conj U2 (conj U3 U4)))).
  Qed.
  Lemma long_ok q : long_const rnd q -> const_good fmt_step q.
  Proof.
    intros [H C]. destruct (q_int q) as [z|] eqn:Eq.
    - apply (int_case _ q z H Eq). unfold fmt_step. rewrite (to_int_small q H). cbn [rbind].
      pose proof (q_int_some q z Eq) as Ez. rewrite (quot_int q z Ez).
      replace (Qeq_bool (inject_Z z) q) with true by (symmetry; apply Qeq_bool_iff; auto). reflexivity.
    - destruct (not_int q Eq) as [E Hz]. destruct C as [C|C]; [congruence|].
      unfold const_good. rewrite Eq. unfold fmt_step. rewrite (to_int_small q H). cbn [rbind]. rewrite E.
      destruct (dec16_ok q Hz) as (p & Ep & Hp & Pp). change (dec_sci 15 q) with (dec16 q). rewrite Ep. cbn [rbind].
      destruct (signed_const q p Hz (C p Hp)) as (c & U1 & U2 & U3 & U4).
      exists (signed q p), c. exact (conj eq_refl (conj U1 (conj U2 (conj U3 U4)))).
  Qed.
End Consts.
