From Coq Require Import ZifyBool.
From Verif Require Import Base Combo_Model Combo_Spec.

Definition zb (n k : Z) : Z := binom (Z.to_nat n) (Z.to_nat k).

Lemma binom_nonneg : forall n k, 0 <= binom n k.
Proof. induction n; destruct k; cbn; try lia. specialize (IHn k) as H1. specialize (IHn (S k)) as H2. lia. Qed.

Lemma binom_0_r : forall n, binom n 0 = 1.
Proof. destruct n; reflexivity. Qed.

Lemma binom_big : forall n k, (n < k)%nat -> binom n k = 0.
Proof. induction n; destruct k; intros; cbn; try lia. rewrite !IHn by lia. reflexivity. Qed.

Lemma binom_diag : forall n, binom n n = 1.
Proof. induction n; cbn; [reflexivity|]. rewrite IHn, binom_big by lia. reflexivity. Qed.

Lemma binom_1 : forall n, binom n 1 = Z.of_nat n.
Proof. induction n; cbn [binom]; [reflexivity|]. rewrite binom_0_r, IHn. lia. Qed.

(* k * C(n,k) = n * C(n-1,k-1) *)
Lemma binom_absorb : forall n k, Z.of_nat (S k) * binom (S n) (S k) = Z.of_nat (S n) * binom n k.
Proof.
  induction n; intros k.
  - destruct k; cbn; [reflexivity|]. lia.
  - destruct k as [|k].
    + rewrite binom_1, binom_0_r. lia.
    + cbn [binom] in *. pose proof (IHn k) as H1. pose proof (IHn (S k)) as H2. cbn [binom] in *. lia.
Qed.

(* (k+1) C(n,k+1) = (n-k) C(n,k) *)
Lemma binom_next : forall n k, Z.of_nat (S k) * binom n (S k) = (Z.of_nat n - Z.of_nat k) * binom n k.
Proof.
  induction n as [|n IHn]; intros k.
  - destruct k; cbn; lia.
  - rewrite binom_absorb. destruct k as [|k]; [rewrite !binom_0_r; lia|].
    specialize (IHn k). cbn [binom]. lia.
Qed.

Lemma binom_sym : forall n k, (k <= n)%nat -> binom n k = binom n (n - k).
Proof.
  induction n; intros k H.
  - replace k with 0%nat by lia. reflexivity.
  - destruct k as [|k].
    + rewrite Nat.sub_0_r, binom_0_r, binom_diag. reflexivity.
    + cbn [binom Nat.sub]. destruct (Nat.eq_dec k n) as [->|N].
      * rewrite binom_diag, binom_big, Nat.sub_diag by lia. reflexivity.
      * rewrite (IHn k), (IHn (S k)) by lia.
        replace (n - k)%nat with (S (n - S k)) by lia. cbn [binom]. lia.
Qed.

Lemma zb_next : forall n i, 0 <= i <= n -> (i + 1) * zb n (i + 1) = (n - i) * zb n i.
Proof.
  intros n i H. unfold zb. pose proof (binom_next (Z.to_nat n) (Z.to_nat i)) as E.
  replace (Z.to_nat (i + 1)) with (S (Z.to_nat i)) by lia.
  rewrite <- !Z2Nat.inj_succ in E by lia. rewrite !Z2Nat.id in E by lia.
  rewrite Z2Nat.inj_succ in E by lia. unfold Z.succ in E. exact E.
Qed.

(* no intermediate product overflows *)
Definition fits (n k : Z) : Prop := forall i, 2 <= i <= Z.min k (n - k) -> i * zb n i <= int_max.

Lemma nck_loop_spec : forall cnt n i, 2 <= i -> i - 1 + Z.of_nat cnt <= n ->
  (forall i', i <= i' < i + Z.of_nat cnt -> i' * zb n i' <= int_max) ->
  nck_loop cnt n i (zb n (i - 1)) = Ok (zb n (i - 1 + Z.of_nat cnt)).
Proof.
  induction cnt as [|cnt IH]; intros n i Hi Hn F; cbn [nck_loop].
  - do 2 f_equal. lia.
  - pose proof (zb_next n (i - 1) ltac:(lia)) as E. replace (i - 1 + 1) with i in E by lia.
    replace (zb n (i - 1) * (n - i + 1)) with (i * zb n i) by lia.
    specialize (F i ltac:(lia)) as Fi. apply Z.leb_le in Fi. rewrite Fi.
    rewrite (Z.mul_comm i), Z.quot_mul by lia.
    replace (zb n i) with (zb n (i + 1 - 1)) by (f_equal; lia).
    rewrite IH; [do 2 f_equal; lia|lia|lia|]. intros i' H. apply F. lia.
Qed.

Theorem n_choose_k_spec : forall n k, 0 <= n -> 0 <= k -> fits n k -> n_choose_k n k = Ok (zb n k).
Proof.
  intros n k Hn Hk F. unfold n_choose_k.
  destruct ((k <=? 0) || (k =? n)) eqn:E.
  { f_equal. unfold zb. destruct (Z.eq_dec k 0) as [->|].
    - rewrite binom_0_r. reflexivity.
    - replace k with n by lia. rewrite binom_diag. reflexivity. }
  destruct (n <? k) eqn:E2.
  { unfold zb. rewrite binom_big by lia. reflexivity. }
  set (k' := if n <? k * 2 then n - k else k).
  assert (1 <= k' <= n /\ zb n k = zb n k' /\ k' = Z.min k (n - k)) as (H1 & H2 & H3).
  { unfold k'. destruct (n <? k * 2) eqn:E3; [|repeat split; lia].
    repeat split; try lia. unfold zb. rewrite binom_sym by lia. f_equal. lia. }
  replace n with (zb n (2 - 1)) at 2.
  2:{ unfold zb. change (Z.to_nat (2 - 1)) with 1%nat. rewrite binom_1. lia. }
  rewrite nck_loop_spec; [|lia|lia|].
  - rewrite H2. do 2 f_equal. lia.
  - intros i' Hi'. apply F. lia.
Qed.

Lemma binom_mono : forall a b k, (a <= b)%nat -> binom a k <= binom b k.
Proof.
  induction b; intros k H.
  - replace a with 0%nat by lia. lia.
  - destruct (Nat.eq_dec a (S b)) as [->|]; [lia|]. specialize (IHb k ltac:(lia)).
    destruct k; cbn [binom]; [rewrite binom_0_r in *; lia|]. pose proof (binom_nonneg b k). lia.
Qed.

Lemma binom_29 : forall i, 0 <= i <= 14 -> i * zb 29 i <= int_max.
Proof.
  unfold int_max. intros i Hi.
  assert (H0 : zb 29 0 = 1) by apply binom_0_r.
  assert (H1 : zb 29 1 = 29) by (pose proof (zb_next 29 0 ltac:(lia)) as E; change (0 + 1) with 1 in E; lia).
  assert (H2 : zb 29 2 = 406) by (pose proof (zb_next 29 1 ltac:(lia)) as E; change (1 + 1) with 2 in E; lia).
  assert (H3 : zb 29 3 = 3654) by (pose proof (zb_next 29 2 ltac:(lia)) as E; change (2 + 1) with 3 in E; lia).
  assert (H4 : zb 29 4 = 23751) by (pose proof (zb_next 29 3 ltac:(lia)) as E; change (3 + 1) with 4 in E; lia).
  assert (H5 : zb 29 5 = 118755) by (pose proof (zb_next 29 4 ltac:(lia)) as E; change (4 + 1) with 5 in E; lia).
  assert (H6 : zb 29 6 = 475020) by (pose proof (zb_next 29 5 ltac:(lia)) as E; change (5 + 1) with 6 in E; lia).
  assert (H7 : zb 29 7 = 1560780) by (pose proof (zb_next 29 6 ltac:(lia)) as E; change (6 + 1) with 7 in E; lia).
  assert (H8 : zb 29 8 = 4292145) by (pose proof (zb_next 29 7 ltac:(lia)) as E; change (7 + 1) with 8 in E; lia).
  assert (H9 : zb 29 9 = 10015005) by (pose proof (zb_next 29 8 ltac:(lia)) as E; change (8 + 1) with 9 in E; lia).
  assert (H10 : zb 29 10 = 20030010) by (pose proof (zb_next 29 9 ltac:(lia)) as E; change (9 + 1) with 10 in E; lia).
  assert (H11 : zb 29 11 = 34597290) by (pose proof (zb_next 29 10 ltac:(lia)) as E; change (10 + 1) with 11 in E; lia).
  assert (H12 : zb 29 12 = 51895935) by (pose proof (zb_next 29 11 ltac:(lia)) as E; change (11 + 1) with 12 in E; lia).
  assert (H13 : zb 29 13 = 67863915) by (pose proof (zb_next 29 12 ltac:(lia)) as E; change (12 + 1) with 13 in E; lia).
  assert (H14 : zb 29 14 = 77558760) by (pose proof (zb_next 29 13 ltac:(lia)) as E; change (13 + 1) with 14 in E; lia).
  assert (D : i = 0 \/ i = 1 \/ i = 2 \/ i = 3 \/ i = 4 \/ i = 5 \/ i = 6 \/ i = 7 \/ i = 8 \/ i = 9 \/ i = 10 \/
    i = 11 \/ i = 12 \/ i = 13 \/ i = 14) by lia.
  repeat (destruct D as [->|D]; [lia|]). subst i. lia.
Qed.

Lemma fits_small : forall n k, 0 <= n <= 29 -> fits n k.
Proof.
  intros n k Hn i Hi. pose proof (binom_29 i ltac:(lia)) as B.
  pose proof (binom_mono (Z.to_nat n) (Z.to_nat 29) (Z.to_nat i) ltac:(lia)) as M.
  unfold zb in *. nia.
Qed.

Lemma nck_small : forall n k, n <= 29 -> 0 <= k -> n_choose_k n k = Ok (if n <? 0 then if k =? 0 then 1 else 0 else zb n k).
Proof.
  intros n k Hn Hk. destruct (n <? 0) eqn:E.
  - unfold n_choose_k. replace (k =? n) with false by lia.
    destruct (k =? 0) eqn:E2; [replace (k <=? 0) with true by lia; reflexivity|].
    replace (k <=? 0) with false by lia. cbn. replace (n <? k) with true by lia. reflexivity.
  - apply n_choose_k_spec; [lia|lia|]. apply fits_small. lia.
Qed.

(* --- lexicographic enumeration --- *)
Fixpoint combos (base : Z) (m k : nat) : list (list Z) :=
  match k, m with
  | O, _ => [[]]
  | S _, O => []
  | S k', S m' => map (cons base) (combos (base + 1) m' k') ++ combos (base + 1) m' k
  end.

Lemma combos_length : forall m base k, Z.of_nat (length (combos base m k)) = binom m k.
Proof.
  induction m; intros base k; destruct k; cbn [combos binom]; try reflexivity.
  rewrite app_length, map_length, Nat2Z.inj_add, !IHm. reflexivity.
Qed.

Inductive incr : Z -> Z -> list Z -> Prop :=   (* increasing in [lo, hi) *)
| incr_nil : forall lo hi, incr lo hi []
| incr_cons : forall lo hi a l, lo <= a < hi -> incr (a + 1) hi l -> incr lo hi (a :: l).

Lemma incr_weaken : forall l lo lo' hi, lo' <= lo -> incr lo hi l -> incr lo' hi l.
Proof. intros l lo lo' hi H I. inversion I; subst; constructor; [lia|assumption]. Qed.

Lemma combos_in : forall m base k l, In l (combos base m k) <-> incr base (base + Z.of_nat m) l /\ length l = k.
Proof.
  induction m; intros base k l.
  - destruct k; cbn.
    + split; [intros [<-|[]]; split; [constructor|reflexivity]|]. intros (_ & H). destruct l; [auto|discriminate].
    + split; [tauto|]. intros (H & L). inversion H; subst; [discriminate|lia].
  - destruct k; cbn [combos].
    + split; [intros [<-|[]]; split; [constructor|reflexivity]|]. intros (_ & H). destruct l; [left; reflexivity|discriminate].
    + rewrite in_app_iff, in_map_iff. split.
      * intros [(t & <- & Ht)|Ht]; apply IHm in Ht as (H & L).
        -- split; [constructor; [lia|]|cbn; congruence]. replace (base + Z.of_nat (S m)) with (base + 1 + Z.of_nat m) by lia. assumption.
        -- split; [|assumption]. replace (base + Z.of_nat (S m)) with (base + 1 + Z.of_nat m) by lia.
           eapply incr_weaken; [|exact H]. lia.
      * intros (H & L). replace (base + Z.of_nat (S m)) with (base + 1 + Z.of_nat m) in H by lia.
        inversion H; subst; [discriminate|]. destruct (Z.eq_dec a base) as [->|].
        -- left. exists l0. split; [reflexivity|]. apply IHm. split; [assumption|]. cbn in L. congruence.
        -- right. apply IHm. split; [|assumption]. constructor; [lia|assumption].
Qed.

Lemma combos_NoDup : forall m base k, NoDup (combos base m k).
Proof.
  induction m; intros base k; destruct k; cbn [combos]; try (repeat constructor; auto; fail).
  assert (D : forall A (l1 l2 : list A), NoDup l1 -> NoDup l2 -> (forall x, In x l1 -> ~ In x l2) -> NoDup (l1 ++ l2)).
  { induction l1; intros l2 N1 N2 Dj; cbn; [assumption|]. inversion N1; subst. constructor.
    - rewrite in_app_iff. intros [C|C]; [tauto|]. eapply Dj; [left; reflexivity|exact C].
    - apply IHl1; auto. intros x Hx. apply Dj. right; assumption. }
  apply D.
  - apply FinFun.Injective_map_NoDup; [intros a b E; congruence|apply IHm].
  - apply IHm.
  - intros x Hx C. apply in_map_iff in Hx as (t & <- & _). apply combos_in in C as (H & _). inversion H; subst. lia.
Qed.

(* unranking as in the code *)
Lemma ca_loop_spec : forall m fuel n base kk r' j l,
  n = base + Z.of_nat m -> 0 <= n <= 29 -> 0 <= base -> (m <= fuel)%nat -> 0 <= r' ->
  nth_error (combos base m (S kk)) (Z.to_nat r') = Some l ->
  exists a t, base <= a < n /\
    ca_loop fuel n (Z.of_nat kk) (j + r') (base - 1) j = Ok (a, j + (r' - t)) /\ 0 <= t /\
    exists l', l = a :: l' /\ nth_error (combos (a + 1) (Z.to_nat (n - a - 1)) kk) (Z.to_nat t) = Some l'.
Proof.
  induction m; intros fuel n base kk r' j l En Hn Hb Hf Hr H.
  - destruct (Z.to_nat r'); discriminate.
  - destruct fuel as [|fuel]; [lia|]. cbn [ca_loop combos] in *.
    replace (base - 1 + 1) with base by lia.
    rewrite nck_small by lia. cbn [rbind]. replace (n - (base + 1) <? 0) with false by lia.
    assert (E : zb (n - (base + 1)) (Z.of_nat kk) = binom m kk) by (unfold zb; f_equal; lia).
    rewrite E.
    assert (L := combos_length m (base + 1) kk).
    destruct (j + r' + 1 <=? j + binom m kk) eqn:C.
    + rewrite nth_error_app1 in H by (rewrite map_length; lia). rewrite nth_error_map in H.
      destruct (nth_error (combos (base + 1) m kk) (Z.to_nat r')) as [l'|] eqn:N; [|discriminate].
      cbn in H. injection H as <-. exists base, r'. split; [lia|]. split; [do 2 f_equal; lia|]. split; [lia|].
      exists l'. split; [reflexivity|]. rewrite <- N. f_equal. f_equal. lia.
    + rewrite nth_error_app2 in H by (rewrite map_length; lia). rewrite map_length in H.
      replace (Z.to_nat r' - length (combos (base + 1) m kk))%nat with (Z.to_nat (r' - binom m kk)) in H by lia.
      destruct (IHm fuel n (base + 1) kk (r' - binom m kk) (j + binom m kk) l) as (a & t & H1 & H2 & H3 & H4); try lia; auto.
      exists a, t. split; [lia|]. split; [|split; [lia|exact H4]].
      replace (base + 1 - 1) with base in H2 by lia.
      replace (j + binom m kk + (r' - binom m kk)) with (j + r') in H2 by lia. rewrite H2. do 2 f_equal. lia.
Qed.

Lemma combos_one : forall m base r, (r < m)%nat -> nth_error (combos base m 1) r = Some [base + Z.of_nat r].
Proof.
  induction m; intros base r H; [lia|]. cbn [combos].
  replace (combos (base + 1) m 0) with ([[]] : list (list Z)) by (destruct m; reflexivity). cbn [map app].
  destruct r as [|r]; [cbn; do 2 f_equal; lia|]. cbn [nth_error]. rewrite IHm by lia. do 2 f_equal. lia.
Qed.

Lemma ca_outer_spec : forall cnt m fuel n k r i base j t l,
  n = base + Z.of_nat m -> 0 <= n <= 29 -> 0 <= base -> (Z.to_nat n <= fuel)%nat -> 0 <= t ->
  k = i + Z.of_nat cnt + 1 -> 0 <= i -> k <= 8 -> r = j + t ->
  nth_error (combos base m (S cnt)) (Z.to_nat t) = Some l ->
  exists pre prev j', ca_outer cnt fuel n k r i (base - 1) j = Ok (pre, prev, j') /\
    l = pre ++ [prev + r - j' + 1].
Proof.
  induction cnt as [|cnt IH]; intros m fuel n k r i base j t l En Hn Hb Hf Ht Hk Hi Hk8 Hr H.
  - cbn [ca_outer]. exists [], (base - 1), j. split; [reflexivity|].
    assert (Hm : (Z.to_nat t < m)%nat).
    { assert (Z.to_nat t < length (combos base m 1))%nat by (apply nth_error_Some; congruence).
      pose proof (combos_length m base 1) as E. rewrite binom_1 in E. lia. }
    rewrite combos_one in H by assumption. injection H as <-. cbn. f_equal. lia.
  - cbn [ca_outer]. replace (8 <=? i) with false by lia.
    destruct (ca_loop_spec m fuel n base (S cnt) t j l) as (a & t' & H1 & H2 & H3 & l' & H4 & H5); try lia; auto.
    replace (k - (i + 1)) with (Z.of_nat (S cnt)) by lia. rewrite Hr, H2. cbn [rbind fst snd].
    destruct (IH (Z.to_nat (n - a - 1)) fuel n k r (i + 1) (a + 1) (j + (t - t')) t' l') as (pre & prev & j' & E & E2); try lia; auto.
    replace (a + 1 - 1) with a in E by lia. rewrite Hr in E. rewrite E. cbn [rbind fst snd].
    exists (a :: pre), prev, j'. split; [reflexivity|]. rewrite H4, E2, Hr. reflexivity.
Qed.

(* masks *)
Definition mask_of (l : list Z) : Z := fold_left (fun c b => Z.setbit c b) l 0.

Lemma set_bits_ok : forall l c, Forall (fun b => 0 <= b < 64) l -> set_bits l c = Ok (fold_left (fun c b => Z.setbit c b) l c).
Proof.
  induction l as [|b l IH]; intros c H; cbn; [reflexivity|]. inversion H; subst.
  unfold set_bit. replace ((0 <=? b) && (b <? 64)) with true by lia. cbn. apply IH. assumption.
Qed.

Lemma fold_testbit : forall l c x, Forall (fun b => 0 <= b) l -> 0 <= x ->
  Z.testbit (fold_left (fun c b => Z.setbit c b) l c) x = true <-> Z.testbit c x = true \/ In x l.
Proof.
  induction l as [|b l IH]; intros c x H Hx; cbn; [tauto|]. inversion H; subst.
  rewrite IH by assumption. rewrite Z.setbit_eqb by assumption. rewrite orb_true_iff, Z.eqb_eq. intuition.
Qed.

Lemma incr_Forall : forall l lo hi, incr lo hi l -> Forall (fun b => lo <= b < hi) l.
Proof.
  induction l as [|a l IH]; intros lo hi H; [constructor|]. inversion H; subst. constructor; [assumption|].
  apply IH in H5. eapply Forall_impl; [|exact H5]. cbn. intros; lia.
Qed.

Lemma incr_NoDup : forall l lo hi, incr lo hi l -> NoDup l.
Proof.
  induction l as [|a l IH]; intros lo hi H; [constructor|]. inversion H; subst. constructor; [|eapply IH; eassumption].
  apply incr_Forall in H5. rewrite Forall_forall in H5. intros C. apply H5 in C. lia.
Qed.

Lemma incr_ext : forall l1 l2 lo hi, incr lo hi l1 -> incr lo hi l2 -> (forall x, In x l1 <-> In x l2) -> l1 = l2.
Proof.
  induction l1 as [|a l1 IH]; intros l2 lo hi H1 H2 E.
  - destruct l2 as [|b l2]; [reflexivity|]. exfalso. apply (E b). left; reflexivity.
  - destruct l2 as [|b l2]; [exfalso; apply (E a); left; reflexivity|].
    pose proof (incr_NoDup _ _ _ H1) as N1. pose proof (incr_NoDup _ _ _ H2) as N2.
    inversion H1; subst. inversion H2; subst. inversion N1; subst. inversion N2; subst.
    pose proof (incr_Forall _ _ _ H6) as F1. pose proof (incr_Forall _ _ _ H8) as F2.
    rewrite Forall_forall in F1, F2.
    assert (a = b).
    { destruct (proj1 (E a) (or_introl eq_refl)) as [|C]; [congruence|].
      destruct (proj2 (E b) (or_introl eq_refl)) as [|C2]; [congruence|].
      apply F1 in C2. apply F2 in C. lia. }
    subst b. f_equal. apply (IH l2 (a + 1) hi); [assumption|assumption|].
    intros x. specialize (E x). cbn in E. split; intros Hx.
    + destruct (proj1 E (or_intror Hx)) as [->|]; tauto.
    + destruct (proj2 E (or_intror Hx)) as [->|]; tauto.
Qed.

Lemma mask_testbit : forall l n x, incr 0 n l -> 0 <= x -> Z.testbit (mask_of l) x = true <-> In x l.
Proof.
  intros l n x H Hx. unfold mask_of. rewrite fold_testbit; [|apply incr_Forall in H; eapply Forall_impl; [|exact H]; cbn; intros; lia|assumption].
  rewrite Z.bits_0. intuition discriminate.
Qed.

Lemma mask_nonneg : forall l c, Forall (fun b => 0 <= b) l -> 0 <= c -> 0 <= fold_left (fun c b => Z.setbit c b) l c.
Proof.
  induction l as [|b l IH]; intros c H Hc; cbn; [assumption|]. inversion H; subst. apply IH; [assumption|].
  unfold Z.setbit. rewrite Z.shiftl_1_l. apply Z.lor_nonneg. split; [assumption|]. apply Z.pow_nonneg. lia.
Qed.

Lemma bits_bound : forall c n, 0 <= c -> 0 <= n -> (forall x, n <= x -> Z.testbit c x = false) -> c < 2 ^ n.
Proof.
  intros c n Hc Hn H. destruct (Z.eq_dec c 0) as [->|N]; [apply Z.pow_pos_nonneg; lia|].
  apply Z.log2_lt_pow2; [lia|]. destruct (Z.lt_ge_cases (Z.log2 c) n) as [|G]; [assumption|].
  specialize (H _ G). rewrite Z.bit_log2 in H by lia. discriminate.
Qed.

Lemma mask_bound : forall l n, 0 <= n -> incr 0 n l -> 0 <= mask_of l < 2 ^ n.
Proof.
  intros l n Hn H. pose proof (incr_Forall _ _ _ H) as F.
  assert (0 <= mask_of l) as P. { apply mask_nonneg; [|lia]. eapply Forall_impl; [|exact F]. cbn. intros; lia. }
  split; [assumption|]. apply bits_bound; [assumption|assumption|]. intros x Hx.
  destruct (Z.testbit (mask_of l) x) eqn:E; [|reflexivity].
  rewrite (mask_testbit l n x H) in E by lia. rewrite Forall_forall in F. apply F in E. lia.
Qed.

Lemma filter_incr : forall n (f : Z -> bool) b, incr b (b + Z.of_nat n) (filter f (map (fun i => b + Z.of_nat i) (seq 0 n))).
Proof.
  induction n; intros f b; cbn; [constructor|].
  rewrite <- seq_shift, map_map.
  rewrite (map_ext _ (fun i => (b + 1) + Z.of_nat i)) by (intros; lia).
  specialize (IHn f (b + 1)). replace (b + 1 + Z.of_nat n) with (b + Z.of_nat (S n)) in IHn by lia.
  destruct (f (b + Z.of_nat 0)); [|eapply incr_weaken; [|exact IHn]; lia].
  constructor; [lia|]. replace (b + Z.of_nat 0 + 1) with (b + 1) by lia. assumption.
Qed.

Lemma filter_zseq_incr : forall n f, 0 <= n -> incr 0 n (filter f (zseq n)).
Proof.
  intros n f Hn. pose proof (filter_incr (Z.to_nat n) f 0) as H. rewrite Z2Nat.id in H by lia. exact H.
Qed.

Lemma mask_members : forall l n, 0 <= n -> incr 0 n l -> filter (Z.testbit (mask_of l)) (zseq n) = l.
Proof.
  intros l n Hn H. apply (incr_ext _ _ 0 n); [apply filter_zseq_incr; assumption|assumption|].
  intros x. rewrite filter_In, zseq_In. pose proof (incr_Forall _ _ _ H) as F. rewrite Forall_forall in F.
  split.
  - intros (Hx & T). apply (mask_testbit l n) in T; [assumption|assumption|lia].
  - intros I. pose proof (F _ I). split; [lia|]. apply (mask_testbit l n); [assumption|lia|assumption].
Qed.

Lemma mask_of_members : forall c n, 0 <= c < 2 ^ n -> 0 <= n -> mask_of (filter (Z.testbit c) (zseq n)) = c.
Proof.
  intros c n Hc Hn. apply Z.bits_inj'. intros x Hx.
  assert (forall b1 b2 : bool, (b1 = true <-> b2 = true) -> b1 = b2) as B.
  { intros [|] [|]; intuition congruence. }
  apply B. rewrite (mask_testbit _ n) by (try apply filter_zseq_incr; assumption).
  rewrite filter_In, zseq_In. split; [tauto|]. intros T. split; [|assumption]. split; [assumption|].
  destruct (Z.lt_ge_cases x n) as [|G]; [assumption|]. exfalso.
  destruct (Z.eq_dec c 0) as [->|N]; [rewrite Z.bits_0 in T; discriminate|].
  rewrite Z.bits_above_log2 in T; [discriminate|lia|]. apply Z.lt_le_trans with n; [|assumption].
  apply Z.log2_lt_pow2; lia.
Qed.

Lemma combos_zero : forall base m, combos base m 0 = [[]].
Proof. intros; destruct m; reflexivity. Qed.

Lemma set_unrank : forall fuel n k r, 0 <= n <= 29 -> 0 <= k <= 8 -> (Z.to_nat n <= fuel)%nat -> 0 <= r < zb n k ->
  exists l, nth_error (combos 0 (Z.to_nat n) (Z.to_nat k)) (Z.to_nat r) = Some l /\
    n_choose_k_set fuel n k r = Ok (mask_of l).
Proof.
  intros fuel n k r Hn Hk Hf Hr.
  destruct (nth_error (combos 0 (Z.to_nat n) (Z.to_nat k)) (Z.to_nat r)) as [l|] eqn:N.
  2:{ exfalso. apply nth_error_None in N. pose proof (combos_length (Z.to_nat n) 0 (Z.to_nat k)). unfold zb in Hr. lia. }
  exists l. split; [reflexivity|]. unfold n_choose_k_set.
  assert (I : incr 0 n l).
  { apply nth_error_In, combos_in in N as (I & _). replace (0 + Z.of_nat (Z.to_nat n)) with n in I by lia. exact I. }
  assert (F64 : Forall (fun b => 0 <= b < 64) l).
  { apply incr_Forall in I. eapply Forall_impl; [|exact I]. cbn. intros; lia. }
  destruct (Z.eq_dec k 0) as [->|].
  { cbn [Z.to_nat] in N. rewrite combos_zero in N.
    destruct (Z.to_nat r) as [|?]; [|destruct n0; discriminate]. injection N as <-.
    replace ((n <=? 0) || (0 <=? 0)) with true by lia. reflexivity. }
  assert (0 < n).
  { destruct (Z.eq_dec n 0) as [->|]; [|lia]. unfold zb in Hr. rewrite binom_big in Hr by lia. lia. }
  replace ((n <=? 0) || (k <=? 0)) with false by lia.
  destruct (k =? 1) eqn:E1.
  { assert (k = 1) by lia. subst k. change (Z.to_nat 1) with 1%nat in N.
    unfold zb in Hr. change (Z.to_nat 1) with 1%nat in Hr. rewrite binom_1 in Hr.
    rewrite combos_one in N by lia. injection N as <-.
    unfold set_bit. replace ((0 <=? r) && (r <? 64)) with true by lia.
    unfold mask_of. cbn. do 2 f_equal. lia. }
  replace (Z.to_nat k) with (S (Z.to_nat (k - 1))) in N by lia.
  destruct (ca_outer_spec (Z.to_nat (k - 1)) (Z.to_nat n) fuel n k r 0 0 0 r l) as (pre & prev & j' & E & E2); try lia; auto.
  change (0 - 1) with (-1) in E. rewrite E. cbn [rbind fst snd]. replace (8 <=? k - 1) with false by lia.
  rewrite <- E2. apply set_bits_ok. assumption.
Qed.

Theorem n_choose_k_set_bij : forall n k fuel, 0 <= n <= 29 -> 0 <= k <= 8 -> (Z.to_nat n <= fuel)%nat ->
  let N := binom (Z.to_nat n) (Z.to_nat k) in
  n_choose_k n k = Ok N /\
  (forall r, 0 <= r < N -> exists c, n_choose_k_set fuel n k r = Ok c /\ subset_mask n k c) /\
  (forall r1 r2, 0 <= r1 < N -> 0 <= r2 < N ->
     n_choose_k_set fuel n k r1 = n_choose_k_set fuel n k r2 -> r1 = r2) /\
  (forall c, subset_mask n k c -> exists r, 0 <= r < N /\ n_choose_k_set fuel n k r = Ok c).
Proof.
  intros n k fuel Hn Hk Hf. cbn zeta.
  split; [apply (n_choose_k_spec n k); [lia|lia|]; apply fits_small; lia|].
  assert (IC : forall l, In l (combos 0 (Z.to_nat n) (Z.to_nat k)) <-> incr 0 n l /\ length l = Z.to_nat k).
  { intros l. rewrite combos_in. replace (0 + Z.of_nat (Z.to_nat n)) with n by lia. reflexivity. }
  split; [|split].
  - intros r Hr. destruct (set_unrank fuel n k r Hn Hk Hf Hr) as (l & N & E). exists (mask_of l). split; [exact E|].
    apply nth_error_In, IC in N as (I & L). split; [apply mask_bound; [lia|assumption]|].
    rewrite mask_members by (try assumption; lia). lia.
  - intros r1 r2 H1 H2 E.
    destruct (set_unrank fuel n k r1 Hn Hk Hf H1) as (l1 & N1 & E1).
    destruct (set_unrank fuel n k r2 Hn Hk Hf H2) as (l2 & N2 & E2).
    rewrite E1, E2 in E. injection E as E.
    pose proof (nth_error_In _ _ N1) as I1. pose proof (nth_error_In _ _ N2) as I2.
    apply IC in I1 as (I1 & _). apply IC in I2 as (I2 & _).
    assert (l1 = l2). { rewrite <- (mask_members l1 n), <- (mask_members l2 n), E by (try assumption; lia). reflexivity. }
    subst l2. assert (Z.to_nat r1 = Z.to_nat r2); [|lia].
    apply (proj1 (NoDup_nth_error _) (combos_NoDup (Z.to_nat n) 0 (Z.to_nat k))); [apply nth_error_Some; congruence|congruence].
  - intros c (Hc & L).
    assert (In (filter (Z.testbit c) (zseq n)) (combos 0 (Z.to_nat n) (Z.to_nat k))) as I.
    { apply IC. split; [apply filter_zseq_incr; lia|]. lia. }
    apply In_nth_error in I as (r & N).
    assert (r < length (combos 0 (Z.to_nat n) (Z.to_nat k)))%nat as Hr by (apply nth_error_Some; congruence).
    pose proof (combos_length (Z.to_nat n) 0 (Z.to_nat k)) as LL.
    exists (Z.of_nat r). split; [lia|].
    destruct (set_unrank fuel n k (Z.of_nat r) Hn Hk Hf) as (l & N' & E); [unfold zb; lia|].
    rewrite Nat2Z.id in N'. rewrite E. f_equal. replace l with (filter (Z.testbit c) (zseq n)) by congruence.
    apply mask_of_members; lia.
Qed.

Lemma binom_30_15 : zb 30 15 <= int_max.
Proof.
  unfold int_max.
  assert (H0 : zb 30 0 = 1) by apply binom_0_r.
  assert (H1 : zb 30 1 = 30) by (pose proof (zb_next 30 0 ltac:(lia)) as E; change (0 + 1) with 1 in E; lia).
  assert (H2 : zb 30 2 = 435) by (pose proof (zb_next 30 1 ltac:(lia)) as E; change (1 + 1) with 2 in E; lia).
  assert (H3 : zb 30 3 = 4060) by (pose proof (zb_next 30 2 ltac:(lia)) as E; change (2 + 1) with 3 in E; lia).
  assert (H4 : zb 30 4 = 27405) by (pose proof (zb_next 30 3 ltac:(lia)) as E; change (3 + 1) with 4 in E; lia).
  assert (H5 : zb 30 5 = 142506) by (pose proof (zb_next 30 4 ltac:(lia)) as E; change (4 + 1) with 5 in E; lia).
  assert (H6 : zb 30 6 = 593775) by (pose proof (zb_next 30 5 ltac:(lia)) as E; change (5 + 1) with 6 in E; lia).
  assert (H7 : zb 30 7 = 2035800) by (pose proof (zb_next 30 6 ltac:(lia)) as E; change (6 + 1) with 7 in E; lia).
  assert (H8 : zb 30 8 = 5852925) by (pose proof (zb_next 30 7 ltac:(lia)) as E; change (7 + 1) with 8 in E; lia).
  assert (H9 : zb 30 9 = 14307150) by (pose proof (zb_next 30 8 ltac:(lia)) as E; change (8 + 1) with 9 in E; lia).
  assert (H10 : zb 30 10 = 30045015) by (pose proof (zb_next 30 9 ltac:(lia)) as E; change (9 + 1) with 10 in E; lia).
  assert (H11 : zb 30 11 = 54627300) by (pose proof (zb_next 30 10 ltac:(lia)) as E; change (10 + 1) with 11 in E; lia).
  assert (H12 : zb 30 12 = 86493225) by (pose proof (zb_next 30 11 ltac:(lia)) as E; change (11 + 1) with 12 in E; lia).
  assert (H13 : zb 30 13 = 119759850) by (pose proof (zb_next 30 12 ltac:(lia)) as E; change (12 + 1) with 13 in E; lia).
  assert (H14 : zb 30 14 = 145422675) by (pose proof (zb_next 30 13 ltac:(lia)) as E; change (13 + 1) with 14 in E; lia).
  assert (H15 : zb 30 15 = 155117520) by (pose proof (zb_next 30 14 ltac:(lia)) as E; change (14 + 1) with 15 in E; lia).
  lia.
Qed.

Lemma zb_def : forall n k, binom (Z.to_nat n) (Z.to_nat k) = zb n k.
Proof. reflexivity. Qed.
Lemma le_eq : forall a b c : Z, a = b -> b <= c -> a <= c.
Proof. intros; lia. Qed.
Lemma binom_30_15' : binom (Z.to_nat 30) (Z.to_nat 15) <= int_max.
Proof. exact (le_eq _ _ _ (zb_def 30 15) binom_30_15). Qed.
