From Coq Require Import String ZifyBool.
From Verif Require Import Base MixedRadix Visit_Spec Tuple_Model Tuple_Proofs Factors_Model Factors_Spec.

Lemma tmax_le : forall l m, l <> [] -> tmax l <= m <-> all_le l m.
Proof.
  intros [|x r] m N; [congruence|]. clear N. cbn. revert x. induction r as [|y r IH]; intros x; cbn.
  - unfold all_le. split; [repeat constructor; assumption|inversion 1; assumption].
  - rewrite IH. unfold all_le. split; intros H; inversion H as [|? ? H1 H2]; subst.
    + repeat constructor; [lia|lia|assumption].
    + inversion H2; subst. constructor; [lia|assumption].
Qed.

Lemma all_le_tmax : forall l, l <> [] -> all_le l (tmax l).
Proof. intros l H. apply tmax_le; [assumption|lia]. Qed.

Lemma factors_In : forall N n, 1 <= N -> In n (factors N) <-> 1 <= n /\ (n | N).
Proof.
  intros N n HN. unfold factors. rewrite filter_In, zrange_In, Z.eqb_eq. split.
  - intros (H1 & H2). split; [lia|]. apply Z.rem_divide; [lia|assumption].
  - intros (H1 & H2). pose proof (Z.divide_pos_le n N ltac:(lia) H2). split; [lia|].
    apply Z.rem_divide; [lia|assumption].
Qed.

Lemma factors_len : forall N, 1 <= N -> 1 <= Z.of_nat (length (factors N)).
Proof.
  intros N H. assert (In 1 (factors N)) as I by (apply factors_In; [assumption|]; split; [lia|]; apply Z.divide_1_l).
  destruct (factors N); [destruct I|cbn; lia].
Qed.

(* fold of the visitor over any list of points *)
Definition better (N : Z) (best can : list Z) : list Z :=
  if zprod can =? N then if (Nat.eqb (length best) 0) || (tmax can <? tmax best) then can else best else best.

Lemma better_fold : forall N cans best, (forall c, In c cans -> c <> []) ->
  let b := fold_left (better N) cans best in
  (b = best \/ (In b cans /\ zprod b = N)) /\
  (forall c, In c cans -> zprod c = N -> b <> [] /\ tmax b <= tmax c) /\
  (best <> [] -> b <> [] /\ tmax b <= tmax best).
Proof.
  induction cans as [|can cans IH]; intros best NE; cbn [fold_left]; cbv zeta.
  - split; [left; reflexivity|]. split; [cbn; tauto|]. intros; split; [assumption|lia].
  - assert (NC : can <> []) by (apply NE; left; reflexivity).
    destruct (IH (better N best can)) as (H1 & H2 & H3); [intros c Hc; apply NE; right; assumption|].
    set (b := fold_left (better N) cans (better N best can)) in *.
    assert (B : better N best can = best \/ (better N best can = can /\ zprod can = N)).
    { unfold better. destruct (zprod can =? N) eqn:P; [|auto]. destruct (_ || _); auto. right. split; [reflexivity|lia]. }
    split; [|split].
    + destruct H1 as [H1|(I & P)]; [|right; split; [right; assumption|assumption]]. rewrite H1.
      destruct B as [->|(-> & P)]; [left; reflexivity|]. right. split; [left; reflexivity|assumption].
    + intros c [<-|I] P; [|apply H2; assumption].
      assert (better N best can <> [] /\ tmax (better N best can) <= tmax can) as (NB & L).
      { unfold better. replace (zprod can =? N) with true by lia.
        destruct (Nat.eqb (length best) 0) eqn:E0; cbn [orb]; [split; [assumption|lia]|].
        destruct (tmax can <? tmax best) eqn:E1; [split; [assumption|lia]|].
        split; [|lia]. intros ->. discriminate. }
      destruct (H3 NB) as (NBB & L2). split; [assumption|lia].
    + intros NB. assert (better N best can <> [] /\ tmax (better N best can) <= tmax best) as (NB' & L).
      { unfold better. destruct (zprod can =? N) eqn:P; [|split; [assumption|lia]].
        destruct (Nat.eqb (length best) 0) eqn:E0; cbn [orb]; [destruct best; [congruence|discriminate]|].
        destruct (tmax can <? tmax best) eqn:E1; (split; [assumption|lia]). }
      destruct (H3 NB') as (NBB & L2). split; [assumption|lia].
Qed.

Lemma run_factor : forall keep N facts ds l best,
  fst (run_visitor _ (factor_visitor keep N facts ds) l best) =
  fold_left (better N) (map (fun v => complete N (candidate keep true facts ds (fst v))) l) best.
Proof.
  induction l as [|(p & i) l IH]; intros best; cbn [run_visitor]; [reflexivity|].
  cbn [map fold_left fst]. rewrite <- IH. reflexivity.
Qed.

Lemma combo_sizes_length : forall ds keep first nf, length (combo_sizes keep first nf ds) = length ds.
Proof. induction ds; intros; cbn; auto. Qed.

Lemma combo_sizes_pos : forall ds keep first nf, 1 <= nf -> Forall (fun s => 0 < s) (combo_sizes keep first nf ds).
Proof. induction ds; intros; cbn; constructor; auto. destruct (_ || _); lia. Qed.

Lemma candidate_ne : forall ds keep first facts c, ds <> [] -> length c = length ds -> candidate keep first facts ds c <> [].
Proof. intros [|d ds] keep first facts [|c cr]; cbn; intros; congruence. Qed.

Lemma complete_ne : forall N can, can <> [] -> complete N can <> [].
Proof. intros N [|a r]; cbn; congruence. Qed.

(* candidates for the dims after the first *)
Lemma cand_tail_in : forall N keep ds c, 1 <= N -> Forall (fun d => 0 <= d) ds ->
  in_sizes (combo_sizes keep false (Z.of_nat (length (factors N))) ds) c ->
  let f := candidate keep false (factors N) ds c in
  length f = length ds /\ Forall (fun x => 1 <= x) f /\ (keep = true -> keeps ds f).
Proof.
  intros N keep ds c HN. revert c. induction ds as [|d ds IH]; intros c F H; cbn in *.
  - inversion H; subst. repeat split; constructor.
  - inversion H as [|? o ? c' Hb Ht]; subst. inversion F as [|? ? Fd Fr]; subst.
    destruct (IH _ Fr Ht) as (L & P & K). cbn. split; [congruence|].
    assert (X : 1 <= (if keep && (0 <? d) then d else znth o (factors N))).
    { destruct (keep && (0 <? d)) eqn:E; [lia|]. apply (factors_In N); [assumption|].
      unfold znth. apply nth_In. lia. }
    split; [constructor; assumption|].
    intros ->. constructor; [|apply K; reflexivity]. intros Hd. cbn [andb]. replace (0 <? d) with true by lia. reflexivity.
Qed.

Lemma cand_tail_all : forall N keep ds f, 1 <= N -> length f = length ds ->
  Forall (fun x => 1 <= x) f -> (zprod f | N) -> (keep = true -> keeps ds f) ->
  exists c, in_sizes (combo_sizes keep false (Z.of_nat (length (factors N))) ds) c /\
    candidate keep false (factors N) ds c = f.
Proof.
  intros N keep ds f HN. revert f. induction ds as [|d ds IH]; intros [|x f] L P D K; try discriminate; cbn in *.
  - exists []. split; constructor.
  - inversion P as [|? ? Px Pf]; subst.
    destruct (IH f) as (c & Hc & E); [congruence|assumption| | |].
    { etransitivity; [|exact D]. apply Z.divide_factor_r. }
    { intros Hk. specialize (K Hk). inversion K; assumption. }
    assert (I : In x (factors N)).
    { apply factors_In; [assumption|]. split; [assumption|]. etransitivity; [|exact D]. apply Z.divide_factor_l. }
    destruct (In_nth _ _ 0 I) as (n & Hn & En).
    exists ((if keep && (0 <? d) then 0 else Z.of_nat n) :: c). split.
    + constructor; [|assumption]. cbn [orb]. destruct (keep && (0 <? d)); lia.
    + rewrite E. f_equal. destruct (keep && (0 <? d)) eqn:Ek.
      * assert (keep = true) as Hk by (destruct keep; [reflexivity|discriminate]). specialize (K Hk).
        inversion K as [|? ? ? ? K1 _]; subst. symmetry. apply K1. lia.
      * unfold znth. rewrite Nat2Z.id. exact En.
Qed.

Definition good (keep : bool) (N : Z) (ds f : list Z) : Prop :=
  factorisation N (length ds) f /\ (keep = true -> keeps ds f).

Lemma zprod_pos1 : forall l, Forall (fun x => 1 <= x) l -> 1 <= zprod l.
Proof. intros l H. assert (0 < zprod l); [|lia]. apply zprod_pos. eapply Forall_impl; [|exact H]. cbn. intros; lia. Qed.

Lemma try_spec : forall keep N t best, 1 <= N -> vals t <> [] -> Forall (fun d => 0 <= d) (vals t) ->
  (best = [] \/ True) ->
  let b := try_factors keep N t best in
  (b = best \/ good keep N (vals t) b) /\
  (forall f, good keep N (vals t) f -> b <> [] /\ tmax b <= tmax f).
Proof.
  intros keep N t best HN NE F _. cbv zeta. unfold try_factors.
  set (nf := Z.of_nat (length (factors N))).
  assert (Hnf : 1 <= nf) by (apply factors_len; assumption).
  set (ct := mkTuple (combine (names t) (combo_sizes keep true nf (vals t))) true).
  assert (Ev : vals ct = combo_sizes keep true nf (vals t)).
  { unfold ct, vals. cbn [dims]. 
    assert (L : length (names t) = length (combo_sizes keep true nf (map snd (dims t)))).
    { rewrite combo_sizes_length. unfold names. rewrite !map_length. reflexivity. }
    revert L. generalize (names t) as a. generalize (combo_sizes keep true nf (map snd (dims t))) as b. clear.
    induction b as [|x b IH]; intros [|y a] L; cbn in *; try discriminate; [reflexivity|]. f_equal. apply IH. congruence. }
  destruct (tuple_visit_complete ct) as (visits & Hv & _ & _ & Hin & _); [rewrite Ev; apply combo_sizes_pos; assumption|].
  rewrite Hv, run_factor. rewrite Ev in Hin.
  set (cans := map _ visits).
  destruct (vals t) as [|d0 ds] eqn:Et; [congruence|]. cbn [combo_sizes orb] in Hin.
  assert (CI : forall c, In c cans -> exists p, in_sizes (1 :: combo_sizes keep false nf ds) p /\
                complete N (candidate keep true (factors N) (d0 :: ds) p) = c).
  { intros c Hc. unfold cans in Hc. apply in_map_iff in Hc as (v & <- & Hc). exists (fst v). split; [|reflexivity].
    apply Hin. apply in_map. assumption. }
  assert (IC : forall p, in_sizes (1 :: combo_sizes keep false nf ds) p ->
                In (complete N (candidate keep true (factors N) (d0 :: ds) p)) cans).
  { intros p Hp. apply Hin in Hp. apply in_map_iff in Hp as (v & <- & Hp). unfold cans. apply in_map_iff. exists v. auto. }
  inversion F as [|? ? F0 F1]; subst.
  destruct (better_fold N cans best) as (H1 & H2 & _).
  { intros c Hc. apply CI in Hc as (p & Hp & <-). apply complete_ne, candidate_ne; [congruence|].
    inversion Hp as [|? ? ? ? _ Hp2]; subst. cbn. f_equal. apply in_sizes_length in Hp2. rewrite combo_sizes_length in Hp2. congruence. }
  generalize dependent (fold_left (better N) cans best). intros b H1 H2. split.
  - destruct H1 as [->|(I & P)]; [left; reflexivity|right].
    apply CI in I as (p & Hp & E). inversion Hp as [|? o ? p' Ho Hp']; subst p.
    destruct (cand_tail_in N keep ds p' HN F1 Hp') as (L & P1 & K).
    cbn [candidate complete] in E. set (tl := candidate keep false (factors N) ds p') in *.
    pose proof (zprod_pos1 _ P1).
    rewrite <- E in P |- *. 
    destruct (keep && (0 <? d0)) eqn:Ek.
    + replace (d0 =? -1) with false in * by lia. split; [split; [cbn; congruence|]|].
      * split; [constructor; [lia|assumption]|assumption].
      * intros Hk. constructor; [auto|apply K; assumption].
    + cbn [Z.eqb] in *. change (-1 =? -1) with true in *. cbn [zprod] in *.
      split; [split; [cbn; congruence|split; [constructor; [nia|assumption]|assumption]]|].
      intros Hk. constructor; [|apply K; assumption]. intros Hd. rewrite Hk in Ek. cbn in Ek. lia.
  - intros f ((L & P & Z0) & K). destruct f as [|x f]; [discriminate|]. cbn in L, Z0.
    inversion P as [|? ? Px Pf]; subst. pose proof (zprod_pos1 _ Pf) as Pz.
    destruct (cand_tail_all (x * zprod f) keep ds f) as (c & Hc & Ec); [assumption|congruence|assumption|apply Z.divide_factor_r| |].
    { intros Hk. specialize (K Hk). inversion K; assumption. }
    apply H2; [|reflexivity].
    assert (E : complete (x * zprod f) (candidate keep true (factors (x * zprod f)) (d0 :: ds) (0 :: c)) = x :: f).
    { cbn [candidate complete]. rewrite Ec. f_equal.
      destruct (keep && (0 <? d0)) eqn:Ek.
      - replace (d0 =? -1) with false by lia. assert (keep = true) as Hk by (destruct keep; [reflexivity|discriminate]).
        specialize (K Hk). inversion K as [|? ? ? ? K1 _]; subst. symmetry. apply K1. lia.
      - change (-1 =? -1) with true. cbn [zprod]. rewrite Z.mul_1_l, Z.quot_mul by lia. reflexivity. }
    rewrite <- E. apply IC. constructor; [lia|exact Hc].
Qed.

Lemma product_zprod : forall t, product t = zprod (vals t).
Proof.
  intros t. unfold product. destruct (vals t) as [|v r]; [reflexivity|]. cbn [zprod].
  revert v. induction r as [|a r IH]; intros v; cbn; [lia|]. rewrite IH. lia.
Qed.

Lemma vals_ret : forall t vs, length vs = length (vals t) -> vals (mkTuple (combine (names t) vs) true) = vs.
Proof.
  intros t vs L. unfold vals in *. cbn [dims]. rewrite map_length in L.
  assert (L2 : length vs = length (names t)) by (unfold names; rewrite map_length; assumption). clear L.
  revert L2. generalize (names t) as a. induction vs as [|x b IH]; intros [|y a] L; cbn in *; try discriminate; [reflexivity|].
  f_equal. apply IH. congruence.
Qed.

Lemma most_compact_of : forall (P : list Z -> Prop) r, (forall f, P f -> f <> []) -> P r -> (forall f, P f -> tmax r <= tmax f) -> most_compact P r.
Proof.
  intros P r NE Hr H. split; [assumption|]. intros f m Hf Hm. apply tmax_le; [auto|].
  apply tmax_le in Hm; [|auto]. specialize (H f Hf). lia.
Qed.

Theorem compact_factors : forall N t, 1 <= N -> vals t <> [] -> Forall (fun d => 0 <= d) (vals t) ->
  let r := vals (get_compact_factors N t) in
  let P f := factorisation N (length (vals t)) f in
  ((exists f, P f /\ keeps (vals t) f) -> most_compact (fun f => P f /\ keeps (vals t) f) r) /\
  (~ (exists f, P f /\ keeps (vals t) f) -> N <> 1 -> most_compact P r).
Proof.
  intros N t HN NE F. cbv zeta. unfold get_compact_factors.
  replace (N =? 0) with false by lia.
  rewrite product_zprod.
  assert (NEf : forall f k, factorisation N (length (vals t)) f /\ (k = true -> keeps (vals t) f) -> f <> []).
  { intros f k ((L & _) & _) ->. destruct (vals t); [congruence|discriminate]. }
  destruct (vals t) as [|d0 ds] eqn:Et; [congruence|]. rewrite <- Et in *.
  destruct (zprod (vals t) =? N) eqn:E0.
  - (* already done *)
    assert (Pos : Forall (fun x => 1 <= x) (vals t)).
    { assert (zprod (vals t) = N) as E by lia. clear - F E HN. revert N E HN. induction (vals t) as [|a l IH]; intros N E HN; [constructor|].
      inversion F; subst. cbn in HN. assert (a <> 0) by (intros ->; lia).
      constructor; [lia|]. apply (IH H2 (zprod l)); [reflexivity|]. nia. }
    assert (K : keeps (vals t) (vals t)) by (clear; unfold keeps; induction (vals t); constructor; auto).
    assert (G : factorisation N (length (vals t)) (vals t)) by (split; [reflexivity|]; split; [assumption|lia]).
    split.
    + intros _. split; [split; assumption|]. intros f m (_ & Kf) Hm.
      assert (f = vals t) as ->; [|assumption]. clear - Kf Pos. revert f Kf. induction (vals t) as [|a l IH]; intros f K.
      * inversion K. reflexivity.
      * inversion K; subst. inversion Pos; subst. f_equal; [apply H1; lia|]. apply IH; assumption.
    + intros N1. exfalso. apply N1. exists (vals t). split; assumption.
  - assert (NEt : vals t <> []) by (rewrite Et; discriminate).
    destruct (try_spec true N t [] HN NEt F (or_introl eq_refl)) as (H1 & H2).
    set (b1 := try_factors true N t []) in *.
    split.
    + intros (f & Pf & Kf). destruct (H2 f) as (NB & L); [split; [assumption|intros _; assumption]|].
      destruct H1 as [->|G]; [congruence|]. pose proof G as ((L1 & P1 & Z1) & K1).
      replace (zprod b1 =? N) with true by lia. rewrite vals_ret by assumption.
      apply most_compact_of.
      * intros g (Pg & Kg). apply (NEf g true). split; auto.
      * split; [apply G|apply K1; reflexivity].
      * intros g (Pg & Kg). apply H2. split; [assumption|intros _; assumption].
    + intros NF N1. assert (b1 = []) as E1.
      { destruct H1 as [->|(G & K)]; [reflexivity|]. exfalso. apply NF. exists b1. split; [assumption|apply K; reflexivity]. }
      rewrite E1. cbn [zprod]. replace (1 =? N) with false by lia.
      destruct (try_spec false N t [] HN NEt F (or_introl eq_refl)) as (H3 & H4).
      set (b2 := try_factors false N t []) in *.
      (* N * 1 * ... * 1 is a factorisation *)
      assert (G0 : good false N (vals t) (N :: map (fun _ => 1) ds)).
      { split; [|discriminate]. rewrite Et. split; [cbn; rewrite map_length; reflexivity|]. split.
        - constructor; [assumption|]. clear. induction ds; constructor; auto. lia.
        - cbn. replace (zprod (map (fun _ => 1) ds)) with 1; [lia|]. clear. induction ds; cbn; lia. }
      destruct (H4 _ G0) as (NB & _).
      destruct H3 as [->|G]; [congruence|]. pose proof G as ((L1 & P1 & Z1) & K1).
      rewrite vals_ret by assumption. apply most_compact_of.
      * intros g Pg. apply (NEf g false). split; [assumption|discriminate].
      * apply G.
      * intros g Pg. apply H4. split; [assumption|discriminate].
Qed.
