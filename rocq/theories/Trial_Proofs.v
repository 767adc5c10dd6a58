From Verif Require Import Base Trial_Model Trial_Spec.
From Coq Require Import ZifyBool.

Lemma forallb_repeat : forall A (f : A -> bool) x n, (0 < n)%nat -> forallb f (repeat x n) = f x.
Proof.
  intros A f x n H. destruct n; [lia|]. cbn. destruct (f x) eqn:E; [|reflexivity]. cbn.
  apply forallb_forall. intros y Hy. apply repeat_spec in Hy. subst. exact E.
Qed.

Lemma existsb_repeat : forall A (f : A -> bool) x n, (0 < n)%nat -> existsb f (repeat x n) = f x.
Proof.
  intros A f x n H. destruct n; [lia|]. cbn. destruct (f x) eqn:E; [reflexivity|]. cbn.
  clear H. induction n; cbn; [reflexivity|]. rewrite E. exact IHn.
Qed.

Lemma hd_repeat : forall x n, (0 < n)%nat -> hd 0 (repeat x n) = x.
Proof. intros x n H. destruct n; [lia|reflexivity]. Qed.

Lemma same_repeat : forall x n, all_same (repeat x n) = true.
Proof.
  intros x n. destruct n; [reflexivity|]. cbn. apply forallb_forall.
  intros y Hy. apply repeat_spec in Hy. lia.
Qed.

Lemma same_is_repeat : forall l, all_same l = true -> l = repeat (hd 0 l) (length l).
Proof.
  intros [|x r] H; [reflexivity|]. cbn in *. f_equal. rewrite forallb_forall in H.
  induction r as [|y r IH]; [reflexivity|]. cbn.
  assert (y = x) by (specialize (H y (or_introl eq_refl)); lia). subst. f_equal.
  apply IH. intros z Hz. apply H. right. exact Hz.
Qed.

Lemma map_const_repeat : forall A B (c : B) (l : list A), map (fun _ => c) l = repeat c (length l).
Proof. induction l; cbn; [reflexivity|]. f_equal. assumption. Qed.

Lemma average_repeat : forall l,
  average l = repeat (ceil_div (zsum l) (Z.of_nat (length l))) (length l).
Proof. intros. unfold average. apply map_const_repeat. Qed.

Lemma map2_length : forall A B C (f : A -> B -> C) l m,
  length l = length m -> length (map2 f l m) = length l.
Proof.
  induction l; intros [|b m] H; cbn in *; try lia. f_equal. apply IHl. lia.
Qed.

Lemma map2_nth : forall A B C (f : A -> B -> C) l m i a b,
  nth_error l i = Some a -> nth_error m i = Some b -> nth_error (map2 f l m) i = Some (f a b).
Proof.
  induction l; intros m i a0 b Ha Hb; destruct i; destruct m; cbn in *; try discriminate.
  - congruence.
  - eauto.
Qed.

Lemma zsum_nonneg : forall l, (forall x, In x l -> 0 <= x) -> 0 <= zsum l.
Proof.
  induction l; intros H; cbn; [lia|].
  pose proof (H a (or_introl eq_refl)). enough (0 <= zsum l) by lia. apply IHl. intros; apply H; now right.
Qed.

Lemma zsum_upper : forall l m, (forall x, In x l -> x <= m) -> zsum l <= Z.of_nat (length l) * m.
Proof.
  induction l; intros m H; cbn [zsum length]; [lia|].
  pose proof (H a (or_introl eq_refl)).
  enough (zsum l <= Z.of_nat (length l) * m) by nia. apply IHl. intros; apply H; now right.
Qed.

Lemma ceil_div_bounds : forall n d, 0 <= n -> 0 < d -> d * (ceil_div n d - 1) < n <= d * ceil_div n d.
Proof.
  intros n d Hn Hd. unfold ceil_div. rewrite Z.quot_div_nonneg by lia.
  pose proof (Z.div_mod (n + d - 1) d ltac:(lia)). pose proof (Z.mod_pos_bound (n + d - 1) d Hd). lia.
Qed.

Lemma ceil_div_le : forall n d m, 0 <= n -> 0 < d -> n <= d * m -> ceil_div n d <= m.
Proof. intros n d m A B C. pose proof (ceil_div_bounds n d A B). nia. Qed.

Lemma ceil_steps_need : forall w t tt, 0 <= w -> 0 <= tt ->
  need w t tt (ceil_steps (mk_rate w t) tt) /\ 0 <= ceil_steps (mk_rate w t) tt.
Proof.
  intros w t tt Hw Htt. unfold need, ceil_steps, mk_rate. destruct (0 <? t) eqn:E; cbn [r_steps r_ns].
  - pose proof (Z.div_mod (- (w * tt)) t ltac:(lia)) as D.
    pose proof (Z.mod_pos_bound (- (w * tt)) t ltac:(lia)).
    set (q := - (w * tt) / t) in *. repeat split; nia.
  - assert (- (0 * tt) / 1 = 0) as -> by (rewrite Z.mul_0_l; reflexivity). repeat split; lia.
Qed.

(* bounds of the later runs *)
Fixpoint bnd (m : Z) (l : list Z) : Prop :=
  match l with [] => True | x :: r => 2 <= x <= m /\ bnd (m * m) r end.

Section Ranks.
Variable wt : Z -> list Z.
Variable N : nat.
Hypothesis Npos : (0 < N)%nat.
Hypothesis wt_len : forall n, length (wt n) = N.

Lemma calib_ok : forall t nruns n w maxw rates runs,
  (0 < nruns)%nat -> 0 <= n -> 1 <= w ->
  exists new,
    calib wt (repeat t N) nruns n (repeat w N) maxw rates runs =
      Ok (map2 mk_rate (repeat (last new 0) N) (wt (n + Z.of_nat (length new) - 1)), runs ++ new) /\
    hd 0 new = w /\ (0 < length new <= nruns)%nat /\ 1 <= last new 0 /\
    (0 < t -> new = [w]) /\ bnd maxw (tl new).
Proof using Npos wt_len.
  induction nruns as [|k IH]; intros n w maxw rates runs Hk Hn Hw; [lia|].
  cbn [calib]. rewrite same_repeat. cbn [negb]. rewrite hd_repeat by exact Npos.
  rewrite forallb_repeat, existsb_repeat by exact Npos.
  assert (One : exists new,
    Ok (map2 mk_rate (repeat w N) (wt n), runs ++ [w]) =
      Ok (map2 mk_rate (repeat (last new 0) N) (wt (n + Z.of_nat (length new) - 1)), runs ++ new) /\
    hd 0 new = w /\ (0 < length new <= S k)%nat /\ 1 <= last new 0 /\
    (0 < t -> new = [w]) /\ bnd maxw (tl new)).
  { exists [w]. cbn [length last hd tl bnd]. repeat split; try lia.
    replace (n + Z.of_nat 1 - 1) with n by lia. reflexivity. }
  destruct (0 <? t) eqn:Et; [exact One|].
  rewrite average_repeat.
  set (l := map (fun r => Z.min (ceil_steps r (500000000 * (n + 1))) maxw)
                (map2 mk_rate (repeat w N) (wt n))).
  assert (Ll : length l = N).
  { unfold l. rewrite map_length, map2_length; rewrite repeat_length; auto. }
  rewrite Ll. set (c := ceil_div (zsum l) (Z.of_nat N)).
  rewrite forallb_repeat, existsb_repeat by exact Npos.
  destruct (c <=? 1) eqn:Ec; [exact One|].
  destruct k as [|k'].
  { cbn [calib]. exact One. }
  destruct (IH (n + 1) c (maxw * maxw) (map2 mk_rate (repeat w N) (wt n)) (runs ++ [w]))
    as (new & E & H1 & H2 & H3 & H4 & H5); try lia.
  exists (w :: new). rewrite E. destruct new as [|x new]; [cbn in H2; lia|].
  change (last (w :: x :: new) 0) with (last (x :: new) 0).
  cbn [hd] in H1. subst x. repeat split.
  - f_equal. f_equal; [|rewrite <- app_assoc; reflexivity].
    f_equal. f_equal. cbn [length]. lia.
  - cbn [length]. lia.
  - cbn [length] in *. lia.
  - exact H3.
  - lia.
  - lia.
  - cbn [tl] in *. cbn [bnd].
    (* c <= maxw *)
    assert (Hl : forall x, In x l -> x <= maxw).
    { intros x Hx. unfold l in Hx. apply in_map_iff in Hx. destruct Hx as (r & <- & _). lia. }
    pose proof (zsum_upper l maxw Hl) as HU. rewrite Ll in HU.
    destruct (Z_le_gt_dec 0 (zsum l)) as [Hp|Hp].
    + unfold c. apply ceil_div_le; lia.
    + exfalso. assert (c <= 0); [|lia]. unfold c, ceil_div.
      destruct (Z_le_gt_dec 0 (zsum l + Z.of_nat N - 1)).
      * rewrite Z.quot_small by lia. lia.
      * assert (0 <= (- (zsum l + Z.of_nat N - 1)) ÷ Z.of_nat N) by (apply Z.quot_pos; lia).
        rewrite Z.quot_opp_l in H by lia. lia.
  - cbn [tl] in *. exact H5.
Qed.

Lemma set_steps_len : forall os rates, length os = length rates ->
  length (set_steps os rates) = length os.
Proof using.
  intros os rates H. unfold set_steps. apply map2_length. rewrite average_repeat, repeat_length.
  rewrite map2_length; auto.
Qed.

Lemma set_steps_same : forall os rates t b, length os = N -> length rates = N ->
  (forall o, In o os -> trial_steps o = t /\ block_t o = b) ->
  let a := map2 (fun o r => ceil_steps r (trial_time o)) os rates in
  set_steps os rates =
    repeat (if t <=? 0 then to_int (fit_block b (ceil_div (zsum a) (Z.of_nat N))) else t) N.
Proof using Npos.
  intros os rates t b Ho Hr H a. unfold set_steps. fold a. rewrite average_repeat.
  assert (La : length a = N) by (unfold a; rewrite map2_length; lia).
  rewrite La. set (c := ceil_div (zsum a) (Z.of_nat N)). clearbody c. clear a La Hr rates.
  revert os Ho H. generalize N. clear. intros N. induction N as [|n IH]; intros [|o os] Ho H; cbn in *; try lia; auto.
  destruct (H o (or_introl eq_refl)) as (-> & ->). f_equal. apply IH; [lia|]. intros; apply H; now right.
Qed.

End Ranks.

Lemma checked_eqs : forall os, os <> [] -> checked os = true ->
  exists nt ts b, forall o, In o os -> num_trials o = nt /\ trial_steps o = ts /\ block_t o = b.
Proof.
  intros [|o os] Hne H; [congruence|]. unfold checked in H.
  apply andb_true_iff in H. destruct H as (H & H3). apply andb_true_iff in H. destruct H as (H1 & H2).
  exists (num_trials o), (trial_steps o), (block_t o). intros x [<-|Hx]; [auto|].
  cbn in H1, H2, H3. rewrite forallb_forall in H1, H2, H3.
  pose proof (H1 _ (in_map num_trials _ _ Hx)). pose proof (H2 _ (in_map trial_steps _ _ Hx)).
  pose proof (H3 _ (in_map block_t _ _ Hx)). lia.
Qed.

Lemma all_sameb_ok : forall A (f : A -> bool) l,
  (forall a b, In a l -> In b l -> f a = f b) -> all_sameb (map f l) = true.
Proof.
  intros A f [|a l] H; [reflexivity|]. cbn. apply forallb_forall. intros b Hb.
  apply in_map_iff in Hb. destruct Hb as (x & <- & Hx).
  rewrite (H a x (or_introl eq_refl) (or_intror Hx)). apply eqb_reflx.
Qed.

Lemma warm_same : forall os, same_choices os ->
  (forall a b, In a os -> In b os -> trial_steps a = trial_steps b) ->
  forall a b, In a os -> In b os -> warm a = warm b.
Proof.
  intros os S T a b Ha Hb. destruct (S a b Ha Hb) as (E1 & E2). specialize (T a b Ha Hb).
  unfold warm. rewrite E1, T. destruct (do_warmup b); cbn [orb]; [reflexivity|].
  destruct (trial_steps b <=? 0); cbn [andb]; [|reflexivity]. lia.
Qed.

Lemma map_field : forall (f : opts -> Z) os c, (forall o, In o os -> f o = c) ->
  map f os = repeat c (length os).
Proof.
  induction os; intros c H; cbn; [reflexivity|]. f_equal; [apply H; now left|].
  apply IHos. intros; apply H; now right.
Qed.

Lemma forallb_warm : forall os, os <> [] -> all_sameb (map warm os) = true ->
  exists w, (forall o, In o os -> warm o = w) /\ forallb warm os = w.
Proof.
  intros [|o os] Hne H; [congruence|]. cbn in H. rewrite forallb_forall in H.
  assert (A : forall x, In x (o :: os) -> warm x = warm o).
  { intros x [<-|Hx]; [reflexivity|]. specialize (H _ (in_map warm _ _ Hx)).
    apply eqb_prop in H. congruence. }
  exists (warm o). split; [exact A|]. destruct (warm o) eqn:E.
  - apply forallb_forall. intros x Hx. rewrite (A x Hx). reflexivity.
  - cbn. rewrite E. reflexivity.
Qed.

(* The runs that are made and the steps that are chosen. *)
Lemma plan_cases : forall wt os, os <> [] -> (forall n, length (wt n) = length os) ->
  all_sameb (map warm os) = true -> checked os = true ->
  exists nt ts b,
    (forall o, In o os -> num_trials o = nt /\ trial_steps o = ts /\ block_t o = b) /\
    exists new s,
      plan wt os = (if nt <? 1 then Throw else if s <=? 0 then Throw else Ok (new, nt, s)) /\
      (0 < ts -> s = ts) /\
      ((new = [] /\ s = ts /\ (forall o, In o os -> warm o = false)) \/
       (hd 0 new = 1 /\ (0 < length new <= 3)%nat /\ bnd 10 (tl new) /\ 1 <= last new 0 /\
        (0 < ts -> new = [1]) /\ (forall o, In o os -> warm o = true) /\
        let rates := map2 mk_rate (repeat (last new 0) (length os))
                          (wt (Z.of_nat (length new) - 1)) in
        let a := map2 (fun o r => ceil_steps r (trial_time o)) os rates in
        (ts <= 0 -> s = to_int (fit_block b (ceil_div (zsum a) (Z.of_nat (length os))))))).
Proof.
  intros wt os Hne Hwt Hw Hc. destruct (checked_eqs os Hne Hc) as (nt & ts & b & H).
  exists nt, ts, b. split; [exact H|].
  assert (HN : (0 < length os)%nat) by (destruct os; [congruence|cbn; lia]).
  assert (Ent : existsb (fun o => num_trials o <? 1) os = (nt <? 1)).
  { destruct (nt <? 1) eqn:E.
    - destruct os as [|o os]; [congruence|]. cbn [existsb]. destruct (H o (or_introl eq_refl)) as (-> & _). rewrite E. reflexivity.
    - destruct (existsb _ os) eqn:X; [|reflexivity]. apply existsb_exists in X.
      destruct X as (o & Ho & X). destruct (H o Ho) as (Y & _). rewrite Y in X. congruence. }
  assert (Ets : map trial_steps os = repeat ts (length os)) by (apply map_field; intros o Ho; apply H; exact Ho).
  assert (Hnt : hd 0 (map num_trials os) = nt).
  { rewrite (map_field num_trials os nt); [apply hd_repeat; exact HN|]. intros o Ho; apply H; exact Ho. }
  destruct (forallb_warm os Hne Hw) as (w & Aw & Ew).
  unfold plan. rewrite Hc, Hw, Ew. cbn [negb].
  destruct w.
  - rewrite Ets, map_const_repeat.
    destruct (calib_ok wt (length os) HN Hwt ts 3 0 1 10 (map (fun _ => mkRate 1 1000000000) os) [])
      as (new & E & H1 & H2 & H3 & H4 & H5); try lia.
    rewrite E. cbn [rbind]. rewrite app_nil_l.
    replace (0 + Z.of_nat (length new) - 1) with (Z.of_nat (length new) - 1) by lia.
    set (rates := map2 mk_rate _ _).
    assert (Lr : length rates = length os).
    { unfold rates. rewrite map2_length; rewrite repeat_length; [reflexivity|]. symmetry. apply Hwt. }
    rewrite (set_steps_same (length os) HN os rates ts b eq_refl Lr); [|intros o Ho; split; apply (H o Ho)].
    exists new.
    eexists. rewrite Ent, same_repeat. cbn [negb]. rewrite existsb_repeat, hd_repeat by exact HN.
    rewrite Hnt.
    split; [reflexivity|]. split.
    { intros P. destruct (ts <=? 0) eqn:X; [lia|reflexivity]. }
    right. split; [exact H1|]. split; [exact H2|]. split; [exact H5|]. split; [exact H3|].
    split; [exact H4|]. split; [exact Aw|].
    cbn zeta. intros L. destruct (ts <=? 0) eqn:X; [|lia]. reflexivity.
  - cbn [rbind]. exists [], ts. rewrite Ent, Ets, same_repeat. cbn [negb].
    rewrite existsb_repeat, hd_repeat by exact HN. rewrite Hnt.
    split; [reflexivity|]. split; [reflexivity|]. left. auto.
Qed.

Theorem ranks_agree : forall wt os, os <> [] -> (forall n, length (wt n) = length os) ->
  same_choices os -> plan wt os <> UB.
Proof.
  intros wt os Hne Hwt S. destruct (checked os) eqn:Hc.
  - assert (Hw : all_sameb (map warm os) = true).
    { apply all_sameb_ok. apply warm_same; [exact S|]. intros a b Ha Hb.
      destruct (checked_eqs os Hne Hc) as (nt & ts & bb & H).
      destruct (H a Ha) as (_ & -> & _). destruct (H b Hb) as (_ & -> & _). reflexivity. }
    destruct (plan_cases wt os Hne Hwt Hw Hc) as (nt & ts & b & _ & new & s & -> & _).
    destruct (nt <? 1), (s <=? 0); discriminate.
  - unfold plan. rewrite Hc. discriminate.
Qed.

Lemma plan_inv : forall wt os runs nt s, plan wt os = Ok (runs, nt, s) ->
  checked os = true /\ all_sameb (map warm os) = true.
Proof.
  intros wt os runs nt s H. unfold plan in H. destruct (checked os); [|discriminate]. cbn [negb] in H.
  destruct (all_sameb (map warm os)); [auto|discriminate].
Qed.

Theorem runs_made : forall wt os runs nt s, os <> [] -> (forall n, length (wt n) = length os) ->
  plan wt os = Ok (runs, nt, s) ->
  1 <= nt /\ 1 <= s /\
  (forall o, In o os -> num_trials o = nt /\ (0 < trial_steps o -> s = trial_steps o)) /\
  (runs = [] \/ runs = [1] \/
   (exists a, runs = [1; a] /\ 2 <= a <= 10) \/
   (exists a b, runs = [1; a; b] /\ 2 <= a <= 10 /\ 2 <= b <= 100)) /\
  (runs = [] <-> forall o, In o os -> do_warmup o = false /\ (0 < trial_steps o \/ trial_time o <= 0)) /\
  (forall o, In o os -> 0 < trial_steps o -> (length runs <= 1)%nat).
Proof.
  intros wt os runs nt s Hne Hwt H. destruct (plan_inv _ _ _ _ _ H) as (Hc & Hw).
  destruct (plan_cases wt os Hne Hwt Hw Hc) as (nt' & ts & b & HA & new & s' & E & Hts & C).
  rewrite E in H. destruct (nt' <? 1) eqn:E1; [discriminate|]. destruct (s' <=? 0) eqn:E2; [discriminate|].
  injection H as -> -> ->. split; [lia|]. split; [lia|]. split; [|split; [|split]].
  - intros o Ho. destruct (HA o Ho) as (-> & -> & _). split; [reflexivity|]. exact Hts.
  - destruct C as [(-> & _)|(H1 & H2 & H3 & _)]; [now left|]. right.
    destruct runs as [|x [|y [|z [|q r]]]]; cbn [length] in H2; try lia; cbn [hd] in H1; subst x.
    + now left.
    + cbn [tl bnd] in H3. right. left. exists y. split; [reflexivity|]. lia.
    + cbn [tl bnd] in H3. right. right. exists y, z. split; [reflexivity|]. lia.
  - destruct C as [(-> & _ & C)|(_ & H2 & _ & _ & _ & C & _)].
    + split; [intros _|reflexivity]. intros o Ho. specialize (C o Ho). unfold warm in C.
      apply orb_false_iff in C. destruct C as (-> & C). split; [reflexivity|]. lia.
    + split; [intros ->; cbn in H2; lia|]. intros X. exfalso. destruct os as [|o os]; [congruence|].
      specialize (C o (or_introl eq_refl)). destruct (X o (or_introl eq_refl)) as (X1 & X2).
      unfold warm in C. rewrite X1 in C. cbn [orb] in C. lia.
  - intros o Ho P. destruct (HA o Ho) as (_ & X & _). rewrite X in P.
    destruct C as [(-> & _)|(_ & _ & _ & _ & C & _)]; [cbn; lia|]. rewrite (C P). cbn. lia.
Qed.

Lemma fit_ok : forall b m, 0 <= m -> fitted b m (fit_block b m) /\ 0 <= fit_block b m /\ 5 * fit_block b m <= 6 * m.
Proof.
  intros b m Hm. unfold fit_block, fitted. destruct (1 <? b) eqn:Eb.
  2:{ repeat split; try lia. }
  unfold round_up. set (c := ceil_div m b).
  pose proof (ceil_div_bounds m b Hm ltac:(lia)) as B. fold c in B.
  rewrite Z.quot_div_nonneg by lia.
  pose proof (Z.div_mod (12 * m) 10 ltac:(lia)). pose proof (Z.mod_pos_bound (12 * m) 10 ltac:(lia)).
  destruct (c * b <=? 12 * m / 10) eqn:E.
  - split; [|split; nia]. split.
    + right. split; [lia|]. split; [exists c; lia|]. nia.
    + intros _ k _ _. exists c. lia.
  - split; [|lia]. split; [now left|]. intros _ k K1 K2. exfalso.
    assert (c <= k) by nia. nia.
Qed.

Theorem steps_chosen : forall wt os runs nt s, os <> [] -> (forall n, length (wt n) = length os) ->
  plan wt os = Ok (runs, nt, s) ->
  (forall o, In o os -> trial_steps o <= 0 /\ 0 < trial_time o) ->
  exists ds m,
    length ds = length os /\
    (forall i o t, nth_error os i = Some o ->
       nth_error (wt (Z.of_nat (length runs) - 1)) i = Some t ->
       exists d, nth_error ds i = Some d /\ need (last runs 0) t (trial_time o) d) /\
    mean_up ds m /\
    (6 * m < 5 * 2147483648 -> forall o, In o os -> fitted (block_t o) m s).
Proof.
  intros wt os runs nt s Hne Hwt H HO. destruct (plan_inv _ _ _ _ _ H) as (Hc & Hw).
  destruct (plan_cases wt os Hne Hwt Hw Hc) as (nt' & ts & b & HA & new & s' & E & Hts & C).
  rewrite E in H. destruct (nt' <? 1) eqn:E1; [discriminate|]. destruct (s' <=? 0) eqn:E2; [discriminate|].
  injection H as -> -> ->.
  assert (HN : (0 < length os)%nat) by (destruct os; [congruence|cbn; lia]).
  destruct C as [(_ & _ & C)|(_ & _ & _ & HL & _ & _ & C)].
  { exfalso. destruct os as [|o os]; [congruence|]. specialize (C o (or_introl eq_refl)).
    destruct (HO o (or_introl eq_refl)). unfold warm in C. apply orb_false_iff in C. lia. }
  cbn zeta in C.
  assert (Hr : ts <= 0).
  { destruct os as [|o os]; [congruence|]. destruct (HA o (or_introl eq_refl)) as (_ & X & _).
    destruct (HO o (or_introl eq_refl)). lia. }
  specialize (C Hr). set (rates := map2 mk_rate _ _) in C.
  set (a := map2 _ os rates) in C.
  assert (Lr : length rates = length os).
  { unfold rates. rewrite map2_length; rewrite repeat_length; [reflexivity|]. symmetry. apply Hwt. }
  assert (La : length a = length os) by (unfold a; rewrite map2_length; lia).
  assert (NE : forall i o t, nth_error os i = Some o ->
       nth_error (wt (Z.of_nat (length runs) - 1)) i = Some t ->
       nth_error a i = Some (ceil_steps (mk_rate (last runs 0) t) (trial_time o))).
  { intros i o t Ho Ht. unfold a. apply map2_nth with (f := fun o r => ceil_steps r (trial_time o)); [exact Ho|].
    unfold rates. apply map2_nth; [|exact Ht]. apply nth_error_repeat.
    apply nth_error_Some. congruence. }
  exists a, (ceil_div (zsum a) (Z.of_nat (length os))). split; [exact La|]. split; [|split].
  - intros i o t Ho Ht. eexists. split; [apply NE; eassumption|]. apply ceil_steps_need; [lia|].
    apply nth_error_In in Ho. destruct (HO o Ho). lia.
  - unfold mean_up. rewrite La. apply ceil_div_bounds; [|lia]. apply zsum_nonneg. intros x Hx.
    apply In_nth_error in Hx. destruct Hx as (i & Hi).
    assert (Li : (i < length os)%nat) by (rewrite <- La; apply nth_error_Some; congruence).
    destruct (nth_error os i) as [o|] eqn:Ho; [|apply nth_error_None in Ho; lia].
    destruct (nth_error (wt (Z.of_nat (length runs) - 1)) i) as [t|] eqn:Ht;
      [|apply nth_error_None in Ht; rewrite Hwt in Ht; lia].
    rewrite (NE i o t Ho Ht) in Hi. injection Hi as <-. apply nth_error_In in Ho. destruct (HO o Ho).
    apply ceil_steps_need; lia.
  - intros R o Ho. destruct (HA o Ho) as (_ & _ & ->).
    set (m := ceil_div _ _) in *.
    destruct (Z_le_gt_dec 0 m) as [M|M].
    + destruct (fit_ok b m M) as (F1 & F2 & F3). rewrite C. unfold to_int.
      rewrite Z.mod_small by lia. replace (fit_block b m + 2147483648 - 2147483648) with (fit_block b m) by lia. exact F1.
    + exfalso. enough (0 <= m) by lia.
      assert (0 <= zsum a).
      { apply zsum_nonneg. intros x Hx.
        apply In_nth_error in Hx. destruct Hx as (i & Hi).
        assert (Li : (i < length os)%nat) by (rewrite <- La; apply nth_error_Some; congruence).
        destruct (nth_error os i) as [o'|] eqn:Ho'; [|apply nth_error_None in Ho'; lia].
        destruct (nth_error (wt (Z.of_nat (length runs) - 1)) i) as [t|] eqn:Ht;
          [|apply nth_error_None in Ht; rewrite Hwt in Ht; lia].
        rewrite (NE i o' t Ho' Ht) in Hi. injection Hi as <-. apply nth_error_In in Ho'. destruct (HO o' Ho').
        apply ceil_steps_need; lia. }
      pose proof (ceil_div_bounds (zsum a) (Z.of_nat (length os)) H ltac:(lia)). unfold m. nia.
Qed.

(* --- the report --- *)

Lemma insert_perm : forall t l, Permutation (insert t l) (t :: l).
Proof.
  induction l as [|u r IH]; cbn; [reflexivity|]. destruct (run_time t <? run_time u); [reflexivity|].
  rewrite IH. apply perm_swap.
Qed.

Fixpoint sorted (l : list trial) : Prop :=
  match l with [] => True | t :: r => (forall u, In u r -> run_time t <= run_time u) /\ sorted r end.

Lemma insert_sorted : forall t l, sorted l -> sorted (insert t l).
Proof.
  induction l as [|u r IH]; cbn [insert]; intros H; [cbn; split; [intros ? []|exact I]|].
  cbn in H. destruct H as (H1 & H2). destruct (run_time t <? run_time u) eqn:E.
  - cbn. split; [|auto]. intros v [<-|Hv]; [lia|]. specialize (H1 v Hv). lia.
  - cbn. split; [|auto]. intros v Hv. apply (Permutation_in _ (insert_perm t r)) in Hv.
    destruct Hv as [<-|Hv]; [lia|auto].
Qed.

Lemma sort_gen : forall l acc, sorted acc ->
  sorted (fold_left (fun a t => insert t a) l acc) /\
  Permutation (fold_left (fun a t => insert t a) l acc) (l ++ acc).
Proof.
  induction l as [|t l IH]; intros acc H; cbn; [auto|].
  destruct (IH (insert t acc) (insert_sorted t acc H)) as (A & B). split; [exact A|].
  rewrite B. rewrite insert_perm. symmetry. apply Permutation_middle.
Qed.

Lemma sort_ok : forall l, sorted (sort_trials l) /\ Permutation (sort_trials l) l.
Proof.
  intros l. destruct (sort_gen l [] I) as (A & B). rewrite app_nil_r in B. auto.
Qed.

Lemma zsum_perm : forall l m, Permutation l m -> zsum l = zsum m.
Proof. induction 1; cbn; lia. Qed.

Lemma count_perm : forall f l m, Permutation l m -> count f l = count f m.
Proof. intros f l m P. unfold count. apply zsum_perm. apply Permutation_map. exact P. Qed.

Lemma count_nonneg : forall f l, 0 <= count f l.
Proof.
  intros. unfold count. apply zsum_nonneg. intros x Hx. apply in_map_iff in Hx.
  destruct Hx as (t & <- & _). destruct (f (run_time t)); lia.
Qed.

Lemma count_none : forall f l, (forall t, In t l -> f (run_time t) = false) -> count f l = 0.
Proof.
  unfold count. induction l; intros H; cbn; [reflexivity|].
  rewrite (H a (or_introl eq_refl)). rewrite IHl; [lia|]. intros; apply H; now right.
Qed.

Lemma sorted_rank : forall l i d, sorted l -> (i < length l)%nat ->
  has_rank (Z.of_nat i + 1) (run_time (nth i l d)) l.
Proof.
  induction l as [|t l IH]; intros i d H Hi; cbn [length] in Hi; [lia|].
  cbn in H. destruct H as (H1 & H2). destruct i as [|i].
  - cbn [nth]. unfold has_rank. rewrite count_none.
    + split; [lia|]. unfold count. cbn [map zsum].
      assert (run_time t <=? run_time t = true) as -> by lia.
      pose proof (count_nonneg (fun u => u <=? run_time t) l). unfold count in H. lia.
    + intros u [<-|Hu]; [lia|]. specialize (H1 u Hu). lia.
  - cbn [nth]. destruct (IH i d H2 ltac:(lia)) as (A & B). unfold has_rank, count in *. cbn [map zsum].
    assert (run_time t <= run_time (nth i l d)) by (apply H1; apply nth_In; lia).
    assert (run_time t <=? run_time (nth i l d) = true) as -> by lia.
    destruct (run_time t <? run_time (nth i l d)); lia.
Qed.

Lemma report_inv : forall l r, make_report l = Some r ->
  exists best rest, sort_trials l = best :: rest /\ sorted (best :: rest) /\ Permutation (best :: rest) l /\
    rp_best r = best /\ rp_rank r = Z.of_nat (length l) / 2 + 1 /\
    rp_mid r = nth (Z.to_nat (Z.of_nat (length l) / 2)) (best :: rest) best /\
    let p := map pts_ps (best :: rest) in
    rp_min r = fold_left upd_min p 0 /\ rp_max r = fold_left upd_max p 0 /\
    rp_ave r = (zsum p, Z.of_nat (length l)) /\
    rp_var r = if 2 <? Z.of_nat (length l)
               then (Z.of_nat (length l) * zsum (map (fun x => x * x) p) - zsum p * zsum p,
                     Z.of_nat (length l) * (Z.of_nat (length l) - 1)) else (0, 1).
Proof.
  intros l r H. unfold make_report in H. destruct (sort_ok l) as (S1 & S2).
  pose proof (Permutation_length S2) as PL.
  destruct (sort_trials l) as [|best rest] eqn:E; [discriminate|].
  cbn zeta in H. rewrite PL in H. injection H as <-. exists best, rest. cbn zeta. repeat split; try assumption; apply S1.
Qed.

Theorem best_ok : forall l r, make_report l = Some r ->
  In (rp_best r) l /\ forall t, In t l -> run_time (rp_best r) <= run_time t.
Proof.
  intros l r H. destruct (report_inv l r H) as (b & rest & _ & S & P & -> & _).
  split; [apply (Permutation_in _ P); now left|]. intros t Ht.
  apply (Permutation_in _ (Permutation_sym P)) in Ht. destruct Ht as [<-|Ht]; [lia|]. apply S. exact Ht.
Qed.

Lemma mid_ok : forall l r, make_report l = Some r ->
  In (rp_mid r) l /\ has_rank (rp_rank r) (run_time (rp_mid r)) l /\
  rp_rank r = Z.of_nat (length l) / 2 + 1.
Proof.
  intros l r H. destruct (report_inv l r H) as (b & rest & _ & S & P & _ & R & M & _).
  pose proof (Permutation_length P) as PL. rewrite R, M.
  assert (L : (Z.to_nat (Z.of_nat (length l) / 2) < length (b :: rest))%nat).
  { rewrite PL. cbn [length] in PL.
    pose proof (Z.div_mod (Z.of_nat (length l)) 2 ltac:(lia)).
    pose proof (Z.mod_pos_bound (Z.of_nat (length l)) 2 ltac:(lia)). lia. }
  split; [apply (Permutation_in _ P); apply nth_In; exact L|]. split; [|reflexivity].
  pose proof (sorted_rank (b :: rest) _ b S L) as K. unfold has_rank in *.
  rewrite !(count_perm _ _ _ P) in K.
  rewrite Z2Nat.id in K by (apply Z.div_pos; lia). exact K.
Qed.

Lemma count_mono : forall (f g : Z -> bool) l, (forall x, f x = true -> g x = true) -> count f l <= count g l.
Proof.
  intros f g l H. unfold count. induction l as [|t l IH]; cbn; [lia|].
  specialize (H (run_time t)). destruct (f (run_time t)), (g (run_time t)); try lia.
Qed.

Theorem median_ok : forall l r k, make_report l = Some r -> Z.of_nat (length l) = 2 * k + 1 ->
  has_rank (k + 1) (run_time (rp_mid r)) l /\ nearest_rank_50 (run_time (rp_mid r)) l.
Proof.
  intros l r k H L. destruct (mid_ok l r H) as (A & B & C). rewrite C in B.
  replace (Z.of_nat (length l) / 2) with k in B.
  2:{ rewrite L. pose proof (Z.div_mod (2 * k + 1) 2 ltac:(lia)).
      pose proof (Z.mod_pos_bound (2 * k + 1) 2 ltac:(lia)). lia. }
  split; [exact B|]. destruct B as (B1 & B2). split; [|split].
  - exists (rp_mid r). auto.
  - lia.
  - intros t Ht X. destruct (Z_le_gt_dec (run_time (rp_mid r)) (run_time t)) as [Y|Y]; [exact Y|].
    exfalso. pose proof (count_mono (fun u => u <=? run_time t) (fun u => u <? run_time (rp_mid r)) l ltac:(intros; lia)). lia.
Qed.

Lemma upd_max_gen : forall p m, (forall x, In x p -> 0 <= x) -> 0 <= m ->
  let r := fold_left upd_max p m in
  m <= r /\ (forall x, In x p -> x <= r) /\ (r = m \/ In r p).
Proof.
  induction p as [|x p IH]; intros m H Hm; cbn [fold_left].
  - cbn zeta. split; [lia|]. split; [intros ? []|now left].
  - assert (Hx : 0 <= x) by (apply H; now left).
    assert (U : m <= upd_max m x /\ x <= upd_max m x /\ (upd_max m x = m \/ upd_max m x = x)).
    { unfold upd_max. destruct ((m =? 0) || (m <? x)) eqn:E; lia. }
    destruct (IH (upd_max m x)) as (A & B & C); [intros; apply H; now right|lia|].
    cbn zeta in *. split; [lia|]. split.
    + intros y [<-|Hy]; [lia|auto].
    + destruct C as [C|C]; [|right; now right]. destruct U as (_ & _ & [U|U]); rewrite C, U; [now left|right; now left].
Qed.

Lemma upd_min_gen : forall p m, (forall x, In x p -> 0 < x) -> 0 < m ->
  let r := fold_left upd_min p m in
  r <= m /\ (forall x, In x p -> r <= x) /\ (r = m \/ In r p).
Proof.
  induction p as [|x p IH]; intros m H Hm; cbn [fold_left].
  - cbn zeta. split; [lia|]. split; [intros ? []|now left].
  - assert (Hx : 0 < x) by (apply H; now left).
    assert (U : upd_min m x <= m /\ upd_min m x <= x /\ (upd_min m x = m \/ upd_min m x = x) /\ 0 < upd_min m x).
    { unfold upd_min. destruct ((m =? 0) || (x <? m)) eqn:E; lia. }
    destruct (IH (upd_min m x)) as (A & B & C); [intros; apply H; now right|lia|].
    cbn zeta in *. split; [lia|]. split.
    + intros y [<-|Hy]; [lia|auto].
    + destruct C as [C|C]; [|right; now right]. destruct U as (_ & _ & [U|U] & _); rewrite C, U; [now left|right; now left].
Qed.

Lemma dev_sum : forall n s p, zsum (map (fun x => (n * x - s) * (n * x - s)) p) =
  n * n * zsum (map (fun x => x * x) p) - 2 * n * s * zsum p + Z.of_nat (length p) * (s * s).
Proof.
  induction p as [|x p IH]; cbn [map zsum length]; [lia|]. rewrite IH. rewrite Nat2Z.inj_succ. ring.
Qed.

Theorem numbers_ok : forall l r, make_report l = Some r ->
  (forall t, In t l -> 0 < pts_ps t) ->
  is_min (rp_min r) (map pts_ps l) /\ is_max (rp_max r) (map pts_ps l) /\
  rp_ave r = (zsum (map pts_ps l), Z.of_nat (length l)) /\
  ((3 <= length l)%nat -> is_variance (fst (rp_var r)) (snd (rp_var r)) (map pts_ps l)).
Proof.
  intros l r H HP. destruct (report_inv l r H) as (b & rest & _ & S & P & _ & _ & _ & K). cbn zeta in K.
  destruct K as (K1 & K2 & K3 & K4).
  set (p := map pts_ps (b :: rest)) in *.
  assert (PP : Permutation p (map pts_ps l)) by (apply Permutation_map; exact P).
  assert (Pos : forall x, In x p -> 0 < x).
  { intros x Hx. apply (Permutation_in _ PP) in Hx. apply in_map_iff in Hx. destruct Hx as (t & <- & Ht). auto. }
  assert (EP : p = pts_ps b :: map pts_ps rest) by reflexivity.
  split; [|split; [|split]].
  - rewrite K1, EP. cbn [fold_left]. unfold upd_min at 2. cbn [Z.eqb orb].
    destruct (upd_min_gen (map pts_ps rest) (pts_ps b)) as (A & B & C).
    { intros x Hx. apply Pos. rewrite EP. now right. }
    { apply Pos. rewrite EP. now left. }
    cbn zeta in *. split.
    + apply (Permutation_in _ PP). rewrite EP. destruct C as [C|C]; [left; auto|right; exact C].
    + intros y Hy. apply (Permutation_in _ (Permutation_sym PP)) in Hy. rewrite EP in Hy.
      destruct Hy as [<-|Hy]; auto.
  - rewrite K2, EP. cbn [fold_left]. unfold upd_max at 2. cbn [Z.eqb orb].
    destruct (upd_max_gen (map pts_ps rest) (pts_ps b)) as (A & B & C).
    { intros x Hx. enough (0 < x) by lia. apply Pos. rewrite EP. now right. }
    { enough (0 < pts_ps b) by lia. apply Pos. rewrite EP. now left. }
    cbn zeta in *. split.
    + apply (Permutation_in _ PP). rewrite EP. destruct C as [C|C]; [left; auto|right; exact C].
    + intros y Hy. apply (Permutation_in _ (Permutation_sym PP)) in Hy. rewrite EP in Hy.
      destruct Hy as [<-|Hy]; auto.
  - rewrite K3, (zsum_perm _ _ PP). reflexivity.
  - intros L. rewrite K4. assert (2 <? Z.of_nat (length l) = true) as -> by lia. cbn [fst snd].
    unfold is_variance. rewrite map_length. set (n := Z.of_nat (length l)).
    split; [unfold n; nia|]. rewrite dev_sum. rewrite map_length. fold n.
    rewrite (zsum_perm _ _ PP), (zsum_perm _ _ (Permutation_map (fun x => x * x) PP)). ring.
Qed.
