From Coq Require Import ZifyBool.
From Verif Require Import Base Idiv_Model Idiv_Proofs Scan_Proofs Adjust_Model Adjust_Spec.

Lemma RU_least : forall a f m, 1 <= f -> 1 <= a -> (f | m) -> a <= m -> ROUND_UP a f <= m.
Proof.
  intros a f m Hf Ha (q & ->) H. pose proof (ROUND_UP_bounds a f ltac:(lia) ltac:(lia)) as (B & _). destruct (ROUND_UP_div a f) as (k & E). rewrite E in *.
  apply Z.mul_le_mono_nonneg_r; [lia|]. nia.
Qed.
Lemma fit_fits : forall o m a, 1 <= o -> 1 <= m -> fits o m a (fit o m a).
Proof.
  intros o m a Ho Hm. unfold fit. cbv zeta. destruct (a <=? 0) eqn:Ea.
  - assert (E : (if o <? (if 1 <? m then ROUND_UP o m else o) then o else (if 1 <? m then ROUND_UP o m else o)) = o).
    { destruct (1 <? m) eqn:Em; [|destruct (o <? o); reflexivity]. pose proof (ROUND_UP_bounds o m ltac:(lia) ltac:(lia)) as (B & _). destruct (o <? ROUND_UP o m) eqn:E; lia. }
    rewrite E. constructor; intros; lia.
  - destruct (1 <? m) eqn:Em.
    + pose proof (ROUND_UP_bounds a m ltac:(lia) ltac:(lia)) as (B & _). destruct (o <? ROUND_UP a m) eqn:E.
      * constructor; [lia|left; reflexivity| |lia]. intros _. split; [right; reflexivity|]. intros x Hx Hax. pose proof (RU_least a m x Hm ltac:(lia) Hx Hax). lia.
      * constructor; [lia|right; apply ROUND_UP_div| |lia]. intros _. split; [left; lia|]. intros x Hx Hax. apply RU_least; assumption || lia.
    + assert (m = 1) by lia. subst m. destruct (o <? a) eqn:E.
      * constructor; [lia|left; reflexivity| |lia]. intros _. split; [right; reflexivity|]. intros; lia.
      * constructor; [lia|right; apply Z.divide_1_l| |lia]. intros _. split; [left; lia|]. intros; lia.
Qed.
Lemma fits_unique : forall o m a r r', fits o m a r -> fits o m a r' -> r = r'.
Proof.
  intros o m a r r' [A1 A2 A3 A4] [B1 B2 B3 B4]. destruct (Z_le_gt_dec a 0) as [H|H]; [rewrite A4, B4 by lia; reflexivity|].
  destruct (A3 ltac:(lia)) as (A5 & A6). destruct (B3 ltac:(lia)) as (B5 & B6).
  destruct A2 as [A2|A2], B2 as [B2|B2]; try lia.
  - destruct B5 as [B5|B5]; [|lia]. specialize (A6 r' B2 B5). lia.
  - destruct A5 as [A5|A5]; [|lia]. specialize (B6 r A2 A5). lia.
  - destruct A5 as [A5|A5], B5 as [B5|B5]; [pose proof (A6 r' B2 B5); pose proof (B6 r A2 A5); lia|pose proof (B6 r A2 A5); lia|pose proof (A6 r' B2 B5); lia|lia].
Qed.
Lemma fit_again : forall o m r, 1 <= m -> 1 <= r <= o -> (r = o \/ (m | r)) -> fit o m r = r.
Proof.
  intros o m r Hm Hr Hu. apply (fits_unique o m r); [apply fit_fits; lia|]. constructor; [exact Hr|exact Hu| |lia].
  intros _. split; [left; lia|]. intros; lia.
Qed.

Definition pos (l : list Z) : Prop := Forall (fun x => 1 <= x) l.
Lemma fit_dims_len : forall outer mults ds, length mults = length outer -> length ds = length outer -> length (fit_dims outer mults ds) = length outer.
Proof. induction outer as [|o outer IH]; intros [|m mults] [|d ds] L1 L2; cbn in *; try lia. rewrite IH; lia. Qed.
Lemma fit_dims_fit : forall outer mults ds, pos outer -> pos mults -> length mults = length outer -> length ds = length outer ->
  all_fit outer mults ds (fit_dims outer mults ds).
Proof.
  intros outer mults ds Po Pm L1 L2. split; [apply fit_dims_len; assumption|]. revert mults ds Po Pm L1 L2.
  induction outer as [|o outer IH]; intros [|m mults] [|d ds] Po Pm L1 L2 [|j] o' m' a r E1 E2 E3 E4; cbn in *; try lia; try discriminate.
  - inversion Po; subst. inversion Pm; subst. inversion E1; inversion E2; inversion E3; inversion E4; subst. apply fit_fits; assumption.
  - inversion Po; subst. inversion Pm; subst. eapply (IH mults ds); eauto; lia.
Qed.
Lemma all_fit_nested : forall outer mults asked rs, length asked = length outer -> all_fit outer mults asked rs -> nested outer mults rs.
Proof.
  intros outer mults asked rs La (L & H). split; [exact L|]. intros j o m r E1 E2 E3.
  destruct (nth_error asked j) as [a|] eqn:Ea.
  - destruct (H j o m a r E1 E2 Ea E3) as [F1 F2 _ _]. split; assumption.
  - apply nth_error_None in Ea. assert (j < length outer)%nat by (apply nth_error_Some; congruence). lia.
Qed.
Lemma fit_dims_nested : forall outer mults ds, pos outer -> pos mults -> length mults = length outer -> length ds = length outer ->
  nested outer mults (fit_dims outer mults ds).
Proof. intros. eapply all_fit_nested; [|apply fit_dims_fit]; assumption. Qed.
Lemma nested_pos : forall outer mults rs, length mults = length outer -> nested outer mults rs -> pos rs.
Proof.
  intros outer mults rs Lm (L & H). apply Forall_forall. intros r Hr. apply In_nth_error in Hr. destruct Hr as (j & Ej).
  assert (j < length rs)%nat by (apply nth_error_Some; congruence).
  destruct (nth_error outer j) as [o|] eqn:Eo; [|apply nth_error_None in Eo; lia].
  destruct (nth_error mults j) as [m|] eqn:Em; [|apply nth_error_None in Em; lia].
  apply (H j o m r Eo Em Ej).
Qed.
Lemma fit_dims_again : forall outer mults rs, pos mults -> length mults = length outer -> nested outer mults rs -> fit_dims outer mults rs = rs.
Proof.
  induction outer as [|o outer IH]; intros [|m mults] [|r rs] Pm L1 (L2 & H); cbn in *; try lia; [reflexivity|].
  inversion Pm; subst. f_equal.
  - destruct (H 0%nat o m r eq_refl eq_refl eq_refl) as (A & B). apply fit_again; assumption.
  - apply IH; [assumption|lia|]. split; [lia|]. intros j o' m' r' E1 E2 E3. exact (H (S j) o' m' r' E1 E2 E3).
Qed.

(* --- counts --- *)
Lemma count_needed : forall outer rs, length rs = length outer -> pos outer -> pos rs ->
  exists cs, length cs = length outer /\ zprod cs = count_dims outer rs /\
    forall j o r c, nth_error outer j = Some o -> nth_error rs j = Some r -> nth_error cs j = Some c -> tiles_needed o r c.
Proof.
  induction outer as [|o outer IH]; intros [|r rs] L Po Pr; cbn in L; try lia.
  - exists []. split; [reflexivity|]. split; [reflexivity|]. intros [|j] ? ? ? E; discriminate.
  - inversion Po; subst. inversion Pr; subst. destruct (IH rs ltac:(lia) ltac:(assumption) ltac:(assumption)) as (cs & L' & P & N).
    exists (num_inner o r :: cs). split; [cbn; lia|]. split; [cbn [zprod fold_right count_dims] in *; unfold zprod in *; cbn; rewrite P; reflexivity|].
    intros [|j] o' r' c E1 E2 E3; cbn in E1, E2, E3; [|exact (N j o' r' c E1 E2 E3)].
    inversion E1; inversion E2; inversion E3; subst. unfold tiles_needed, num_inner. replace (r' <=? 0) with false by lia.
    pose proof (CEIL_DIV_bounds o' r' ltac:(lia) ltac:(lia)) as (B & _). unfold CEIL_DIV in B. exact B.
Qed.

(* --- the whole function --- *)
Definition hyp (e : aenv) (k : kset) : Prop :=
  let n := length (z_d (k_rank k)) in
  pos (z_d (k_rank k)) /\ pos (a_fold e) /\ length (a_fold e) = n /\
  Forall (fun s => length (z_d s) = n) [k_mega k; k_block k; k_micro k; k_nano k; k_pico k; k_rktile k; k_mgtile k; k_bktile k; k_mctile k; k_nntile k].
Lemma first_dim_ok : forall inner ok n j, (forall i, (j <= i < j + n)%nat -> exists b, ok i = Ok b) ->
  exists o, first_dim inner j ok n = Ok o /\
    match o with
    | Some i => (j <= i < j + n)%nat /\ i <> inner /\ ok i = Ok true /\ forall i', (j <= i' < i)%nat -> i' <> inner -> ok i' = Ok false
    | None => forall i, (j <= i < j + n)%nat -> i <> inner -> ok i = Ok false
    end.
Proof.
  intros inner ok. induction n as [|n IH]; intros j H; cbn [first_dim].
  - exists None. split; [reflexivity|]. intros i Hi. lia.
  - assert (H' : forall i, (S j <= i < S j + n)%nat -> exists b, ok i = Ok b) by (intros i Hi; apply H; lia). destruct (IH (S j) H') as (o & E & P).
    destruct (Nat.eqb_spec j inner) as [Ej|Ej].
    + exists o. split; [exact E|]. destruct o as [i|].
      * destruct P as (P1 & P2 & P3 & P4). split; [lia|]. split; [exact P2|]. split; [exact P3|]. intros i' Hi' Hn. apply P4; lia.
      * intros i Hi Hn. apply P; lia.
    + destruct (H j ltac:(lia)) as (b & Eb). rewrite Eb. cbn [rbind]. destruct b.
      * exists (Some j). split; [reflexivity|]. split; [lia|]. split; [exact Ej|]. split; [exact Eb|]. intros; lia.
      * exists o. split; [exact E|]. destruct o as [i|].
        -- destruct P as (P1 & P2 & P3 & P4). split; [lia|]. split; [exact P2|]. split; [exact P3|]. intros i' Hi' Hn. destruct (Nat.eq_dec i' j) as [->|]; [exact Eb|]. apply P4; lia.
        -- intros i Hi Hn. destruct (Nat.eq_dec i j) as [->|]; [exact Eb|]. apply P; lia.
Qed.
Lemma set_nth_len : forall k v l, length (set_nth k v l) = length l.
Proof. intros k v l. revert k. induction l as [|x l IH]; intros [|k]; cbn; auto. Qed.
Lemma nano_default_ok : forall e block nano posn,
  exists r, nano_default e block nano posn = Ok r /\ length (z_d (fst r)) = length (z_d nano) /\ z_t (fst r) = z_t nano /\
    ((a_threads e <= 1 \/ zsum (all_vals nano) <> 0) -> r = (nano, posn)).
Proof.
  intros e block nano posn. unfold nano_default. destruct ((1 <? a_threads e) && (zsum (all_vals nano) =? 0)) eqn:E.
  - destruct (first_dim_ok (a_inner e) (fun j => Ok (a_threads e <=? Z.quot (nth j (z_d block) 0) (nth j (a_fold e) 1))) (length (z_d block)) 0) as (o & Eo & _); [intros; eauto|].
    rewrite Eo. cbn [rbind]. eexists. split; [reflexivity|]. cbn [fst z_d z_t]. split; [apply set_nth_len|]. split; [reflexivity|]. intros [H|H]; lia.
  - exists (nano, posn). split; [reflexivity|]. split; [reflexivity|]. split; [reflexivity|]. reflexivity.
Qed.
Lemma rebind_ok : forall e block nano posn, pos (z_d nano) -> length (z_d nano) = length (z_d block) -> exists p, rebind e block nano posn = Ok p.
Proof.
  intros e block nano posn P L. unfold rebind. destruct (a_bind e && (1 <? a_threads e)); [|eauto].
  match goal with |- context [first_dim ?i ?j ?ok ?n] => destruct (first_dim_ok i ok n j) as (o & E & _) end.
  - intros i Hi. cbv zeta. destruct (nth i (z_d nano) 0 =? 0) eqn:Ez; [|eauto]. exfalso.
    unfold pos in P. rewrite Forall_forall in P. assert (Hn : (i < length (z_d nano))%nat) by lia. specialize (P _ (nth_In (z_d nano) 0 Hn)). lia.
  - rewrite E. cbn [rbind]. eauto.
Qed.
Lemma rebind_again : forall e block nano posn p, rebind e block nano posn = Ok p -> rebind e block nano p = Ok p.
Proof.
  intros e block nano posn p. unfold rebind. destruct (a_bind e && (1 <? a_threads e)); [|auto].
  match goal with |- context [first_dim ?i ?j ?ok ?n] => destruct (first_dim i j ok n) as [[o|]| | |] end; cbn [rbind]; congruence.
Qed.

Definition asked_block (e : aenv) (k : kset) : list Z := if a_offload e then z_d (k_block k) else map (fun x => if x =? 0 then a_def e else x) (z_d (k_block k)).
Definition asked_pico (e : aenv) (k : kset) : list Z := if a_offload e then map (fun x => if x =? 0 then a_def e else x) (z_d (k_pico k)) else z_d (k_pico k).

Lemma level : forall n outer inner mults, length (z_d outer) = n -> pos (z_d outer) -> length mults = n -> pos mults -> length (z_d inner) = n ->
  let r := fitted inner outer mults in
  all_fit (z_d outer) mults (z_d inner) (z_d r) /\ length (z_d r) = n /\ pos (z_d r) /\ z_t r = z_t inner.
Proof.
  intros n outer inner mults L1 P1 L2 P2 L3 r. assert (F : all_fit (z_d outer) mults (z_d inner) (z_d r)) by (apply fit_dims_fit; congruence).
  split; [exact F|]. split; [rewrite (proj1 F); exact L1|]. split; [|reflexivity]. eapply nested_pos; [|eapply all_fit_nested; [|exact F]]; congruence.
Qed.
Lemma adjust_ok : forall e k, hyp e k -> exists k', adjust_settings e k = Ok k' /\
  k_rank k' = k_rank k /\
  all_fit (z_d (k_rank k)) (a_fold e) (z_d (k_mega k)) (z_d (k_mega k')) /\
  all_fit (z_d (k_mega k')) (a_fold e) (asked_block e k) (z_d (k_block k')) /\
  all_fit (z_d (k_block k')) (a_fold e) (z_d (k_micro k)) (z_d (k_micro k')) /\
  nested (z_d (k_micro k')) (a_fold e) (z_d (k_nano k')) /\
  (a_threads e <= 1 \/ zsum (all_vals (k_nano k)) <> 0 -> all_fit (z_d (k_micro k')) (a_fold e) (z_d (k_nano k)) (z_d (k_nano k'))) /\
  all_fit (z_d (k_nano k')) (a_fold e) (asked_pico e k) (z_d (k_pico k')) /\
  (if a_tiling e then
     all_fit (z_d (k_rank k)) (z_d (k_mega k')) (z_d (k_rktile k)) (z_d (k_rktile k')) /\
     all_fit (z_d (k_mega k')) (z_d (k_block k')) (z_d (k_mgtile k)) (z_d (k_mgtile k')) /\
     all_fit (z_d (k_block k')) (z_d (k_micro k')) (z_d (k_bktile k)) (z_d (k_bktile k')) /\
     all_fit (z_d (k_micro k')) (z_d (k_nano k')) (z_d (k_mctile k)) (z_d (k_mctile k')) /\
     all_fit (z_d (k_nano k')) (z_d (k_pico k')) (z_d (k_nntile k)) (z_d (k_nntile k'))
   else k_rktile k' = k_rktile k /\ k_mgtile k' = k_mgtile k /\ k_bktile k' = k_bktile k /\ k_mctile k' = k_mctile k /\ k_nntile k' = k_nntile k).
Proof.
  intros e k (Pr & Pf & Lf & La). cbv zeta in *. set (n := length (z_d (k_rank k))) in *.
  repeat match goal with H : Forall _ (_ :: _) |- _ => inversion H; clear H; subst end. clear H11 || idtac.
  assert (Lb : length (asked_block e k) = n) by (unfold asked_block; destruct (a_offload e); [|rewrite map_length]; assumption).
  assert (Lp : length (asked_pico e k) = n) by (unfold asked_pico; destruct (a_offload e); [rewrite map_length|]; assumption).
  unfold adjust_settings. cbv zeta.
  set (rt := if Z.max (z_t (k_mega k)) 0 =? 0 then Z.max (z_t (k_block k)) 0 else Z.max (z_t (k_mega k)) 0).
  set (mbt := if Z.max (z_t (k_micro k)) 0 =? 0 then Z.max (z_t (k_block k)) 0 else Z.max (z_t (k_micro k)) 0).
  set (mega := fitted (mkSizes rt (z_d (k_mega k))) (k_rank k) (a_fold e)).
  destruct (level n (k_rank k) (mkSizes rt (z_d (k_mega k))) (a_fold e)) as (Fm & Lm & Pm & _); try assumption; [reflexivity|]. fold mega in Fm, Lm, Pm. cbn [z_d] in Fm. clearbody mega.
  replace (z_d (if a_offload e then k_block k else or_default (a_def e) (k_block k))) with (asked_block e k) by (unfold asked_block, or_default; destruct (a_offload e); reflexivity).
  set (block := fitted (mkSizes (Z.max (z_t (k_block k)) 0) (asked_block e k)) mega (a_fold e)).
  destruct (level n mega (mkSizes (Z.max (z_t (k_block k)) 0) (asked_block e k)) (a_fold e)) as (Fb & Lk & Pb & _); try assumption. fold block in Fb, Lk, Pb. cbn [z_d] in Fb. clearbody block.
  set (micro := fitted (mkSizes mbt (z_d (k_micro k))) block (a_fold e)).
  destruct (level n block (mkSizes mbt (z_d (k_micro k))) (a_fold e)) as (Fc & Lc & Pc & _); try assumption. fold micro in Fc, Lc, Pc. cbn [z_d] in Fc. clearbody micro.
  destruct (nano_default_ok e block (k_nano k) (k_posn k)) as (np & En & Ln & _ & Dn). rewrite En. cbn [rbind].
  set (nano := fitted (fst np) micro (a_fold e)).
  destruct (level n micro (fst np) (a_fold e)) as (Fn & Lnn & Pn & _); try assumption; [rewrite Ln; assumption|]. fold nano in Fn, Lnn, Pn. clearbody nano.
  assert (Nn : nested (z_d micro) (a_fold e) (z_d nano)) by (eapply all_fit_nested; [|exact Fn]; rewrite Ln, Lc; assumption).
  set (pico0 := if a_offload e then or_default (a_def e) (k_pico k) else k_pico k).
  assert (Ep : z_d pico0 = asked_pico e k) by (unfold pico0, asked_pico, or_default; destruct (a_offload e); reflexivity).
  set (pico := fitted pico0 nano (a_fold e)).
  destruct (level n nano pico0 (a_fold e)) as (Fp & Lpp & Pp & _); try assumption; [rewrite Ep; exact Lp|]. fold pico in Fp, Lpp, Pp. rewrite Ep in Fp. clearbody pico.
  destruct (rebind_ok e block nano (snd np) Pn) as (p & Erb); [rewrite Lnn, Lk; reflexivity|]. rewrite Erb. cbn [rbind].
  eexists. split; [reflexivity|].
  assert (Fn' : a_threads e <= 1 \/ zsum (all_vals (k_nano k)) <> 0 -> all_fit (z_d micro) (a_fold e) (z_d (k_nano k)) (z_d nano)).
  { intros H. specialize (Dn H). rewrite Dn in Fn. exact Fn. }
  destruct (a_tiling e); cbn [k_rank k_mega k_block k_micro k_nano k_pico k_rktile k_mgtile k_bktile k_mctile k_nntile];
    (split; [reflexivity|split; [exact Fm|split; [exact Fb|split; [exact Fc|split; [exact Nn|split; [exact Fn'|split; [exact Fp|]]]]]]]).
  - split; [|split; [|split; [|split]]]; apply (level n); try assumption; reflexivity.
  - split; [|split; [|split; [|split]]]; reflexivity.
Qed.

(* --- consequences --- *)
Lemma nest_trans : forall rank outer mults rs, length mults = length rank -> nested rank mults outer -> nested outer mults rs -> nested rank mults rs.
Proof.
  intros rank outer mults rs Lm (L1 & H1) (L2 & H2). split; [congruence|]. intros j o m r E1 E2 E3.
  assert (j < length rs)%nat by (apply nth_error_Some; congruence).
  destruct (nth_error outer j) as [x|] eqn:Ex; [|apply nth_error_None in Ex; lia].
  destruct (H1 j o m x E1 E2 Ex) as (A & B). destruct (H2 j x m r Ex E2 E3) as (A' & B'). split; [lia|].
  destruct B' as [->|B']; [exact B|right; exact B'].
Qed.

Lemma zsum_pos_ne : forall l, pos l -> l <> [] -> 1 <= zsum l.
Proof.
  intros l P N. assert (G : 0 <= zsum l /\ (l <> [] -> 1 <= zsum l)).
  { clear N. induction P as [|x l Hx P (IH & _)]; [split; [cbn; lia|congruence]|]. unfold zsum in *. cbn in *. split; intros; lia. }
  apply G. exact N.
Qed.

Lemma step_again : forall a b, let r := if Z.max a 0 =? 0 then Z.max b 0 else Z.max a 0 in (if Z.max r 0 =? 0 then Z.max (Z.max b 0) 0 else Z.max r 0) = r.
Proof. intros a b. cbv zeta. destruct (Z.max a 0 =? 0) eqn:E; [destruct (Z.max (Z.max b 0) 0 =? 0) eqn:E2|destruct (Z.max (Z.max a 0) 0 =? 0) eqn:E2]; lia. Qed.
Lemma adjust_again : forall e k k', hyp e k -> 0 <= z_t (k_nano k) -> z_d (k_rank k) <> [] -> adjust_settings e k = Ok k' -> adjust_settings e k' = Ok k'.
Proof.
  intros e k k' H Ht Hne E. destruct (adjust_ok e k H) as (k1 & E1 & R & Fm & Fb & Fc & Nn & _ & Fp & Ft). rewrite E1 in E. inversion E; subst k1. clear E.
  destruct H as (Pr & Pf & Lf & La). cbv zeta in *. set (n := length (z_d (k_rank k))) in *.
  repeat match goal with H : Forall _ (_ :: _) |- _ => inversion H; clear H; subst end.
  assert (Lb : length (asked_block e k) = n) by (unfold asked_block; destruct (a_offload e); [|rewrite map_length]; assumption).
  assert (Lp : length (asked_pico e k) = n) by (unfold asked_pico; destruct (a_offload e); [rewrite map_length|]; assumption).
  assert (Nm : nested (z_d (k_rank k)) (a_fold e) (z_d (k_mega k'))) by (eapply all_fit_nested; [|exact Fm]; assumption).
  assert (Lm : length (z_d (k_mega k')) = n) by apply Nm.
  assert (Pm : pos (z_d (k_mega k'))) by (eapply nested_pos; [|exact Nm]; exact Lf).
  assert (Nb : nested (z_d (k_mega k')) (a_fold e) (z_d (k_block k'))) by (eapply all_fit_nested; [|exact Fb]; rewrite Lm; assumption).
  assert (Lk : length (z_d (k_block k')) = n) by (rewrite (proj1 Nb); exact Lm).
  assert (Pb : pos (z_d (k_block k'))) by (eapply nested_pos; [|exact Nb]; rewrite Lm; exact Lf).
  assert (Nc : nested (z_d (k_block k')) (a_fold e) (z_d (k_micro k'))) by (eapply all_fit_nested; [|exact Fc]; rewrite Lk; assumption).
  assert (Lc : length (z_d (k_micro k')) = n) by (rewrite (proj1 Nc); exact Lk).
  assert (Lnn : length (z_d (k_nano k')) = n) by (rewrite (proj1 Nn); exact Lc).
  assert (Pn : pos (z_d (k_nano k'))) by (eapply nested_pos; [|exact Nn]; rewrite Lc; exact Lf).
  assert (Np : nested (z_d (k_nano k')) (a_fold e) (z_d (k_pico k'))) by (eapply all_fit_nested; [|exact Fp]; rewrite Lnn; assumption).
  assert (Lpp : length (z_d (k_pico k')) = n) by (rewrite (proj1 Np); exact Lnn).
  assert (Pp : pos (z_d (k_pico k'))) by (eapply nested_pos; [|exact Np]; rewrite Lnn; exact Lf).
  assert (Pc : pos (z_d (k_micro k'))) by (eapply nested_pos; [|exact Nc]; rewrite Lk; exact Lf).
  (* the step sizes and the bind position *)
  assert (St : z_t (k_mega k') = (if Z.max (z_t (k_mega k)) 0 =? 0 then Z.max (z_t (k_block k)) 0 else Z.max (z_t (k_mega k)) 0) /\
               z_t (k_block k') = Z.max (z_t (k_block k)) 0 /\
               z_t (k_micro k') = (if Z.max (z_t (k_micro k)) 0 =? 0 then Z.max (z_t (k_block k)) 0 else Z.max (z_t (k_micro k)) 0) /\
               z_t (k_nano k') = z_t (k_nano k) /\ exists p0, rebind e (k_block k') (k_nano k') p0 = Ok (k_posn k')).
  { unfold adjust_settings in E1. cbv zeta in E1.
    match type of E1 with context [nano_default e ?b ?nn ?pp] => destruct (nano_default_ok e b nn pp) as (np & En & _ & Et & _); rewrite En in E1; cbn [rbind] in E1 end.
    match type of E1 with rbind ?r _ = _ => destruct r as [p| | |] eqn:Er; cbn [rbind] in E1; try discriminate end.
    inversion E1 as [E2]. clear E1. destruct (a_tiling e); cbn [k_mega k_block k_micro k_nano k_posn] in *; (split; [reflexivity|split; [reflexivity|split; [reflexivity|split; [cbn; exact Et|exists (snd np); exact Er]]]]). }
  destruct St as (T1 & T2 & T3 & T4 & p0 & Tp).
  assert (NZ : forall l, pos l -> map (fun x => if x =? 0 then a_def e else x) l = l).
  { clear. induction 1 as [|x l Hx P IH]; [reflexivity|]. cbn. rewrite IH. replace (x =? 0) with false by lia. reflexivity. }
  assert (Zeq : forall s : sizes, mkSizes (z_t s) (z_d s) = s) by (intros []; reflexivity).
  assert (FF : forall outer mults s t, pos mults -> length mults = length (z_d outer) -> nested (z_d outer) mults (z_d s) -> t = z_t s ->
            fitted (mkSizes t (z_d s)) outer mults = s).
  { intros outer mults s t P L N ->. unfold fitted, find_num_subsets. cbn [fst z_d z_t]. rewrite fit_dims_again by assumption. apply Zeq. }
  assert (FF' : forall outer mults s, pos mults -> length mults = length (z_d outer) -> nested (z_d outer) mults (z_d s) -> fitted s outer mults = s).
  { intros outer mults s P L N. rewrite <- (Zeq s) at 1. apply FF; auto. }
  unfold adjust_settings. cbv zeta. rewrite R.
  rewrite (FF (k_rank k) (a_fold e) (k_mega k')) by (assumption || (rewrite T1, T2; apply step_again)).
  replace (z_d (if a_offload e then k_block k' else or_default (a_def e) (k_block k'))) with (z_d (k_block k')) by (unfold or_default; destruct (a_offload e); [reflexivity|]; cbn [z_d]; rewrite NZ by exact Pb; reflexivity).
  rewrite (FF (k_mega k') (a_fold e) (k_block k')) by (assumption || (rewrite Lm; assumption) || lia).
  rewrite (FF (k_block k') (a_fold e) (k_micro k')) by (assumption || (rewrite Lk; assumption) || (rewrite T3, T2; apply step_again)).
  destruct (nano_default_ok e (k_block k') (k_nano k') (k_posn k')) as (np & En & _ & _ & Dn). rewrite En. cbn [rbind].
  assert (Sn : zsum (all_vals (k_nano k')) <> 0).
  { unfold all_vals. assert (1 <= zsum (z_d (k_nano k'))). { apply zsum_pos_ne; [exact Pn|]. intros Q. rewrite Q in Lnn. apply Hne. destruct (z_d (k_rank k)); [reflexivity|cbn in *; discriminate]. }
    unfold zsum in *. cbn. lia. }
  rewrite (Dn (or_intror Sn)). cbn [fst snd].
  rewrite (FF' (k_micro k') (a_fold e) (k_nano k')) by (assumption || (rewrite Lc; assumption)).
  replace (if a_offload e then or_default (a_def e) (k_pico k') else k_pico k') with (k_pico k') by (unfold or_default; destruct (a_offload e); [rewrite NZ by exact Pp; symmetry; apply Zeq|reflexivity]).
  rewrite (FF' (k_nano k') (a_fold e) (k_pico k')) by (assumption || (rewrite Lnn; assumption)).
  rewrite (rebind_again _ _ _ _ _ Tp). cbn [rbind]. destruct (a_tiling e) eqn:Eti.
  - destruct Ft as (G1 & G2 & G3 & G4 & G5).
    rewrite (FF' (k_rank k) (z_d (k_mega k')) (k_rktile k')) by (assumption || (eapply all_fit_nested; [|exact G1]; assumption)).
    rewrite (FF' (k_mega k') (z_d (k_block k')) (k_mgtile k')) by (assumption || (rewrite Lk, Lm; reflexivity) || (eapply all_fit_nested; [|exact G2]; rewrite Lm; assumption)).
    rewrite (FF' (k_block k') (z_d (k_micro k')) (k_bktile k')) by (assumption || (rewrite Lk, Lc; reflexivity) || (eapply all_fit_nested; [|exact G3]; rewrite Lk; assumption)).
    rewrite (FF' (k_micro k') (z_d (k_nano k')) (k_mctile k')) by (assumption || (rewrite Lnn, Lc; reflexivity) || (eapply all_fit_nested; [|exact G4]; rewrite Lc; assumption)).
    rewrite (FF' (k_nano k') (z_d (k_pico k')) (k_nntile k')) by (assumption || (rewrite Lnn, Lpp; reflexivity) || (eapply all_fit_nested; [|exact G5]; rewrite Lnn; assumption)).
    rewrite <- R. destruct k'; reflexivity.
  - rewrite <- R. destruct k'; reflexivity.
Qed.
