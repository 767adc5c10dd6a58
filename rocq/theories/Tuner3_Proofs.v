From Coq Require Import ZifyBool.
From Verif Require Import Base Idiv_Model Tuple_Model Adjust_Model Adjust_Spec Adjust_Proofs Tuner_Model Tuner_Spec Tuner_Proofs Tuner2_Proofs.

Lemma NoDup_map_zd : forall (l : list sizes) t, NoDup l -> (forall b, In b l -> z_t b = t) -> NoDup (map z_d l).
Proof.
  induction l as [|b l IH]; intros t N H; [constructor|]. inversion N as [|? ? N1 N2]; subst. cbn [map]. constructor.
  - intros Q. apply in_map_iff in Q. destruct Q as (c & Ec & Hc). apply N1. replace b with c; [exact Hc|].
    pose proof (H b (or_introl eq_refl)) as H1. pose proof (H c (or_intror Hc)) as H2. destruct b, c; cbn in *; congruence.
  - apply (IH t N2). intros c Hc. apply H. right. exact Hc.
Qed.

Section Run.
  Variables (e : tenv) (R : sizes).
  Let a := t_a e.
  Let n := length (z_d R).
  Hypotheses (Pr : pos (z_d R)) (Pf : pos (a_fold a)) (Lf : length (a_fold a) = n) (Nz : n <> O) (Ht : Forall known_t (t_targets e)).

  Lemma in_rank : forall l g, lenL n l -> known_t g -> nested (z_d R) (a_fold a) (z_d (getL g (lev a R l))) /\
    (outL g R (lev a R l) = R \/ nested (z_d R) (a_fold a) (z_d (outL g R (lev a R l)))).
  Proof using Pr Pf Lf.
    intros l g Hl Hg. destruct (lev_nested a R Pr Pf Lf l Hl) as (_ & N).
    destruct (N TMega ltac:(discriminate)) as (N1 & _). destruct (N TBlock ltac:(discriminate)) as (N2 & _). destruct (N TMicro ltac:(discriminate)) as (N3 & _).
    destruct (N TNano ltac:(discriminate)) as (N4 & _). destruct (N TPico ltac:(discriminate)) as (N5 & _). clear N.
    cbn [outL getL] in *. assert (M2 := nest_trans _ _ _ _ Lf N1 N2). assert (M3 := nest_trans _ _ _ _ Lf M2 N3). assert (M4 := nest_trans _ _ _ _ Lf M3 N4). assert (M5 := nest_trans _ _ _ _ Lf M4 N5).
    destruct g; cbn [outL getL]; auto; destruct Hg; reflexivity.
  Qed.

  Lemma keys_bound : forall g s, during e R g s -> fresh g s -> Z.of_nat (length (u_results s)) + 1 <= zprod (z_d R).
  Proof using Pr Pf Lf. clear Nz Ht.
    intros g s H Hf. destruct (cur_ok e R Pr Pf Lf g s H) as (Vc & PO & LO & _).
    set (l := map fst (u_results s) ++ [cur g s]).
    assert (N : NoDup l).
    { unfold l. apply NoDup_Add with (a := cur g s) (l := map fst (u_results s)); [|split; [exact (d_nodup _ _ _ _ H)|exact Hf]].
      rewrite <- (app_nil_r (map fst (u_results s))) at 1. apply Add_app. }
    assert (V : forall b, In b l -> valid e (out R g s) (z_t (cur g s)) b).
    { intros b Hb. apply in_app_or in Hb. destruct Hb as [Hb|[<-|[]]]; [|exact Vc]. apply in_map_iff in Hb. destruct Hb as (x & <- & Hx).
      pose proof (d_keys _ _ _ _ H) as F. rewrite Forall_forall in F. apply F. exact Hx. }
    assert (N2 : NoDup (map z_d l)) by (apply (NoDup_map_zd l (z_t (cur g s)) N); intros b Hb; apply (V b Hb)).
    assert (I : incl (map z_d l) (box_pts (out R g s))).
    { intros ds Hds. apply in_map_iff in Hds. destruct Hds as (b & <- & Hb). destruct (V b Hb) as (_ & L & Nb). apply box_pts_in; [exact L|].
      intros j o r E1 E2. destruct (nth_error (a_fold a) j) as [m|] eqn:Em.
      - apply (Nb j o m r E1 Em E2).
      - apply nth_error_None in Em. assert (j < length (out R g s))%nat by (apply nth_error_Some; congruence). unfold n in *. lia. }
    pose proof (NoDup_incl_length N2 I) as Q. rewrite map_length in Q. unfold l in Q. rewrite app_length, map_length in Q. cbn [length] in Q.
    pose proof (box_pts_len _ PO) as Q2.
    assert (Q3 : 1 <= zprod (out R g s) <= zprod (z_d R)).
    { apply box_mono; [exact LO|exact PO|]. intros j o r E1 E2. unfold out in E1. rewrite (d_fix _ _ _ _ H) in E1. pose proof (d_base _ _ _ _ H) as [B1 B2 B3 B4 B5].
      destruct (in_rank (setL g (cur g s) (lv (u_req s))) g) as (_ & [Eo|No]); [apply lenL_set; [exact B4|apply lenL_get; exact B2]|exact (d_known _ _ _ _ H)| |].
      - fold a in E1. rewrite Eo in E1. rewrite E1 in E2. inversion E2. lia.
      - fold a in E1. destruct No as (L & No). destruct (nth_error (a_fold a) j) as [m|] eqn:Em; [destruct (No j r m o E2 Em E1); lia|].
        apply nth_error_None in Em. assert (j < length (z_d R))%nat by (apply nth_error_Some; congruence). unfold n in *. lia. }
    lia.
  Qed.

  Record warming (s : tstate) : Prop := mkWarming {
    w_base : base R s;
    w_lev : lv (u_k s) = lev a R (lv (u_req s));
    w_flags : u_done s = false /\ u_warm s = true /\ u_target s = None;
    w_steps : 0 <= u_csteps s < warmup_steps }.
  Definition ready (s : tstate) : Prop := u_done s = true \/ warming s \/ exists g, during e R g s /\ fresh g s.
  Definition rem (s : tstate) : Z :=
    let P := zprod (z_d R) in let T := Z.of_nat (length (t_targets e)) in
    if u_warm s then 1000 - u_csteps s + 500 * T * P
    else 500 * (P - Z.of_nat (length (u_results s))) - u_csteps s + (T - 1 - Z.of_nat (u_ti s)) * (500 * P).
  Lemma rem_pos : forall s, ready s -> u_done s = false -> 1 <= rem s.
  Proof using Pr Pf Lf. clear Nz Ht.
    intros s [H|[H|(g & H & Hf)]] Hd; [congruence| |].
    - destruct H as [_ _ (_ & F & _) S]. unfold rem. rewrite F. cbv zeta. unfold warmup_steps in S. assert (1 <= zprod (z_d R)). { destruct (box_mono (z_d R) (z_d R) eq_refl Pr); [|assumption]. intros j o r E1 E2. rewrite E1 in E2. inversion E2. lia. } nia.
    - pose proof (keys_bound g s H Hf) as K. pose proof (d_flags _ _ _ _ H) as (_ & F). pose proof (d_steps _ _ _ _ H) as S. pose proof (d_ti _ _ _ _ H) as I. assert (I' : (u_ti s < length (t_targets e))%nat) by (apply nth_error_Some; congruence).
      unfold rem. rewrite F. cbv zeta. unfold trial_steps in S. nia.
  Qed.

  Lemma fresh_nil : forall g s, u_results s = [] -> fresh g s.
  Proof. intros g s E. unfold fresh. rewrite E. intros []. Qed.

  Lemma ready_step : forall s o, ready s -> measured o -> exists s', eval e o s = Ok s' /\ ready s' /\ (u_done s' = false -> rem s' < rem s).
  Proof using Pr Pf Lf Nz Ht.
    intros s o [H|[H|(g & H & Hf)]] [O1 O2].
    - exists s. unfold eval. rewrite H. split; [reflexivity|]. split; [left; exact H|congruence].
    - destruct H as [HB HL (F1 & F2 & F3) S]. unfold eval. rewrite F1. cbn [with_steps u_warm u_csteps]. rewrite F2.
      destruct (negb (o_warm o) && (u_csteps s + o_steps o <? warmup_steps)) eqn:E.
      + eexists. split; [reflexivity|]. split; [right; left|].
        * constructor; [destruct HB; constructor; assumption|exact HL|auto|cbn; lia].
        * intros _. unfold rem. cbn [with_steps u_warm u_csteps]. rewrite F2. lia.
      + clear E. match goal with |- context [next_target e ?t] => set (s1 := t) end.
        assert (B1 : base R s1) by (destruct HB; constructor; assumption).
        destruct (next_ok e R Pr Pf Lf Nz Ht s1 B1 HL F1) as [(N1 & s3 & E3 & T3 & K3 & _)|(s3 & g' & N1 & E3 & D3 & I3 & R3 & C3 & K3 & _)]; rewrite E3; cbn [rbind snd fst].
        * unfold clear, apply_best. rewrite T3. cbn [rbind]. eexists. split; [reflexivity|]. split; [left; reflexivity|discriminate].
        * exists s3. split; [reflexivity|]. split; [right; right; exists g'; split; [exact D3|apply fresh_nil; exact R3]|].
          intros _. pose proof (d_flags _ _ _ _ D3) as (_ & F4). unfold rem. rewrite F2, F4, R3, C3, I3. unfold next_i. change (u_target s1) with (@None target). cbn [length]. cbv zeta.
          unfold warmup_steps in S. nia.
    - destruct (eval_ok e R Pr Pf Lf Nz Ht g o s H Hf (mkObsOk o O1 O2)) as (s' & Es & St). exists s'. split; [exact Es|].
      pose proof (d_flags _ _ _ _ H) as (F1 & F2). pose proof (keys_bound g s H Hf) as K. pose proof (d_steps _ _ _ _ H) as S. unfold trial_steps in S.
      destruct St as [D1 D2 D3 D4 D5 D6 D7|D1 D2 D3 D4 D5 D6 D7 D8 D9 D10 D11 D12|g' D1 D2 D3 D4 D5 D6|D1 D2 D3 D4 D5].
      + split; [right; right; exists g; auto|]. intros _. pose proof (d_flags _ _ _ _ D1) as (_ & F4). unfold rem. rewrite F2, F4, D4, D5, D6. lia.
      + split; [right; right; exists g; auto|]. intros _. pose proof (d_flags _ _ _ _ D1) as (_ & F4). unfold rem. rewrite F2, F4, D3, D4, D5. unfold remember. rewrite app_length. cbn [length]. lia.
      + split; [right; right; exists g'; split; [exact D1|apply fresh_nil; exact D3]|]. intros _. pose proof (d_flags _ _ _ _ D1) as (_ & F4). unfold rem. rewrite F2, F4, D2, D3, D4. cbn [length]. nia.
      + split; [left; exact D1|congruence].
  Qed.

  Lemma ready_run : forall os s, ready s -> Forall measured os -> exists s', run_tuner e os s = Ok s' /\ ready s' /\ (u_done s' = false -> rem s' + Z.of_nat (length os) <= rem s).
  Proof using Pr Pf Lf Nz Ht.
    induction os as [|o os IH]; intros s H Ho; [exists s; split; [reflexivity|]; split; [exact H|cbn [length]; lia]|].
    inversion Ho as [|? ? Ho1 Ho2]; subst. destruct (ready_step s o H Ho1) as (s1 & E1 & H1 & M1). unfold run_tuner. cbn [rfold]. rewrite E1. cbn [rbind].
    destruct (IH s1 H1 Ho2) as (s2 & E2 & H2 & M2). exists s2. split; [exact E2|]. split; [exact H2|]. intros Hd. specialize (M2 Hd).
    assert (Hd1 : u_done s1 = false).
    { destruct (u_done s1) eqn:Q; [|reflexivity]. exfalso. clear -E2 Hd Q. revert s1 E2 Q. induction os as [|o os IH]; intros s1 E2 Q; unfold run_tuner in E2; cbn [rfold] in E2; [inversion E2; congruence|].
      unfold eval in E2 at 1. rewrite Q in E2. cbn [rbind] in E2. exact (IH s1 E2 Q). }
    specialize (M1 Hd1). cbn [length]. lia.
  Qed.
End Run.

(* From the settings *)
Lemma start_ready : forall e req k, tuner_settings e req -> adjust_settings (t_a e) req = Ok k ->
  let R := k_rank req in
  (pos (z_d R) /\ pos (a_fold (t_a e)) /\ length (a_fold (t_a e)) = length (z_d R) /\ length (z_d R) <> O /\ Forall known_t (t_targets e)) /\
  warming e R (new_tuner e k req).
Proof.
  intros e req k [(T1 & T2) (T3 & T4) T5 T6 T7] E R. 
  assert (HL : lenL (length (z_d R)) (lv req)).
  { repeat match goal with H : Forall _ (_ :: _) |- _ => inversion H; clear H; subst end. repeat split; assumption. }
  assert (HT : tl (length (z_d R)) req) by (do 5 apply Forall_inv_tail in T5; exact T5).
  destruct (adjust_total (t_a e) req T2 T3 T4 HL HT) as (k' & E' & K1 & K2 & K3). rewrite E in E'. inversion E'; subst k'. clear E'.
  assert (Nz : length (z_d R) <> O) by (intros Q; apply T1; apply length_zero_iff_nil; exact Q).
  split; [auto|]. constructor; cbn [new_tuner u_k u_req u_done u_warm u_target u_csteps]; [|exact K2|auto|unfold warmup_steps; lia].
  constructor; cbn [new_tuner u_k u_req]; [exact K1| |exact K3|exact HL|exact T6]. rewrite K2. apply lev_nested; assumption.
Qed.

Lemma tuner_run : forall e req k os, tuner_settings e req -> adjust_settings (t_a e) req = Ok k -> Forall measured os ->
  exists s, run_tuner e os (new_tuner e k req) = Ok s /\ ready e (k_rank req) s /\ (callbacks_bound e req <= Z.of_nat (length os) -> u_done s = true).
Proof.
  intros e req k os H E Ho. destruct (start_ready e req k H E) as ((A & B & C & D & F) & W).
  destruct (ready_run e (k_rank req) A B C D F os _ (or_intror (or_introl W)) Ho) as (s & Es & Hs & M). exists s. split; [exact Es|]. split; [exact Hs|].
  intros Hb. destruct (u_done s) eqn:Q; [reflexivity|]. exfalso. specialize (M eq_refl). pose proof (rem_pos e (k_rank req) A B C s Hs Q) as P.
  unfold rem in M at 2. cbn [new_tuner u_warm u_csteps] in M. unfold callbacks_bound in Hb. lia.
Qed.

Lemma tuner_legal : forall e req k os s, tuner_settings e req -> adjust_settings (t_a e) req = Ok k -> Forall measured os ->
  run_tuner e os (new_tuner e k req) = Ok s -> forall g, u_done s = false -> u_target s = Some g ->
  nested (z_d (get_outer g (u_k s))) (a_fold (t_a e)) (z_d (get_t g (u_k s))) /\
  NoDup (map fst (u_results s)) /\ ~ In (get_t g (u_k s)) (map fst (u_results s)) /\
  forall b, In b (map fst (u_results s)) -> nested (z_d (get_outer g (u_k s))) (a_fold (t_a e)) (z_d b).
Proof.
  intros e req k os s H E Ho Es g Hd Hg. destruct (tuner_run e req k os H E Ho) as (s' & Es' & Hr & _). rewrite Es in Es'. inversion Es'; subst s'. clear Es'.
  destruct (start_ready e req k H E) as ((A & B & C & D & F) & _).
  destruct Hr as [Hr|[Hr|(g' & Hr & Hf)]]; [congruence|destruct Hr as [_ _ (_ & _ & Q) _]; congruence|].
  assert (g' = g) by (pose proof (d_tgt _ _ _ _ Hr); congruence). subst g'. pose proof (d_known _ _ _ _ Hr) as Hk.
  destruct (cur_ok e (k_rank req) A B C g s Hr) as ((_ & V) & _ & _ & _). rewrite lv_out, lv_get by exact Hk. rewrite (b_rank _ _ (d_base _ _ _ _ Hr)).
  split; [exact V|]. split; [exact (d_nodup _ _ _ _ Hr)|]. split; [exact Hf|]. intros b Hb. apply in_map_iff in Hb. destruct Hb as (x & <- & Hx).
  pose proof (d_keys _ _ _ _ Hr) as K. rewrite Forall_forall in K. apply (K x Hx).
Qed.

Lemma tuner_step : forall e req k os o s, tuner_settings e req -> adjust_settings (t_a e) req = Ok k -> Forall measured os -> measured o ->
  run_tuner e os (new_tuner e k req) = Ok s -> forall g, u_done s = false -> u_target s = Some g ->
  exists s', eval e o s = Ok s' /\
    let tried := u_results s ++ [(get_t g (u_k s), o_rate o)] in
    (u_k s' = u_k s /\ u_results s' = u_results s /\ u_done s' = false /\ u_target s' = Some g /\ u_ti s' = u_ti s) \/
    (let new := get_t g (u_k s') in
     u_results s' = tried /\ u_done s' = false /\ u_target s' = Some g /\ u_ti s' = u_ti s /\
     z_d (get_outer g (u_k s')) = z_d (get_outer g (u_k s)) /\
     u_minp s <= zprod (z_d new) /\ u_minb s <= Z.quot (zprod (z_d (get_outer g (u_k s)))) (zprod (z_d new))) \/
    (best_of tried (get_t g (u_k s')) /\ (u_done s' = true \/ u_ti s' = S (u_ti s) /\ u_results s' = [])).
Proof.
  intros e req k os o s H E Ho Hm Es g Hd Hg. destruct (tuner_run e req k os H E Ho) as (s0 & Es' & Hr & _). rewrite Es in Es'. inversion Es'; subst s0. clear Es'.
  destruct (start_ready e req k H E) as ((A & B & C & D & F) & _).
  destruct Hr as [Hr|[Hr|(g' & Hr & Hf)]]; [congruence|destruct Hr as [_ _ (_ & _ & Q) _]; congruence|].
  assert (g' = g) by (pose proof (d_tgt _ _ _ _ Hr); congruence). subst g'. pose proof (d_known _ _ _ _ Hr) as Hk. destruct Hm as [O1 O2].
  destruct (eval_ok e (k_rank req) A B C D F g o s Hr Hf (mkObsOk o O1 O2)) as (s' & E' & St). exists s'. split; [exact E'|]. cbv zeta. rewrite !lv_get by exact Hk.
  fold (cur g s) (cur g s').
  destruct St as [D1 D2 D3 D4 D5 D6 D7|D1 D2 D3 D4 D5 D6 D7 D8 D9 D10 D11 D12|g' D1 D2 D3 D4 D5 D6|D1 D2 D3 D4 D5].
  - left. pose proof (d_flags _ _ _ _ D1) as (F1 & _). pose proof (d_tgt _ _ _ _ D1). auto.
  - right; left. pose proof (d_flags _ _ _ _ D1) as (F1 & _). rewrite !lv_out, (b_rank _ _ (d_base _ _ _ _ D1)), (b_rank _ _ (d_base _ _ _ _ Hr)).
    split; [exact D4|]. split; [exact F1|]. split; [exact (d_tgt _ _ _ _ D1)|]. split; [exact D3|]. split; [exact D6|]. split; [exact D10|]. unfold out in D6. rewrite <- D6. exact D11.
  - right; right. split; [exact D5|]. right. auto.
  - right; right. split; [exact D3|]. left. exact D1.
Qed.
Lemma tuner_stops : forall e req k os, tuner_settings e req -> adjust_settings (t_a e) req = Ok k -> Forall measured os ->
  exists s, run_tuner e os (new_tuner e k req) = Ok s /\ (callbacks_bound e req <= Z.of_nat (length os) -> u_done s = true).
Proof. intros e req k os A B C. destruct (tuner_run e req k os A B C) as (s & E & _ & D). exists s. auto. Qed.
