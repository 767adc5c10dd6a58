From Verif Require Import Base Idiv_Model Idiv_Proofs Tuple_Model Rank_Model Rank_Spec Rank_Proofs Exchange_Model Exchange_Spec Exchange_Proofs Dirty_Model Dirty_Spec.

(* ---- windows of valid steps ---- *)
Section Win.
  Variable n : Z.
  Hypothesis Hn : 1 <= n.
  Definition updl (l : list Z) (w : Z) : Z := fold_left (upd_first n) l w.
  Lemma upd_in : forall w t, upd_first n w t <= t <= upd_first n w t + n - 1.
  Proof. intros w t. unfold upd_first. destruct (t <? w) eqn:A; [lia|]. destruct (w + n - 1 <? t) eqn:B; lia. Qed.
  (* not wide enough for all steps: the order decides *)
  Lemma upd_left : forall M l w w', (forall t, In t l -> t <= M) -> In M l -> w + n - 1 < M -> w' + n - 1 < M -> updl l w = updl l w'.
  Proof.
    intros M l. induction l as [|t l IH]; intros w w' H I L L'; [destruct I|]. unfold updl. cbn [fold_left]. destruct (Z.eq_dec t M) as [->|Ne].
    - f_equal. unfold upd_first. replace (M <? w) with false by lia. replace (M <? w') with false by lia. replace (w + n - 1 <? M) with true by lia. replace (w' + n - 1 <? M) with true by lia. reflexivity.
    - assert (t < M) by (specialize (H t (or_introl eq_refl)); lia). apply IH; [intros; apply H; right; assumption|destruct I; [congruence|assumption]| |];
      unfold upd_first; [destruct (t <? w) eqn:A; destruct (w + n - 1 <? t) eqn:B|destruct (t <? w') eqn:A; destruct (w' + n - 1 <? t) eqn:B]; lia.
  Qed.
  Lemma upd_right : forall m l w w', (forall t, In t l -> m <= t) -> In m l -> m < w -> m < w' -> updl l w = updl l w'.
  Proof.
    intros m l. induction l as [|t l IH]; intros w w' H I L L'; [destruct I|]. unfold updl. cbn [fold_left]. destruct (Z.eq_dec t m) as [->|Ne].
    - f_equal. unfold upd_first. replace (m <? w) with true by lia. replace (m <? w') with true by lia. reflexivity.
    - assert (m < t) by (specialize (H t (or_introl eq_refl)); lia). apply IH; [intros; apply H; right; assumption|destruct I; [congruence|assumption]| |];
      unfold upd_first; [destruct (t <? w) eqn:A; destruct (w + n - 1 <? t) eqn:B|destruct (t <? w') eqn:A; destruct (w' + n - 1 <? t) eqn:B]; lia.
  Qed.
  Lemma upd_narrow : forall m M l w w', (forall t, In t l -> m <= t <= M) -> In m l -> In M l -> n < M - m + 1 -> updl l w = updl l w'.
  Proof.
    intros m M l. induction l as [|t l IH]; intros w w' H I I' L; [destruct I|].
    destruct (Z.eq_dec t m) as [->|N1].
    - unfold updl. cbn [fold_left]. pose proof (upd_in w m). pose proof (upd_in w' m). apply (upd_left M); [intros t It; apply (H t (or_intror It))|destruct I'; [lia|assumption]|lia|lia].
    - destruct (Z.eq_dec t M) as [->|N2].
      + unfold updl. cbn [fold_left]. pose proof (upd_in w M). pose proof (upd_in w' M). apply (upd_right m); [intros t It; apply (H t (or_intror It))|destruct I; [lia|assumption]|lia|lia].
      + unfold updl. cbn [fold_left]. apply IH; [intros; apply H; right; assumption|destruct I; [congruence|assumption]|destruct I'; [congruence|assumption]|exact L].
  Qed.
  (* wide enough *)
  Definition clampw (m M w : Z) : Z := if m <? w then m else if w + n - 1 <? M then M - n + 1 else w.
  Lemma clamp_upd : forall m M w t, M - m + 1 <= n -> m <= t <= M -> clampw m M (upd_first n w t) = clampw m M w.
  Proof. intros m M w t L H. unfold clampw, upd_first. destruct (t <? w) eqn:A; destruct (w + n - 1 <? t) eqn:B; destruct (m <? w) eqn:C; destruct (w + n - 1 <? M) eqn:D; try lia;
    repeat match goal with |- context [?x <? ?y] => destruct (x <? y) eqn:? end; lia. Qed.
  Lemma clamp_updl : forall m M l w, M - m + 1 <= n -> (forall t, In t l -> m <= t <= M) -> clampw m M (updl l w) = clampw m M w.
  Proof.
    intros m M l. induction l as [|t l IH]; intros w L H; [reflexivity|]. unfold updl. cbn [fold_left]. change (fold_left (upd_first n) l (upd_first n w t)) with (updl l (upd_first n w t)).
    rewrite IH; [apply clamp_upd; [exact L|apply H; left; reflexivity]|exact L|]. intros; apply H; right; assumption.
  Qed.
  Lemma updl_low : forall m M l w, M - m + 1 <= n -> (forall t, In t l -> m <= t <= M) -> (w <= m \/ In m l) -> updl l w <= m.
  Proof.
    intros m M l. induction l as [|t l IH]; intros w L H I; [destruct I as [I|[]]; exact I|]. unfold updl. cbn [fold_left]. apply IH; [exact L|intros; apply H; right; assumption|].
    specialize (H t (or_introl eq_refl)). pose proof (upd_in w t). destruct I as [I|[->|I]]; [left|left; lia|right; exact I].
    unfold upd_first in *. destruct (t <? w) eqn:A; destruct (w + n - 1 <? t) eqn:B; lia.
  Qed.
  Lemma updl_high : forall m M l w, M - m + 1 <= n -> (forall t, In t l -> m <= t <= M) -> (M <= w + n - 1 \/ In M l) -> M <= updl l w + n - 1.
  Proof.
    intros m M l. induction l as [|t l IH]; intros w L H I; [destruct I as [I|[]]; exact I|]. unfold updl. cbn [fold_left]. apply IH; [exact L|intros; apply H; right; assumption|].
    specialize (H t (or_introl eq_refl)). pose proof (upd_in w t). destruct I as [I|[->|I]]; [left|left; lia|right; exact I].
    unfold upd_first in *. destruct (t <? w) eqn:A; destruct (w + n - 1 <? t) eqn:B; lia.
  Qed.
  Lemma updl_wide : forall m M l w, M - m + 1 <= n -> (forall t, In t l -> m <= t <= M) -> In m l -> In M l -> updl l w = clampw m M w.
  Proof.
    intros m M l w L H I I'. rewrite <- (clamp_updl m M l w L H). pose proof (updl_low m M l w L H (or_intror I)). pose proof (updl_high m M l w L H (or_intror I')).
    unfold clampw. replace (m <? updl l w) with false by lia. replace (updl l w + n - 1 <? M) with false by lia. reflexivity.
  Qed.
  Lemma ex_min : forall (l : list Z), l <> [] -> exists m, In m l /\ forall t, In t l -> m <= t.
  Proof.
    intros l. induction l as [|x l IH]; [congruence|]. intros _. destruct l as [|y l]; [exists x; split; [left; reflexivity|intros t [->|[]]; lia]|].
    destruct IH as (m & I & H); [discriminate|]. destruct (Z.le_gt_cases x m); [exists x; split; [left; reflexivity|]|exists m; split; [right; exact I|]];
    intros t [->|It]; try lia; specialize (H t It); lia.
  Qed.
  Lemma ex_max : forall (l : list Z), l <> [] -> exists m, In m l /\ forall t, In t l -> t <= m.
  Proof.
    intros l. induction l as [|x l IH]; [congruence|]. intros _. destruct l as [|y l]; [exists x; split; [left; reflexivity|intros t [->|[]]; lia]|].
    destruct IH as (m & I & H); [discriminate|]. destruct (Z.le_gt_cases m x); [exists x; split; [left; reflexivity|]|exists m; split; [right; exact I|]];
    intros t [->|It]; try lia; specialize (H t It); lia.
  Qed.
  (* updates by some of the steps beforehand make no difference *)
  Lemma updl_absorb : forall outs l w, (forall t, In t l -> In t outs) -> updl outs (updl l w) = updl outs w.
  Proof.
    intros outs l w H. destruct outs as [|o outs]; [destruct l as [|t l]; [reflexivity|destruct (H t (or_introl eq_refl))]|].
    destruct (ex_min (o :: outs)) as (m & Im & Hm); [discriminate|]. destruct (ex_max (o :: outs)) as (M & IM & HM); [discriminate|].
    assert (forall t, In t (o :: outs) -> m <= t <= M) as B by (intros t It; specialize (Hm t It); specialize (HM t It); lia).
    destruct (Z.lt_ge_cases n (M - m + 1)) as [L|L].
    - apply (upd_narrow m M); assumption.
    - rewrite (updl_wide m M (o :: outs) (updl l w)), (updl_wide m M (o :: outs) w) by (assumption || lia). apply clamp_updl; [lia|]. intros t It. apply B, H, It.
  Qed.
End Win.

(* ---- points and slots ---- *)
Section Pts.
  Variable v : xvar.
  Definition is_step (d : xd) : bool := match d with XStep _ => true | _ => false end.
  Definition ats (ds : list xd) (q : list Z) : list Z := map (fun e : xd * Z => match fst e with XStep n => imod_flr (snd e) n | _ => snd e end) (combine ds q).
  Lemma step_alloc_eq : step_alloc v = match flat_map (fun d => match d with XStep n => [n] | _ => [] end) (v_dims v) with n :: _ => Some n | [] => None end.
  Proof. reflexivity. Qed.
  Lemma slot_of_at : forall q, length q = length (v_dims v) -> slot v (step_at (v_dims v) q) = step_at (v_dims v) (at_slot v q).
  Proof.
    intros q. unfold slot, at_slot. rewrite step_alloc_eq. revert q. induction (v_dims v) as [|d ds IH]; intros q L; [destruct q; [reflexivity|discriminate]|].
    destruct q as [|x q]; [discriminate|]. cbn [length] in L. injection L as L. destruct d; cbn [flat_map app step_at combine map fst snd]; [reflexivity|apply IH, L|apply IH, L].
  Qed.
  Lemma within_at : forall wl wr r p q, within wl wr v r p -> length q = length (v_dims v) -> at_slot v p = at_slot v q -> within wl wr v r q.
  Proof.
    intros wl wr r p q. unfold within, at_slot. revert p q. induction (v_dims v) as [|d ds IH]; intros p q H L E; [destruct q; [constructor|discriminate]|].
    inversion H as [|? x ? p' Hx H']; subst. destruct q as [|y q]; [discriminate|]. cbn [length] in L. injection L as L. cbn [combine map fst snd] in E. injection E as E1 E2.
    constructor; [|apply (IH p'); assumption]. destruct d; [exact I|subst; exact Hx|subst; exact Hx].
  Qed.
  Lemma within_len : forall wl wr r p, within wl wr v r p -> length p = length (v_dims v).
  Proof. intros wl wr r p H. unfold within in H. induction H; cbn; congruence. Qed.
  Lemma step_in_at : forall p l, step_in v p l -> step_alloc v <> None -> In (step_at (v_dims v) p) l.
  Proof.
    intros p l. unfold step_in. rewrite step_alloc_eq. revert p. induction (v_dims v) as [|d ds IH]; intros p H N; [exfalso; apply N; reflexivity|].
    inversion H as [|? x ? p' Hx H']; subst. destruct d; cbn [flat_map app step_at] in *; [exact Hx|apply IH; assumption|apply IH; assumption].
  Qed.
  Lemma slot_none : forall t, step_alloc v = None -> slot v t = 0.
  Proof. intros t E. unfold slot. rewrite E. reflexivity. Qed.
  Lemma step_in_slot : forall p t, step_in v p [t] -> slot v (step_at (v_dims v) p) = slot v t.
  Proof. intros p t H. destruct (step_alloc v) eqn:E; [|rewrite !slot_none by exact E; reflexivity]. destruct (step_in_at p [t] H ltac:(congruence)) as [->|[]]. reflexivity. Qed.
  Definition with_step (t : Z) (q : list Z) : list Z := map (fun e : xd * Z => match fst e with XStep _ => t | _ => snd e end) (combine (v_dims v) q).
  Lemma with_step_in : forall t q, length q = length (v_dims v) -> step_in v (with_step t q) [t].
  Proof.
    intros t q. unfold step_in, with_step. revert q. induction (v_dims v) as [|d ds IH]; intros q L; destruct q as [|x q]; try discriminate; [constructor|].
    cbn [combine map fst snd]. cbn [length] in L. injection L as L. constructor; [|apply IH, L]. destruct d; [left; reflexivity|exact I|exact I].
  Qed.
  Lemma with_step_len : forall t q, length q = length (v_dims v) -> length (with_step t q) = length (v_dims v).
  Proof. intros t q L. unfold with_step. rewrite map_length, combine_length. lia. Qed.
  Hypothesis One : one_step v.
  Lemma with_step_at : forall t q, length q = length (v_dims v) -> slot v t = slot v (step_at (v_dims v) q) -> at_slot v (with_step t q) = at_slot v q.
  Proof.
    intros t q. unfold at_slot, with_step, slot. rewrite step_alloc_eq. revert q. unfold one_step in One. revert One.
    assert (forall ds q, length (filter is_step ds) = 0%nat -> length q = length ds ->
      map (fun e : xd * Z => match fst e with XStep n => imod_flr (snd e) n | _ => snd e end) (combine ds (map (fun e : xd * Z => match fst e with XStep _ => t | _ => snd e end) (combine ds q))) =
      map (fun e : xd * Z => match fst e with XStep n => imod_flr (snd e) n | _ => snd e end) (combine ds q)) as Z0.
    { induction ds as [|d ds IH]; intros q F L; destruct q as [|x q]; try discriminate; [reflexivity|]. cbn [length] in L. injection L as L.
      destruct d; cbn [filter is_step length] in F; [discriminate| |]; cbn [combine map fst snd]; f_equal; apply IH; assumption. }
    induction (v_dims v) as [|d ds IH]; intros F q L E; destruct q as [|x q]; try discriminate; [reflexivity|]. cbn [length] in L. injection L as L.
    destruct d as [al| |]; cbn [filter length] in F; cbn [flat_map app step_at] in E; cbn [combine map fst snd].
    - rewrite E. f_equal. apply Z0; [|exact L]. unfold is_step. lia.
    - f_equal. apply IH; [lia|exact L|exact E].
    - f_equal. apply IH; [lia|exact L|exact E].
  Qed.
End Pts.

Section D.
  Variable S : xset.
  Variable given : list rank_in.
  Variable ranks : list xrank.
  Hypothesis Wf : ranks_wf (s_job S) given.
  Hypothesis Rd : job_ready S given ranks.
  Variable v : xvar.
  Hypothesis Iv : In v (s_vars S).
  Hypothesis One : one_step v.
  Hypothesis Al : aligned_ranks S ranks.
  Variable Val : Type.
  Variable ord : bool -> list (Z * Z) -> list (list Z).
  Hypothesis Or : order_ok ord.
  Notation rst := (rst Val).
  Notation gst := (xrank -> rst).

  Lemma alloc_pos : forall n, step_alloc v = Some n -> 1 <= n.
  Proof.
    intros n E. destruct Rd as (_ & F & _). pose proof (proj1 (Forall_forall _ _) F v Iv) as K. unfold xvar_ok in K. rewrite step_alloc_eq in E. clear - E K.
    induction K as [|d ds Hd K IH]; [discriminate|]. destruct d; cbn [flat_map app] in E; [injection E as ->; exact Hd|apply IH, E|apply IH, E].
  Qed.
  Lemma valid_cover : forall (s : rst) t, exists t', In t' (valid_steps v Val s) /\ slot v t' = slot v t.
  Proof.
    intros s t. unfold valid_steps. destruct (step_alloc v) as [n|] eqn:E; [|exists 0; split; [left; reflexivity|rewrite !slot_none by exact E; reflexivity]].
    pose proof (alloc_pos n E) as Hn. exists (r_first Val s + (t - r_first Val s) mod n). pose proof (Z.mod_pos_bound (t - r_first Val s) n ltac:(lia)). split; [apply zrange_In; lia|].
    unfold slot. rewrite E. rewrite !imod_flr_spec by lia. rewrite Zplus_mod_idemp_r. f_equal. lia.
  Qed.

  Lemma in_points : forall a b m steps p, In a ranks -> mpi_buf S false a b v = Some m ->
    (In p (points v ord m steps) <-> exists t q, In t steps /\ insl S a b v t q /\ p = at_slot v q).
  Proof.
    intros a b m steps p Ia E. unfold points. rewrite in_flat_map. split.
    - intros (t & It & H). apply in_map_iff in H. destruct H as (q & <- & Iq). exists t, q. split; [exact It|]. split; [|reflexivity].
      apply (in_step_box S given ranks Wf Rd ord Or a b v t q (mb_vec m) m Ia Iv E). exact Iq.
    - intros (t & q & It & H & ->). exists t. split; [exact It|]. apply in_map. apply (in_step_box S given ranks Wf Rd ord Or a b v t q (mb_vec m) m Ia Iv E). exact H.
  Qed.

  Section Ex.
    (* senders' and receivers' states, with the same steps to swap *)
    Variable st1 st2 : gst.
    Variable steps : list Z.
    Hypothesis E1 : forall a, In a ranks -> swap_steps v Val (st1 a) = steps.
    Hypothesis E2 : forall a, In a ranks -> swap_steps v Val (st2 a) = steps.
    Definition dirt (b : xrank) : bool := existsb (fun t => r_self Val (st1 b) (slot v t)) steps.
    Definition gotten (a b : xrank) (p : list Z) : Prop :=
      has_data S ranks a v = true /\ dirt b = true /\ mpi_buf S false a b v <> None /\ exists t q, In t steps /\ insl S a b v t q /\ p = at_slot v q.
    Lemma swap_dep : forall (s s' : rst), r_first Val s = r_first Val s' -> r_oth Val s = r_oth Val s' -> swap_steps v Val s = swap_steps v Val s'.
    Proof. intros s s' H H'. unfold swap_steps, valid_steps. rewrite H, H'. reflexivity. Qed.
    Lemma recv_one : forall a b (s : rst), In a ranks -> In b ranks -> adj S a b -> r_first Val s = r_first Val (st2 a) -> r_oth Val s = r_oth Val (st2 a) ->
      exists s', receive S ranks v Val ord (message S ranks v Val ord st1) a b s = Ok s' /\ r_first Val s' = r_first Val s /\ r_oth Val s' = r_oth Val s /\ r_self Val s' = r_self Val s /\
        forall p, (gotten a b p /\ r_vals Val s' p = r_vals Val (st1 b) p) \/ (~ gotten a b p /\ r_vals Val s' p = r_vals Val s p).
    Proof.
      intros a b s Ia Ib Ad F O. unfold receive, message, swaps. rewrite (swap_dep s (st2 a) F O), E1, E2 by assumption. rewrite (same_vars S given ranks Wf Rd b a v Ib Ia Iv).
      rewrite (agree S given ranks Wf Rd b a v Ib Ia (adj_sym S a b Ad) Iv). unfold gotten.
      destruct (has_data S ranks a v) eqn:Hd; cbn [andb]; [|exists s; repeat split; intros p; right; split; [intros (X & _); discriminate|reflexivity]].
      destruct (length steps =? 0)%nat eqn:L; cbn [negb].
      { exists s. repeat split. intros p. right. split; [|reflexivity]. intros (_ & _ & _ & t & q & It & _). apply Nat.eqb_eq in L. destruct steps; [destruct It|discriminate]. }
      destruct (mpi_buf S false a b v) as [m|] eqn:Em; [|exists s; repeat split; intros p; right; split; [intros (_ & _ & X & _); congruence|reflexivity]].
      fold (dirt b). destruct (dirt b) eqn:Db; [|exists s; repeat split; intros p; right; split; [intros (_ & X & _); discriminate|reflexivity]].
      assert (forall p, In p (points v ord m steps) <-> exists t q, In t steps /\ insl S a b v t q /\ p = at_slot v q) as Ip by (intros p; apply in_points; assumption).
      destruct (map (r_vals Val (st1 b)) (points v ord m steps)) as [|x data] eqn:Ed.
      - exists s. repeat split. intros p. right. split; [|reflexivity]. intros (_ & _ & _ & X). apply Ip in X. destruct (points v ord m steps); [destruct X|discriminate].
      - destruct (put_spec Val (points v ord m steps) (r_vals Val (st1 b)) [] (r_vals Val s)) as (vals' & Ep & Hp). rewrite app_nil_r, Ed in Ep. rewrite Ep.
        eexists. split; [reflexivity|]. cbn [r_first r_oth r_self r_vals]. repeat split. intros p. destruct (Hp p) as [(I & V)|(I & V)]; rewrite Ip in I.
        + left. split; [|exact V]. repeat split; try assumption; congruence.
        + right. split; [|exact V]. intros (_ & _ & _ & X). exact (I X).
    Qed.
    Lemma recv_many : forall a l (s : rst), In a ranks -> (forall b, In b l -> In b ranks /\ adj S a b) -> r_first Val s = r_first Val (st2 a) -> r_oth Val s = r_oth Val (st2 a) ->
      exists s', fold_left (fun acc b => rbind acc (receive S ranks v Val ord (message S ranks v Val ord st1) a b)) l (Ok s) = Ok s' /\
        r_first Val s' = r_first Val s /\ r_oth Val s' = r_oth Val s /\ r_self Val s' = r_self Val s /\
        forall p, (exists b, In b l /\ gotten a b p /\ r_vals Val s' p = r_vals Val (st1 b) p) \/ ((forall b, In b l -> ~ gotten a b p) /\ r_vals Val s' p = r_vals Val s p).
    Proof.
      intros a l. induction l as [|b l IH]; intros s Ia H F O; cbn [fold_left].
      - exists s. repeat split. intros p. right. split; [intros b []|reflexivity].
      - cbn [rbind]. destruct (H b (or_introl eq_refl)) as (Ib & Ad). destruct (recv_one a b s Ia Ib Ad F O) as (s1 & R1 & F1 & O1 & S1 & V1). rewrite R1.
        destruct (IH s1 Ia) as (s2 & R2 & F2 & O2 & S2 & V2); [intros; apply H; right; assumption|congruence|congruence|].
        exists s2. split; [exact R2|]. split; [congruence|]. split; [congruence|]. split; [congruence|]. intros p.
        destruct (V2 p) as [(b' & Ib' & G & E)|(N & E)]; [left; exists b'; split; [right; exact Ib'|split; assumption]|].
        destruct (V1 p) as [(G & E')|(G & E')].
        + left. exists b. split; [left; reflexivity|]. split; [exact G|congruence].
        + right. split; [intros b' [<-|Ib']; [exact G|apply N, Ib']|congruence].
    Qed.
    Definition sw (a : xrank) : bool := has_data S ranks a v && negb (length steps =? 0)%nat.
    Definition after (a : xrank) (s' : rst) : Prop :=
      r_first Val s' = r_first Val (st2 a) /\ (if sw a then (forall k, r_self Val s' k = false) /\ (forall k, r_oth Val s' k = false) else r_self Val s' = r_self Val (st2 a) /\ r_oth Val s' = r_oth Val (st2 a)) /\
      forall p, (exists b, In b (neighbors S ranks a) /\ gotten a b p /\ r_vals Val s' p = r_vals Val (st1 b) p) \/ ((forall b, In b (neighbors S ranks a) -> ~ gotten a b p) /\ r_vals Val s' p = r_vals Val (st2 a) p).
    Lemma recv_all : forall a, In a ranks -> exists s', receive_all S ranks v Val ord (message S ranks v Val ord st1) a (st2 a) = Ok s' /\ after a s'.
    Proof.
      intros a Ia. unfold receive_all. destruct (recv_many a (neighbors S ranks a) (st2 a) Ia) as (s' & R & F & O & Sf & V); [|reflexivity|reflexivity|].
      { intros b Ib. apply (neighbors_In S given ranks Wf Rd a b Ia) in Ib. tauto. }
      rewrite R. cbn [rbind]. eexists. split; [reflexivity|]. unfold after, swaps. rewrite (swap_dep s' (st2 a) F O), E2 by exact Ia. fold (sw a).
      destruct (sw a); cbn [clean r_first r_self r_oth r_vals]; repeat split; auto.
    Qed.
    Lemma unpack_all : exists st', unpack_ranks S ranks v Val ord (message S ranks v Val ord st1) st2 = Ok st' /\ forall a, In a ranks -> after a (st' a).
    Proof.
      unfold unpack_ranks. set (M := message S ranks v Val ord st1). set (f := fun a => match receive_all S ranks v Val ord M a (st2 a) with Ok s => s | _ => st2 a end).
      exists f. split.
      - assert (forall l, (forall a, In a l -> In a ranks) -> fold_right (fun a acc => rbind (receive_all S ranks v Val ord M a (st2 a)) (fun _ => acc)) (Ok f) l = Ok f) as W.
        { induction l as [|a l IH]; intros H; [reflexivity|]. cbn [fold_right]. destruct (recv_all a (H a (or_introl eq_refl))) as (s' & R & _). fold M in R. rewrite R. cbn [rbind]. apply IH. intros; apply H; right; assumption. }
        apply W. auto.
      - intros a Ia. unfold f. destruct (recv_all a Ia) as (s' & R & A). fold M in R. rewrite R. exact A.
    Qed.
  End Ex.

  (* ---- writes ---- *)
  Notation get := (get v Val).
  Notation written := (written v Val).
  Lemma last_app : forall (l1 l2 : list Val) d, last (l1 ++ l2) d = last l2 (last l1 d).
  Proof.
    intros l1 l2 d. revert d. induction l1 as [|x l1 IH]; intros d; [reflexivity|]. cbn [app]. assert (forall l : list Val, last (x :: l) d = last l x) as W.
    { clear. intros l. revert x d. induction l as [|y l IH]; intros x d; [reflexivity|]. change (last (x :: y :: l) d) with (last (y :: l) d). rewrite IH. symmetry. apply IH. }
    rewrite !W. apply IH.
  Qed.
  Lemma written_app : forall q l1 l2, written q (l1 ++ l2) = written q l1 ++ written q l2.
  Proof. intros. unfold Dirty_Spec.written. rewrite filter_app, map_app. reflexivity. Qed.
  Lemma written_nil : forall q l, (forall e, In e l -> at_slot v (fst e) <> at_slot v q) -> written q l = [].
  Proof.
    intros q l H. unfold Dirty_Spec.written. induction l as [|e l IH]; [reflexivity|]. cbn [filter]. destruct (list_eq_dec Z.eq_dec _ _) as [E|E]; [exfalso; exact (H e (or_introl eq_refl) E)|].
    apply IH. intros; apply H; right; assumption.
  Qed.
  Lemma get_write : forall p x (s : rst) q, get (write v Val p x s) q = last (written q [(p, x)]) (get s q).
  Proof.
    intros p x s q. unfold Dirty_Model.get, write, Dirty_Spec.written. cbn [r_vals filter fst]. destruct (list_eq_dec Z.eq_dec (at_slot v q) (at_slot v p)) as [E|E];
    destruct (list_eq_dec Z.eq_dec (at_slot v p) (at_slot v q)) as [E'|E']; try congruence; reflexivity.
  Qed.
  Lemma writes_spec : forall w (s : rst), r_first Val (writes v Val w s) = r_first Val s /\ r_self Val (writes v Val w s) = r_self Val s /\ r_oth Val (writes v Val w s) = r_oth Val s /\
    forall q, get (writes v Val w s) q = last (written q w) (get s q).
  Proof.
    induction w as [|(p, x) w IH]; intros s; [repeat split|]. unfold writes. cbn [fold_left fst snd]. change (fold_left _ w ?z) with (writes v Val w z).
    destruct (IH (write v Val p x s)) as (A & B & C & D). repeat split; [exact A|exact B|exact C|]. intros q. rewrite D, get_write. change ((p, x) :: w) with ([(p, x)] ++ w). rewrite written_app, last_app. reflexivity.
  Qed.
  (* windows *)
  Definition wupd (l : list Z) (w : Z) : Z := match step_alloc v with Some n => updl n l w | None => w end.
  Lemma wupd_app : forall l1 l2 w, wupd (l1 ++ l2) w = wupd l2 (wupd l1 w).
  Proof. intros. unfold wupd. destruct (step_alloc v); [|reflexivity]. unfold updl. apply fold_left_app. Qed.
  Lemma wupd_absorb : forall outs l w, (forall t, In t l -> In t outs) -> wupd outs (wupd l w) = wupd outs w.
  Proof. intros outs l w H. unfold wupd. destruct (step_alloc v) as [n|] eqn:E; [|reflexivity]. apply updl_absorb; [exact (alloc_pos n E)|exact H]. Qed.
  Lemma update_valid_spec : forall t (s : rst), r_first Val (update_valid v Val t s) = wupd [t] (r_first Val s) /\ r_self Val (update_valid v Val t s) = r_self Val s /\
    r_oth Val (update_valid v Val t s) = r_oth Val s /\ r_vals Val (update_valid v Val t s) = r_vals Val s.
  Proof. intros t s. unfold update_valid, wupd. destruct (step_alloc v); repeat split. Qed.
  Lemma fset_true : forall f k i, fset f k i = true <-> i = k \/ f i = true.
  Proof. intros f k i. unfold fset. destruct (i =? k) eqn:E; [split; [intros _; left; lia|reflexivity]|]. split; [right; assumption|intros [H|H]; [lia|exact H]]. Qed.
  Lemma set_dirty_spec : forall o t (s : rst), r_first Val (set_dirty v Val o t s) = wupd [t] (r_first Val s) /\ r_vals Val (set_dirty v Val o t s) = r_vals Val s /\
    (forall k, r_self Val (set_dirty v Val o t s) k = true <-> (o = false /\ k = slot v t) \/ r_self Val s k = true) /\
    (forall k, r_oth Val (set_dirty v Val o t s) k = true <-> (o = true /\ k = slot v t) \/ r_oth Val s k = true).
  Proof.
    intros o t s. unfold set_dirty. destruct (update_valid_spec t s) as (A & B & C & D). destruct o; cbn [r_first r_vals r_self r_oth]; rewrite A, D, ?B, ?C; repeat split; intros; rewrite ?fset_true in *; intuition congruence.
  Qed.
  Lemma set_dirties_spec : forall l (s : rst), let s' := fold_left (fun s t => set_dirty v Val false t s) l s in
    r_first Val s' = wupd l (r_first Val s) /\ r_vals Val s' = r_vals Val s /\ r_oth Val s' = r_oth Val s /\
    (forall k, r_self Val s' k = true <-> (exists t, In t l /\ k = slot v t) \/ r_self Val s k = true).
  Proof.
    induction l as [|t l IH]; intros s; cbn [fold_left] in *; cbv zeta in *.
    - split; [unfold wupd; destruct (step_alloc v); reflexivity|]. repeat split; auto. intros [(t & [] & _)|H]; exact H.
    - destruct (IH (set_dirty v Val false t s)) as (A & B & C & D). destruct (set_dirty_spec false t s) as (A' & B' & C' & D').
      split; [rewrite A, A'; change (t :: l) with ([t] ++ l); rewrite wupd_app; reflexivity|]. split; [congruence|].
      split; [rewrite C; unfold set_dirty; cbn [r_oth]; exact (proj1 (proj2 (proj2 (update_valid_spec t s))))|].
      intros k. rewrite D, C'. split.
      + intros [(t' & I & E)|[(_ & E)|E]]; [left; exists t'; split; [right; exact I|exact E]|left; exists t; split; [left; reflexivity|exact E]|right; exact E].
      + intros [(t' & [<-|I] & E)|E]; [right; left; auto|left; exists t'; auto|right; right; exact E].
  Qed.
  Lemma calls_spec : forall mark l (s : rst), let s' := calls v Val mark l s in
    r_first Val s' = (if mark then wupd (map fst l) (r_first Val s) else r_first Val s) /\ r_oth Val s' = r_oth Val s /\
    (forall k, r_self Val s' k = true <-> (mark = true /\ exists c, In c l /\ k = slot v (fst c)) \/ r_self Val s k = true) /\
    (forall q, get s' q = last (written q (flat_map snd l)) (get s q)).
  Proof.
    intros mark. induction l as [|c l IH]; intros s; cbv zeta in *; unfold calls; cbn [fold_left].
    - cbn [map flat_map]. split; [destruct mark; [unfold wupd; destruct (step_alloc v); reflexivity|reflexivity]|]. repeat split; auto. intros [(_ & c & [] & _)|H]; exact H.
    - change (fold_left _ l ?z) with (calls v Val mark l z). destruct (writes_spec (snd c) s) as (W1 & W2 & W3 & W4).
      set (s1 := if mark then set_dirty v Val false (fst c) (writes v Val (snd c) s) else writes v Val (snd c) s).
      destruct (IH s1) as (A & B & C & D). destruct (set_dirty_spec false (fst c) (writes v Val (snd c) s)) as (A' & B' & C' & _).
      assert (r_oth Val (set_dirty v Val false (fst c) (writes v Val (snd c) s)) = r_oth Val s) as O'.
      { unfold set_dirty. cbn [r_oth]. rewrite (proj1 (proj2 (proj2 (update_valid_spec (fst c) (writes v Val (snd c) s))))). exact W3. }
      split; [|split; [|split]].
      + rewrite A. unfold s1. destruct mark; [|exact W1]. rewrite A', W1. cbn [map]. change (fst c :: map fst l) with ([fst c] ++ map fst l). rewrite wupd_app. reflexivity.
      + rewrite B. unfold s1. destruct mark; [exact O'|exact W3].
      + intros k. rewrite C. unfold s1. destruct mark.
        * rewrite C', W2. split.
          -- intros [(_ & c' & I & E)|[(_ & E)|E]]; [left; split; [reflexivity|]; exists c'; split; [right; exact I|exact E]|left; split; [reflexivity|]; exists c; split; [left; reflexivity|exact E]|right; exact E].
          -- intros [(_ & c' & [<-|I] & E)|E]; [right; left; auto|left; split; [reflexivity|]; exists c'; auto|right; right; exact E].
        * rewrite W2. split; intros [(X & _)|E]; try discriminate; right; exact E.
      + intros q. rewrite D. cbn [flat_map]. rewrite written_app, last_app. f_equal. rewrite <- W4. unfold s1. destruct mark; [|reflexivity]. unfold Dirty_Model.get. rewrite B'. reflexivity.
  Qed.
  Lemma info_spec : forall mark outs (s : rst), let s' := update_var_info v Val mark outs s in
    r_first Val s' = wupd outs (r_first Val s) /\ r_self Val s' = r_self Val s /\ r_vals Val s' = r_vals Val s /\
    (forall k, r_oth Val s' k = true <-> (mark = true /\ exists t, In t outs /\ k = slot v t) \/ r_oth Val s k = true).
  Proof.
    intros mark. induction outs as [|t outs IH]; intros s; cbv zeta in *; unfold update_var_info; cbn [fold_left].
    - split; [unfold wupd; destruct (step_alloc v); reflexivity|]. repeat split; auto. intros [(_ & c & [] & _)|H]; exact H.
    - change (fold_left _ outs ?z) with (update_var_info v Val mark outs z). set (s1 := if mark then set_dirty v Val true t s else s).
      destruct (IH (update_valid v Val t s1)) as (A & B & C & D). destruct (update_valid_spec t s1) as (A1 & B1 & C1 & D1). destruct (set_dirty_spec true t s) as (A' & B' & _ & D').
      split; [|split; [|split]].
      + rewrite A, A1. change (t :: outs) with ([t] ++ outs). rewrite (wupd_app [t] outs (r_first Val s)). f_equal. unfold s1. destruct mark; [|reflexivity]. rewrite A'. apply wupd_absorb. auto.
      + rewrite B, B1. unfold s1. destruct mark; [|reflexivity]. unfold set_dirty. cbn [r_self]. exact (proj1 (proj2 (update_valid_spec t s))).
      + rewrite C, D1. unfold s1. destruct mark; [exact B'|reflexivity].
      + intros k. rewrite D, C1. unfold s1. destruct mark.
        * rewrite D'. split.
          -- intros [(_ & c' & I & E)|[(_ & E)|E]]; [left; split; [reflexivity|]; exists c'; split; [right; exact I|exact E]|left; split; [reflexivity|]; exists t; split; [left; reflexivity|exact E]|right; exact E].
          -- intros [(_ & c' & [<-|I] & E)|E]; [right; left; auto|left; split; [reflexivity|]; exists c'; auto|right; right; exact E].
        * split; intros [(X & _)|E]; try discriminate; right; exact E.
  Qed.

  (* ---- invariants ---- *)
  Notation halo_of := (halo_of S ranks v).
  Notation owners_agree := (owners_agree ranks v Val).
  Definition winI (st : gst) : Prop := forall a b, In a ranks -> In b ranks -> r_first Val (st a) = r_first Val (st b).
  Definition ownI (st : gst) : Prop := forall a b q, In a ranks -> In b ranks -> owns v a q -> owns v b q -> get (st a) q = get (st b) q.
  Definition freshI (st : gst) : Prop := forall a b q, halo_of a b q -> get (st a) q = get (st b) q.
  Definition markI (st : gst) : Prop := forall a b q, halo_of a b q -> r_self Val (st b) (slot v (step_at (v_dims v) q)) = true \/ get (st a) q = get (st b) q.
  Definition othI (st : gst) : Prop := forall a b k, In a ranks -> In b ranks -> r_oth Val (st a) k = r_oth Val (st b) k.
  Definition subI (st : gst) : Prop := forall a k, In a ranks -> r_self Val (st a) k = true -> r_oth Val (st a) k = true.

  Lemma in_halo_len : forall a b q, halo_of a b q -> length q = length (v_dims v).
  Proof. intros a b q (_ & _ & _ & O & _). exact (within_len v _ _ _ _ O). Qed.
  Lemma halo_at : forall a b p q, halo_of a b q -> length p = length (v_dims v) -> at_slot v p = at_slot v q -> halo_of a b p.
  Proof.
    intros a b p q H L E. pose proof (in_halo_len a b q H) as Lq. destruct H as (Ia & Ib & Nx & O & Hh & N). repeat split; try assumption; try (exact (proj1 Nx) || exact (proj1 (proj2 Nx)) || exact (proj1 (proj2 (proj2 Nx))) || exact (proj2 (proj2 (proj2 Nx)))).
    - apply (within_at v _ _ b q p); [exact O|exact L|congruence].
    - apply (within_at v _ _ a q p); [exact Hh|exact L|congruence].
    - intros X. apply N. apply (within_at v _ _ a p q); assumption.
  Qed.
  Lemma insl_len : forall a b t q, insl S a b v t q -> length q = length (v_dims v).
  Proof. intros a b t q H. unfold insl in H. induction H; cbn; congruence. Qed.
  Lemma swap_eq : forall st a b, winI st -> othI st -> In a ranks -> In b ranks -> swap_steps v Val (st a) = swap_steps v Val (st b).
  Proof. intros st a b W O Ia Ib. unfold swap_steps, valid_steps. rewrite (W a b Ia Ib). apply filter_ext. intros t. apply O; assumption. Qed.

  (* st1: the state when messages are packed; st2: when they are unpacked *)
  Lemma exchange_inv : forall st1 st2, winI st1 -> othI st1 -> subI st1 -> markI st1 -> ownI st1 ->
    (forall a, In a ranks -> r_first Val (st2 a) = r_first Val (st1 a) /\ (forall k, r_self Val (st2 a) k = r_self Val (st1 a) k) /\ (forall k, r_oth Val (st2 a) k = r_oth Val (st1 a) k)) ->
    (forall a b q, halo_of a b q -> get (st2 a) q = get (st1 a) q /\ get (st2 b) q = get (st1 b) q) -> ownI st2 ->
    exists st', unpack_ranks S ranks v Val ord (message S ranks v Val ord st1) st2 = Ok st' /\ winI st' /\ othI st' /\ subI st' /\ freshI st' /\ ownI st' /\
      forall a q, In a ranks -> owns v a q -> get (st' a) q = get (st2 a) q.
  Proof.
    intros st1 st2 W O Sb Mk Ow Sm Hv Ow2.
    assert (forall a, In a ranks -> swap_steps v Val (st2 a) = swap_steps v Val (st1 a)) as Sw.
    { intros a Ia. destruct (Sm a Ia) as (A & _ & B). unfold swap_steps, valid_steps. rewrite A. apply filter_ext. intros t. apply B. }
    set (steps := match ranks with a :: _ => swap_steps v Val (st1 a) | [] => [] end).
    assert (forall a, In a ranks -> swap_steps v Val (st1 a) = steps) as E1.
    { intros a Ia. unfold steps. destruct ranks as [|r rs] eqn:Er; [destruct Ia|]. rewrite <- Er in *. apply swap_eq; auto. rewrite Er. left. reflexivity. }
    destruct (unpack_all st1 st2 steps E1) as (st' & R & Af); [intros a Ia; rewrite Sw; auto|]. exists st'. split; [exact R|].
    assert (forall a, In a ranks -> r_first Val (st' a) = r_first Val (st1 a)) as F'. { intros a Ia. destruct (Af a Ia) as (X & _). destruct (Sm a Ia) as (Y & _). congruence. }
    assert (forall a q, In a ranks -> owns v a q -> get (st' a) q = get (st2 a) q) as Own.
    { intros a q Ia Oa. destruct (Af a Ia) as (_ & _ & V). unfold Dirty_Model.get. destruct (V (at_slot v q)) as [(b & Ib & (_ & _ & M & t & p & It & Ip & Ep) & _)|(_ & X)]; [exfalso|exact X].
      apply (neighbors_In S given ranks Wf Rd a b Ia) in Ib. destruct Ib as (Ib & Ad & _). destruct (mpi_buf S false a b v) as [m|] eqn:Em; [|congruence].
      destruct (buf_some S given ranks Wf Rd false a b v m Ia Iv Em) as (_ & _ & j & vlen & lh & rh & Id & D).
      apply (own_not S given ranks Wf Rd a b v t p j vlen lh rh Ia Ib Ad Iv Id D); [|exact Ip]. apply (within_at v _ _ a q p); [exact Oa|exact (insl_len _ _ _ _ Ip)|exact Ep]. }
    split; [intros a b Ia Ib; rewrite !F' by assumption; apply W; assumption|].
    assert (forall a b, In a ranks -> In b ranks -> sw steps a = sw steps b) as Sww. { intros a b Ia Ib. unfold sw. rewrite (same_vars S given ranks Wf Rd a b v Ia Ib Iv). reflexivity. }
    split. { intros a b k Ia Ib. destruct (Af a Ia) as (_ & A & _). destruct (Af b Ib) as (_ & B & _). rewrite (Sww a b Ia Ib) in A. destruct (sw steps b).
      - rewrite (proj2 A), (proj2 B). reflexivity.
      - rewrite (proj2 A), (proj2 B). destruct (Sm a Ia) as (_ & _ & X). destruct (Sm b Ib) as (_ & _ & Y). rewrite X, Y. apply O; assumption. }
    split. { intros a k Ia. destruct (Af a Ia) as (_ & A & _). destruct (sw steps a); [rewrite (proj1 A); discriminate|]. rewrite (proj1 A), (proj2 A). destruct (Sm a Ia) as (_ & X & Y). rewrite X, Y. apply Sb, Ia. }
    split.
    { intros a b q H. pose proof H as (Ia & Ib & Nx & Ob & Hh & Na). pose proof (in_halo_len a b q H) as Lq. destruct (Hv a b q H) as (Va & Vb). rewrite (Own b q Ib Ob), Vb.
      destruct (Af a Ia) as (_ & _ & V). change (r_vals Val (st' a) (at_slot v q) = get (st1 b) q). destruct (V (at_slot v q)) as [(b' & Ib' & (_ & _ & M & t & p & It & Ip & Ep) & X)|(N & X)].
      - rewrite X. change (get (st1 b') q = get (st1 b) q). apply (neighbors_In S given ranks Wf Rd a b' Ia) in Ib'. destruct Ib' as (Ib' & Ad & _).
        pose proof (insl_len _ _ _ _ Ip) as Lp. apply Ow; [assumption|assumption| |assumption]. apply (within_at v _ _ b' p q); [|exact Lq|congruence].
        apply (insl_owner S given ranks Wf Rd a b' v t p b Ia Ib' Ib Ad Iv Al); [|exact Ip]. apply (within_at v _ _ b q p); [exact Ob|exact Lp|exact Ep].
      - rewrite X. change (get (st2 a) q = get (st1 b) q). rewrite Va. destruct (Mk a b q H) as [Sf|E]; [exfalso|exact E].
        destruct (next_adj S given ranks Wf Rd _ a b Ia Ib Nx) as (Ad & Md & Dj).
        destruct (valid_cover (st1 b) (step_at (v_dims v) q)) as (t & It & Et).
        assert (In t steps) as Its. { rewrite <- (E1 b Ib). unfold swap_steps. apply filter_In. split; [exact It|]. rewrite Et. apply Sb; assumption. }
        set (p := with_step v t q). pose proof (with_step_len v t q Lq) as Lp. fold p in Lp. pose proof (with_step_at v One t q Lq Et) as Ep. fold p in Ep.
        pose proof (halo_at a b p q H Lp Ep) as (_ & _ & _ & Ob' & Hh' & Na'). pose proof (with_step_in v t q Lq) as Hs. fold p in Hs.
        assert (In b (neighbors S ranks a)) as Nb by (apply (neighbors_In S given ranks Wf Rd a b Ia); auto).
        destruct (buf_exists S given ranks Wf Rd a b v t p (shift_pts S a) Ia Ib Ad Iv ltac:(intros; lia) Ob' Hh' Hs Na' Md) as (m & Em).
        apply (N b Nb). split; [|split; [|split]].
        + apply (has_iff S ranks a v Ia Iv). exists b, false. split; [exact Nb|congruence].
        + unfold dirt. apply existsb_exists. exists t. split; [exact Its|]. rewrite Et. exact Sf.
        + congruence.
        + exists t, p. split; [exact Its|]. split; [|congruence]. apply (insl_cover S given ranks Wf Rd a b v t p (shift_pts S a) Ia Ib Ad Iv ltac:(intros; lia) Ob' Hh' Hs). }
    split; [|exact Own]. intros a b q Ia Ib Oa Ob. rewrite !Own by assumption. apply Ow2; assumption.
  Qed.

  Definition lastw (q : list Z) (w : list (list Z * Val)) (x : Val) : Val := last (written q w) x.
  Lemma lastw_app : forall q w1 w2 x, lastw q (w1 ++ w2) x = lastw q w2 (lastw q w1 x).
  Proof. intros. unfold lastw. rewrite written_app. apply last_app. Qed.
  Lemma lastw_nil : forall q w x, (forall e, In e w -> at_slot v (fst e) <> at_slot v q) -> lastw q w x = x.
  Proof. intros q w x H. unfold lastw. rewrite written_nil by exact H. reflexivity. Qed.
  Lemma own_writes : forall (st st' : gst) w, ownI st -> owners_agree w -> (forall a q, In a ranks -> get (st' a) q = lastw q (w a) (get (st a) q)) -> ownI st'.
  Proof. intros st st' w O A E a b q Ia Ib Oa Ob. rewrite !E by assumption. unfold lastw. rewrite (A a b q Ia Ib Oa Ob), (O a b q Ia Ib Oa Ob). reflexivity. Qed.
  Lemma agree_app : forall w w', owners_agree w -> owners_agree w' -> owners_agree (fun a => w a ++ w' a).
  Proof. intros w w' A A' a b q Ia Ib Oa Ob. rewrite !written_app, (A a b q), (A' a b q) by assumption. reflexivity. Qed.

  Definition runI (st : gst) : Prop := winI st /\ othI st /\ subI st /\ freshI st /\ ownI st.

  Lemma marked_phase : forall (st st1 : gst) cl outs, runI st ->
    (forall a, In a ranks -> st1 a = update_var_info v Val true outs (calls v Val true (cl a) (st a))) ->
    (forall a c e, In a ranks -> In c (cl a) -> In e (snd c) -> step_in v (fst e) [fst c]) ->
    (forall a c, In a ranks -> In c (cl a) -> In (fst c) outs) ->
    (forall a c e b, In a ranks -> In c (cl a) -> In e (snd c) -> In b ranks -> owns v b (fst e) -> owns v a (fst e) \/ exists c', In c' (cl b) /\ fst c' = fst c) ->
    owners_agree (fun a => flat_map snd (cl a)) ->
    winI st1 /\ othI st1 /\ subI st1 /\ markI st1 /\ ownI st1 /\ (forall a, In a ranks -> r_first Val (st1 a) = wupd outs (r_first Val (st a))) /\
    (forall a q, In a ranks -> get (st1 a) q = lastw q (flat_map snd (cl a)) (get (st a) q)).
  Proof.
    intros st st1 cl outs (W & O & Sb & Fr & Ow) E Hs Ho Hw Ha.
    assert (forall a, In a ranks -> r_first Val (st1 a) = wupd outs (r_first Val (st a)) /\
      (forall k, r_self Val (st1 a) k = true <-> (exists c, In c (cl a) /\ k = slot v (fst c)) \/ r_self Val (st a) k = true) /\
      (forall k, r_oth Val (st1 a) k = true <-> (exists t, In t outs /\ k = slot v t) \/ r_oth Val (st a) k = true) /\
      forall q, get (st1 a) q = lastw q (flat_map snd (cl a)) (get (st a) q)) as K.
    { intros a Ia. rewrite (E a Ia). destruct (calls_spec true (cl a) (st a)) as (A & B & C & D). destruct (info_spec true outs (calls v Val true (cl a) (st a))) as (A' & B' & C' & D').
      split; [rewrite A', A; apply wupd_absorb; intros t It; apply in_map_iff in It; destruct It as (c & <- & Ic); exact (Ho a c Ia Ic)|].
      split; [intros k; rewrite B', C; split; (intros [X|X]; [left; tauto|right; exact X])|].
      split; [intros k; rewrite D', B; split; (intros [X|X]; [left; tauto|right; exact X])|].
      intros q. unfold Dirty_Model.get at 1. rewrite C'. apply D. }
    assert (forall a q, In a ranks -> get (st1 a) q = lastw q (flat_map snd (cl a)) (get (st a) q)) as Kv by (intros a q Ia; apply (K a Ia)).
    split. { intros a b Ia Ib. rewrite (proj1 (K a Ia)), (proj1 (K b Ib)), (W a b Ia Ib). reflexivity. }
    split. { intros a b k Ia Ib. apply eq_true_iff_eq. destruct (K a Ia) as (_ & _ & X & _). destruct (K b Ib) as (_ & _ & Y & _). rewrite X, Y, (O a b k Ia Ib). tauto. }
    split. { intros a k Ia H. destruct (K a Ia) as (_ & X & Y & _). apply Y. apply X in H. destruct H as [(c & Ic & Ek)|H]; [left; exists (fst c); split; [exact (Ho a c Ia Ic)|exact Ek]|right; apply Sb; assumption]. }
    split.
    { intros a b q H. pose proof (in_halo_len a b q H) as Lq. pose proof H as (Ia & Ib & Nx & Ob & Hh & Na). destruct (K b Ib) as (_ & Sf & _ & _).
      destruct (existsb (fun c => slot v (fst c) =? slot v (step_at (v_dims v) q)) (cl b)) eqn:Ex.
      - left. apply existsb_exists in Ex. destruct Ex as (c & Ic & Ec). apply Sf. left. exists c. split; [exact Ic|lia].
      - right. assert (forall c, In c (cl b) -> slot v (fst c) <> slot v (step_at (v_dims v) q)) as Nb.
        { intros c Ic Ec. apply not_true_iff_false in Ex. apply Ex. apply existsb_exists. exists c. split; [exact Ic|lia]. }
        assert (forall g c e, In g ranks -> In c (cl g) -> In e (snd c) -> at_slot v (fst e) = at_slot v q -> length (fst e) = length (v_dims v) /\ slot v (fst c) = slot v (step_at (v_dims v) q)) as Sl.
        { intros g c e Ig Ic Ie Ee. pose proof (Hs g c e Ig Ic Ie) as Hst. assert (length (fst e) = length (v_dims v)) as Le by (clear - Hst; unfold step_in in Hst; induction Hst; cbn; congruence). split; [exact Le|].
          rewrite <- (step_in_slot v (fst e) (fst c) Hst), (slot_of_at v (fst e) Le), (slot_of_at v q Lq), Ee. reflexivity. }
        rewrite !Kv by assumption. rewrite !lastw_nil; [apply Fr; exact H| |].
        + intros e Ie Ee. apply in_flat_map in Ie. destruct Ie as (c & Ic & Ie). exact (Nb c Ic (proj2 (Sl b c e Ib Ic Ie Ee))).
        + intros e Ie Ee. apply in_flat_map in Ie. destruct Ie as (c & Ic & Ie). destruct (Sl a c e Ia Ic Ie Ee) as (Le & Es).
          destruct (Hw a c e b Ia Ic Ie Ib) as [Oa|(c' & Ic' & Ec')].
          * apply (within_at v _ _ b q (fst e)); [exact Ob|exact Le|congruence].
          * apply Na. apply (within_at v _ _ a (fst e) q); assumption.
          * apply (Nb c' Ic'). rewrite Ec'. exact Es. }
    split; [exact (own_writes st st1 _ Ow Ha Kv)|]. split; [intros a Ia; apply (K a Ia)|exact Kv].
  Qed.

  Lemma stage_inv : forall st g, runI st -> stage_ok S ranks v Val g -> exists st', run_stage S ranks v Val ord st g = Ok st' /\ runI st' /\
    forall b q, In b ranks -> owns v b q -> get (st' b) q = lastw q (stage_writes Val b g) (get (st b) q).
  Proof.
    intros st g I (Hs & Ho & Hw & Hi & Ae & Ai). unfold run_stage, stage_writes. unfold marked in Ho, Hw. destruct (sg_overlap Val g) eqn:Ov.
    - set (st1 := on_all Val (fun a s => update_var_info v Val true (sg_outs Val g) (calls v Val true (sg_ext Val g a) s)) st).
      set (st2 := on_all Val (fun a s => update_var_info v Val false (sg_outs Val g) (calls v Val false (sg_int Val g a) s)) st1).
      destruct (marked_phase st st1 (sg_ext Val g) (sg_outs Val g) I) as (W & O & Sb & Mk & Ow & Fi & Kv); [reflexivity| | | |exact Ae|].
      { intros a c e Ia Ic. apply (Hs a c e Ia). apply in_or_app. left. exact Ic. }
      { intros a c Ia Ic. apply (Ho a c Ia). apply in_or_app. left. exact Ic. }
      { intros a c e b Ia Ic Ie Ib Ob. destruct (Hw a c e b Ia) as [X|(c' & Ic' & E)]; [apply in_or_app; left; exact Ic|assumption|assumption|assumption|left; exact X|right]. exists c'. rewrite app_nil_r in Ic'. auto. }
      assert (forall a, r_first Val (st2 a) = wupd (sg_outs Val g) (r_first Val (st1 a)) /\ r_self Val (st2 a) = r_self Val (st1 a) \/ True) as _ by (intros; right; exact Logic.I).
      assert (forall a q, get (st2 a) q = lastw q (flat_map snd (sg_int Val g a)) (get (st1 a) q)) as Kv2.
      { intros a q. unfold st2, on_all. destruct (calls_spec false (sg_int Val g a) (st1 a)) as (_ & _ & _ & D). destruct (info_spec false (sg_outs Val g) (calls v Val false (sg_int Val g a) (st1 a))) as (_ & _ & C' & _).
        unfold Dirty_Model.get at 1. rewrite C'. apply D. }
      destruct (exchange_inv st1 st2 W O Sb Mk Ow) as (st' & R & W' & O' & Sb' & Fr' & Ow' & Own).
      + intros a Ia. unfold st2, on_all. destruct (calls_spec false (sg_int Val g a) (st1 a)) as (A & B & C & _). destruct (info_spec false (sg_outs Val g) (calls v Val false (sg_int Val g a) (st1 a))) as (A' & B' & _ & D').
        split; [rewrite A', A, Fi by exact Ia; apply wupd_absorb; auto|]. split; intros k; apply eq_true_iff_eq.
        * rewrite B', C. split; [intros [(X & _)|X]; [discriminate|exact X]|auto].
        * rewrite D', B. split; [intros [(X & _)|X]; [discriminate|exact X]|auto].
      + intros a b q H. pose proof (in_halo_len a b q H) as Lq. pose proof H as (Ia & Ib & Nx & Ob & Hh & Na).
        assert (forall r c e, In r ranks -> In c (sg_int Val g r) -> In e (snd c) -> length (fst e) = length (v_dims v)) as Le.
        { intros r c e Ir Ic Ie. pose proof (Hs r c e Ir ltac:(apply in_or_app; right; exact Ic) Ie) as X. clear - X. unfold step_in in X. induction X; cbn; congruence. }
        rewrite !Kv2. rewrite !lastw_nil; [auto| |]; intros e Ie Ee; apply in_flat_map in Ie; destruct Ie as (c & Ic & Ie).
        * destruct (Hi eq_refl b c e Ib Ic Ie) as (_ & X). apply (X a Ia Nx). apply (within_at v _ _ a q (fst e)); [exact Hh|exact (Le b c e Ib Ic Ie)|congruence].
        * destruct (Hi eq_refl a c e Ia Ic Ie) as (X & _). apply Na. apply (within_at v _ _ a (fst e) q); assumption.
      + exact (own_writes st1 st2 _ Ow Ai (fun a q _ => Kv2 a q)).
      + exists st'. split; [exact R|]. split; [repeat split; assumption|]. intros b q Ib Ob. rewrite (Own b q Ib Ob), Kv2, (Kv b q Ib), lastw_app. reflexivity.
    - unfold exchange. set (st1 := on_all Val (fun a s => update_var_info v Val true (sg_outs Val g) (calls v Val true (sg_ext Val g a ++ sg_int Val g a) s)) st).
      destruct (marked_phase st st1 (fun a => sg_ext Val g a ++ sg_int Val g a) (sg_outs Val g) I) as (W & O & Sb & Mk & Ow & Fi & Kv); [reflexivity|exact Hs|exact Ho|exact Hw| |].
      { intros a b q Ia Ib Oa Ob. rewrite !flat_map_app. exact (agree_app _ _ Ae Ai a b q Ia Ib Oa Ob). }
      destruct (exchange_inv st1 st1 W O Sb Mk Ow) as (st' & R & W' & O' & Sb' & Fr' & Ow' & Own); [auto|auto|exact Ow|].
      exists st'. split; [exact R|]. split; [repeat split; assumption|]. intros b q Ib Ob. rewrite (Own b q Ib Ob), (Kv b q Ib), flat_map_app. reflexivity.
  Qed.

  Lemma stages_inv : forall sgs st, runI st -> Forall (stage_ok S ranks v Val) sgs ->
    exists st', fold_left (fun acc g => rbind acc (fun st => run_stage S ranks v Val ord st g)) sgs (Ok st) = Ok st' /\ runI st' /\
    forall b q, In b ranks -> owns v b q -> get (st' b) q = lastw q (flat_map (stage_writes Val b) sgs) (get (st b) q).
  Proof.
    induction sgs as [|g sgs IH]; intros st I F; cbn [fold_left].
    - exists st. split; [reflexivity|]. split; [exact I|]. reflexivity.
    - inversion F; subst. cbn [rbind]. destruct (stage_inv st g I) as (st1 & R & I1 & V1); [assumption|]. rewrite R. destruct (IH st1 I1) as (st' & R' & I' & V'); [assumption|].
      exists st'. split; [exact R'|]. split; [exact I'|]. intros b q Ib Ob. rewrite (V' b q Ib Ob), (V1 b q Ib Ob). cbn [flat_map]. rewrite lastw_app. reflexivity.
  Qed.

  Definition restI (st : gst) : Prop := winI st /\ markI st /\ ownI st.
  Lemma run_inv : forall sgs st, restI st -> Forall (stage_ok S ranks v Val) sgs -> exists st', run_solution S ranks v Val ord st sgs = Ok st' /\ runI st' /\
    forall b q, In b ranks -> owns v b q -> get (st' b) q = lastw q (flat_map (stage_writes Val b) sgs) (get (st b) q).
  Proof.
    intros sgs st (W & M & Ow) F. unfold run_solution, exchange. set (st1 := on_all Val (fun _ => all_others_dirty Val) st).
    destruct (exchange_inv st1 st1) as (st2 & R & W' & O' & Sb' & Fr' & Ow' & Own); [exact W|intros a b k _ _; reflexivity|intros a k _ _; reflexivity|exact M|exact Ow|auto|auto|exact Ow|].
    rewrite R. destruct (stages_inv sgs st2) as (st' & R' & I' & V'); [repeat split; assumption|exact F|]. exists st'. split; [exact R'|]. split; [exact I'|].
    intros b q Ib Ob. rewrite (V' b q Ib Ob), (Own b q Ib Ob). reflexivity.
  Qed.

  (* API calls *)
  Lemma api_spec : forall c (s : rst), r_first Val (do_api v Val s c) = wupd (flat_map (fun p => zrange (fst p) (snd p + 1)) (slice_steps Val [c])) (r_first Val s) /\
    (forall k, r_self Val s k = true -> r_self Val (do_api v Val s c) k = true) /\ (forall q, get (do_api v Val s c) q = lastw q (api_writes Val [c]) (get s q)) /\
    (forall a q e, api_ok v Val a c -> owns v a q -> In e (api_writes Val [c]) -> at_slot v (fst e) = at_slot v q -> r_self Val (do_api v Val s c) (slot v (step_at (v_dims v) q)) = true).
  Proof.
    intros [q x|w t1 t2] s; cbn [do_api slice_steps api_writes flat_map app].
    - cbn [r_first r_self r_vals]. split; [unfold wupd; destruct (step_alloc v); reflexivity|]. split; [intros k H; apply fset_true; right; exact H|]. split; [intros p; apply (get_write q x s p)|].
      intros a p e Ok Op [<-|[]] E. cbn [fst] in E. cbn [api_ok] in Ok. apply fset_true. left. rewrite !slot_of_at, E; [reflexivity| |]; eapply within_len; eassumption.
    - rewrite !app_nil_r. destruct (writes_spec w s) as (A & B & C & D).
      set (l := match step_alloc v with Some _ => zrange t1 (t2 + 1) | None => [0] end).
      destruct (set_dirties_spec l (writes v Val w s)) as (A' & B' & C' & D'). cbn [fst snd].
      split; [rewrite A', A; unfold wupd, l; destruct (step_alloc v); reflexivity|]. split; [intros k H; apply D'; right; rewrite B; exact H|].
      split; [intros p; unfold Dirty_Model.get at 1; rewrite B'; apply D|].
      intros a p e Ok Op Ie E. cbn [api_ok] in Ok. destruct (proj1 (Forall_forall _ _) Ok e Ie) as (Oe & St). apply D'. left.
      rewrite (slot_of_at v p) by (eapply within_len; eassumption). rewrite <- E, <- slot_of_at by (eapply within_len; eassumption). unfold l. destruct (step_alloc v) as [n|] eqn:En.
      + exists (step_at (v_dims v) (fst e)). split; [apply step_in_at; [exact St|congruence]|reflexivity].
      + exists 0. split; [left; reflexivity|]. rewrite !slot_none by exact En. reflexivity.
  Qed.
  Lemma apis_spec : forall l (s : rst), let s' := fold_left (do_api v Val) l s in
    r_first Val s' = wupd (flat_map (fun p => zrange (fst p) (snd p + 1)) (slice_steps Val l)) (r_first Val s) /\
    (forall k, r_self Val s k = true -> r_self Val s' k = true) /\ (forall q, get s' q = lastw q (api_writes Val l) (get s q)) /\
    (forall a q e, Forall (api_ok v Val a) l -> owns v a q -> In e (api_writes Val l) -> at_slot v (fst e) = at_slot v q -> r_self Val s' (slot v (step_at (v_dims v) q)) = true).
  Proof.
    induction l as [|c l IH]; intros s; cbv zeta in *; cbn [fold_left].
    - split; [unfold wupd; destruct (step_alloc v); reflexivity|]. split; [auto|]. split; [reflexivity|]. intros a q e _ _ [].
    - destruct (IH (do_api v Val s c)) as (A & B & C & D). destruct (api_spec c s) as (A' & B' & C' & D').
      assert (slice_steps Val (c :: l) = slice_steps Val [c] ++ slice_steps Val l) as E1 by (unfold slice_steps; cbn [flat_map]; rewrite app_nil_r; reflexivity).
      assert (api_writes Val (c :: l) = api_writes Val [c] ++ api_writes Val l) as E2 by (unfold api_writes; cbn [flat_map]; rewrite app_nil_r; reflexivity).
      split; [rewrite A, A', E1, flat_map_app, wupd_app; reflexivity|]. split; [auto|]. split; [intros q; rewrite C, C', E2, lastw_app; reflexivity|].
      intros a q e F Oq Ie Ee. inversion F; subst. rewrite E2 in Ie. apply in_app_or in Ie. destruct Ie as [Ie|Ie]; [apply B; eapply D'; eassumption|eapply D; eassumption].
  Qed.
  Lemma api_inv : forall w st, restI st -> op_ok S ranks v Val (OApi Val w) -> restI (on_all Val (fun a s => fold_left (do_api v Val) (w a) s) st) /\
    forall b q, get (fold_left (do_api v Val) (w b) (st b)) q = lastw q (api_writes Val (w b)) (get (st b) q).
  Proof.
    intros w st (W & M & Ow) (Ho & Hs & Ha). set (st' := on_all Val (fun a s => fold_left (do_api v Val) (w a) s) st).
    assert (forall b q, get (st' b) q = lastw q (api_writes Val (w b)) (get (st b) q)) as V by (intros b q; apply (apis_spec (w b) (st b))).
    split; [|exact V]. split; [|split].
    - intros a b Ia Ib. unfold st', on_all. rewrite (proj1 (apis_spec (w a) (st a))), (proj1 (apis_spec (w b) (st b))), (Hs a b Ia Ib), (W a b Ia Ib). reflexivity.
    - intros a b q H. pose proof H as (Ia & Ib & Nx & Ob & Hh & Na). destruct (apis_spec (w b) (st b)) as (_ & B & _ & D).
      destruct (existsb (fun e => if list_eq_dec Z.eq_dec (at_slot v (fst e)) (at_slot v q) then true else false) (api_writes Val (w b))) eqn:Ex.
      + left. apply existsb_exists in Ex. destruct Ex as (e & Ie & Ee). destruct (list_eq_dec Z.eq_dec (at_slot v (fst e)) (at_slot v q)) as [Ee'|]; [|discriminate]. exact (D b q e (Ho b Ib) Ob Ie Ee').
      + destruct (M a b q H) as [X|X]; [left; exact (B _ X)|right]. rewrite !V. rewrite !lastw_nil; [exact X| |].
        * intros e Ie Ee. apply not_true_iff_false in Ex. apply Ex. apply existsb_exists. exists e. split; [exact Ie|]. destruct (list_eq_dec _ _ _); [reflexivity|congruence].
        * intros e Ie Ee. apply Na. assert (owns v a (fst e)) as Oe.
          { pose proof (Ho a Ia) as F. unfold api_writes in Ie. apply in_flat_map in Ie. destruct Ie as (c & Ic & Ie). pose proof (proj1 (Forall_forall _ _) F c Ic) as K.
            destruct c as [p x|l t1 t2]; cbn [api_ok] in K; [destruct Ie as [<-|[]]; exact K|]. exact (proj1 (proj1 (Forall_forall _ _) K e Ie)). }
          apply (within_at v _ _ a (fst e) q); [exact Oe|exact (in_halo_len a b q H)|exact Ee].
    - exact (own_writes st st' _ Ow Ha (fun a q _ => V a q)).
  Qed.

  Lemma ops_inv : forall ops st, restI st -> Forall (op_ok S ranks v Val) ops -> exists st', do_ops S ranks v Val ord st ops = Ok st' /\ restI st' /\
    (forall b q, In b ranks -> owns v b q -> get (st' b) q = lastw q (flat_map (op_writes Val b) ops) (get (st b) q)) /\
    ((exists sgs ops', ops = ops' ++ [ORun Val sgs]) -> freshI st').
  Proof.
    intros ops. unfold do_ops. induction ops as [|o ops IH] using rev_ind; intros st R F.
    - exists st. split; [reflexivity|]. split; [exact R|]. split; [reflexivity|]. intros (sgs & ops' & E). destruct ops'; discriminate.
    - apply Forall_app in F. destruct F as (F & Fo). inversion Fo as [|? ? Ho]; subst. destruct (IH st R F) as (st1 & E & R1 & V1 & _). rewrite fold_left_app, E. cbn [fold_left rbind do_op].
      destruct o as [w|sgs]; cbn [do_op].
      + destruct (api_inv w st1 R1 Ho) as (R2 & V2). eexists. split; [reflexivity|]. split; [exact R2|]. split.
        * intros b q Ib Ob. rewrite flat_map_app, lastw_app, <- (V1 b q Ib Ob). cbn [flat_map op_writes]. rewrite app_nil_r. apply V2.
        * intros (sgs & ops' & E'). apply app_inj_tail in E'. destruct E'. discriminate.
      + destruct (run_inv sgs st1 R1 Ho) as (st2 & E2 & (A & _ & _ & B & C) & V2). exists st2. split; [exact E2|]. split; [split; [exact A|]; split; [intros a b q Hq; right; apply B, Hq|exact C]|]. split; [|intros _; exact B].
        intros b q Ib Ob. rewrite flat_map_app, lastw_app, <- (V1 b q Ib Ob). cbn [flat_map op_writes]. rewrite app_nil_r. apply V2; assumption.
  Qed.

  Theorem fresh : forall st ops sgs, (forall b k, In b ranks -> r_self Val (st b) k = true) -> winI st -> ownI st -> Forall (op_ok S ranks v Val) (ops ++ [ORun Val sgs]) ->
    exists st', do_ops S ranks v Val ord st (ops ++ [ORun Val sgs]) = Ok st' /\
      (forall b q, In b ranks -> owns v b q -> get (st' b) q = last (written q (flat_map (op_writes Val b) (ops ++ [ORun Val sgs]))) (get (st b) q)) /\
      forall a b q, halo_of a b q -> get (st' a) q = last (written q (flat_map (op_writes Val b) (ops ++ [ORun Val sgs]))) (get (st b) q).
  Proof.
    intros st ops sgs Sf W Ow F. destruct (ops_inv (ops ++ [ORun Val sgs]) st) as (st' & E & _ & V & Fr); [|exact F|].
    { split; [exact W|]. split; [intros a b q H; left; apply Sf; apply H|exact Ow]. }
    exists st'. split; [exact E|]. split; [exact V|]. intros a b q H. rewrite (Fr ltac:(eauto) a b q H). apply V; apply H.
  Qed.
End D.
