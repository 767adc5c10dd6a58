From Verif Require Import Base Timer_Model Timer_Spec.

Lemma abs_ns_eq : forall t, abs_ns t = nanosecs t.
Proof. intros. unfold abs_ns, nanosecs. change (10 ^ 9) with 1000000000. reflexivity. Qed.

Lemma zsum_snoc : forall l x, zsum (l ++ [x]) = zsum l + x.
Proof. induction l; intros; cbn [app zsum]; [cbn [zsum]; lia|]. rewrite IHl. lia. Qed.

Definition agrees (cur : option timespec) (done : list (timespec * timespec)) (t : timer) : Prop :=
  nanosecs (t_elapsed t) = zsum (map duration done) /\ (forall b, cur = Some b -> t_begin t = b).

Lemma timer_run_agrees : forall evs cur done t,
  agrees cur done t -> proper (match cur with Some _ => true | None => false end) evs ->
  agrees (fst (intervals cur done evs)) (snd (intervals cur done evs)) (fst (timer_run evs t)).
Proof.
  induction evs as [|e evs IH]; intros cur done t A P; cbn [intervals timer_run]; [exact A|].
  destruct e as [ts|ts| |now|]; cbn [proper] in P.
  - apply IH; [|exact P]. destruct A as (A1 & _). split; [exact A1|]. intros b E. inversion E. reflexivity.
  - destruct P as (P1 & P2). destruct cur as [b|]; [|discriminate]. destruct A as (A1 & A2).
    unfold timer_stop. cbn beta iota zeta.
    match goal with |- context [timer_run evs ?t'] => specialize (IH None (done ++ [(b, ts)]) t'); destruct (timer_run evs t') end.
    cbn [fst] in *. apply IH; [|exact P2]. split; [|discriminate].
    rewrite map_app. cbn [map]. rewrite zsum_snoc, <- A1. unfold duration. cbn [fst snd]. unfold abs_ns.
    rewrite (A2 b eq_refl). unfold nanosecs. change (10 ^ 9) with 1000000000. cbn [t_elapsed t_begin tv_sec tv_nsec]. lia.
  - specialize (IH cur done t A P). destruct (timer_run evs t). exact IH.
  - destruct P as (P1 & P2). specialize (IH cur done t A P2). destruct (timer_run evs t). exact IH.
  - apply IH; [|exact P]. split; [reflexivity|discriminate].
Qed.

Lemma timer_app : forall evs1 evs2 t,
  fst (timer_run (evs1 ++ evs2) t) = fst (timer_run evs2 (fst (timer_run evs1 t))) /\
  snd (timer_run (evs1 ++ evs2) t) = snd (timer_run evs1 t) ++ snd (timer_run evs2 (fst (timer_run evs1 t))).
Proof.
  induction evs1 as [|e evs1 IH]; intros evs2 t; cbn [app timer_run fst snd]; [auto|].
  destruct e; cbn [timer_stop].
  - apply IH.
  - unfold timer_stop. cbn beta iota zeta.
    match goal with |- context [timer_run evs1 ?t'] => specialize (IH evs2 t'); destruct (timer_run evs1 t'); destruct (timer_run (evs1 ++ evs2) t') end.
    cbn [fst snd] in *. destruct IH as (-> & ->). auto.
  - specialize (IH evs2 t). destruct (timer_run evs1 t); destruct (timer_run (evs1 ++ evs2) t). cbn [fst snd] in *. destruct IH as (-> & ->). auto.
  - specialize (IH evs2 t). destruct (timer_run evs1 t); destruct (timer_run (evs1 ++ evs2) t). cbn [fst snd] in *. destruct IH as (-> & ->). auto.
  - apply IH.
Qed.

Theorem timer_elapsed : forall evs, proper false evs ->
  timer_get_elapsed (fst (timer_run evs timer_new)) = total evs.
Proof.
  intros evs P. destruct (timer_run_agrees evs None [] timer_new) as (A & _); [split; [reflexivity|discriminate]|exact P|exact A].
Qed.

Lemma proper_app : forall evs1 evs2 r, proper r (evs1 ++ evs2) -> proper r evs1.
Proof.
  induction evs1 as [|e evs1 IH]; intros evs2 r H; cbn; [exact I|].
  destruct e; cbn [app proper] in *; try (destruct H; split; [assumption|]); eapply IH; eassumption.
Qed.

(* The value a get in the middle of a history returns. *)
Theorem timer_get_anywhere : forall evs1 evs2, proper false (evs1 ++ EGet :: evs2) ->
  exists o1 o2, snd (timer_run (evs1 ++ EGet :: evs2) timer_new) = o1 ++ total evs1 :: o2 /\ length o1 = length (snd (timer_run evs1 timer_new)).
Proof.
  intros evs1 evs2 P. destruct (timer_app evs1 (EGet :: evs2) timer_new) as (_ & E). rewrite E.
  exists (snd (timer_run evs1 timer_new)). cbn [timer_run].
  destruct (timer_run evs2 (fst (timer_run evs1 timer_new))) as (t' & o). cbn [snd]. exists o. split; [|reflexivity].
  rewrite timer_elapsed by (eapply proper_app; eassumption). reflexivity.
Qed.

(* The value a stop or a since-start query returns: the length of the current interval. *)
Theorem timer_stop_value : forall evs b ts, proper false (evs ++ [EStop ts]) ->
  fst (intervals None [] evs) = Some b ->
  snd (timer_stop ts (fst (timer_run evs timer_new))) = duration (b, ts) /\
  timer_since_start ts (fst (timer_run evs timer_new)) = duration (b, ts).
Proof.
  intros evs b ts P E. destruct (timer_run_agrees evs None [] timer_new) as (_ & A); [split; [reflexivity|discriminate]|eapply proper_app; eassumption|].
  rewrite E in A. specialize (A b eq_refl). unfold duration, timer_stop, timer_since_start. cbn [fst snd]. unfold abs_ns. rewrite A.
  unfold nanosecs. change (10 ^ 9) with 1000000000. cbn [t_elapsed t_begin tv_sec tv_nsec]. split; lia.
Qed.

(* queries can be inserted or removed anywhere *)
Definition is_query (e : timer_ev) : bool := match e with EGet | ESince _ => true | _ => false end.
Theorem timer_queries_harmless : forall evs t,
  fst (timer_run evs t) = fst (timer_run (filter (fun e => negb (is_query e)) evs) t).
Proof.
  induction evs as [|e evs IH]; intros t; cbn [filter timer_run]; [reflexivity|].
  destruct e; cbn [is_query negb timer_run].
  - apply IH.
  - unfold timer_stop. cbn beta iota zeta. match goal with |- context [timer_run evs ?t'] => specialize (IH t'); destruct (timer_run evs t'); destruct (timer_run (filter (fun e => negb (is_query e)) evs) t') end. exact IH.
  - rewrite <- IH. destruct (timer_run evs t). reflexivity.
  - rewrite <- IH. destruct (timer_run evs t). reflexivity.
  - apply IH.
Qed.
