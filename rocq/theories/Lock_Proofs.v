From Coq Require Import ZifyBool.
From Verif Require Import Base Lock_Model.

Section LockP.
  Context {V : Type}.
  Variable msgs : list (list V).

  Definition holds (b : nat -> option V) (m : list V) (n : nat) : Prop := forall i, (i < n)%nat -> b i = nth_error m i.

  (* P messages written, C read *)
  Definition linv (s : lstate) : Prop :=
    exists P C : nat,
      wcount s = ival + Z.of_nat P /\ rcount s = ival + Z.of_nat C /\
      (C <= P <= S C)%nat /\ (P <= length msgs)%nat /\
      todo s = skipn P msgs /\ got s = firstn C msgs /\
      (P = S C -> exists m, nth_error msgs C = Some m /\ dsize s = length m /\ holds (buf s) m (length m)) /\
      (* producer *)
      match prod s with
      | PLoadW => True
      | PLoadR w => w = wcount s
      | PPack i => P = C /\ (todo s <> [] -> exists m, nth_error msgs P = Some m /\ (i <= length m)%nat /\ holds (buf s) m i)
      | PSize => P = C /\ (todo s <> [] -> exists m, nth_error msgs P = Some m /\ holds (buf s) m (length m))
      | PIncL => P = C /\ (todo s <> [] -> exists m, nth_error msgs P = Some m /\ dsize s = length m /\ holds (buf s) m (length m))
      | PIncS w => P = C /\ w = wcount s /\ (todo s <> [] -> exists m, nth_error msgs P = Some m /\ dsize s = length m /\ holds (buf s) m (length m))
      end /\
      match cons_pc s with
      | CLoadW => True
      | CLoadR w => rcount s <= w <= wcount s
      | CSize => P = S C
      | CUnpack i n acc => P = S C /\ n = dsize s /\ (i <= n)%nat /\ exists m, nth_error msgs C = Some m /\ acc = firstn i m
      | CIncL acc => P = S C /\ nth_error msgs C = Some acc
      | CIncS r acc => P = S C /\ r = rcount s /\ nth_error msgs C = Some acc
      end.

  Lemma linv_init : linv (l_init msgs).
  Proof.
    exists 0%nat, 0%nat. cbn. repeat split; try lia.
  Qed.

  Lemma skipn_cons_nth : forall (l : list (list V)) P m r, skipn P l = m :: r -> nth_error l P = Some m /\ r = skipn (S P) l /\ (P < length l)%nat.
  Proof.
    induction l as [|x l IH]; intros [|P] m r H; cbn in H; try discriminate.
    - inversion H. cbn. repeat split; lia.
    - apply IH in H as (A & B & C). cbn. repeat split; auto; lia.
  Qed.

  Lemma linv_step_p : forall s, linv s -> linv (step_p s).
  Proof.
    intros s H0. pose proof H0 as (P & C & W & R & B1 & B2 & T & G & F & HP & HC). unfold step_p.
    destruct (todo s) as [|m rest] eqn:Et; [exact H0|]. clear H0.
    destruct (skipn_cons_nth msgs P m rest (eq_sym T)) as (Nm & Er & Lp).
    destruct (prod s) as [|w|i| | |w] eqn:Ep.
    - exists P, C. cbn. try rewrite Et. repeat split; auto; lia.
    - exists P, C. cbn. try rewrite Et. split; [exact W|]. split; [exact R|]. split; [lia|]. split; [lia|].
      split; [exact T|]. split; [exact G|]. split; [exact F|]. split; [|exact HC].
      destruct (w =? rcount s) eqn:E; [|exact I]. split; [lia|]. intros _. exists m. split; [exact Nm|]. split; [lia|]. intros i Hi; lia.
    - destruct HP as (PC & HP). destruct HP as (m' & Nm' & Hi & Hh); [discriminate|].
      assert (m' = m) by congruence. subst m'.
      destruct (nth_error m i) as [v|] eqn:Ev.
      + exists P, C. cbn. try rewrite Et. split; [exact W|]. split; [exact R|]. split; [lia|]. split; [lia|].
        split; [exact T|]. split; [exact G|]. split; [lia|]. split; [|destruct (cons_pc s); auto; destruct HC; lia].
        split; [exact PC|]. intros _. exists m. split; [exact Nm|].
        assert (i < length m)%nat by (apply nth_error_Some; congruence). split; [lia|].
        intros k Hk. destruct (Nat.eqb_spec k i) as [->|]; [congruence|]. apply Hh. lia.
      + exists P, C. cbn. try rewrite Et. split; [exact W|]. split; [exact R|]. split; [lia|]. split; [lia|].
        split; [exact T|]. split; [exact G|]. split; [exact F|]. split; [|exact HC].
        split; [exact PC|]. intros _. exists m. split; [exact Nm|]. apply nth_error_None in Ev.
        intros k Hk. apply Hh. lia.
    - destruct HP as (PC & HP). destruct HP as (m' & Nm' & Hh); [discriminate|]. assert (m' = m) by congruence. subst m'.
      exists P, C. cbn. try rewrite Et. split; [exact W|]. split; [exact R|]. split; [lia|]. split; [lia|].
      split; [exact T|]. split; [exact G|]. split; [lia|]. split; [|destruct (cons_pc s); auto; destruct HC; lia].
      split; [exact PC|]. intros _. exists m. auto.
    - destruct HP as (PC & HP).
      exists P, C. cbn. try rewrite Et. split; [exact W|]. split; [exact R|]. split; [lia|]. split; [lia|].
      split; [exact T|]. split; [exact G|]. split; [exact F|]. split; [|exact HC]. auto.
    - destruct HP as (PC & Hw & HP). destruct HP as (m' & Nm' & Hd & Hh); [discriminate|]. assert (m' = m) by congruence. subst m'.
      exists (S P), C. cbn. split; [lia|]. split; [exact R|]. split; [lia|]. split; [lia|].
      split; [exact Er|]. split; [exact G|]. split; [intros _; exists m; subst C; auto|]. split; [exact I|].
      destruct (cons_pc s); auto; try (destruct HC; lia); lia.
  Qed.

  Lemma linv_step_c : forall s, linv s -> exists s', step_c s = Ok s' /\ linv s'.
  Proof.
    intros s (P & C & W & R & B1 & B2 & T & G & F & HP & HC). unfold step_c.
    destruct (cons_pc s) as [|w| |i n acc|acc|r acc] eqn:Ec.
    - eexists. split; [reflexivity|]. exists P, C. cbn. repeat split; auto; lia.
    - eexists. split; [reflexivity|]. exists P, C. cbn. split; [exact W|]. split; [exact R|]. split; [lia|]. split; [lia|].
      split; [exact T|]. split; [exact G|]. split; [exact F|]. split; [exact HP|].
      destruct (w =? rcount s) eqn:E; cbn [negb]; [exact I|]. lia.
    - eexists. split; [reflexivity|]. exists P, C. cbn. split; [exact W|]. split; [exact R|]. split; [lia|]. split; [lia|].
      split; [exact T|]. split; [exact G|]. split; [exact F|]. split; [exact HP|].
      split; [exact HC|]. split; [reflexivity|]. split; [lia|]. destruct (F HC) as (m & Nm & _). exists m. auto.
    - destruct HC as (PC & Hn & Hi & m & Nm & Ha). destruct (F PC) as (m' & Nm' & Hd & Hh).
      assert (m' = m) by congruence. subst m'.
      destruct (Nat.ltb_spec i n) as [L|L].
      + rewrite Hh by lia. destruct (nth_error m i) as [v|] eqn:Ev; [|apply nth_error_None in Ev; lia].
        eexists. split; [reflexivity|]. exists P, C. cbn. split; [exact W|]. split; [exact R|]. split; [lia|]. split; [lia|].
        split; [exact T|]. split; [exact G|]. split; [exact F|]. split; [exact HP|].
        split; [exact PC|]. split; [exact Hn|]. split; [lia|]. exists m. split; [exact Nm|].
        rewrite Ha. clear - Ev. revert i Ev. induction m as [|x m IH]; intros [|i] Ev; cbn in *; try discriminate.
        * inversion Ev. reflexivity.
        * f_equal. apply IH. exact Ev.
      + eexists. split; [reflexivity|]. exists P, C. cbn. split; [exact W|]. split; [exact R|]. split; [lia|]. split; [lia|].
        split; [exact T|]. split; [exact G|]. split; [exact F|]. split; [exact HP|].
        split; [exact PC|]. rewrite Ha, firstn_all2 by lia. exact Nm.
    - eexists. split; [reflexivity|]. exists P, C. cbn. split; [exact W|]. split; [exact R|]. split; [lia|]. split; [lia|].
      split; [exact T|]. split; [exact G|]. split; [exact F|]. split; [exact HP|]. destruct HC. auto.
    - destruct HC as (PC & Hr & Nm). eexists. split; [reflexivity|]. exists P, (S C). cbn.
      split; [exact W|]. split; [lia|]. split; [lia|]. split; [lia|].
      split; [exact T|]. split.
      { rewrite G. clear - Nm. revert C Nm. induction msgs as [|x l IH]; intros [|C] Nm; cbn in *; try discriminate.
        - inversion Nm. reflexivity.
        - f_equal. apply IH. exact Nm. }
      split; [lia|]. split; [|exact I].
      destruct (prod s); auto; try (destruct HP; lia); lia.
  Qed.

  Lemma linv_run : forall sched s, linv s -> exists s', l_run sched s = Ok s' /\ linv s'.
  Proof.
    induction sched as [|b sched IH]; intros s H; cbn [l_run]; [eauto|].
    destruct b.
    - apply IH. apply linv_step_p. exact H.
    - destruct (linv_step_c s H) as (s' & E & H'). rewrite E. cbn [rbind]. apply IH. exact H'.
  Qed.

  Theorem lock_safe : forall sched, exists s, l_run sched (l_init msgs) = Ok s /\
    writing s && reading s = false /\
    (exists k, got s = firstn k msgs /\ (length (got s) <= length msgs - length (todo s) <= S (length (got s)))%nat) .
  Proof.
    intros sched. destruct (linv_run sched _ linv_init) as (s & E & P & C & W & R & B1 & B2 & T & G & F & HP & HC).
    exists s. split; [exact E|]. split.
    - unfold writing, reading. destruct (prod s); try reflexivity; destruct (cons_pc s); try reflexivity; destruct HP as (HP & _); try (destruct HC as (HC & _)); lia.
    - exists C. split; [exact G|]. rewrite T, G, skipn_length, firstn_length. lia.
  Qed.

  (* progress: from any reachable state the remaining messages can be delivered, and a waiting side is
     never blocked for ever: one of the two waiting conditions always holds *)
  Theorem lock_no_deadlock : forall sched s, l_run sched (l_init msgs) = Ok s ->
    (wcount s = rcount s \/ wcount s = rcount s + 1) /\
    (todo s = [] -> wcount s = rcount s -> got s = msgs).
  Proof.
    intros sched s E. destruct (linv_run sched _ linv_init) as (s' & E' & P & C & W & R & B1 & B2 & T & G & F & HP & HC).
    rewrite E in E'. inversion E'; subst s'. split; [lia|]. intros Et Ew.
    assert (P = C) by lia. subst C. rewrite G. apply firstn_all2.
    rewrite Et in T. assert (L : length (skipn P msgs) = 0%nat) by (rewrite <- T; reflexivity). rewrite skipn_length in L. lia.
  Qed.
End LockP.

(* A complete exchange is possible from every reachable state. *)
Section Live.
  Context {V : Type}.
  Variable msgs : list (list V).

  Lemma l_run_app : forall (a b : list bool) (s : @lstate V), l_run (a ++ b) s = rbind (l_run a s) (l_run b).
  Proof.
    induction a as [|x a IH]; intros b s; cbn [app l_run]; [reflexivity|].
    destruct x; [apply IH|]. destruct (step_c s); cbn [rbind]; auto.
  Qed.

  Definition pmeas (s : @lstate V) : nat :=
    match todo s with
    | [] => 0
    | m :: _ =>
        match prod s with
        | PLoadW => length m + 6
        | PLoadR _ => length m + 5
        | PPack i => (length m - i) + 4
        | PSize => 3
        | PIncL => 2
        | PIncS _ => 1
        end
    end%nat.

  Definition cmeas (s : @lstate V) : nat :=
    match cons_pc s with
    | CLoadR w => if Z.eqb w (rcount s) then dsize s + 7 else dsize s + 5
    | CLoadW => dsize s + 6
    | CSize => dsize s + 4
    | CUnpack i n _ => (n - i) + 3
    | CIncL _ => 2
    | CIncS _ _ => 1
    end%nat.

  Lemma can_send : forall n (s : @lstate V), linv msgs s -> wcount s = rcount s -> todo s <> [] -> (pmeas s <= n)%nat ->
    exists sched s', l_run sched s = Ok s' /\ wcount s' = rcount s' + 1.
  Proof.
    induction n as [|n IH]; intros s H0 E T M.
    - unfold pmeas in M. destruct (todo s); [congruence|]. destruct (prod s); lia.
    - pose proof (linv_step_p msgs s H0) as H1.
      assert (K : wcount (step_p s) = rcount (step_p s) + 1 \/
                  (wcount (step_p s) = rcount (step_p s) /\ todo (step_p s) <> [] /\ (pmeas (step_p s) < pmeas s)%nat)).
      { destruct H0 as (P & C & W & R & B1 & B2 & Ts & G & F & HP & HC). clear H1.
        unfold step_p, pmeas in *. destruct (todo s) as [|m rest] eqn:Et; [congruence|].
        destruct (prod s) as [|w|i| | |w]; cbn; try rewrite Et.
        - right. repeat split; auto; try discriminate. lia.
        - right. assert (w = rcount s) by lia. replace (w =? rcount s) with true by lia. repeat split; auto; try discriminate. lia.
        - right. destruct (nth_error m i) as [v|] eqn:Ev; cbn; try rewrite Et; repeat split; auto; try discriminate.
          + assert (i < length m)%nat by (apply nth_error_Some; congruence). lia.
          + lia.
        - right. repeat split; auto; try discriminate. 
        - right. repeat split; auto; try discriminate. 
        - left. lia. }
      destruct K as [K|(K1 & K2 & K3)].
      + exists [true], (step_p s). split; [reflexivity|exact K].
      + destruct (IH (step_p s) H1 K1 K2 ltac:(lia)) as (sched & s' & R & Q). exists (true :: sched), s'. auto.
  Qed.

  Lemma can_receive : forall n (s : @lstate V), linv msgs s -> wcount s = rcount s + 1 -> (cmeas s <= n)%nat ->
    exists sched s', l_run sched s = Ok s' /\ wcount s' = rcount s' /\ length (got s') = S (length (got s)) /\ todo s' = todo s.
  Proof.
    induction n as [|n IH]; intros s H0 E M.
    - unfold cmeas in M. destruct (cons_pc s); try lia. destruct (w =? rcount s); lia.
    - destruct (linv_step_c msgs s H0) as (s1 & E1 & H1).
      assert (K : (wcount s1 = rcount s1 /\ length (got s1) = S (length (got s)) /\ todo s1 = todo s) \/
                  (wcount s1 = rcount s1 + 1 /\ got s1 = got s /\ todo s1 = todo s /\ (cmeas s1 < cmeas s)%nat)).
      { destruct H0 as (P & C & W & R & B1 & B2 & Ts & G & F & HP & HC). clear H1.
        unfold step_c, cmeas in *. destruct (cons_pc s) as [|w| |i k acc|acc|r acc] eqn:Ec.
        - inversion E1; subst s1; cbn. right. repeat split; auto. replace (wcount s =? rcount s) with false by lia. lia.
        - inversion E1; subst s1; cbn. right. repeat split; auto. destruct (w =? rcount s) eqn:Ew; cbn [negb]; lia.
        - inversion E1; subst s1; cbn. right. repeat split; auto. lia.
        - right. destruct HC as (PC & Hn & Hi & _). destruct (Nat.ltb_spec i k) as [L|L].
          + destruct (buf s i); [|discriminate]. inversion E1; subst s1; cbn. repeat split; auto. lia.
          + inversion E1; subst s1; cbn. repeat split; auto. lia.
        - inversion E1; subst s1; cbn. right. repeat split; auto.
        - inversion E1; subst s1; cbn. left. rewrite app_length. cbn. destruct HC as (_ & -> & _). repeat split; auto; lia. }
      destruct K as [(K1 & K2)|(K1 & K2 & K3 & K4)].
      + exists [false], s1. cbn [l_run]. rewrite E1. cbn. auto.
      + destruct (IH s1 H1 K1 ltac:(lia)) as (sched & s' & R & Q1 & Q2 & Q3). exists (false :: sched), s'. cbn [l_run]. rewrite E1. cbn [rbind].
        rewrite K2 in Q2. rewrite K3 in Q3. auto.
  Qed.

  Lemma linv_after : forall sched (s s' : @lstate V), linv msgs s -> l_run sched s = Ok s' -> linv msgs s'.
  Proof. intros sched s s' H E. destruct (linv_run msgs sched s H) as (s2 & E2 & H2). congruence. Qed.

  Lemma can_finish : forall n (s : @lstate V), linv msgs s -> (length msgs - length (got s) <= n)%nat ->
    exists sched s', l_run sched s = Ok s' /\ got s' = msgs.
  Proof.
    assert (FIN : forall s : @lstate V, linv msgs s -> (length msgs <= length (got s))%nat -> got s = msgs).
    { intros s (P & C & W & R & B1 & B2 & Ts & G & _) L. rewrite G in *. rewrite firstn_length in L. apply firstn_all2. lia. }
    induction n as [|n IH]; intros s H M.
    - exists [], s. split; [reflexivity|]. apply FIN; [exact H|lia].
    - destruct (Nat.le_gt_cases (length msgs) (length (got s))) as [L|L]; [exists [], s; split; [reflexivity|apply FIN; assumption]|].
      assert (A : exists a s1, l_run a s = Ok s1 /\ wcount s1 = rcount s1 + 1 /\ (length (got s) <= length (got s1))%nat).
      { pose proof H as (P & C & W & R & B1 & B2 & Ts & G & _).
        assert (P = C \/ P = S C) as [->|E] by lia.
        - destruct (can_send (pmeas s) s H ltac:(lia)) as (a & s1 & R1 & Q1).
          + rewrite Ts. intros Z0. assert (Lz : length (skipn C msgs) = 0%nat) by (rewrite Z0; reflexivity).
            rewrite skipn_length in Lz. rewrite G, firstn_length in L. lia.
          + lia.
          + exists a, s1. split; [exact R1|]. split; [exact Q1|].
            clear - R1. revert s s1 R1. induction a as [|b a IH]; intros s s1 R1; cbn [l_run] in R1; [inversion R1; lia|].
            destruct b.
            * apply IH in R1. assert (G2 : got (step_p s) = got s) by (unfold step_p; destruct (todo s); [reflexivity|]; destruct (prod s); try reflexivity; destruct (nth_error l i); reflexivity).
              rewrite G2 in R1. exact R1.
            * destruct (step_c s) as [s2| | |] eqn:E2; cbn [rbind] in R1; try discriminate. apply IH in R1.
              assert (length (got s) <= length (got s2))%nat; [|lia].
              unfold step_c in E2. destruct (cons_pc s); try (inversion E2; subst; cbn; lia).
              -- destruct (i <? n)%nat; [destruct (buf s i); [|discriminate]|]; inversion E2; subst; cbn; lia.
              -- inversion E2; subst; cbn. rewrite app_length. lia.
        - exists [], s. repeat split; lia. }
      destruct A as (a & s1 & R1 & Q1 & L1). pose proof (linv_after a s s1 H R1) as H1.
      destruct (can_receive (cmeas s1) s1 H1 Q1 ltac:(lia)) as (b & s2 & R2 & Q2 & L2 & _).
      destruct (IH s2 (linv_after b s1 s2 H1 R2) ltac:(lia)) as (c & s3 & R3 & Q3).
      exists (a ++ b ++ c), s3. split; [|exact Q3]. rewrite l_run_app, R1. cbn [rbind]. rewrite l_run_app, R2. exact R3.
  Qed.

  Theorem lock_can_finish : forall sched s, l_run sched (l_init msgs) = Ok s ->
    exists sched' s', l_run sched' s = Ok s' /\ got s' = msgs.
  Proof. intros sched s E. apply (can_finish (length msgs - length (got s)) s); [|lia]. eapply linv_after; [apply linv_init|exact E]. Qed.
End Live.
