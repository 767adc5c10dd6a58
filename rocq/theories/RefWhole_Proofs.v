From Coq Require Import ZifyBool.
From Verif Require Import Base Cover_Spec Loops_Model Loops_Spec Sched_Spec Sched_Proofs Micro_Model Micro_Spec Ref_Model Ref_Spec Ref_Proofs RefStage_Proofs RefRun_Proofs.

Lemma ref_steps_between first last : ref_steps first last = steps_between first last.
Proof.
  unfold ref_steps, steps_between. destruct (first <=? last) eqn:E.
  - unfold zrange. replace (Z.abs (last + 1 - first)) with (last + 1 - first) by lia. apply map_ext. intros. lia.
  - replace (Z.abs (last + -1 - first)) with (first + 1 - last) by lia.
    assert (G : forall k l, map (fun i => (l + Z.of_nat k - 1) + i * -1) (zseq (Z.of_nat k)) = rev (zrange l (l + Z.of_nat k))).
    { induction k as [|k IH]; intros l; [cbn; rewrite zrange_nil by lia; reflexivity|].
      assert (R : zrange l (l + Z.of_nat (S k)) = zrange l (l + Z.of_nat k) ++ [l + Z.of_nat k]).
      { unfold zrange. replace (l + Z.of_nat (S k) - l) with (Z.of_nat k + 1) by lia. replace (l + Z.of_nat k - l) with (Z.of_nat k) by lia.
        unfold zseq. replace (Z.to_nat (Z.of_nat k + 1)) with (k + 1)%nat by lia. rewrite seq_app, !map_app, Nat2Z.id. cbn. reflexivity. }
      rewrite R, rev_app_distr, <- IH. cbn [rev app].
      unfold zseq. rewrite !Nat2Z.id. cbn [seq map]. f_equal; [lia|]. rewrite <- seq_shift, !map_map. apply map_ext. intros. lia. }
    specialize (G (Z.to_nat (first + 1 - last)) last). rewrite Z2Nat.id in G by lia. replace (last + (first + 1 - last)) with (first + 1) in G by lia. rewrite <- G. apply map_ext. intros. lia.
Qed.

Lemma rfold_app A St (f : St -> A -> res St) l1 : forall l2 s, rfold f (l1 ++ l2) s = rbind (rfold f l1 s) (rfold f l2).
Proof. induction l1 as [|a l1 IH]; intros l2 s; [reflexivity|]. cbn. destruct (f s a); cbn; auto. Qed.

Section Whole.
  Context {V : Type} (zero : V) (alloc : Z -> Z) (st : stencil V) (scr : Z -> bool).
  Variable cond : mpart -> list Z -> bool.
  Variables (s : mset) (n : nat) (aofs : list Z) (rank : list (Z * Z)).
  Variables (ord : Z -> list mpart) (reqd : Z -> mpart -> list mpart) (stages : Z -> list (list mpart)) (reg : Z -> mpart -> list Z -> bool).
  Let hit := expands (ms_fi s) (ms_rofs s) (ms_folds s).
  Definition good t parts := stage_ok alloc st scr cond t rank (ord t) (reqd t) parts /\ setup_ok s n rank (ord t) (reqd t) parts cond (reg t).
  Hypothesis Ha : length aofs = n.
  Notation body t := (fun log ap => if negb (mp_valid ap) then Ok log else rbind (rfold (ref_part cond aofs rank) (reqd t ap) ([], log)) (fun st => Ok (snd st))).

  Lemma ref_stage t parts m0 : good t parts -> forall log0, exists log,
    rfold (body t) parts log0 = Ok (log0 ++ log) /\
    (exists m', plays zero alloc st hit t log m0 m') /\ forall m', plays zero alloc st hit t log m0 m' -> stage_result zero alloc st scr cond t rank (ord t) parts m0 m'.
  Proof using Ha.
    intros (H & S1 & _ & (P1 & _) & _ & (L & N) & _) log0. destruct (values_exist zero alloc st scr cond t rank (ord t) (reqd t) parts H m0) as (X & HX).
    apply (ref_stage_run zero alloc st scr cond t rank (ord t) (reqd t) parts H aofs n) with (X := X); auto.
    - destruct S1 as (K & _). repeat split; auto; lia.
    - intros q Rq Sq. apply (P1 q Rq). exact Sq.
  Qed.

  (* stages of one step: the reference run and the micro-blocks stay together *)
  Lemma step_together t : forall pl, (forall parts, In parts pl -> good t parts) -> forall log0, exists log, rfold (body t) (concat pl) log0 = Ok (log0 ++ log) /\
    (forall m0, exists m', plays zero alloc st hit t log m0 m') /\
    forall m0 m1 mr ml ml' mm, same_vars scr m0 m1 -> plays zero alloc st hit t log m0 mr ->
      run_logs s n rank reqd (map (pair t) pl) ml -> plays_stages zero alloc st hit scr (ml ++ ml') m1 mm ->
      exists mm1, plays_stages zero alloc st hit scr ml' mm1 mm /\ same_vars scr mr mm1.
  Proof using Ha.
    induction pl as [|parts pl IH]; intros Hg log0.
    - exists []. cbn. rewrite app_nil_r. split; [reflexivity|]. split; [intros m0; exists m0; constructor|]. intros m0 m1 mr ml ml' mm Sm P R Q. inversion R; subst. inversion P; subst. exists m1. split; [exact Q|exact Sm].
    - pose proof (Hg parts (or_introl eq_refl)) as G1. cbn [concat]. destruct (ref_stage t parts (fun _ => zero) G1 log0) as (log1 & E1 & _).
      destruct (IH (fun p I => Hg p (or_intror I)) (log0 ++ log1)) as (log2 & E2 & X2 & K2). exists (log1 ++ log2). rewrite rfold_app, E1. cbn [rbind]. rewrite E2, app_assoc. split; [reflexivity|].
      assert (K1 : forall m0, (exists m', plays zero alloc st hit t log1 m0 m') /\ forall m', plays zero alloc st hit t log1 m0 m' -> stage_result zero alloc st scr cond t rank (ord t) parts m0 m').
      { intros m0. destruct (ref_stage t parts m0 G1 log0) as (log1' & E1' & K). rewrite E1 in E1'. injection E1' as E1'. apply app_inv_head in E1'. subst log1'. exact K. }
      split.
      + intros m0. destruct (K1 m0) as ((m1 & P1) & _). destruct (X2 m1) as (m2 & P2). exists m2. apply (plays_join _ _ _ _ _ _ _ _ _ _ _ P1 P2).
      + intros m0 m1 mr ml ml' mm Sm P R Q. apply plays_app in P as (mid & Pa & Pb). inversion R as [|? (t' & logs) ? ml2 (Et & dss & B1 & B2) R2]; subst. cbn [fst snd] in *. subst t'.
        cbn [app] in Q. inversion Q as [|? ? ? ? m2 ? Q1 Q2]; subst.
        destruct G1 as (H & HS). destruct (blocks_run zero alloc st scr cond t rank (ord t) (reqd t) parts H s n (reg t) HS dss B1) as (logs' & B2' & KB).
        assert (logs' = logs).
        { clear -B2 B2'. unfold block_logs in *. revert logs' B2'. induction B2 as [|d l ds ls (a & b & E) B IH]; intros logs' B2'; inversion B2' as [|? l' ? ls' (a' & b' & E') B']; subst; [reflexivity|]. rewrite E in E'. injection E' as _ _ ->. f_equal. apply IH. exact B'. }
        subst logs'. destruct (KB m1) as (_ & KB1). specialize (KB1 m2 Q1). pose proof (proj2 (K1 m0) mid Pa) as KR.
        pose proof (result_unique zero alloc st scr cond t rank (ord t) (reqd t) parts H m0 m1 mid m2 Sm KR KB1) as Sm2.
        apply (K2 mid m2 mr ml2 ml' mm Sm2 Pb R2 Q2).
  Qed.

  Lemma whole_run first last : (forall t parts, In t (steps_between first last) -> In parts (stages t) -> good t parts) ->
    exists rl, run_ref cond aofs rank reqd (fun t => concat (stages t)) first last = Ok rl /\
      (forall m0, exists mr, plays_steps zero alloc st hit rl m0 mr) /\
      forall m0 m1 mr mm ml, same_vars scr m0 m1 -> plays_steps zero alloc st hit rl m0 mr -> run_logs s n rank reqd (stage_seq stages first last) ml ->
        plays_stages zero alloc st hit scr ml m1 mm -> same_vars scr mr mm.
  Proof using Ha.
    unfold run_ref, stage_seq. rewrite ref_steps_between. generalize (steps_between first last) as ts. intros ts Hg.
    assert (G : forall ts acc, (forall t parts, In t ts -> In parts (stages t) -> good t parts) -> exists rl,
      rfold (fun acc t => rbind (ref_step cond aofs rank (reqd t) (concat (stages t))) (fun log => Ok (acc ++ [(t, log)]))) ts acc = Ok (acc ++ rl) /\
      (forall m0, exists mr, plays_steps zero alloc st hit rl m0 mr) /\
      forall m0 m1 mr mm ml, same_vars scr m0 m1 -> plays_steps zero alloc st hit rl m0 mr -> run_logs s n rank reqd (flat_map (fun t => map (pair t) (stages t)) ts) ml ->
        plays_stages zero alloc st hit scr ml m1 mm -> same_vars scr mr mm).
    { clear Hg ts. induction ts as [|t ts IH]; intros acc Hg.
      - exists []. cbn. rewrite app_nil_r. split; [reflexivity|]. split; [intros m0; exists m0; constructor|]. intros m0 m1 mr mm ml Sm P R Q. inversion P; subst. inversion R; subst. inversion Q; subst. exact Sm.
      - destruct (step_together t (stages t) (fun p I => Hg t p (or_introl eq_refl) I) []) as (log & E & X1 & K). cbn [rfold]. unfold ref_step at 1. rewrite E. cbn [app rbind].
        destruct (IH (acc ++ [(t, log)]) (fun t' p I => Hg t' p (or_intror I))) as (rl & E2 & X2 & K2). exists ((t, log) :: rl). rewrite E2, <- app_assoc. split; [reflexivity|]. split.
        + intros m0. destruct (X1 m0) as (m1 & P1). destruct (X2 m1) as (m2 & P2). exists m2. econstructor; eassumption.
        + intros m0 m1 mr mm ml Sm P R Q. inversion P as [|? ? ? ? mid ? P1 P2]; subst. cbn [flat_map] in R. apply Forall2_app_inv_l in R as (l1 & l2 & R1 & R2 & ->).
          destruct (K m0 m1 mid l1 l2 mm Sm P1 R1 Q) as (mm1 & Q2 & Sm2). apply (K2 mid mm1 mr mm l2 Sm2 P2 R2 Q2). }
    destruct (G ts [] Hg) as (rl & E & K). exists rl. split; [exact E|exact K].
  Qed.

  (* the micro-blocks can be run *)
  Lemma stages_run first last dsf : (forall t parts, In t (steps_between first last) -> In parts (stages t) -> good t parts /\ blocks_ok n rank (dsf t parts)) ->
    exists ml, run_logs s n rank reqd (stage_seq stages first last) ml /\ forall m, exists mm, plays_stages zero alloc st hit scr ml m mm.
  Proof using.
    unfold stage_seq. intros Hg.
    assert (Hg' : forall x, In x (flat_map (fun t => map (pair t) (stages t)) (steps_between first last)) -> good (fst x) (snd x) /\ blocks_ok n rank (dsf (fst x) (snd x))).
    { intros (t & parts) I. apply in_flat_map in I as (t' & I1 & I2). apply in_map_iff in I2 as (p' & F & I2). injection F as -> ->. apply Hg; assumption. }
    clear Hg. induction (flat_map (fun t => map (pair t) (stages t)) (steps_between first last)) as [|(t & parts) l IH].
    - exists []. split; [constructor|]. intros m. exists m. constructor.
    - destruct (IH (fun x I => Hg' x (or_intror I))) as (ml & R & X). destruct (Hg' (t, parts) (or_introl eq_refl)) as ((H & HS) & B). cbn [fst snd] in *.
      destruct (blocks_run zero alloc st scr cond t rank (ord t) (reqd t) parts H s n (reg t) HS (dsf t parts) B) as (logs & BL & K). exists ((t, logs) :: ml). split.
      + constructor; [cbn [fst snd]; split; [reflexivity|]; exists (dsf t parts); auto|exact R].
      + intros m. destruct (K m) as ((m1 & P1) & _). destruct (X m1) as (mm & P). exists mm. econstructor; eassumption.
  Qed.
End Whole.

Lemma reqd_filter sstages dep sp : reqd_parts sstages dep sp = filter (dep sp) (concat sstages) ++ [sp].
Proof. unfold reqd_parts. f_equal. induction sstages as [|l ls IH]; [reflexivity|]. cbn. rewrite filter_app, IH. reflexivity. Qed.

Section Statements.
  Context {V : Type} (zero : V) (alloc : Z -> Z) (st : stencil V) (scr : Z -> bool) (cond : mpart -> list Z -> bool).
  Lemma scratch_exist : forall t rank ord reqd parts, stage_ok alloc st scr cond t rank ord reqd parts -> forall m,
    exists X, scratch_values zero alloc st scr cond t ord m X /\ forall Y, scratch_values zero alloc st scr cond t ord m Y -> forall c, Y c = X c.
  Proof.
    intros t rank ord reqd parts H m. destruct (values_exist zero alloc st scr cond t rank ord reqd parts H m) as (X & HX). exists X. split; [exact HX|].
    intros Y HY c. apply (values_unique zero alloc st scr cond t rank ord reqd parts H m m Y X (fun c _ => eq_refl) HY HX).
  Qed.
  Lemma micro_stage : forall t rank ord reqd parts s n reg dss,
    stage_ok alloc st scr cond t rank ord reqd parts -> setup_ok s n rank ord reqd parts cond reg -> blocks_ok n rank dss ->
    exists logs, block_logs s reqd parts dss logs /\ forall m,
      (exists m', plays_blocks zero alloc st (expands (ms_fi s) (ms_rofs s) (ms_folds s)) scr t logs m m') /\
      forall m', plays_blocks zero alloc st (expands (ms_fi s) (ms_rofs s) (ms_folds s)) scr t logs m m' -> stage_result zero alloc st scr cond t rank ord parts m m'.
  Proof. intros t rank ord reqd parts s n reg dss H HS B. apply (blocks_run zero alloc st scr cond t rank ord reqd parts H s n reg HS dss B). Qed.
  Lemma reference_stage : forall t rank ord reqd parts s n reg aofs,
    stage_ok alloc st scr cond t rank ord reqd parts -> setup_ok s n rank ord reqd parts cond reg -> length aofs = n ->
    exists log, ref_step cond aofs rank reqd parts = Ok log /\ forall m,
      (exists m', plays zero alloc st (expands (ms_fi s) (ms_rofs s) (ms_folds s)) t log m m') /\
      forall m', plays zero alloc st (expands (ms_fi s) (ms_rofs s) (ms_folds s)) t log m m' -> stage_result zero alloc st scr cond t rank ord parts m m'.
  Proof.
    intros t rank ord reqd parts s n reg aofs H HS La.
    assert (K : forall m, exists log, ref_step cond aofs rank reqd parts = Ok log /\
      (exists m', plays zero alloc st (expands (ms_fi s) (ms_rofs s) (ms_folds s)) t log m m') /\
      forall m', plays zero alloc st (expands (ms_fi s) (ms_rofs s) (ms_folds s)) t log m m' -> stage_result zero alloc st scr cond t rank ord parts m m').
    { intros m. apply (ref_stage zero alloc st scr cond s n aofs rank (fun _ => ord) (fun _ => reqd) (fun _ => reg) La t parts m (conj H HS) []). }
    destruct (K (fun _ => zero)) as (log & E & _). exists log. split; [exact E|]. intros m. destruct (K m) as (log' & E' & K'). rewrite E in E'. injection E' as <-. exact K'.
  Qed.
  Lemma same_run : forall s n aofs rank ord reqd stages reg first last,
    length aofs = n ->
    (forall t parts, In t (steps_between first last) -> In parts (stages t) ->
       stage_ok alloc st scr cond t rank (ord t) (reqd t) parts /\ setup_ok s n rank (ord t) (reqd t) parts cond (reg t)) ->
    let hit := expands (ms_fi s) (ms_rofs s) (ms_folds s) in
    exists rl, run_ref cond aofs rank reqd (fun t => concat (stages t)) first last = Ok rl /\
      (forall m, exists mr, plays_steps zero alloc st hit rl m mr) /\
      (forall dsf, (forall (t : Z) (parts : list mpart), blocks_ok n rank (dsf t parts)) -> exists ml, run_logs s n rank reqd (stage_seq stages first last) ml /\ forall m, exists mm, plays_stages zero alloc st hit scr ml m mm) /\
      forall m m1 mr mm ml, same_vars scr m m1 -> plays_steps zero alloc st hit rl m mr ->
        run_logs s n rank reqd (stage_seq stages first last) ml -> plays_stages zero alloc st hit scr ml m1 mm -> same_vars scr mr mm.
  Proof.
    intros s n aofs rank ord reqd stages reg first last La Hg hit. destruct (whole_run zero alloc st scr cond s n aofs rank ord reqd stages reg La first last Hg) as (rl & E & Ex & K).
    exists rl. split; [exact E|]. split; [exact Ex|]. split; [|exact K]. intros dsf B. apply (stages_run zero alloc st scr cond s n rank ord reqd stages reg first last dsf).
    intros t parts I1 I2. split; [apply Hg; assumption|apply B].
  Qed.
End Statements.
