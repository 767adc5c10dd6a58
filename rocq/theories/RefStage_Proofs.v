From Coq Require Import ZifyBool.
From Verif Require Import Base Cover_Spec Sched_Spec Sched_Proofs Micro_Model Micro_Spec Ref_Model Ref_Spec Ref_Proofs.

Section Stage.
  Context {V : Type} (zero : V) (alloc : Z -> Z) (st : stencil V) (hit : list wr -> list (list Z) -> Prop) (scr : Z -> bool).
  Variable cond : mpart -> list Z -> bool.
  Variable t : Z.
  Variable rank : list (Z * Z).
  Variable ord : list mpart.
  Variable reqd : mpart -> list mpart.
  Variable parts : list mpart.
  Hypothesis H : stage_ok alloc st scr cond t rank ord reqd parts.
  Variables m0 X : cell -> V.
  Hypothesis HX : scratch_values zero alloc st scr cond t ord m0 X.
  Notation on := (on cond).
  Notation rds := (rds alloc st t).
  Notation wrs := (wrs alloc st t).
  Notation result := (result alloc st t).
  Notation plays := (plays zero alloc st hit t).

  Lemma in_reqd sp q : In sp parts -> In q (reqd sp) -> In q ord \/ q = sp.
  Proof using H.
    intros I J. destruct (so_reqd _ _ _ _ _ _ _ _ _ H sp I) as (dep & E). rewrite E in J. apply in_app_or in J as [J|[<-|[]]]; [left; apply filter_In in J; tauto|right; reflexivity].
  Qed.
  Lemma reqd_known sp q : In sp parts -> In q (reqd sp) -> In q (ord ++ parts).
  Proof using H. intros I J. apply in_or_app. destruct (in_reqd sp q I J) as [K| ->]; auto. Qed.
  Lemma ord_parts q : In q ord -> In q parts -> False.
  Proof using H. intros I J. destruct (so_kinds _ _ _ _ _ _ _ _ _ H) as (A & B). rewrite Forall_forall in A, B. destruct (B q J) as (B1 & _). rewrite (A q I) in B1. discriminate. Qed.
  Lemma span_main sp b : In sp parts -> span sp b = b.
  Proof using H. intros I. destruct (so_kinds _ _ _ _ _ _ _ _ _ H) as (_ & B). rewrite Forall_forall in B. unfold span. rewrite (proj1 (B sp I)). reflexivity. Qed.

  (* vars: [Dn sp p] = part sp has been evaluated at p *)
  Definition GInv (Dn : mpart -> list Z -> Prop) (m : cell -> V) : Prop :=
    (forall sp p, Dn sp p -> In sp parts /\ in_box rank p = true /\ on sp p = true) /\
    forall c, scr (var_of c) = false ->
      (forall sp p, Dn sp p -> In c (wrs sp p) -> m c = result X sp p c) /\ ((forall sp p, Dn sp p -> ~ In c (wrs sp p)) -> m c = m0 c).

  Lemma GInv_same Dn m m' : GInv Dn m -> same_vars scr m m' -> GInv Dn m'.
  Proof using. intros (A & G) S. split; [exact A|]. intros c Hc. rewrite (S c Hc). apply G. exact Hc. Qed.

  Variable b : list (Z * Z).
  Hypothesis Hb : inside b rank.
  (* scratch vars: [S] = vars that hold something defined, [D] = the parts that have been evaluated *)
  Definition ScrInv (S : Z -> Prop) (D : list Z) (m : cell -> V) : Prop :=
    forall v p, S v -> scr v = true -> (forall q, In q ord -> In v (mp_outs q) -> in_box (span q b) p = true) ->
      (forall q, In q ord -> In (mp_id q) D -> In v (mp_outs q) -> on q p = true -> m (v, 0, p) = X (v, 0, p)) /\
      ((forall q, In q ord -> In (mp_id q) D -> In v (mp_outs q) -> on q p = false) -> m (v, 0, p) = zero).

  (* all that [q] reads has its final value *)
  Definition ready (S : Z -> Prop) (D : list Z) (q : mpart) : Prop :=
    forall p c q', In c (rds q p) -> In q' ord -> In (var_of c) (mp_outs q') -> S (var_of c) /\ (mp_valid q' = true -> In (mp_id q') D).

  Lemma reads_ok S D Dn m sp q p : GInv Dn m -> ScrInv S D m -> ready S D q -> In sp parts -> In q (reqd sp) ->
    in_box (span q b) p = true -> on q p = true -> ~ Dn q p -> map m (rds q p) = map X (rds q p).
  Proof using H HX Hb.
    intros (GD & G) SI R Isp Iq Ip On Nd. destruct HX as (X1 & X2 & X3). pose proof (reqd_known sp q Isp Iq) as Kq. apply map_ext_In. intros c Ic.
    destruct (scr (var_of c)) eqn:Sc.
    - pose proof (so_slot _ _ _ _ _ _ _ _ _ H q p c Kq Ic Sc) as Ec.
      destruct (so_written _ _ _ _ _ _ _ _ _ H q p c Kq Ic Sc) as (q1 & I1 & O1).
      destruct (SI (var_of c) (snd c)) as (A & B); [apply (R p c q1 Ic I1 O1)|exact Sc| |].
      { intros q' Iq' Oq'. apply (so_span _ _ _ _ _ _ _ _ _ H q p c q' b Kq Ic Iq' Oq' Ip). }
      rewrite <- Ec in A, B.
      destruct (existsb (fun q' => on q' (snd c) && (if in_dec Z.eq_dec (var_of c) (mp_outs q') then true else false)) ord) eqn:Ex.
      + apply existsb_exists in Ex as (q' & Iq' & E). apply andb_true_iff in E as (E1 & E2). destruct (in_dec Z.eq_dec (var_of c) (mp_outs q')) as [Oq'|]; [|discriminate].
        apply (A q' Iq'); auto. apply (R p c q' Ic Iq' Oq'). unfold Ref_Spec.on in E1. destruct (mp_valid q'); [reflexivity|discriminate].
      + assert (Hf : forall q', In q' ord -> In (var_of c) (mp_outs q') -> on q' (snd c) = false).
        { intros q' Iq' Oq'. destruct (on q' (snd c)) eqn:E; [|reflexivity]. exfalso. assert (T : existsb (fun q' => on q' (snd c) && (if in_dec Z.eq_dec (var_of c) (mp_outs q') then true else false)) ord = true); [|congruence].
          apply existsb_exists. exists q'. split; [exact Iq'|]. rewrite E. destruct (in_dec Z.eq_dec (var_of c) (mp_outs q')); [reflexivity|contradiction]. }
        rewrite B by (intros; apply Hf; assumption). symmetry. apply X3; [exact Sc|]. intros q' Iq' Eq' W. apply (so_scr_wr _ _ _ _ _ _ _ _ _ H q' (snd c) c Iq') in W as (v & Ov & E).
        rewrite (Hf q' Iq') in Eq'; [discriminate|]. rewrite E. exact Ov.
    - destruct (G c Sc) as (_ & B). rewrite B; [symmetry; apply X1; exact Sc|]. intros sp' p' Dp W. destruct (GD sp' p' Dp) as (P1 & P2 & P3).
      destruct (so_indep _ _ _ _ _ _ _ _ _ H sp q p sp' p' c Isp Iq) as (-> & ->); auto. apply (in_inside _ _ _ (inside_span q _ _ Hb) Ip).
  Qed.

  (* the points at which a part is evaluated *)
  Definition pts_of (q : mpart) (pts : list (list Z)) : Prop := NoDup pts /\ forall p, In p pts <-> in_box (span q b) p && cond q p = true.

  Lemma step_scratch S D Dn m sp q pts : GInv Dn m -> ScrInv S D m -> ready S D q -> In sp parts -> In q (reqd sp) -> In q ord -> mp_valid q = true -> pts_of q pts ->
    (forall v, In v (mp_outs q) -> S v \/ forall p, cond q p = true) -> ~ In (mp_id q) D ->
    let m' := exec alloc st (map (mkInst t (mp_id q)) pts) m in
    GInv Dn m' /\ ScrInv (fun v => S v \/ In v (mp_outs q)) (mp_id q :: D) m'.
  Proof using H HX Hb.
    intros G SI R Isp Iq Io Va (N & Hp) Hs Nd m'.
    assert (Wq : forall p c, In c (wr_cells alloc st (mkInst t (mp_id q) p)) <-> exists v, In v (mp_outs q) /\ c = (v, 0, p)) by (intros; apply (so_scr_wr _ _ _ _ _ _ _ _ _ H q p c Io)).
    assert (Ex : forall c, (forall p, In p pts -> In c (wr_cells alloc st (mkInst t (mp_id q) p)) -> m' c = s_val st (mkInst t (mp_id q) p) (map m (rd_cells alloc st (mkInst t (mp_id q) p))) c) /\
      ((forall p, In p pts -> ~ In c (wr_cells alloc st (mkInst t (mp_id q) p))) -> m' c = m c)).
    { apply exec_pts; [exact N| |].
      - intros p c _ Ic. apply Wq in Ic as (v & _ & ->). reflexivity.
      - intros p p' c Ip Ip' Ic Wc. exfalso. apply Wq in Wc as (v & Ov & Ec).
        assert (Bf : before ord q q) by (apply (so_before _ _ _ _ _ _ _ _ _ H q p c q Io Ic Io); rewrite Ec; exact Ov).
        apply (before_asym _ ord q q (proj1 (so_nodup _ _ _ _ _ _ _ _ _ H)) Bf Bf). }
    assert (Gs : GInv Dn m').
    { apply (GInv_same Dn m); [exact G|]. intros c Sc. apply (proj2 (Ex c)). intros p _ Ic. apply Wq in Ic as (v & Ov & ->). cbn in Sc. rewrite (so_scr_out _ _ _ _ _ _ _ _ _ H q v Io Ov) in Sc. discriminate. }
    split; [exact Gs|]. intros v p Sv Sc Cv.
    assert (Hq : forall q1, In q1 ord -> In (mp_id q1) (mp_id q :: D) -> q1 = q \/ In (mp_id q1) D).
    { intros q1 I1 [E|J]; [left|right; exact J]. apply (so_ids _ _ _ _ _ _ _ _ _ H); auto; apply in_or_app; left; assumption. }
    destruct (in_dec Z.eq_dec v (mp_outs q)) as [Ov|Nv].
    - pose proof (Cv q Io Ov) as Bp. destruct (on q p) eqn:Eo.
      + assert (Ip : In p pts). { apply Hp. rewrite Bp. unfold Ref_Spec.on in Eo. rewrite Va in Eo. exact Eo. }
        assert (Wc : In (v, 0, p) (wr_cells alloc st (mkInst t (mp_id q) p))) by (apply Wq; eexists; split; [exact Ov|reflexivity]).
        assert (Em : m' (v, 0, p) = X (v, 0, p)).
        { rewrite (proj1 (Ex (v, 0, p)) p Ip Wc). destruct HX as (_ & X2 & _). rewrite (X2 q p (v, 0, p) Io Eo Wc). unfold Ref_Spec.result. f_equal.
          apply (reads_ok S D Dn m sp q p G SI R Isp Iq Bp Eo). intros Dq. destruct (proj1 G q p Dq) as (P & _). apply (ord_parts q Io P). }
        split; [intros; exact Em|]. intros Hf. rewrite (Hf q Io (or_introl eq_refl) Ov) in Eo. discriminate.
      + assert (Sv' : S v). { destruct (Hs v Ov) as [K|K]; [exact K|]. unfold Ref_Spec.on in Eo. rewrite Va, K in Eo. discriminate. }
        assert (Em : m' (v, 0, p) = m (v, 0, p)).
        { apply (proj2 (Ex (v, 0, p))). intros p' Ip' Wc. apply Wq in Wc as (v' & _ & E). injection E as _ <-. apply Hp in Ip'. apply andb_true_iff in Ip' as (_ & C). unfold Ref_Spec.on in Eo. rewrite Va, C in Eo. discriminate. }
        rewrite Em. destruct (SI v p Sv' Sc Cv) as (A & B). split.
        * intros q1 I1 D1 O1 E1. destruct (Hq q1 I1 D1) as [->|D1']; [congruence|]. apply (A q1); assumption.
        * intros Hf. apply B. intros q1 I1 D1 O1. apply Hf; auto. right. exact D1.
    - destruct Sv as [Sv|Ov]; [|contradiction].
      assert (Em : m' (v, 0, p) = m (v, 0, p)).
      { apply (proj2 (Ex (v, 0, p))). intros p' Ip' Wc. apply Wq in Wc as (v' & Ov' & E). injection E as -> _. contradiction. }
      rewrite Em. destruct (SI v p Sv Sc Cv) as (A & B). split.
      + intros q1 I1 D1 O1 E1. destruct (Hq q1 I1 D1) as [->|D1']; [contradiction|]. apply (A q1); assumption.
      + intros Hf. apply B. intros q1 I1 D1 O1. apply Hf; auto. right. exact D1.
  Qed.

  Lemma step_main S D Dn m sp pts : GInv Dn m -> ScrInv S D m -> ready S D sp -> In sp parts -> In sp (reqd sp) -> mp_valid sp = true -> pts_of sp pts ->
    (forall p, in_box b p = true -> ~ Dn sp p) ->
    let m' := exec alloc st (map (mkInst t (mp_id sp)) pts) m in
    GInv (fun s p => Dn s p \/ (s = sp /\ in_box b p = true /\ on sp p = true)) m' /\ ScrInv S (mp_id sp :: D) m'.
  Proof using H HX Hb.
    intros G SI R Isp Iq Va (N & Hp) Nd m'. pose proof G as (GD & G').
    rewrite (span_main sp b Isp) in Hp.
    assert (Wq : forall p c, In c (wr_cells alloc st (mkInst t (mp_id sp) p)) -> scr (var_of c) = false /\ snd c = p) by (intros p c; apply (so_wr _ _ _ _ _ _ _ _ _ H sp p c Isp)).
    assert (Pr : forall p, In p pts -> in_box b p = true /\ in_box rank p = true /\ on sp p = true).
    { intros p Ip. apply Hp in Ip. apply andb_true_iff in Ip as (B1 & B2). split; [exact B1|]. split; [apply (in_inside _ _ _ Hb B1)|]. unfold Ref_Spec.on. rewrite Va, B2. reflexivity. }
    assert (Ex : forall c, (forall p, In p pts -> In c (wr_cells alloc st (mkInst t (mp_id sp) p)) -> m' c = s_val st (mkInst t (mp_id sp) p) (map m (rd_cells alloc st (mkInst t (mp_id sp) p))) c) /\
      ((forall p, In p pts -> ~ In c (wr_cells alloc st (mkInst t (mp_id sp) p))) -> m' c = m c)).
    { apply exec_pts; [exact N| |].
      - intros p c _ Ic. apply (Wq p c Ic).
      - intros p p' c Ip Ip' Ic Wc. destruct (Pr p Ip) as (P1 & P2 & P3), (Pr p' Ip') as (Q1 & Q2 & Q3).
        apply (so_indep _ _ _ _ _ _ _ _ _ H sp sp p sp p' c Isp Iq); auto. rewrite (span_main sp rank Isp). exact P2. }
    split.
    - split.
      + intros s p [Dp|(-> & B1 & E)]; [apply GD; exact Dp|]. split; [exact Isp|]. split; [apply (in_inside _ _ _ Hb B1)|exact E].
      + intros c Sc. destruct (G' c Sc) as (A & B). split.
        * intros s p Ds W. destruct Ds as [Dp|(-> & B1 & E)].
          -- destruct (GD s p Dp) as (P1 & P2 & P3). rewrite <- (A s p Dp W). apply (proj2 (Ex c)). intros p' Ip' W'. destruct (Pr p' Ip') as (Q1 & Q2 & Q3).
             assert (E1 : p = p') by (rewrite <- (proj2 (so_wr _ _ _ _ _ _ _ _ _ H s p c P1 W)); apply (Wq p' c W')). subst p'.
             assert (s = sp) by (apply (so_once _ _ _ _ _ _ _ _ _ H s sp p c); assumption). subst s. apply (Nd p Q1 Dp).
          -- assert (Ip : In p pts). { apply Hp. rewrite B1. unfold Ref_Spec.on in E. rewrite Va in E. exact E. }
             rewrite (proj1 (Ex c) p Ip W). unfold Ref_Spec.result. f_equal. apply (reads_ok S D Dn m sp sp p G SI R Isp Iq); [rewrite (span_main sp b Isp); exact B1|exact E|apply Nd; exact B1].
        * intros Hn. rewrite (proj2 (Ex c)); [apply B; intros s p Dp; apply Hn; left; exact Dp|]. intros p Ip. destruct (Pr p Ip) as (Q1 & _ & Q3). apply Hn. right. auto.
    - intros v p Sv Sc Cv. destruct (SI v p Sv Sc Cv) as (A & B).
      assert (Hd : forall q1, In q1 ord -> In (mp_id q1) (mp_id sp :: D) -> In (mp_id q1) D).
      { intros q1 I1 [E|J]; [|exact J]. exfalso. apply (ord_parts q1 I1). rewrite <- (so_ids _ _ _ _ _ _ _ _ _ H sp q1); auto; apply in_or_app; auto. }
      assert (Em : m' (v, 0, p) = m (v, 0, p)).
      { apply (proj2 (Ex (v, 0, p))). intros p' Ip' W. apply Wq in W as (W & _). cbn in W. congruence. }
      rewrite Em. split.
      + intros q1 I1 D1 O1 E1. apply (A q1); auto.
      + intros Hf. apply B. intros q1 I1 D1 O1. apply Hf; auto. right. exact D1.
  Qed.

  Lemma step_init S D Dn m m' vs : GInv Dn m -> ScrInv S D m -> (forall v, In v vs -> scr v = true) ->
    (forall v q, In v vs -> In q ord -> In (mp_id q) D -> ~ In v (mp_outs q)) -> plays (map EvInit vs) m m' ->
    GInv Dn m' /\ ScrInv (fun v => S v \/ In v vs) D m'.
  Proof using.
    intros G SI Hv Hw P. destruct (plays_inits _ _ _ _ _ _ _ _ P) as (A & B). split.
    - apply (GInv_same Dn m _ G). intros c Sc. apply B. intros I. rewrite (Hv _ I) in Sc. discriminate.
    - intros v p Sv Sc Cv. destruct (in_dec Z.eq_dec v vs) as [I|I].
      + split; [|intros _; apply (A (v, 0, p)); exact I]. intros q I1 I2 I3. destruct (Hw v q I I1 I2 I3).
      + destruct Sv as [Sv|]; [|contradiction]. rewrite (B (v, 0, p)) by exact I. apply SI; assumption.
  Qed.

  (* one micro-block, or the reference run of one part: [Dn0] = what has been evaluated before *)
  Variable Dn0 : mpart -> list Z -> Prop.
  Definition DnD (D : list Z) (s : mpart) (p : list Z) : Prop := Dn0 s p \/ (In s parts /\ In (mp_id s) D /\ in_box b p = true /\ on s p = true).
  Definition Inv (S : Z -> Prop) (D : list Z) (m : cell -> V) : Prop :=
    GInv (DnD D) m /\ ScrInv S D m /\ (forall q v, In q ord -> In (mp_id q) D -> In v (mp_outs q) -> S v).

  Lemma GInv_ext Dn Dn' m : (forall s p, Dn s p <-> Dn' s p) -> GInv Dn m -> GInv Dn' m.
  Proof using.
    intros E (A & G). split; [intros s p K; apply A, E, K|]. intros c Sc. destruct (G c Sc) as (B & C). split; [intros s p K; apply B, E, K|].
    intros K. apply C. intros s p L. apply K, E, L.
  Qed.
  Lemma Inv_start m S : GInv Dn0 m -> (forall v, ~ S v) -> Inv S [] m.
  Proof using.
    intros G HS. split; [|split].
    - apply (GInv_ext Dn0); [|exact G]. intros s p. unfold DnD. cbn. tauto.
    - intros v p Sv. destruct (HS v Sv).
    - contradiction.
  Qed.
  Lemma Inv_sub S S' D m : Inv S D m -> (forall v, S v <-> S' v) -> Inv S' D m.
  Proof using.
    intros (A & B & C) E. split; [exact A|]. split; [intros v p Sv; apply B, E, Sv|]. intros q v I1 I2 I3. apply E. apply (C q v I1 I2 I3).
  Qed.

  Lemma eval_part S D m sp q pts : Inv S D m -> ready S D q -> In sp parts -> In q (reqd sp) -> mp_valid q = true -> pts_of q pts -> ~ In (mp_id q) D ->
    (In q ord -> forall v, In v (mp_outs q) -> S v \/ forall p, cond q p = true) ->
    (q = sp -> forall p, in_box b p = true -> ~ Dn0 sp p) ->
    Inv (fun v => S v \/ In v (mp_outs q)) (mp_id q :: D) (exec alloc st (map (mkInst t (mp_id q)) pts) m).
  Proof using H HX Hb.
    intros (G & SI & HS) R Isp Iq Va Hp Nd Hc Hd.
    assert (HS' : forall q1 v, In q1 ord -> In (mp_id q1) (mp_id q :: D) -> In v (mp_outs q1) -> S v \/ In v (mp_outs q)).
    { intros q1 v I1 [E|I2] I3; [|left; apply (HS q1 v I1 I2 I3)]. right. rewrite (so_ids _ _ _ _ _ _ _ _ _ H q q1); auto; [apply (reqd_known sp q Isp Iq)|apply in_or_app; left; exact I1]. }
    destruct (in_reqd sp q Isp Iq) as [Io|Eq].
    - destruct (step_scratch S D (DnD D) m sp q pts G SI R Isp Iq Io Va Hp (Hc Io) Nd) as (A & B). split; [|split; [exact B|exact HS']].
      apply (GInv_ext (DnD D)); [|exact A]. intros s p. unfold DnD. cbn [In]. split; intros [K|(K1 & K2 & K3)]; [left; exact K|right; auto|left; exact K|].
      right. split; [exact K1|]. split; [|exact K3]. destruct K2 as [K2|K2]; [|exact K2]. exfalso. apply (ord_parts q Io). rewrite (so_ids _ _ _ _ _ _ _ _ _ H q s); auto; apply in_or_app; auto.
    - subst q. destruct (step_main S D (DnD D) m sp pts G SI R Isp Iq Va Hp) as (A & B).
      { intros p Bp [K|(_ & K & _)]; [apply (Hd eq_refl p Bp K)|contradiction]. }
      split; [|split; [|exact HS']].
      + apply (GInv_ext _ (DnD (mp_id sp :: D)) _) in A; [exact A|]. intros s p. unfold DnD. cbn [In]. split.
        * intros [[K|(K1 & K2 & K3)]|(-> & K1 & K2)]; [left; exact K|right; auto|right; auto].
        * intros [K|(K1 & [K2|K2] & K3 & K4)]; [left; left; exact K| |left; right; auto]. assert (s = sp) by (apply (so_ids _ _ _ _ _ _ _ _ _ H); [apply in_or_app; right; exact K1|apply in_or_app; right; exact Isp|congruence]). subst s. auto.
      + intros v p Sv Sc Cv. destruct Sv as [Sv|Sv]; [apply B; assumption|]. destruct (so_kinds _ _ _ _ _ _ _ _ _ H) as (_ & K). rewrite Forall_forall in K. rewrite (proj2 (K sp Isp)) in Sv. contradiction.
  Qed.

  Lemma ready_pre (S : Z -> Prop) (D : list Z) sp a q c : In sp parts -> reqd sp = a ++ q :: c ->
    (forall r, In r a -> In r ord -> (forall v, In v (mp_outs r) -> S v) /\ (mp_valid r = true -> In (mp_id r) D)) -> ready S D q.
  Proof using H.
    intros Isp E K p x q' Ix Iq' Ov.
    assert (Iq : In q (reqd sp)) by (rewrite E; apply in_or_app; right; left; reflexivity).
    pose proof (so_closed _ _ _ _ _ _ _ _ _ H sp q p x q' Isp Iq Ix Iq' Ov) as J.
    assert (Ia : In q' a).
    { destruct (so_reqd _ _ _ _ _ _ _ _ _ H sp Isp) as (dep & Er). rewrite E in J. apply in_app_or in J as [J|J]; [exact J|]. exfalso.
      assert (Bf : q' <> sp) by (intros ->; apply (ord_parts sp Iq' Isp)).
      destruct (in_reqd sp q Isp Iq) as [Io|Eq].
      - pose proof (so_before _ _ _ _ _ _ _ _ _ H q p x q' Io Ix Iq' Ov) as B1.
        destruct J as [->|J]; [apply (before_asym _ ord q' q' (proj1 (so_nodup _ _ _ _ _ _ _ _ _ H)) B1 B1)|].
        assert (B2 : before (filter dep ord ++ [sp]) q q') by (rewrite <- Er, E; exists a, c; auto).
        apply before_app in B2 as [B2|[B2|(_ & [B2|[]])]]; [| |congruence].
        + apply (before_asym _ ord q' q (proj1 (so_nodup _ _ _ _ _ _ _ _ _ H)) B1). clear -B2. revert B2. induction ord as [|y l IH]; [intros ([|] & ? & F & _); discriminate|]. cbn [filter].
          destruct (dep y); [|intros B; apply before_cons, IH, B]. intros B. apply before_inv in B as [(-> & I)|B]; [apply before_head; apply filter_In in I; apply I|apply before_cons, IH, B].
        + destruct B2 as ([|z l1] & l2 & F & I); [injection F as _ <-; contradiction|]. destruct l1; discriminate.
      - subst q. destruct J as [J|J]; [congruence|]. destruct c as [|z c'] using rev_ind; [contradiction|]. rewrite E in Er.
        replace (a ++ sp :: c' ++ [z]) with ((a ++ sp :: c') ++ [z]) in Er by (rewrite <- app_assoc; reflexivity). apply app_inj_tail in Er as (Er & _).
        assert (F : In sp (filter dep ord)) by (rewrite <- Er; apply in_or_app; right; left; reflexivity). apply filter_In in F as (F & _). apply (ord_parts sp F Isp). }
    destruct (K q' Ia Iq') as (K1 & K2). split; [apply K1; exact Ov|exact K2].
  Qed.
End Stage.

(* the values of scratch vars exist and are unique *)
Section Values.
  Context {V : Type} (zero : V) (alloc : Z -> Z) (st : stencil V) (scr : Z -> bool).
  Variable cond : mpart -> list Z -> bool.
  Variables (t : Z) (rank : list (Z * Z)) (ord : list mpart) (reqd : mpart -> list mpart) (parts : list mpart).
  Hypothesis H : stage_ok alloc st scr cond t rank ord reqd parts.
  Notation on := (on cond).
  Notation rds := (rds alloc st t).
  Notation wrs := (wrs alloc st t).
  Notation result := (result alloc st t).
  Definition everywhere (q : mpart) (m : cell -> V) : cell -> V :=
    fun c => if on q (snd c) then if in_dec cell_eq_dec c (wrs q (snd c)) then result m q (snd c) c else m c else m c.

  Lemma wr_pt q p c : In q ord -> In c (wrs q p) -> snd c = p /\ In (var_of c) (mp_outs q) /\ scr (var_of c) = true.
  Proof using H.
    intros Iq Ic. apply (so_scr_wr _ _ _ _ _ _ _ _ _ H q p c Iq) in Ic as (v & Iv & ->). cbn. split; [reflexivity|]. split; [exact Iv|]. apply (so_scr_out _ _ _ _ _ _ _ _ _ H q v Iq Iv).
  Qed.

  Lemma values_exist m : exists X, scratch_values zero alloc st scr cond t ord m X.
  Proof using H.
    set (X0 := fun c : cell => if scr (var_of c) then zero else m c).
    assert (G : forall post pre X, ord = pre ++ post ->
      same_vars scr m X -> (forall q p c, In q pre -> on q p = true -> In c (wrs q p) -> X c = result X q p c) ->
      (forall c, scr (var_of c) = true -> (forall q, In q pre -> on q (snd c) = true -> ~ In c (wrs q (snd c))) -> X c = zero) ->
      exists Y, scratch_values zero alloc st scr cond t ord m Y).
    { induction post as [|q post IH]; intros pre X E A B C.
      - rewrite app_nil_r in E. subst pre. exists X. split; [exact A|]. split; assumption.
      - assert (Iq : In q ord) by (rewrite E; apply in_or_app; right; left; reflexivity).
        assert (Ip : forall r, In r pre -> In r ord) by (intros r I; rewrite E; apply in_or_app; left; exact I).
        pose proof (proj1 (so_nodup _ _ _ _ _ _ _ _ _ H)) as Nd.
        assert (Rd : forall r p, In r (pre ++ [q]) -> map (everywhere q X) (rds r p) = map X (rds r p)).
        { intros r p Ir. apply map_ext_In. intros c Ic. unfold everywhere. destruct (on q (snd c)); [|reflexivity]. destruct (in_dec cell_eq_dec c (wrs q (snd c))) as [W|]; [|reflexivity]. exfalso.
          destruct (wr_pt q _ c Iq W) as (_ & W2 & _).
          assert (Ir' : In r ord) by (rewrite E; apply in_or_app; apply in_app_or in Ir as [Ir|[->|[]]]; [left; exact Ir|right; left; reflexivity]).
          pose proof (so_before _ _ _ _ _ _ _ _ _ H r p c q Ir' Ic Iq W2) as Bf. apply in_app_or in Ir as [Ir|[->|[]]]; [|apply (before_asym _ ord r r Nd Bf Bf)].
          apply (before_asym _ ord q r Nd Bf). rewrite E. apply before_app. right. right. split; [exact Ir|left; reflexivity]. }
        apply (IH (pre ++ [q]) (everywhere q X)).
        + rewrite <- app_assoc. exact E.
        + intros c Sc. unfold everywhere. destruct (on q (snd c)); [|apply A; exact Sc]. destruct (in_dec cell_eq_dec c (wrs q (snd c))) as [W|]; [|apply A; exact Sc].
          destruct (wr_pt q _ c Iq W) as (_ & _ & W2). congruence.
        + intros r p c Ir On Ic. assert (Ir' : In r ord) by (apply in_app_or in Ir as [Ir|[<-|[]]]; [apply Ip; exact Ir|exact Iq]).
          destruct (wr_pt r p c Ir' Ic) as (<- & Ov & _). unfold Ref_Spec.result. rewrite (Rd r _ Ir). unfold everywhere.
          destruct (on q (snd c)) eqn:Oq; [destruct (in_dec cell_eq_dec c (wrs q (snd c))) as [W|W]|].
          * destruct (wr_pt q _ c Iq W) as (_ & W2 & _). rewrite (so_one _ _ _ _ _ _ _ _ _ H q r (var_of c) (snd c)); auto.
          * apply in_app_or in Ir as [Ir|[->|[]]]; [|contradiction]. apply (B r _ c Ir On Ic).
          * apply in_app_or in Ir as [Ir|[->|[]]]; [|congruence]. apply (B r _ c Ir On Ic).
        + intros c Sc Hn. unfold everywhere.
          assert (Xc : X c = zero) by (apply C; [exact Sc|intros r Ir; apply Hn; apply in_or_app; left; exact Ir]).
          destruct (on q (snd c)) eqn:Oq; [|exact Xc]. destruct (in_dec cell_eq_dec c (wrs q (snd c))) as [W|W]; [|exact Xc]. destruct (Hn q) with (2 := Oq); [apply in_or_app; right; left; reflexivity|exact W]. }
    apply (G ord [] X0).
    - reflexivity.
    - intros c Sc. unfold X0. rewrite Sc. reflexivity.
    - contradiction.
    - intros c Sc _. unfold X0. rewrite Sc. reflexivity.
  Qed.

  Lemma values_unique m m' X Y : same_vars scr m m' -> scratch_values zero alloc st scr cond t ord m X -> scratch_values zero alloc st scr cond t ord m' Y -> forall c, X c = Y c.
  Proof using H.
    intros Sm (X1 & X2 & X3) (Y1 & Y2 & Y3).
    assert (Nsc : forall c, scr (var_of c) = false -> X c = Y c) by (intros c Sc; rewrite (X1 c Sc), (Y1 c Sc); symmetry; apply Sm; exact Sc).
    assert (Dec : forall c, (exists q, In q ord /\ on q (snd c) = true /\ In c (wrs q (snd c))) \/ (forall q, In q ord -> on q (snd c) = true -> ~ In c (wrs q (snd c)))).
    { intros c. clear. induction ord as [|q l IH]; [right; contradiction|]. destruct IH as [(r & A & B)|IH]; [left; exists r; split; [right; exact A|exact B]|].
      destruct (on q (snd c)) eqn:Oq; [destruct (in_dec cell_eq_dec c (wrs q (snd c))) as [W|W]|].
      - left. exists q. split; [left; reflexivity|]. auto.
      - right. intros r [<-|I]; auto.
      - right. intros r [<-|I]; [congruence|auto]. }
    assert (G : forall post pre, ord = pre ++ post -> (forall q p c, In q pre -> on q p = true -> In c (wrs q p) -> X c = Y c) -> forall q p c, In q ord -> on q p = true -> In c (wrs q p) -> X c = Y c).
    { induction post as [|q post IH]; intros pre E P; [rewrite app_nil_r in E; subst pre; exact P|].
      apply (IH (pre ++ [q])); [rewrite <- app_assoc; exact E|]. intros r p c Ir On Ic. apply in_app_or in Ir as [Ir|[<-|[]]]; [apply (P r p c Ir On Ic)|].
      assert (Iq : In q ord) by (rewrite E; apply in_or_app; right; left; reflexivity).
      rewrite (X2 q p c Iq On Ic), (Y2 q p c Iq On Ic). unfold Ref_Spec.result. f_equal. apply map_ext_In. intros c' Ic'.
      destruct (scr (var_of c')) eqn:Sc; [|apply Nsc; exact Sc]. destruct (Dec c') as [(r & Ir & Or & W)|Hn].
      - apply (P r (snd c') c'); auto. destruct (wr_pt r _ c' Ir W) as (_ & W2 & _).
        pose proof (so_before _ _ _ _ _ _ _ _ _ H q p c' r Iq Ic' Ir W2) as Bf. pose proof (proj1 (so_nodup _ _ _ _ _ _ _ _ _ H)) as Nd.
        rewrite E in Ir. apply in_app_or in Ir as [Ir|[->|Ir]]; [exact Ir|exfalso; apply (before_asym _ ord r r Nd Bf Bf)|].
        exfalso. apply (before_asym _ ord r q Nd Bf). rewrite E. exists pre, post. auto.
      - rewrite (X3 c' Sc Hn), (Y3 c' Sc Hn). reflexivity. }
    intros c. destruct (scr (var_of c)) eqn:Sc; [|apply Nsc; exact Sc]. destruct (Dec c) as [(r & Ir & Or & W)|Hn].
    - apply (G ord [] eq_refl) with (q := r) (p := snd c); auto. contradiction.
    - rewrite (X3 c Sc Hn), (Y3 c Sc Hn). reflexivity.
  Qed.

  (* so is the result of a stage *)
  Lemma result_unique m m' r r' : same_vars scr m m' -> stage_result zero alloc st scr cond t rank ord parts m r ->
    stage_result zero alloc st scr cond t rank ord parts m' r' -> same_vars scr r r'.
  Proof using H.
    intros Sm (X & SX & X1 & X2) (Y & SY & Y1 & Y2). pose proof (values_unique m m' X Y Sm SX SY) as U. intros c Sc.
    assert (Dec : (exists s, In s parts /\ on s (snd c) = true /\ In c (wrs s (snd c))) \/ (forall s, In s parts -> on s (snd c) = true -> ~ In c (wrs s (snd c)))).
    { clear. induction parts as [|q l IH]; [right; contradiction|]. destruct IH as [(r & A & B)|IH]; [left; exists r; split; [right; exact A|exact B]|].
      destruct (on q (snd c)) eqn:Oq; [destruct (in_dec cell_eq_dec c (wrs q (snd c))) as [W|W]|].
      - left. exists q. split; [left; reflexivity|]. auto.
      - right. intros r [<-|I]; auto.
      - right. intros r [<-|I]; [congruence|auto]. }
    assert (N : (in_box rank (snd c) = false \/ forall s, In s parts -> on s (snd c) = true -> ~ In c (wrs s (snd c))) -> r' c = r c).
    { intros K. assert (K' : forall sp p, In sp parts -> in_box rank p = true -> on sp p = true -> ~ In c (wrs sp p)).
      { intros sp p I1 I2 I3 W. pose proof (proj2 (so_wr _ _ _ _ _ _ _ _ _ H sp p c I1 W)) as E. subst p. destruct K as [K|K]; [congruence|apply (K sp I1 I3 W)]. }
      rewrite (X2 c Sc K'), (Y2 c Sc K'). apply Sm. exact Sc. }
    destruct (in_box rank (snd c)) eqn:Er; [|apply N; left; reflexivity]. destruct Dec as [(s & I1 & I2 & W)|K]; [|apply N; right; exact K].
    rewrite (X1 s _ c I1 Er I2 W), (Y1 s _ c I1 Er I2 W). unfold Ref_Spec.result. f_equal. apply map_ext_In. intros c' _. symmetry. apply U.
  Qed.
End Values.
