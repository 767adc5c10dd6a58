From Coq Require Import ZifyBool.
From Verif Require Import Base ParFor_Model Cover_Spec Bbox_Model Bbox_Spec Bbox2_Proofs Loops_Model Loops_Spec Loops_Proofs Nano_Model Nano_Spec Sched_Spec Sched_Proofs Micro_Model Micro_Spec Micro_Proofs Micro2_Proofs Ref_Model Ref_Spec Ref_Proofs RefStage_Proofs.

(* ---- the points of a box ---- *)
Fixpoint bpts (b : list (Z * Z)) : list (list Z) :=
  match b with [] => [[]] | c :: b' => flat_map (fun x => map (cons x) (bpts b')) (zrange (fst c) (snd c)) end.
Lemma bpts_In b : forall p, In p (bpts b) <-> in_box b p = true.
Proof.
  induction b as [|c b IH]; intros [|x p]; cbn [bpts in_box].
  - split; [reflexivity|left; reflexivity].
  - split; [intros [F|[]]; discriminate|discriminate].
  - split; [|discriminate]. intros I. apply in_flat_map in I as (y & _ & I). apply in_map_iff in I as (z & F & _). discriminate.
  - rewrite andb_true_iff, <- IH, in_flat_map. unfold in_iv. split.
    + intros (y & Iy & I). apply in_map_iff in I as (z & F & I). injection F as -> ->. apply zrange_In in Iy. split; [lia|exact I].
    + intros (A & B). exists x. split; [apply zrange_In; lia|apply in_map; exact B].
Qed.
Lemma bpts_NoDup b : NoDup (bpts b).
Proof.
  induction b as [|c b IH]; cbn [bpts]; [constructor; [intros []|constructor]|].
  generalize (zrange_NoDup (fst c) (snd c)). induction (zrange (fst c) (snd c)) as [|x l IHl]; intros N; cbn; [constructor|]. inversion N; subst.
  apply NoDup_app'; [apply FinFun.Injective_map_NoDup; [intros u v F; injection F; auto|exact IH]|apply IHl; assumption|].
  intros p I J. apply in_map_iff in I as (u & <- & _). apply in_flat_map in J as (y & Iy & J). apply in_map_iff in J as (w & F & _). injection F as -> _. contradiction.
Qed.

(* an exact cover of points of a box can be expanded *)
Lemma expands_exist fi rofs folds ws P b : exact_cover (wr_hits fi rofs folds) ws P -> (forall p, P p = true -> in_box b p = true) -> exists pts, expands fi rofs folds ws pts.
Proof.
  intros C Hb. exists (concat (map (fun w => filter (wr_hits fi rofs folds w) (bpts b)) ws)). exists (map (fun w => filter (wr_hits fi rofs folds w) (bpts b)) ws). split; [|apply Permutation_refl].
  assert (G : forall w, In w ws -> forall p, wr_hits fi rofs folds w p = true -> in_box b p = true).
  { intros w Iw p E. apply Hb. specialize (C p). destruct (P p); [reflexivity|]. unfold hits in C. exfalso.
    assert (F : In w (filter (fun c => wr_hits fi rofs folds c p) ws)) by (apply filter_In; auto). destruct (filter (fun c => wr_hits fi rofs folds c p) ws); [contradiction|discriminate]. }
  clear C. induction ws as [|w ws IH]; [constructor|]. cbn [map]. constructor; [|apply IH; intros; apply (G w0); auto; right; assumption].
  split; [apply NoDup_filter, bpts_NoDup|]. intros p. rewrite filter_In, bpts_In. split; [tauto|]. intros E. split; [apply (G w (or_introl eq_refl) p E)|exact E].
Qed.

(* a part without points *)
Lemma no_points c cond dom pb : 1 <= omp_num_threads c -> dom <> [] -> Forall (fun d => fst d <= snd d) dom -> part_find_bbs c cond dom = Ok pb ->
  pb_num pb <= 0 -> forall p, region dom cond p = false.
Proof.
  intros Hc Hd Hf E Hn p. destruct (part_boxes c cond dom Hc Hd Hf) as (pb' & E' & _ & _ & R). rewrite E in E'. injection E' as <-.
  assert (L : pb_num pb = Z.of_nat (length (filter (region dom cond) (bpts dom)))).
  { apply R; [apply NoDup_filter, bpts_NoDup|]. intros q. rewrite filter_In, bpts_In. split; [tauto|]. intros K. split; [|exact K]. unfold region in K. apply andb_true_iff in K. tauto. }
  destruct (region dom cond p) eqn:K; [|reflexivity]. exfalso.
  assert (I : In p (filter (region dom cond) (bpts dom))) by (apply filter_In; split; [apply bpts_In; unfold region in K; apply andb_true_iff in K; tauto|exact K]).
  destruct (filter (region dom cond) (bpts dom)); [contradiction|]. cbn [length] in L. lia.
Qed.

Lemma plays_join V (zero : V) alloc st hit t l1 : forall l2 m mid m', plays zero alloc st hit t l1 m mid -> plays zero alloc st hit t l2 mid m' -> plays zero alloc st hit t (l1 ++ l2) m m'.
Proof. intros l2 m mid m' P. induction P; intros Q; cbn [app]; [exact Q|econstructor; auto|econstructor; eauto]. Qed.
Lemma plays_inits_exist V (zero : V) alloc st hit t vs : forall m, exists m', plays zero alloc st hit t (map EvInit vs) m m'.
Proof. induction vs as [|v vs IH]; intros m; [exists m; constructor|]. destruct (IH (zeroed zero v m)) as (m' & P). exists m'. cbn. constructor. exact P. Qed.

(* ---- one micro-block ---- *)
Section Micro.
  Context {V : Type} (zero : V) (alloc : Z -> Z) (st : stencil V) (scr : Z -> bool).
  Variable cond : mpart -> list Z -> bool.
  Variable t : Z.
  Variable rank : list (Z * Z).
  Variable ord : list mpart.
  Variable reqd : mpart -> list mpart.
  Variable parts : list mpart.
  Hypothesis H : stage_ok alloc st scr cond t rank ord reqd parts.
  Variables m0 X : cell -> V.
  Hypothesis HX : scratch_values zero alloc st scr cond t ord m0 X.
  Variables (s : mset) (n : nat) (ds : list ldim) (reg : mpart -> list Z -> bool).
  Hypothesis Hs : mset_ok s n.
  Hypothesis Hds : dims_ok n ds.
  Hypothesis Hne : Forall (fun d => l_begin d < l_end d) ds.
  Hypothesis Hlen : length (ms_mbs s) = n /\ length (ms_mbt s) = n /\ length (ms_nbs s) = n.
  Hypothesis Hparts : parts_ok n reqd parts reg.
  Hypothesis Hreg : forall q p, required reqd parts q -> in_box (span q rank) p = true -> reg q p = cond q p.
  Hypothesis Hinit : ms_init s = true \/ forall q, In q ord -> mp_sub q = false /\ mp_stepc q = false.
  Let b := map (fun d => (l_begin d, l_end d)) ds.
  Hypothesis Hb : inside b rank.
  Let hit := expands (ms_fi s) (ms_rofs s) (ms_folds s).
  Notation plays := (plays zero alloc st hit t).
  Variable Dn0 : mpart -> list Z -> Prop.
  Hypothesis HDn : forall sp p, Dn0 sp p -> in_box b p = true -> False.
  Variable m1 : cell -> V.
  Hypothesis G1 : GInv alloc st scr cond t rank parts m0 X Dn0 m1.
  Notation Inv := (Inv zero alloc st scr cond t rank ord parts m0 X b Dn0).

  Definition seen (w done : list Z) (v : Z) : Prop := In v w \/ exists q, In q ord /\ In (mp_id q) done /\ In v (mp_outs q).
  Definition MS (ss : mstate) : Prop := let '(done, w, log) := ss in
    (forall m, plays log m1 m -> Inv (seen w done) done m) /\ (exists m, plays log m1 m) /\
    (ms_init s = true -> forall q v, In q ord -> In (mp_id q) done -> In v (mp_outs q) -> In v w) /\ (ms_init s = false -> w = []).
  Definition past (a : list mpart) (ss : mstate) : Prop := forall r, In r a -> (In r ord -> forall v, In v (mp_outs r) -> seen (snd (fst ss)) (fst (fst ss)) v) /\ (mp_valid r = true -> In (mp_id r) (fst (fst ss))).

  Lemma calc_pts q : required reqd parts q -> exists ws, calc_range s (mp_pb q) (part_range s q ds) = Ok ws /\ (exists pts, hit ws pts) /\ forall pts, hit ws pts -> pts_of cond b q pts.
  Proof using All.
    intros K. destruct Hparts as (P1 & P2).
    destruct (part_calc s n ds reqd parts reg Hs Hds Hne Hlen) with (q := q) as (ws & E & C); [intros sp r A B; apply P1; exists sp; auto|exact K|].
    exists ws. split; [exact E|]. split; [apply (expands_exist _ _ _ _ _ (span q b) C); intros p T; apply andb_true_iff in T; apply T|].
    intros pts Hh. destruct (expand_cover _ _ _ _ _ _ C Hh) as (N & I). split; [exact N|]. intros p. rewrite I. fold b.
    destruct (in_box (span q b) p) eqn:E1; cbn; [|tauto]. rewrite Hreg; [tauto|exact K|]. apply (in_inside _ _ _ (inside_span q _ _ Hb) E1).
  Qed.

  Lemma seen_next w done q : In q ord \/ In q parts -> forall v, seen w (mp_id q :: done) v <-> seen w done v \/ (In q ord /\ In v (mp_outs q)).
  Proof using All.
    intros Kq v. unfold seen. cbn [In]. split.
    - intros [I|(r & I1 & [I2|I2] & I3)]; auto; [|left; right; exists r; auto].
      assert (q = r) by (apply (so_ids _ _ _ _ _ _ _ _ _ H); auto; apply in_or_app; tauto). subst r. auto.
    - intros [[I|(r & I1 & I2 & I3)]|(I1 & I2)]; auto; right; [exists r; auto|exists q; auto].
  Qed.

  Lemma micro_step sp a q c ss : In sp parts -> reqd sp = a ++ q :: c -> MS ss -> past a ss ->
    exists ss', reqd_part s ds ss q = Ok ss' /\ MS ss' /\ past (a ++ [q]) ss' /\ incl (fst (fst ss)) (fst (fst ss')).
  Proof using All.
    intros Isp Er HM HP. destruct ss as ((done & w) & log). cbn [MS] in HM. destruct HM as (HI & (m2 & Hm2) & HW & HW0). unfold reqd_part.
    assert (Iq : In q (reqd sp)) by (rewrite Er; apply in_or_app; right; left; reflexivity).
    assert (Rq : required reqd parts q) by (exists sp; auto).
    pose proof (in_reqd _ _ _ _ _ _ _ _ _ H sp q Isp Iq) as Kq.
    assert (Kq' : In q ord \/ In q parts) by (destruct Kq as [K| ->]; auto).
    destruct Hparts as (P1 & P2). destruct (P1 q Rq) as (_ & Hst & _).
    (* vars initialised *)
    set (wl := if mp_scratch q && ms_init s then init_vars q w log else (w, log)).
    assert (Hsc : mp_scratch q = true <-> In q ord).
    { destruct (so_kinds _ _ _ _ _ _ _ _ _ H) as (F1 & F2). rewrite Forall_forall in F1, F2. split; [|apply F1]. intros E. destruct Kq' as [K|K]; [exact K|]. rewrite (proj1 (F2 q K)) in E. discriminate. }
    assert (Huncond : mp_sub q || mp_stepc q = false -> In q ord -> mp_valid q = true /\ forall p, cond q p = true).
    { intros E Io. apply orb_false_iff in E as (E1 & E2). split; [apply Hst; exact E2|intros p; apply (so_uncond _ _ _ _ _ _ _ _ _ H q p Io E1)]. }
    assert (Hwl : exists vs, snd wl = log ++ map EvInit vs /\ (forall v, In v vs -> ~ In v w /\ In v (mp_outs q) /\ In q ord /\ ms_init s = true) /\
      (forall v, In v (fst wl) <-> In v w \/ (In q ord /\ ms_init s = true /\ In v (mp_outs q))) /\
      (ms_init s = true -> In q ord -> mp_sub q || mp_stepc q = true -> forall v, In v (mp_outs q) -> In v w \/ In v vs) /\ (vs = [] \/ mp_sub q || mp_stepc q = true)).
    { unfold wl. destruct (mp_scratch q) eqn:Es; [destruct (ms_init s) eqn:Ei|]; cbn [andb].
      - destruct (init_spec q w log) as (vs & A & _ & B & C & D & E). exists vs. pose proof (proj1 Hsc eq_refl) as Io. split; [exact A|]. split; [|split; [|split]].
        + intros v Iv. destruct (B v Iv). auto.
        + intros v. rewrite C. tauto.
        + intros _ _ Hc v Iv. destruct (in_dec Z.eq_dec v w); [left; assumption|right; apply D; auto].
        + destruct (mp_sub q || mp_stepc q); [right; reflexivity|left; apply E; reflexivity].
      - exists []. cbn. rewrite app_nil_r. split; [reflexivity|]. split; [contradiction|]. split; [intros v; split; [auto|intros [I|(_ & F & _)]; [exact I|discriminate]]|]. split; [discriminate|left; reflexivity].
      - exists []. cbn. rewrite app_nil_r. split; [reflexivity|]. split; [contradiction|]. split; [intros v; split; [auto|intros [I|(F & _)]; [exact I|apply Hsc in F; discriminate]]|]. split; [intros _ F; apply Hsc in F; discriminate|left; reflexivity]. }
    destruct Hwl as (vs & Ew & Hvs & Hfw & Hall & Hcv). destruct wl as (w' & log') eqn:Ewl. cbn [fst snd] in *. subst log'. clear wl Ewl.
    assert (Nw : forall v r, In v vs -> In r ord -> In (mp_id r) done -> ~ In v (mp_outs r)).
    { intros v r Iv I1 I2 I3. destruct (Hvs v Iv) as (A & _ & _ & B). apply A. apply (HW B r v I1 I2 I3). }
    (* after the initialisations *)
    assert (HI1 : forall m, plays (log ++ map EvInit vs) m1 m -> Inv (fun v => seen w done v \/ In v vs) done m).
    { intros m P. apply plays_app in P as (mid & Pa & Pb). destruct (HI mid Pa) as (A & B & C).
      destruct (step_init zero alloc st hit scr cond t rank ord parts m0 X b (seen w done) done _ mid m vs A B) as (A' & B'); auto.
      - intros v Iv. destruct (Hvs v Iv) as (_ & I1 & I2 & _). apply (so_scr_out _ _ _ _ _ _ _ _ _ H q v I2 I1).
      - split; [exact A'|]. split; [exact B'|]. intros r v I1 I2 I3. left. apply (C r v I1 I2 I3). }
    destruct (plays_inits_exist V zero alloc st hit t vs m2) as (m3 & Hm3). pose proof (plays_join _ _ _ _ _ _ _ _ _ _ _ Hm2 Hm3) as Hm3'.
    assert (HW0' : ms_init s = false -> w' = []).
    { intros E. destruct w' as [|x w']; [reflexivity|]. exfalso. destruct (proj1 (Hfw x) (or_introl eq_refl)) as [I|(_ & F & _)]; [rewrite (HW0 E) in I; contradiction|congruence]. }
    assert (Hww : incl w w') by (intros v I; apply Hfw; left; exact I).
    assert (Hpast : forall d', incl done d' -> (In q ord -> forall v, In v (mp_outs q) -> seen w' d' v) -> (mp_valid q = true -> In (mp_id q) d') -> forall l', past (a ++ [q]) (d', w', l')).
    { intros d' Hd Ho Hv l' r Ir. cbn [fst snd]. apply in_app_or in Ir as [Ir|[<-|[]]]; [|auto]. destruct (HP r Ir) as (U1 & U2). cbn [fst snd] in *. split; [|intros Vr; apply Hd, U2, Vr].
      intros Io v Iv. destruct (U1 Io v Iv) as [K|(x & K1 & K2 & K3)]; [left; apply Hww, K|right; exists x; auto]. }
    destruct (mp_valid q) eqn:Va; cbn [negb].
    - destruct (memz (mp_id q) done) eqn:Em.
      + (* done before *)
        apply memz_iff in Em. assert (vs = []).
        { destruct vs as [|v vs']; [reflexivity|]. destruct (Hvs v (or_introl eq_refl)) as (_ & A & B & _). destruct (Nw v q (or_introl eq_refl) B Em A). }
        subst vs. exists (done, w', log ++ map EvInit []). split; [reflexivity|]. split; [|split; [|apply incl_refl]].
        * cbn [MS]. split; [|split; [exists m3; exact Hm3'|split; [|exact HW0']]].
          -- intros m P. apply (Inv_sub _ _ _ _ _ _ _ _ _ _ _ _ _ (fun v => seen w done v \/ In v [])); [apply HI1; exact P|]. intros v. cbn [In]. unfold seen. rewrite Hfw. split; [tauto|].
             intros [[I|(I1 & I2 & I3)]|I]; auto. left. right. exists q. auto.
          -- intros Ei r v I1 I2 I3. apply Hww. apply (HW Ei r v I1 I2 I3).
        * apply Hpast; [apply incl_refl| |auto]. intros Io v Iv. right. exists q. auto.
      + (* evaluated *)
        assert (Nd : ~ In (mp_id q) done) by (intros I; apply memz_iff in I; congruence).
        destruct (calc_pts q Rq) as (ws & Ec & (pts0 & Hp0) & Hpts). rewrite Ec. cbn [rbind]. exists (mp_id q :: done, w', (log ++ map EvInit vs) ++ [EvPart (mp_id q) ws]).
        split; [reflexivity|]. split; [|split; [|intros x I; right; exact I]].
        * cbn [MS]. split; [|split; [|split]].
          -- intros m P. apply plays_app in P as (mid & Pa & Pb). inversion Pb as [| |id ws' pts l' u u' Hh Pn]; subst. inversion Pn; subst.
             apply (Inv_sub _ _ _ _ _ _ _ _ _ _ _ _ _ (fun v => (seen w done v \/ In v vs) \/ In v (mp_outs q))).
             ++ apply (eval_part zero alloc st scr cond t rank ord reqd parts H m0 X HX b Hb Dn0 _ done mid sp q pts); auto.
                ** apply (ready_pre alloc st scr cond t rank ord reqd parts H _ _ sp a q c Isp Er). intros r Ir Io. destruct (HP r Ir) as (U1 & U2). split; [intros v Iv; left; apply (U1 Io v Iv)|exact U2].
                ** intros Io v Iv. destruct (mp_sub q || mp_stepc q) eqn:Hc; [|right; apply (Huncond eq_refl Io)]. left. destruct (ms_init s) eqn:Ei.
                   --- destruct (Hall eq_refl Io eq_refl v Iv) as [I|I]; [left; left; exact I|right; exact I].
                   --- destruct Hinit as [F|F]; [discriminate|]. destruct (F q Io) as (F1 & F2). rewrite F1, F2 in Hc. discriminate.
                ** intros _ p Bp K. apply (HDn sp p K Bp).
             ++ intros v. rewrite (seen_next w' done q Kq' v). unfold seen at 2. rewrite Hfw. unfold seen. split.
                ** intros [[[I|I]|I]|I]; auto; [left; left; right; destruct (Hvs v I) as (J1 & J2 & J3 & J4); auto|].
                   destruct Kq' as [K|K]; [auto|]. destruct (so_kinds _ _ _ _ _ _ _ _ _ H) as (_ & F2). rewrite Forall_forall in F2. rewrite (proj2 (F2 q K)) in I. contradiction.
                ** intros [[[I|(_ & _ & I)]|I]|(_ & I)]; auto.
          -- exists (exec alloc st (map (mkInst t (mp_id q)) pts0) m3). apply (plays_join _ _ _ _ _ _ _ _ _ _ _ Hm3'). econstructor; [exact Hp0|constructor].
          -- intros Ei r v I1 [I2|I2] I3; [|apply Hww, (HW Ei r v I1 I2 I3)].
             assert (q = r) by (apply (so_ids _ _ _ _ _ _ _ _ _ H); auto; apply in_or_app; tauto). subst r. apply Hfw. right. auto.
          -- exact HW0'.
        * apply Hpast; [intros x I; right; exact I| |intros _; left; reflexivity]. intros Io v Iv. right. exists q. split; [exact Io|]. split; [left; reflexivity|exact Iv].
    - (* not valid in this step *)
      exists (done, w', log ++ map EvInit vs). split; [reflexivity|].
      assert (Hcq : In q ord -> mp_sub q || mp_stepc q = true).
      { intros Io. destruct (mp_sub q || mp_stepc q) eqn:Hc; [reflexivity|]. destruct (Huncond eq_refl Io). congruence. }
      assert (Hsn : forall v, seen w done v \/ In v vs <-> seen w' done v).
      { intros v. unfold seen. rewrite Hfw. split.
        - intros [[I|I]|I]; auto. destruct (Hvs v I) as (J1 & J2 & J3 & J4). auto.
        - intros [[I|(I1 & I2 & I3)]|I]; auto. destruct (Hall I2 I1 (Hcq I1) v I3); auto. }
      split; [|split; [|apply incl_refl]].
      + cbn [MS]. split; [|split; [exists m3; exact Hm3'|split; [|exact HW0']]].
        * intros m P. apply (Inv_sub _ _ _ _ _ _ _ _ _ _ _ _ _ (fun v => seen w done v \/ In v vs)); [apply HI1; exact P|exact Hsn].
        * intros Ei r v I1 I2 I3. apply Hww. apply (HW Ei r v I1 I2 I3).
      + apply Hpast; [apply incl_refl| |discriminate]. intros Io v Iv. destruct (ms_init s) eqn:Ei.
        * left. apply Hfw. auto.
        * destruct Hinit as [F|F]; [discriminate|]. destruct (F q Io) as (F1 & F2). specialize (Hcq Io). rewrite F1, F2 in Hcq. discriminate.
  Qed.

  Lemma inactive sp p : In sp parts -> mp_valid sp = false \/ pb_num (mp_pb sp) <= 0 -> in_box rank p = true -> on cond sp p = false.
  Proof using All.
    intros Isp [E|E] Bp; unfold on; [rewrite E; reflexivity|]. apply andb_false_iff. right.
    assert (Rq : required reqd parts sp). { exists sp. split; [exact Isp|]. destruct (so_reqd _ _ _ _ _ _ _ _ _ H sp Isp) as (dep & ->). apply in_or_app. right. left. reflexivity. }
    rewrite <- Hreg; [|exact Rq|rewrite (span_main _ _ _ _ _ _ _ _ _ H sp rank Isp); exact Bp].
    destruct Hparts as (P1 & _). destruct (P1 sp Rq) as (_ & _ & c & f & dom & Hc & Ld & Hd & Ef & Hr). rewrite Hr. apply (no_points c f dom (mp_pb sp)); auto.
    destruct dom; [|discriminate]. destruct Hs as (K & _). cbn in Ld. lia.
  Qed.

  Definition Dn1 (sp : mpart) (p : list Z) : Prop := Dn0 sp p \/ (In sp parts /\ in_box b p = true /\ on cond sp p = true).
  Lemma micro_block : exists done w log, stage_micro_block s ds reqd parts = Ok (done, w, log) /\ (exists m, plays log m1 m) /\
    forall m, plays log m1 m -> GInv alloc st scr cond t rank parts m0 X Dn1 m.
  Proof using All.
    unfold stage_micro_block.
    destruct (rfold_pre _ _ (fun st sp => if negb (mp_valid sp) then Ok st else if pb_num (mp_pb sp) <=? 0 then Ok st else part_micro_block s ds reqd st sp)
      (fun pre ss => MS ss /\ forall sp, In sp pre -> mp_valid sp = true -> 0 < pb_num (mp_pb sp) -> In (mp_id sp) (fst (fst ss))) parts) with (st := ([] : list Z, [] : list Z, [] : list event)) as (ss & E & HM & HP).
    - intros pre sp post ss El (HM & HP). assert (Isp : In sp parts) by (rewrite El; apply in_or_app; right; left; reflexivity).
      destruct (mp_valid sp) eqn:Va; cbn [negb].
      + destruct (pb_num (mp_pb sp) <=? 0) eqn:En.
        * exists ss. split; [reflexivity|]. split; [exact HM|]. intros r Ir Vr Nr. apply in_app_or in Ir as [Ir|[<-|[]]]; [auto|lia].
        * unfold part_micro_block. destruct (pb_num (mp_pb sp) =? 0) eqn:E0; [lia|].
          destruct (rfold_pre _ _ (reqd_part s ds) (fun a ss' => MS ss' /\ past a ss' /\ incl (fst (fst ss)) (fst (fst ss'))) (reqd sp)) with (st := ss) as (ss' & E' & M' & P' & I').
          -- intros a q c ss1 Er (M1 & P1 & I1). destruct (micro_step sp a q c ss1 Isp Er M1 P1) as (ss2 & E2 & M2 & P2 & I2). exists ss2. split; [exact E2|]. split; [exact M2|]. split; [exact P2|]. intros x I. apply I2, I1, I.
          -- split; [exact HM|]. split; [intros r []|apply incl_refl].
          -- exists ss'. split; [exact E'|]. split; [exact M'|]. intros r Ir Vr Nr. apply in_app_or in Ir as [Ir|[<-|[]]]; [apply I'; auto|].
             apply P'; [|exact Vr]. destruct (so_reqd _ _ _ _ _ _ _ _ _ H sp Isp) as (dep & ->). apply in_or_app. right. left. reflexivity.
      + exists ss. split; [reflexivity|]. split; [exact HM|]. intros r Ir Vr Nr. apply in_app_or in Ir as [Ir|[<-|[]]]; [auto|congruence].
    - split; [|contradiction]. cbn [MS]. split; [|split; [exists m1; constructor|split; [contradiction|reflexivity]]].
      intros m P. inversion P; subst. apply Inv_start; [exact G1|]. intros v [[]|(q & _ & [] & _)].
    - destruct ss as ((done & w) & log). exists done, w, log. split; [exact E|]. cbn [MS] in HM. destruct HM as (HI & He & _). split; [exact He|]. intros m P. destruct (HI m P) as (G & _).
      apply (GInv_ext alloc st scr cond t rank parts m0 X (DnD cond parts b Dn0 done)); [|exact G]. intros sp p. unfold DnD, Dn1. split.
      + intros [K|(K1 & _ & K2)]; auto.
      + intros [K|(K1 & K2 & K3)]; [left; exact K|]. right. split; [exact K1|]. split; [|auto]. pose proof (in_inside _ _ _ Hb K2) as Kr.
        destruct (mp_valid sp) eqn:Va; [|rewrite (inactive sp p K1 (or_introl Va) Kr) in K3; discriminate].
        destruct (Z_le_gt_dec (pb_num (mp_pb sp)) 0) as [Le|Gt]; [rewrite (inactive sp p K1 (or_intror Le) Kr) in K3; discriminate|]. apply HP; auto. lia.
  Qed.
End Micro.

(* ---- all micro-blocks of a stage ---- *)
Lemma inside_of : forall b rank, length b = length rank -> Forall (fun d => fst d < snd d) b -> (forall p, in_box b p = true -> in_box rank p = true) -> inside b rank.
Proof.
  induction b as [|c b IH]; intros [|r rank] L N P; try discriminate; [constructor|]. inversion N; subst.
  assert (C : forall f, (f = fst \/ f = (fun d : Z * Z => snd d - 1)) -> in_box b (map f b) = true).
  { intros f Hf. clear -H2 Hf. induction b as [|d b IH]; [reflexivity|]. inversion H2; subst. cbn. rewrite IH by assumption. unfold in_iv. destruct Hf as [-> | ->]; lia. }
  constructor.
  - pose proof (P (fst c :: map fst b)) as P1. pose proof (P (snd c - 1 :: map fst b)) as P2. cbn [in_box] in P1, P2. rewrite (C fst (or_introl eq_refl)) in P1, P2. unfold in_iv in *.
    assert (Q1 : (fst r <=? fst c) && (fst c <? snd r) && in_box rank (map fst b) = true) by (apply P1; lia).
    assert (Q2 : (fst r <=? snd c - 1) && (snd c - 1 <? snd r) && in_box rank (map fst b) = true) by (apply P2; lia). lia.
  - apply IH; [cbn in L; lia|assumption|]. intros p Hp. specialize (P (fst c :: p)). cbn [in_box] in P. rewrite Hp in P. unfold in_iv in P.
    assert (Q : (fst r <=? fst c) && (fst c <? snd r) && in_box rank p = true) by (apply P; lia). apply andb_true_iff in Q. tauto.
Qed.

Lemma GInv_result V (zero : V) alloc st scr cond t rank ord reqd parts m0 X Dn m' : stage_ok alloc st scr cond t rank ord reqd parts -> scratch_values zero alloc st scr cond t ord m0 X ->
  GInv alloc st scr cond t rank parts m0 X Dn m' -> (forall sp p, In sp parts -> in_box rank p = true -> on cond sp p = true -> Dn sp p) ->
  stage_result zero alloc st scr cond t rank ord parts m0 m'.
Proof.
  intros H HX (A & G) K. exists X. split; [exact HX|]. split.
  - intros sp p c I1 I2 I3 W. apply (proj1 (G c (proj1 (so_wr _ _ _ _ _ _ _ _ _ H sp p c I1 W))) sp p); auto.
  - intros c Sc Hn. apply (proj2 (G c Sc)). intros sp p D. destruct (A sp p D) as (I1 & I2 & I3). apply Hn; assumption.
Qed.
Lemma GInv_none V alloc (st : stencil V) scr cond t rank parts m0 X Dn : (forall sp p, ~ Dn sp p) -> GInv alloc st scr cond t rank parts m0 X Dn m0.
Proof. intros N. split; [intros sp p D; destruct (N sp p D)|]. intros c _. split; [intros sp p D; destruct (N sp p D)|reflexivity]. Qed.

Section Blocks.
  Context {V : Type} (zero : V) (alloc : Z -> Z) (st : stencil V) (scr : Z -> bool).
  Variable cond : mpart -> list Z -> bool.
  Variables (t : Z) (rank : list (Z * Z)) (ord : list mpart) (reqd : mpart -> list mpart) (parts : list mpart).
  Hypothesis H : stage_ok alloc st scr cond t rank ord reqd parts.
  Variables (s : mset) (n : nat) (reg : mpart -> list Z -> bool).
  Hypothesis HS : setup_ok s n rank ord reqd parts cond reg.
  Let hit := expands (ms_fi s) (ms_rofs s) (ms_folds s).

  Lemma blocks_run dss : blocks_ok n rank dss -> exists logs, block_logs s reqd parts dss logs /\ forall m0,
    (exists m', plays_blocks zero alloc st hit scr t logs m0 m') /\
    forall m', plays_blocks zero alloc st hit scr t logs m0 m' -> stage_result zero alloc st scr cond t rank ord parts m0 m'.
  Proof using H HS.
    intros (Hd & Hc). destruct HS as (S1 & S2 & S3 & S4 & (S5 & S5') & S6).
    assert (Hin : forall ds, In ds dss -> inside (box_of ds) rank).
    { intros ds I. rewrite Forall_forall in Hd. destruct (Hd ds I) as ((L & _) & N). apply inside_of; [unfold box_of; rewrite map_length; lia|apply Forall_map; exact N|].
      intros p Hp. specialize (Hc p). destruct (in_box rank p); [reflexivity|]. exfalso. unfold hits in Hc.
      assert (F : In (box_of ds) (filter (fun c => in_box c p) (map box_of dss))) by (apply filter_In; split; [apply in_map; exact I|exact Hp]).
      destruct (filter (fun c => in_box c p) (map box_of dss)); [contradiction|discriminate]. }
    assert (Hok : forall ds, In ds dss -> exists done w log, stage_micro_block s ds reqd parts = Ok (done, w, log)).
    { intros ds I. rewrite Forall_forall in Hd. destruct (Hd ds I) as (D1 & D2). destruct (values_exist zero alloc st scr cond t rank ord reqd parts H (fun _ => zero)) as (X & HX).
      destruct (micro_block zero alloc st scr cond t rank ord reqd parts H (fun _ => zero) X HX s n ds reg S1 D1 D2 S2 S3 S4 S6 (Hin ds I) (fun _ _ => False) (fun _ _ F _ => F) (fun _ => zero)) as (done & w & log & E & _); [apply GInv_none; tauto|].
      exists done, w, log. exact E. }
    assert (HL : exists logs, block_logs s reqd parts dss logs).
    { clear -Hok. unfold block_logs. induction dss as [|ds l IH]; [exists []; constructor|]. destruct (Hok ds (or_introl eq_refl)) as (done & w & log & E). destruct IH as (logs & IH); [intros d I; apply Hok; right; exact I|].
      exists (log :: logs). constructor; [exists done, w; exact E|exact IH]. }
    destruct HL as (logs & HL). exists logs. split; [exact HL|]. intros m0.
    destruct (values_exist zero alloc st scr cond t rank ord reqd parts H m0) as (X & HX).
    set (Dn := fun pre sp p => In sp parts /\ on cond sp p = true /\ exists ds, In ds pre /\ in_box (box_of ds) p = true).
    assert (G : forall post pre lg m, dss = pre ++ post -> block_logs s reqd parts post lg -> GInv alloc st scr cond t rank parts m0 X (Dn pre) m ->
      (exists m', plays_blocks zero alloc st hit scr t lg m m') /\ forall m', plays_blocks zero alloc st hit scr t lg m m' -> GInv alloc st scr cond t rank parts m0 X (Dn dss) m').
    { induction post as [|ds post IH]; intros pre lg m E HB HG; inversion HB as [|? log ? lg' (done & w & Eb) HB']; subst lg.
      - rewrite app_nil_r in E. subst pre. split; [exists m; constructor|]. intros m' P. inversion P; subst. exact HG.
      - assert (I : In ds dss) by (rewrite E; apply in_or_app; right; left; reflexivity). rewrite Forall_forall in Hd. destruct (Hd ds I) as (D1 & D2).
        assert (Disj : forall sp p, Dn pre sp p -> in_box (box_of ds) p = true -> False).
        { intros sp p (_ & _ & ds' & I' & B') B. pose proof (Hc p) as Hcp. rewrite E, map_app in Hcp. unfold hits in Hcp. rewrite filter_app, app_length in Hcp. cbn [map filter] in Hcp. rewrite B in Hcp. cbn [length] in Hcp.
          assert (F : In (box_of ds') (filter (fun c => in_box c p) (map box_of pre))) by (apply filter_In; split; [apply in_map; exact I'|exact B']).
          destruct (filter (fun c => in_box c p) (map box_of pre)); [contradiction|]. cbn [length] in Hcp. destruct (in_box rank p); lia. }
        assert (Hm : forall m1, same_vars scr m m1 -> (exists m2, plays zero alloc st hit t log m1 m2) /\ forall m2, plays zero alloc st hit t log m1 m2 -> GInv alloc st scr cond t rank parts m0 X (Dn (pre ++ [ds])) m2).
        { intros m1 Sm. destruct (micro_block zero alloc st scr cond t rank ord reqd parts H m0 X HX s n ds reg S1 D1 D2 S2 S3 S4 S6 (Hin ds I) (Dn pre) Disj m1) as (done' & w' & log' & E' & Ex & K); [apply (GInv_same _ _ _ _ _ _ _ _ _ _ m _ HG Sm)|].
          rewrite Eb in E'. injection E' as <- <- <-. split; [exact Ex|]. intros m2 P. apply (GInv_ext alloc st scr cond t rank parts m0 X (Dn1 cond parts ds (Dn pre))); [|apply K; exact P].
          intros sp p. unfold Dn1, Dn. split.
          - intros [(A1 & A2 & d & A3 & A4)|(A1 & A2 & A3)]; (split; [exact A1|]); (split; [assumption|]); [exists d; split; [apply in_or_app; left; exact A3|exact A4]|exists ds; split; [apply in_or_app; right; left; reflexivity|exact A2]].
          - intros (A1 & A2 & d & A3 & A4). apply in_app_or in A3 as [A3|[<-|[]]]; [left; split; [exact A1|]; split; [exact A2|]; exists d; auto|right; auto]. }
        assert (E2 : dss = (pre ++ [ds]) ++ post) by (rewrite <- app_assoc; exact E). split.
        + destruct (Hm m (fun c _ => eq_refl)) as ((m2 & P2) & K2). destruct (IH (pre ++ [ds]) lg' m2 E2 HB' (K2 m2 P2)) as ((m' & P') & _). exists m'. econstructor; [intros c _; reflexivity|exact P2|exact P'].
        + intros m' P. inversion P as [|? ? ? mm1 mm2 ? Q1 Q2 Q3]; subst. apply (IH (pre ++ [ds]) lg' mm2 E2 HB'); [apply (Hm mm1 Q1); exact Q2|exact Q3]. }
    destruct (G dss [] logs m0 eq_refl HL) as (Ex & K); [apply GInv_none; intros sp p (_ & _ & ds & [] & _)|]. split; [exact Ex|]. intros m' P.
    apply (GInv_result V zero alloc st scr cond t rank ord reqd parts m0 X (Dn dss) m' H HX (K m' P)). intros sp p I1 I2 I3. split; [exact I1|]. split; [exact I3|].
    specialize (Hc p). rewrite I2 in Hc. unfold hits in Hc. destruct (filter (fun c => in_box c p) (map box_of dss)) as [|x l] eqn:Ef; [discriminate|].
    assert (F : In x (filter (fun c => in_box c p) (map box_of dss))) by (rewrite Ef; left; reflexivity). apply filter_In in F as (F1 & F2). apply in_map_iff in F1 as (ds & <- & F1). exists ds. auto.
  Qed.
End Blocks.

(* ---- the reference run ---- *)
Lemma domain_cover fi rofs folds aofs b f : b <> [] -> length aofs = length b -> nonempty_box b ->
  exists ws, calc_in_domain f aofs b = Ok ws /\ exact_cover (wr_hits fi rofs folds) ws (fun p => in_box b p && f p).
Proof.
  intros Hb L Hn. unfold calc_in_domain. destruct (dbg_cover aofs b Hb L Hn) as (ws & E & C). pose proof E as E'. rewrite E. cbn [rbind]. eexists. split; [reflexivity|]. intros p.
  specialize (C fi rofs folds p).
  assert (W : forall w, In w ws -> exists q, w = WPt q).
  { unfold nano_dbg in E'. destruct (run_loops _ _ _ _) as [bs| | |]; cbn in E'; try discriminate. injection E' as <-. intros w I. apply in_map_iff in I as (c & <- & _). eauto. }
  assert (G : hits (wr_hits fi rofs folds) (filter (fun w => match w with WPt q => f q | WVec _ _ => false end) ws) p = if f p then hits (wr_hits fi rofs folds) ws p else 0%nat).
  { clear -W. unfold hits. induction ws as [|w ws IH]; [destruct (f p); reflexivity|]. destruct (W w (or_introl eq_refl)) as (q & ->). cbn [filter]. assert (IH' := IH (fun w I => W w (or_intror I))). clear IH.
    destruct (wr_hits fi rofs folds (WPt q) p) eqn:Eh.
    - assert (q = p) by (unfold wr_hits, list_eqb in Eh; destruct (list_eq_dec Z.eq_dec q p); [assumption|discriminate]).
      subst q. destruct (f p) eqn:Ef; cbn [filter length]; [rewrite Eh; cbn [length]; rewrite IH'; reflexivity|exact IH'].
    - destruct (f q); cbn [filter]; [rewrite Eh|]; exact IH'. }
  rewrite G, C. destruct (in_box b p), (f p); reflexivity.
Qed.

Lemma ref_inits_spec outs w log : let r := ref_inits outs (w, log) in
  exists vs, snd r = log ++ map EvInit vs /\ (forall v, In v vs -> ~ In v w /\ In v outs) /\ (forall v, In v (fst r) <-> In v w \/ In v outs) /\ (forall v, In v outs -> ~ In v w -> In v vs).
Proof.
  destruct (init_spec (mkMpart 0 true true true true (mkPB [] 0 []) [] [] outs) w log) as (vs & A & _ & B & C & D & _). cbn [mp_outs mp_sub mp_stepc orb] in *. exists vs. split; [exact A|]. split; [exact B|]. split; [exact C|]. apply D. reflexivity.
Qed.

Section Refstep.
  Context {V : Type} (zero : V) (alloc : Z -> Z) (st : stencil V) (scr : Z -> bool).
  Variable cond : mpart -> list Z -> bool.
  Variables (t : Z) (rank : list (Z * Z)) (ord : list mpart) (reqd : mpart -> list mpart) (parts : list mpart).
  Hypothesis H : stage_ok alloc st scr cond t rank ord reqd parts.
  Variables (aofs : list Z) (n : nat).
  Hypothesis Hn : (1 <= n)%nat /\ length aofs = n /\ length rank = n /\ nonempty_box rank.
  Hypothesis Hw : forall q, required reqd parts q -> mp_scratch q = true -> length (mp_wl q) = n /\ length (mp_wr q) = n /\ Forall (fun x => 0 <= x) (mp_wl q) /\ Forall (fun x => 0 <= x) (mp_wr q).
  Variables (fi : bool) (rofs folds : list Z).
  Let hit := expands fi rofs folds.
  Notation plays := (plays zero alloc st hit t).

  Lemma ref_box q : required reqd parts q -> (if mp_scratch q then scratch_box (mp_wl q) (mp_wr q) rank else rank) = span q rank /\ length (span q rank) = n /\ nonempty_box (span q rank).
  Proof using Hn Hw.
    intros K. unfold span. destruct (mp_scratch q) eqn:E; [|split; [reflexivity|tauto]]. destruct (Hw q K E) as (L1 & L2 & W1 & W2). destruct Hn as (_ & _ & L3 & N).
    split; [|clear -L1 L2 L3 W1 W2 N].
    - reflexivity.
    - revert L1 L2 L3 W1 W2. generalize n (mp_wl q) (mp_wr q). clear n. unfold nonempty_box in *. induction N as [|c r Hc N IH]; intros k [|a wl] [|b wr] L1 L2 L3 W1 W2; cbn in *; try (exfalso; lia).
      + split; [exact L3|constructor].
      + destruct k as [|k]; [lia|]. inversion W1; inversion W2; subst. destruct (IH k wl wr) as (A & B); auto; try lia. split; [lia|]. constructor; [cbn; lia|exact B].
  Qed.
  Lemma ref_pts q : required reqd parts q -> exists ws, calc_in_domain (cond q) aofs (if mp_scratch q then scratch_box (mp_wl q) (mp_wr q) rank else rank) = Ok ws /\ (exists pts, hit ws pts) /\ forall pts, hit ws pts -> pts_of cond rank q pts.
  Proof using Hn Hw.
    intros K. destruct (ref_box q K) as (E & L & N). rewrite E. destruct Hn as (N1 & N2 & N3 & N4).
    destruct (domain_cover fi rofs folds aofs (span q rank) (cond q)) as (ws & Ew & C); [destruct (span q rank); [cbn in L; lia|discriminate]|lia|exact N|].
    exists ws. split; [exact Ew|]. split; [apply (expands_exist _ _ _ _ _ (span q rank) C); intros p T; apply andb_true_iff in T; apply T|]. intros pts Hh. apply (expand_cover _ _ _ _ _ _ C Hh).
  Qed.

  Variables m0 X : cell -> V.
  Hypothesis HX : scratch_values zero alloc st scr cond t ord m0 X.

  (* all parts that [sp] requires, and [sp] itself *)
  Section Part.
    Variable Dn0 : mpart -> list Z -> Prop.
    Variable sp : mpart.
    Hypothesis Isp : In sp parts.
    Hypothesis HDn : forall p, in_box rank p = true -> Dn0 sp p -> False.
    Hypothesis Hv : mp_valid sp = true.
    Notation Inv := (Inv zero alloc st scr cond t rank ord parts m0 X rank Dn0).

    Lemma reqd_nodup : NoDup (reqd sp).
    Proof using H Isp.
      destruct (so_reqd _ _ _ _ _ _ _ _ _ H sp Isp) as (dep & ->). apply NoDup_app'; [apply NoDup_filter, (so_nodup _ _ _ _ _ _ _ _ _ H)|constructor; [intros []|constructor]|].
      intros x I [<-|[]]. apply filter_In in I as (I & _). apply (ord_parts _ _ _ _ _ _ _ _ _ H sp I Isp).
    Qed.

    Lemma ref_part_run m1 : GInv alloc st scr cond t rank parts m0 X Dn0 m1 -> forall log0, exists w log,
      rfold (ref_part cond aofs rank) (reqd sp) ([], log0) = Ok (w, log0 ++ log) /\ (exists m, plays log m1 m) /\
      forall m, plays log m1 m -> GInv alloc st scr cond t rank parts m0 X (fun s p => Dn0 s p \/ (s = sp /\ in_box rank p = true /\ on cond s p = true)) m.
    Proof using All.
      intros G1 log0.
      destruct (rfold_pre _ _ (ref_part cond aofs rank) (fun a wl => exists D log, snd wl = log0 ++ log /\
          (forall id, In id D <-> exists r, In r a /\ mp_valid r = true /\ mp_id r = id) /\ (forall r v, In r a -> In r ord -> In v (mp_outs r) -> In v (fst wl)) /\
          (forall m, plays log m1 m -> Inv (fun v => In v (fst wl)) D m) /\ exists m, plays log m1 m) (reqd sp)) with (st := ([] : list Z, log0)) as ((w & lg) & E & D & log & E1 & ED & EW & EI & Ex).
      - intros a q c (w & lg) Er (D & log & E1 & ED & EW & EI & (m2 & Hm2)). cbn [fst snd] in *. subst lg. unfold ref_part.
        assert (Iq : In q (reqd sp)) by (rewrite Er; apply in_or_app; right; left; reflexivity).
        assert (Rq : required reqd parts q) by (exists sp; auto).
        pose proof (in_reqd _ _ _ _ _ _ _ _ _ H sp q Isp Iq) as Kq.
        assert (Ka : forall r, In r a -> In r (ord ++ parts)) by (intros r I; apply (reqd_known _ _ _ _ _ _ _ _ _ H sp r Isp); rewrite Er; apply in_or_app; left; exact I).
        assert (Hout : In q ord \/ mp_outs q = []).
        { destruct Kq as [K| ->]; [left; exact K|right]. destruct (so_kinds _ _ _ _ _ _ _ _ _ H) as (_ & F2). rewrite Forall_forall in F2. apply (F2 sp Isp). }
        destruct (ref_inits_spec (mp_outs q) w (log0 ++ log)) as (vs & A & B & C & Dv). destruct (ref_inits (mp_outs q) (w, log0 ++ log)) as (w' & lg'). cbn [fst snd] in *. subst lg'.
        assert (HI1 : forall m, plays (log ++ map EvInit vs) m1 m -> Inv (fun v => In v w') D m).
        { intros m P. apply plays_app in P as (mid & Pa & Pb). destruct (EI mid Pa) as (A1 & B1 & C1).
          destruct (step_init zero alloc st hit scr cond t rank ord parts m0 X rank (fun v => In v w) D _ mid m vs A1 B1) as (A' & B'); auto.
          - intros v Iv. destruct (B v Iv) as (_ & I1). destruct Hout as [Io|Eo]; [apply (so_scr_out _ _ _ _ _ _ _ _ _ H q v Io I1)|rewrite Eo in I1; contradiction].
          - intros v r Iv I1 I2 I3. apply (proj1 (B v Iv)). apply ED in I2 as (r' & J1 & J2 & J3). assert (r' = r) by (apply (so_ids _ _ _ _ _ _ _ _ _ H); auto; apply in_or_app; auto). subst r'. apply (EW r v J1 I1 I3).
          - apply (Inv_sub _ _ _ _ _ _ _ _ _ _ _ _ _ (fun v => In v w \/ In v vs)).
            + split; [exact A'|]. split; [exact B'|]. intros r v I1 I2 I3. left. apply (C1 r v I1 I2 I3).
            + intros v. rewrite C. split; [intros [I|I]; [auto|right; apply B; exact I]|]. intros [I|I]; [auto|]. destruct (in_dec Z.eq_dec v w); auto. }
        destruct (plays_inits_exist V zero alloc st hit t vs m2) as (m3 & Hm3). pose proof (plays_join _ _ _ _ _ _ _ _ _ _ _ Hm2 Hm3) as Hm3'.
        assert (EW' : forall r v, In r (a ++ [q]) -> In r ord -> In v (mp_outs r) -> In v w').
        { intros r v Ir Io Iv. apply C. apply in_app_or in Ir as [Ir|[<-|[]]]; [left; apply (EW r v Ir Io Iv)|auto]. }
        destruct (mp_valid q) eqn:Va; cbn [negb].
        + destruct (ref_pts q Rq) as (ws & Ec & (pts0 & Hp0) & Hpts). rewrite Ec. cbn [rbind]. eexists. split; [reflexivity|]. cbn [fst snd].
          exists (mp_id q :: D), ((log ++ map EvInit vs) ++ [EvPart (mp_id q) ws]). split; [rewrite !app_assoc; reflexivity|]. split; [|split; [exact EW'|split]].
          * intros id. cbn [In]. rewrite ED. split.
            -- intros [<-|(r & I1 & I2)]; [exists q; split; [apply in_or_app; right; left; reflexivity|auto]|exists r; split; [apply in_or_app; auto|exact I2]].
            -- intros (r & I1 & I2 & I3). apply in_app_or in I1 as [I1|[<-|[]]]; [right; exists r; auto|left; exact I3].
          * assert (Nd : ~ In (mp_id q) D).
            { intros I. apply ED in I as (r & I1 & I2 & I3). assert (r = q) by (apply (so_ids _ _ _ _ _ _ _ _ _ H); auto; apply (reqd_known _ _ _ _ _ _ _ _ _ H sp q Isp Iq)). subst r.
              pose proof reqd_nodup as N. rewrite Er in N. apply NoDup_remove_2 in N. apply N, in_or_app. left. exact I1. }
            intros m P. apply plays_app in P as (mid & Pa & Pb). inversion Pb as [| |id ws' pts l' u u' Hh Pn]; subst. inversion Pn; subst.
            apply (Inv_sub _ _ _ _ _ _ _ _ _ _ _ _ _ (fun v => In v w' \/ In v (mp_outs q))).
            -- apply (eval_part zero alloc st scr cond t rank ord reqd parts H m0 X HX rank (inside_refl rank) Dn0 _ D mid sp q pts); auto.
               ++ apply (ready_pre alloc st scr cond t rank ord reqd parts H _ _ sp a q c Isp Er). intros r Ir Io. split; [intros v Iv; apply C; left; apply (EW r v Ir Io Iv)|intros Vr; apply ED; exists r; auto].
               ++ intros Io v Iv. left. apply C. right. exact Iv.
            -- intros v. split; [intros [I|I]; [exact I|apply C; right; exact I]|auto].
          * exists (exec alloc st (map (mkInst t (mp_id q)) pts0) m3). apply (plays_join _ _ _ _ _ _ _ _ _ _ _ Hm3'). econstructor; [exact Hp0|constructor].
        + eexists. split; [reflexivity|]. cbn [fst snd]. exists D, (log ++ map EvInit vs). split; [rewrite app_assoc; reflexivity|]. split; [|split; [exact EW'|split; [exact HI1|exists m3; exact Hm3']]].
          intros id. rewrite ED. split; intros (r & I1 & I2 & I3); [exists r; split; [apply in_or_app; auto|auto]|]. apply in_app_or in I1 as [I1|[<-|[]]]; [exists r; auto|congruence].
      - exists [], []. cbn [fst snd]. rewrite app_nil_r. split; [reflexivity|]. split; [|split; [contradiction|split]].
        + intros id. split; [contradiction|]. intros (r & [] & _).
        + intros m P. inversion P; subst. apply Inv_start; [exact G1|]. intros v [].
        + exists m1. constructor.
      - exists w, log. cbn [snd] in E1. subst lg. split; [exact E|]. split; [exact Ex|]. intros m P. destruct (EI m P) as (G & _).
        apply (GInv_ext alloc st scr cond t rank parts m0 X (DnD cond parts rank Dn0 D)); [|exact G]. intros r p. unfold DnD. rewrite ED. split.
        + intros [K|(K1 & (r' & J1 & J2 & J3) & K3 & K4)]; [left; exact K|]. right.
          assert (r' = r). { apply (so_ids _ _ _ _ _ _ _ _ _ H); auto; [apply (reqd_known _ _ _ _ _ _ _ _ _ H sp r' Isp J1)|apply in_or_app; right; exact K1]. } subst r'.
          destruct (in_reqd _ _ _ _ _ _ _ _ _ H sp r Isp J1) as [Io| ->]; [destruct (ord_parts _ _ _ _ _ _ _ _ _ H r Io K1)|auto].
        + intros [K|(-> & K1 & K2)]; [left; exact K|]. right. split; [exact Isp|]. split; [|auto]. exists sp. split; [|auto]. destruct (so_reqd _ _ _ _ _ _ _ _ _ H sp Isp) as (dep & ->). apply in_or_app. right. left. reflexivity.
    Qed.
  End Part.

  Lemma ref_stage_run : forall log0, exists log,
    rfold (fun log ap => if negb (mp_valid ap) then Ok log else rbind (rfold (ref_part cond aofs rank) (reqd ap) ([], log)) (fun st => Ok (snd st))) parts log0 = Ok (log0 ++ log) /\
    (exists m', plays log m0 m') /\ forall m', plays log m0 m' -> stage_result zero alloc st scr cond t rank ord parts m0 m'.
  Proof using H Hn Hw HX.
    intros log0. set (Dn := fun (pre : list mpart) s p => In s pre /\ in_box rank p = true /\ on cond s p = true).
    destruct (rfold_pre _ _ (fun log ap => if negb (mp_valid ap) then Ok log else rbind (rfold (ref_part cond aofs rank) (reqd ap) ([], log)) (fun st => Ok (snd st)))
      (fun pre lg => exists log, lg = log0 ++ log /\ (exists m, plays log m0 m) /\ forall m, plays log m0 m -> GInv alloc st scr cond t rank parts m0 X (Dn pre) m) parts) with (st := log0) as (lg & E & log & -> & Ex & K).
    - intros pre sp post lg El (log & -> & (mx & Px) & K). assert (Isp : In sp parts) by (rewrite El; apply in_or_app; right; left; reflexivity).
      destruct (mp_valid sp) eqn:Va; cbn [negb].
      + assert (Dj : forall p, in_box rank p = true -> Dn pre sp p -> False).
        { intros p _ (I & _). pose proof (proj2 (so_nodup _ _ _ _ _ _ _ _ _ H)) as N. rewrite El in N. apply NoDup_remove_2 in N. apply N, in_or_app. left. exact I. }
        destruct (ref_part_run (Dn pre) sp Isp Dj Va mx (K mx Px) (log0 ++ log)) as (w & log2 & E2 & (my & Py) & _). rewrite E2. cbn [rbind snd]. eexists. split; [reflexivity|].
        exists (log ++ log2). split; [rewrite app_assoc; reflexivity|]. split; [exists my; apply (plays_join _ _ _ _ _ _ _ _ _ _ _ Px Py)|].
        intros m P. apply plays_app in P as (mid & Pa & Pb). destruct (ref_part_run (Dn pre) sp Isp Dj Va mid (K mid Pa) (log0 ++ log)) as (w' & log3 & E3 & _ & K3).
        rewrite E2 in E3. injection E3 as _ E3. apply app_inv_head in E3. subst log3. apply (GInv_ext alloc st scr cond t rank parts m0 X (fun s p => Dn pre s p \/ (s = sp /\ in_box rank p = true /\ on cond s p = true))); [|apply K3; exact Pb].
        intros r p. unfold Dn. rewrite in_app_iff. cbn [In]. split; [intros [(A & B)|(-> & B)]; split; auto|]. intros ([A|[A|[]]] & B); auto.
      + eexists. split; [reflexivity|]. exists log. split; [reflexivity|]. split; [exists mx; exact Px|]. intros m P.
        apply (GInv_ext alloc st scr cond t rank parts m0 X (Dn pre)); [|apply K; exact P]. intros r p. unfold Dn. rewrite in_app_iff. cbn [In]. split; [intros (A & B); split; auto|]. intros ([A|[<-|[]]] & B & C); [auto|]. unfold on in C. rewrite Va in C. discriminate.
    - exists []. rewrite app_nil_r. split; [reflexivity|]. split; [exists m0; constructor|]. intros m P. inversion P; subst. apply GInv_none. intros r p ([] & _).
    - exists log. split; [exact E|]. split; [exact Ex|]. intros m' P. apply (GInv_result V zero alloc st scr cond t rank ord reqd parts m0 X (Dn parts) m' H HX (K m' P)). intros sp p I1 I2 I3. split; auto.
  Qed.
End Refstep.
