(* Proofs for C53: halos cover the reads of scratch parts evaluated over their whole spans. *)
From Coq Require Import ZifyBool.
From Verif Require Import Base Deps_Model Deps_Spec Deps_Proofs Eqs_Model Eqs_Spec Parts_Model Parts_Spec Parts_Proofs Halo_Model Halo_Spec Halo_Proofs Span_Model.

(* ---------- no dim occurs twice in an entry ---------- *)
Definition mnd (m : hmap) : Prop := forall k t, In (k, t) m -> NoDup (map fst t).
Lemma tput_keys : forall d v t x, In x (map fst (tput d v t)) <-> x = d \/ In x (map fst t).
Proof.
  induction t as [|(d', v') t IH]; intros x; cbn; [intuition congruence|]. destruct (Z.eqb_spec d d') as [->|N]; cbn; [intuition congruence|]. rewrite IH. intuition congruence.
Qed.
Lemma tput_nd : forall d v t, NoDup (map fst t) -> NoDup (map fst (tput d v t)).
Proof.
  induction t as [|(d', v') t IH]; intros H; cbn; [repeat constructor; auto|]. cbn in H. inversion H as [|? ? N H']; subst. destruct (Z.eqb_spec d d') as [->|Nd]; cbn; [constructor; assumption|].
  constructor; [rewrite tput_keys; intros [->|X]; [congruence|contradiction]|apply IH; exact H'].
Qed.
Lemma mnd_upd : forall k f m, (forall t, NoDup (map fst t) -> NoDup (map fst (f t))) -> mnd m -> mnd (hupd k f m).
Proof.
  intros k f m F. induction m as [|(k', t') m IH]; intros M k1 t1; cbn.
  - intros [H|[]]. injection H as <- <-. apply F. constructor.
  - destruct (hkey_eqb k k'); intros [H|H].
    + injection H as <- <-. apply F, (M k' t'). left. reflexivity.
    + apply (M k1 t1). right. exact H.
    + injection H as <- <-. apply (M k' t'). left. reflexivity.
    + refine (IH _ k1 t1 H). intros k2 t2 H2. apply (M k2 t2). right. exact H2.
Qed.
Lemma mnd_puts : forall (A : Type) (ky : A -> hkey) (dm vl : A -> Z) l m, mnd m -> mnd (fold_left (fun m p => hupd (ky p) (tput (dm p) (vl p)) m) l m).
Proof. induction l as [|p l IH]; intros m M; cbn; [exact M|]. apply IH, mnd_upd; [intros; apply tput_nd; assumption|exact M]. Qed.

Definition vgood (v : vinfo) : Prop := vok v /\ mnd (v_halos v).
Definition egood (en : venv) : Prop := forall v, vgood (en v).
Lemma egood_ok : forall en, egood en -> eok en. Proof. intros en E v. apply E. Qed.
Lemma vgood0 : vgood vinfo0. Proof. split; [apply vok0|intros k t []]. Qed.

Lemma upd_ofs_good : forall st s o v, vgood v -> vgood (upd_ofs st s o v).
Proof.
  intros st s o v (V & M). split; [apply upd_ofs_ok; exact V|]. unfold upd_ofs. cbn [v_halos].
  apply (mnd_puts _ (fun p : Z * Z => (st, snd p <=? 0, step_of s)) fst (fun p => Z.abs (snd p))).
  destruct s; [apply mnd_upd; auto|exact M].
Qed.
Lemma upd_ofs_up : forall st s o v k d, vok v -> hget k d (v_halos (upd_ofs st s o v)) = hget k d (v_halos v) \/
  exists x, In (d, x) o /\ k = (st, x <=? 0, step_of s) /\ hget k d (v_halos (upd_ofs st s o v)) = Z.abs x.
Proof.
  intros st s o v k d (N & W & L). unfold upd_ofs. cbn [v_halos].
  set (m := match s with Some x => hupd (st, x <=? 0, x) (fun t => t) (v_halos v) | None => v_halos v end).
  assert (M : hnn m /\ wfm m /\ forall k d, hget k d m = hget k d (v_halos v)) by (unfold m; destruct s; [apply touch_ok; assumption|auto]). destruct M as (Nm & Wm & Em).
  destruct (puts_ok (fun p => (st, snd p <=? 0, step_of s)) (fun p => Z.abs (snd p)) o m Nm Wm) as (_ & _ & _ & _ & B); [intros; lia|]. cbv zeta in B.
  destruct (B k d) as [E|((d', x) & Hp & E1 & E2 & E3)]; [left; rewrite E; apply Em|right]. cbn in E1, E2, E3. subst d'. exists x. auto.
Qed.
Lemma upd_from_good : forall o v, vgood o -> vgood v -> vgood (upd_from o v).
Proof.
  intros o v (Vo & _) (V & M). split; [apply upd_from_ok; assumption|]. unfold upd_from, upd_l1. cbn [v_halos]. rewrite fold2.
  apply (mnd_puts _ fst (fun q : hkey * (Z * Z) => fst (snd q)) (fun q => snd (snd q))). exact M.
Qed.
Lemma nd_tget : forall t d x, NoDup (map fst t) -> In (d, x) t -> tget d t = Some x.
Proof.
  induction t as [|(d', x') t IH]; intros d x N H; [contradiction|]. cbn in *. inversion N as [|? ? Nd N']; subst. destruct H as [H|H]; [injection H as -> ->; rewrite Z.eqb_refl; reflexivity|].
  destruct (Z.eqb_spec d d') as [->|]; [exfalso; apply Nd; exact (in_map fst _ _ H)|apply IH; assumption].
Qed.
Lemma good_entry : forall v k t d x, vgood v -> In (k, t) (v_halos v) -> In (d, x) t -> hget k d (v_halos v) = x.
Proof.
  intros v k t d x ((_ & W & _) & M) H1 H2. unfold hget, tv. rewrite (hlook_in _ _ _ W H1), (nd_tget t d x (M k t H1) H2). reflexivity.
Qed.
Lemma upd_from_max : forall o v k d, vgood o -> vgood v -> hget k d (v_halos (upd_from o v)) = Z.max (hget k d (v_halos o)) (hget k d (v_halos v)).
Proof.
  intros o v k d Go Gv. destruct (upd_from_ok o v (proj1 Go) (proj1 Gv)) as (_ & (L1 & _) & (L2 & _)). cbv zeta in *. specialize (L1 k d). specialize (L2 k d).
  enough (hget k d (v_halos (upd_from o v)) = hget k d (v_halos v) \/ hget k d (v_halos (upd_from o v)) = hget k d (v_halos o)) by lia.
  clear L1 L2. unfold upd_from, upd_l1. cbn [v_halos]. rewrite fold2. set (l := flat_map (fun e : hkey * tup => map (fun p => (fst e, p)) (snd e)) (v_halos o)).
  assert (Hl : forall q, In q l -> exists t, In (fst q, t) (v_halos o) /\ In (snd q) t).
  { intros q Hq. unfold l in Hq. apply in_flat_map in Hq as ((k' & t) & H1 & H2). cbn in H2. apply in_map_iff in H2 as (p & <- & Hp). exists t. auto. }
  assert (NN : forall q, In q l -> 0 <= snd (snd q)). { intros (k' & (d' & x)) Hq. destruct (Hl _ Hq) as (t & H1 & H2). cbn in *. eapply entry_nn; [apply Go| |]; eassumption. }
  destruct Gv as ((N & W & _) & _). destruct (puts2_ok l (v_halos v) N W NN) as (_ & _ & _ & _ & B). cbv zeta in B.
  match goal with |- hget k d ?m = _ \/ _ => set (mm := m) in * end.
  destruct (B k d) as [E|((k1 & (d1 & x)) & Hq & E1 & E2 & E3)]; [left; exact E|right]. cbn [fst snd] in E1, E2, E3. subst k1 d1. etransitivity; [exact E3|]. destruct (Hl _ Hq) as (t & H1 & H2). symmetry. exact (good_entry o k t d x Go H1 H2).
Qed.

(* get_halo_size is the size of some entry *)
Lemma halo_size_at : forall d left v, vgood v -> halo_size d left v = 0 \/ exists st s, halo_size d left v = hget (st, left, s) d (v_halos v).
Proof.
  intros d left v G. unfold halo_size.
  assert (P : forall (es : hmap) h, (forall e, In e es -> In e (v_halos v)) -> let r := fold_left (fun h (e : hkey * tup) => let '(_, l, _) := fst e in if Bool.eqb l left then match tget d (snd e) with Some x => Z.max h x | None => h end else h) es h in
    r = h \/ exists st s, r = hget (st, left, s) d (v_halos v)).
  { induction es as [|(((st, l), s), t) es IH]; intros h H; cbn [fold_left fst snd]; [left; reflexivity|]. destruct (Bool.eqb l left) eqn:El; [|apply IH; intros e He; apply H; right; exact He].
    destruct (tget d t) as [x|] eqn:Et; [|apply IH; intros e He; apply H; right; exact He].
    destruct (IH (Z.max h x)) as [E|E]; [intros e He; apply H; right; exact He| |right; exact E]. cbv zeta in E. rewrite E.
    destruct (Z_le_gt_dec x h); [left; lia|right]. apply Bool.eqb_prop in El. subst l. exists st, s. apply tget_in in Et. rewrite (good_entry v (st, left, s) t d x G); [lia|apply H; left; reflexivity|exact Et]. }
  apply (P (v_halos v) 0). auto.
Qed.

Definition hg (en : venv) (w : Z) (k : hkey) (d : Z) : Z := hget k d (v_halos (en w)).
Lemma hg_nn : forall en w k d, egood en -> 0 <= hg en w k d.
Proof. intros en w k d G. destruct (G w) as ((N & _) & _). apply tv_nn, N. Qed.
Lemma ele_hg : forall a b w k d, ele a b -> hg a w k d <= hg b w k d.
Proof. intros a b w k d L. apply (L w). Qed.
Lemma env_upd_good : forall v f en, egood en -> vgood (f (en v)) -> egood (env_upd v f en).
Proof. intros v f en E A w. destruct (Z.eq_dec w v) as [->|N]; [rewrite env_upd_same; exact A|rewrite env_upd_other by exact N; apply E]. Qed.
Lemma fold_good : forall A (f : venv -> A -> venv), (forall en a, egood en -> egood (f en a)) -> forall l en, egood en -> egood (fold_left f l en).
Proof. intros A f H. induction l as [|a l IH]; intros en E; cbn; [exact E|]. apply IH, H, E. Qed.
Lemma fold_same : forall A (f : venv -> A -> venv) y l en, (forall en a, In a l -> f en a y = en y) -> fold_left f l en y = en y.
Proof. intros A f y. induction l as [|a l IH]; intros en H; [reflexivity|]. cbn. rewrite IH by (intros; apply H; right; assumption). apply H. left. reflexivity. Qed.

Section SpanProofs.
  Variable vdims : Z -> list Z.
  Variable eqs : list eqn.
  Hypothesis Wv : forall v, NoDup (vdims v).
  Hypothesis We : forall e p, In e eqs -> In p (e_lhs e :: e_rhs e) -> wf_pt vdims p.
  Definition lv (part : list Z) : list Z := map (lhs_var eqs) part.
  Definition rv (part : list Z) (w : Z) : Prop := exists i p, In i part /\ In p (e_rhs (eq_at eqs i)) /\ w = p_var p.

  (* ---------- merging the vars written by a part ---------- *)
  Definition mrg1 (v1 : Z) (en : venv) (i : Z) : venv := env_upd v1 (upd_from (en (lhs_var eqs i))) en.
  Definition mrg2 (v1 : Z) (en : venv) (i : Z) : venv := env_upd (lhs_var eqs i) (upd_from (en v1)) en.
  Definition others (i1 : Z) (part : list Z) : list Z := filter (fun i => negb (i1 =? i)) part.
  Definition merged (i1 : Z) (part : list Z) (en : venv) : venv :=
    fold_left (mrg2 (lhs_var eqs i1)) (others i1 part) (fold_left (mrg1 (lhs_var eqs i1)) (others i1 part) en).

  Lemma mrg1_ok : forall v1 en a, eok en -> eok (mrg1 v1 en a) /\ ele en (mrg1 v1 en a).
  Proof. intros v1 en a E. destruct (upd_from_env (lhs_var eqs a) v1 en E) as (P & Q & _). auto. Qed.
  Lemma mrg2_ok : forall v1 en a, eok en -> eok (mrg2 v1 en a) /\ ele en (mrg2 v1 en a).
  Proof. intros v1 en a E. destruct (upd_from_env v1 (lhs_var eqs a) en E) as (P & Q & _). auto. Qed.
  Lemma mrg1_good : forall v1 en a, egood en -> egood (mrg1 v1 en a).
  Proof. intros v1 en a E. apply env_upd_good; [exact E|]. apply upd_from_good; apply E. Qed.
  Lemma mrg2_good : forall v1 en a, egood en -> egood (mrg2 v1 en a).
  Proof. intros v1 en a E. apply env_upd_good; [exact E|]. apply upd_from_good; apply E. Qed.

  Lemma merged_spec : forall i1 rest en, egood en -> let part := i1 :: rest in let en2 := merged i1 part en in let v1 := lhs_var eqs i1 in
    egood en2 /\ ele en en2 /\ (forall w, ~ In w (lv part) -> en2 w = en w) /\
    forall k d, (forall w, In w (lv part) -> hg en2 w k d = hg en2 v1 k d) /\ exists w, In w (lv part) /\ hg en2 v1 k d = hg en w k d.
  Proof.
    intros i1 rest en G part en2 v1. set (os := others i1 part). set (en1 := fold_left (mrg1 v1) os en).
    assert (E2 : en2 = fold_left (mrg2 v1) os en1) by reflexivity.
    assert (Hos : forall i, In i os -> In (lhs_var eqs i) (lv part)) by (intros i Hi; apply in_map; unfold os, others in Hi; apply filter_In in Hi; tauto).
    assert (H1 : In v1 (lv part)) by (left; reflexivity).
    assert (G1 : egood en1) by (apply fold_good; [apply mrg1_good|exact G]). assert (G2 : egood en2) by (rewrite E2; apply fold_good; [apply mrg2_good|exact G1]).
    destruct (fold_env _ (mrg1 v1) (mrg1_ok v1) os en (egood_ok _ G)) as (_ & L1). fold en1 in L1. destruct (fold_env _ (mrg2 v1) (mrg2_ok v1) os en1 (egood_ok _ G1)) as (_ & L2). rewrite <- E2 in L2.
    split; [exact G2|]. split; [eapply ele_trans; eassumption|]. split.
    { intros w Nw. rewrite E2, fold_same by (intros en' i Hi; apply env_upd_other; intros ->; apply Nw, Hos, Hi). apply fold_same. intros en' i Hi. apply env_upd_other. intros ->. contradiction. }
    intros k d. set (T := hg en1 v1 k d).
    assert (At : exists w, In w (lv part) /\ T = hg en w k d).
    { assert (X : forall l en', egood en' -> (forall i, In i l -> In (lhs_var eqs i) (lv part)) -> exists w, In w (lv part) /\ hg (fold_left (mrg1 v1) l en') v1 k d = hg en' w k d).
      { induction l as [|a l IH]; intros en' G' H'; cbn [fold_left]; [exists v1; auto|]. destruct (IH (mrg1 v1 en' a) (mrg1_good v1 en' a G')) as (w & Hw & Ew); [intros; apply H'; right; assumption|]. rewrite Ew.
        destruct (Z.eq_dec w v1) as [->|N]; [|exists w; split; [exact Hw|unfold hg, mrg1; rewrite env_upd_other by exact N; reflexivity]].
        assert (EM : hg (mrg1 v1 en' a) v1 k d = Z.max (hg en' (lhs_var eqs a) k d) (hg en' v1 k d)) by (unfold hg, mrg1; rewrite env_upd_same; apply upd_from_max; apply G'). rewrite EM.
        destruct (Z_le_gt_dec (hg en' (lhs_var eqs a) k d) (hg en' v1 k d)); [exists v1|exists (lhs_var eqs a)]; (split; [|lia]); [exact H1|apply H'; left; reflexivity]. }
      exact (X os en G Hos). }
    assert (Up1 : forall w, In w (lv part) -> hg en1 w k d <= T).
    { intros w Hw. destruct (Z.eq_dec w v1) as [->|N]; [lia|]. unfold lv in Hw. apply in_map_iff in Hw as (i & Ei & Hi).
      assert (Ho : In i os) by (unfold os, others; apply filter_In; split; [exact Hi|]; destruct (Z.eqb_spec i1 i) as [<-|]; [unfold v1 in N; congruence|reflexivity]).
      destruct (fold_env_in _ (mrg1 v1) (mrg1_ok v1) os en i (egood_ok _ G) Ho) as (ex & Ex & Lx & Ly). fold en1 in Ly.
      assert (Q : vle (ex (lhs_var eqs i)) (mrg1 v1 ex i v1)) by (destruct (upd_from_env (lhs_var eqs i) v1 ex Ex) as (_ & _ & Q); exact Q).
      assert (S1 : en1 w = en w) by (apply fold_same; intros en' j Hj; apply env_upd_other; exact N).
      unfold hg. rewrite S1. destruct Q as (Q & _). specialize (Q k d). pose proof (ele_hg _ _ v1 k d Ly) as Y. pose proof (ele_hg _ _ w k d Lx) as X. unfold hg in X, Y, T. rewrite Ei in Q. unfold T, hg. lia. }
    assert (Up2 : forall l en', egood en' -> (forall i, In i l -> In (lhs_var eqs i) (lv part)) -> (forall w, In w (lv part) -> hg en' w k d <= T) -> forall w, In w (lv part) -> hg (fold_left (mrg2 v1) l en') w k d <= T).
    { induction l as [|a l IH]; intros en' G' H' U w Hw; cbn [fold_left]; [apply U, Hw|]. apply IH; [apply mrg2_good, G'|intros; apply H'; right; assumption| |exact Hw].
      intros w' Hw'. destruct (Z.eq_dec w' (lhs_var eqs a)) as [->|N]; [|unfold hg, mrg2; rewrite env_upd_other by exact N; apply U, Hw'].
      assert (EM : hg (mrg2 v1 en' a) (lhs_var eqs a) k d = Z.max (hg en' v1 k d) (hg en' (lhs_var eqs a) k d)) by (unfold hg, mrg2; rewrite env_upd_same; apply upd_from_max; apply G'). rewrite EM. pose proof (U v1 H1). pose proof (U _ Hw'). lia. }
    assert (Eq : forall w, In w (lv part) -> hg en2 w k d = T).
    { intros w Hw. pose proof (Up2 os en1 G1 Hos Up1 w Hw) as U. rewrite <- E2 in U. apply Z.le_antisymm; [exact U|]. destruct (Z.eq_dec w v1) as [->|N]; [apply (ele_hg _ _ v1 k d L2)|].
      unfold lv in Hw. apply in_map_iff in Hw as (i & Ei & Hi).
      assert (Ho : In i os) by (unfold os, others; apply filter_In; split; [exact Hi|]; destruct (Z.eqb_spec i1 i) as [<-|]; [unfold v1 in N; congruence|reflexivity]).
      destruct (fold_env_in _ (mrg2 v1) (mrg2_ok v1) os en1 i (egood_ok _ G1) Ho) as (ex & Ex & Lx & Ly). rewrite <- E2 in Ly.
      assert (Q : vle (ex v1) (mrg2 v1 ex i (lhs_var eqs i))) by (destruct (upd_from_env v1 (lhs_var eqs i) ex Ex) as (_ & _ & Q); exact Q).
      destruct Q as (Q & _). specialize (Q k d). rewrite Ei in Q. pose proof (ele_hg _ _ w k d Ly) as Y. pose proof (ele_hg _ _ v1 k d Lx) as X. unfold hg in X, Y |- *. unfold T, hg. lia. }
    split; [intros w Hw; rewrite (Eq w Hw), (Eq v1 H1); reflexivity|]. rewrite (Eq v1 H1). exact At.
  Qed.

  (* ---------- the reads of a part ---------- *)
  Lemma rd_good : forall st rh lh l1 en p, egood en -> egood (rd vdims st rh lh l1 en p).
  Proof.
    intros st rh lh l1 en p E. apply env_upd_good; [exact E|]. assert (X : vgood (upd_ofs st (p_step p) (tcomb Z.add (pt_ofs vdims p) rh) (upd_ofs st (p_step p) (tcomb Z.sub (pt_ofs vdims p) lh) (en (p_var p))))) by (apply upd_ofs_good, upd_ofs_good, E).
    destruct X as (X1 & X2). split; [apply upd_l1_ok; exact X1|exact X2].
  Qed.
  Lemma rd_other : forall st rh lh l1 en p w k d, egood en -> fst (fst k) <> st -> hg (rd vdims st rh lh l1 en p) w k d = hg en w k d.
  Proof.
    intros st rh lh l1 en p w k d E N. unfold hg, rd. destruct (Z.eq_dec w (p_var p)) as [->|Nw]; [|rewrite env_upd_other by exact Nw; reflexivity]. rewrite env_upd_same. cbn [upd_l1 v_halos].
    assert (U : forall o v, vok v -> hget k d (v_halos (upd_ofs st (p_step p) o v)) = hget k d (v_halos v)).
    { intros o v V. destruct (upd_ofs_up st (p_step p) o v k d V) as [X|(x & _ & X & _)]; [exact X|]. exfalso. apply N. rewrite X. reflexivity. }
    rewrite U by (apply upd_ofs_good, E). apply U, E.
  Qed.
  Lemma inner_good : forall st rh lh l1 en i, egood en -> egood (inner vdims eqs st rh lh l1 en i).
  Proof. intros. apply fold_good; [intros; apply rd_good; assumption|assumption]. Qed.
  Lemma inner_other : forall st rh lh l1 w k d, fst (fst k) <> st -> forall part en, egood en -> hg (fold_left (inner vdims eqs st rh lh l1) part en) w k d = hg en w k d.
  Proof.
    intros st rh lh l1 w k d N. induction part as [|i part IH]; intros en E; cbn [fold_left]; [reflexivity|]. rewrite IH by (apply inner_good, E). unfold inner.
    generalize (e_rhs (eq_at eqs i)). intros l. revert en E. induction l as [|p l IHl]; intros en E; cbn [fold_left]; [reflexivity|]. rewrite IHl by (apply rd_good, E). apply rd_other; assumption.
  Qed.
  Lemma inner_same : forall st rh lh l1 w part en, ~ rv part w -> fold_left (inner vdims eqs st rh lh l1) part en w = en w.
  Proof.
    intros st rh lh l1 w part en N. apply fold_same. intros en' i Hi. unfold inner. apply fold_same. intros en'' p Hp. apply env_upd_other. intros X. apply N. exists i, p. auto.
  Qed.

  (* one scratch part *)
  Lemma do_part_spec : forall st s i1 rest, egood (fst s) -> let part := i1 :: rest in let en2 := merged i1 part (fst s) in let en' := fst (do_part vdims eqs st s part) in
    egood en' /\ ele (fst s) en' /\
    (forall w k d, fst (fst k) <> st \/ ~ rv part w -> hg en' w k d = hg en2 w k d) /\
    (forall i e r w u d, In i part -> isin eqs i e -> In r (e_rhs e) -> In w (lv part) -> In d (vdims (p_var r)) ->
       hg en2 w (st, true, u) d - po vdims r d <= hg en' (p_var r) (st, true, step_of (p_step r)) d /\
       hg en2 w (st, false, u) d + po vdims r d <= hg en' (p_var r) (st, false, step_of (p_step r)) d).
  Proof.
    intros st (en, tl) i1 rest G part en2 en'. cbn [fst] in *. set (v1 := lhs_var eqs i1).
    destruct (merged_spec i1 rest en G) as (G2 & L2 & _ & M). fold part en2 v1 in G2, L2, M.
    set (lh := halo_sizes st true (en2 v1)). set (rh := halo_sizes st false (en2 v1)). set (l1 := v_l1 (en2 v1)).
    assert (E' : en' = fold_left (inner vdims eqs st rh lh l1) part en2) by reflexivity.
    assert (FR : forall en a, eok en -> eok (rd vdims st rh lh l1 en a) /\ ele en (rd vdims st rh lh l1 en a)) by (intros e' a Ee; destruct (rd_ok vdims Wv st rh lh l1 e' a Ee) as (P & Q & _); auto).
    assert (FI : forall en a, eok en -> eok (inner vdims eqs st rh lh l1 en a) /\ ele en (inner vdims eqs st rh lh l1 en a)) by (intros e' a Ee; apply fold_env; [exact FR|exact Ee]).
    destruct (fold_env _ _ FI part en2 (egood_ok _ G2)) as (_ & L3). rewrite <- E' in L3.
    split; [rewrite E'; apply fold_good; [intros; apply inner_good; assumption|exact G2]|]. split; [eapply ele_trans; eassumption|]. split.
    - intros w k d [N|N]; rewrite E'; [apply inner_other; assumption|unfold hg; rewrite inner_same by exact N; reflexivity].
    - intros i e r w u d Hi He Hr Hw Hd. destruct (isin_at eqs i e He) as (Ea & El & Hin). pose proof (We e r Hin (or_intror Hr)) as Wr.
      destruct (fold_env_in _ _ FI part en2 i (egood_ok _ G2) Hi) as (ea & Eea & La & Lb). rewrite <- E' in Lb. unfold inner in Lb at 1. rewrite Ea in Lb.
      destruct (fold_env_in _ _ FR (e_rhs e) ea r Eea Hr) as (eb & Eeb & Lc & Ld).
      destruct (rd_ok vdims Wv st rh lh l1 eb r Eeb) as (_ & _ & Q & _). cbv zeta in Q. specialize (Q Wr).
      destruct (halo_sizes_ok st true (en2 v1) (egood_ok _ G2 _)) as (TL & HL). destruct (halo_sizes_ok st false (en2 v1) (egood_ok _ G2 _)) as (TR & HR). fold lh in TL, HL. fold rh in TR, HR.
      assert (LF : ele (rd vdims st rh lh l1 eb r) en') by (eapply ele_trans; [exact Ld|exact Lb]).
      pose proof (Q (fun d => - tv d lh)) as QL. pose proof (Q (fun d => tv d rh)) as QR.
      assert (P1 : forall d, 0 <= tv d lh) by (intros; apply tv_nn, TL). assert (P2 : forall d, 0 <= tv d rh) by (intros; apply tv_nn, TR).
      specialize (QL ltac:(intros d'; cbv beta; specialize (P1 d'); specialize (P2 d'); lia) d Hd). specialize (QR ltac:(intros d'; cbv beta; specialize (P1 d'); specialize (P2 d'); lia) d Hd). cbv beta in QL, QR.
      pose proof (ele_hg _ _ (p_var r) (st, true, step_of (p_step r)) d LF) as F1. pose proof (ele_hg _ _ (p_var r) (st, false, step_of (p_step r)) d LF) as F2. unfold hg in F1, F2.
      pose proof (proj1 (M (st, true, u) d) w Hw) as M1. pose proof (proj1 (M (st, false, u) d) w Hw) as M2. rewrite M1, M2. specialize (HL u d). specialize (HR u d). unfold hg. lia.
  Qed.

  (* ---------- all parts of a stage ---------- *)
  Variable st : Z.
  Variable Ps : list (list Z).
  Variable en0 : venv.
  Hypothesis G0 : egood en0.
  Notation aft := (after vdims eqs st en0).
  Lemma aft_snoc : forall A p, aft (A ++ [p]) = do_part vdims eqs st (aft A) p.
  Proof. intros A p. unfold after. rewrite fold_left_app. reflexivity. Qed.
  Lemma aft_good : forall A, egood (fst (aft A)).
  Proof.
    induction A as [|p A IH] using rev_ind; [exact G0|]. rewrite aft_snoc. destruct p as [|i1 rest]; [exact IH|]. apply do_part_spec. exact IH.
  Qed.
  Lemma aft_le : forall A B, ele (fst (aft A)) (fst (aft (A ++ B))).
  Proof. intros A B. apply (after_le vdims eqs Wv We (fun _ _ => true) st en0 (egood_ok _ G0)). Qed.

  (* vars that are merged with each other only keep the sizes of phase 1 at keys that are not changed *)
  Lemma aft_closed : forall (W : Z -> Prop) k d, forall A,
    (forall q, In q A -> fst (fst k) <> st \/ forall w, W w -> ~ rv q w) ->
    (forall q w w', In q A -> In w (lv q) -> In w' (lv q) -> W w -> W w') ->
    forall w, W w -> exists w', W w' /\ hg (fst (aft A)) w k d <= hg en0 w' k d.
  Proof.
    intros W k d. induction A as [|q A IH] using rev_ind; intros H1 H2 w Hw; [exists w; split; [exact Hw|apply Z.le_refl]|].
    assert (IH' : forall w, W w -> exists w', W w' /\ hg (fst (aft A)) w k d <= hg en0 w' k d) by (apply IH; [intros; apply H1; apply in_or_app; left; assumption|intros q' w1 w2 Hq; apply H2; apply in_or_app; left; exact Hq]).
    clear IH. rewrite aft_snoc. destruct q as [|i1 rest]; [apply IH'; exact Hw|]. set (q := i1 :: rest) in *.
    assert (Hq : In q (A ++ [q])) by (apply in_or_app; right; left; reflexivity).
    destruct (do_part_spec st (aft A) i1 rest (aft_good A)) as (_ & _ & P & _). fold q in P. rewrite P by (destruct (H1 q Hq) as [X|X]; [left; exact X|right; apply X; exact Hw]).
    destruct (merged_spec i1 rest (fst (aft A)) (aft_good A)) as (_ & _ & U & M). fold q in U, M.
    destruct (in_dec Z.eq_dec w (lv q)) as [I|N]; [|unfold hg; rewrite (U w N); apply IH'; exact Hw].
    destruct (M k d) as (M1 & w' & Hw' & E). rewrite (M1 w I), E. apply IH'. exact (H2 q w w' Hq I Hw' Hw).
  Qed.

  Hypothesis HS : forall p q w w', In p Ps -> In q Ps -> In w (lv p) -> In w (lv q) -> In w' (lv q) -> In w' (lv p).
  (* a part is read only by parts before it *)
  Hypothesis HR : forall A p B q w, Ps = A ++ p :: B -> In w (lv p) -> In q (p :: B) -> ~ rv q w.

  Lemma aft_kept : forall A i1 rest B, Ps = A ++ (i1 :: rest) :: B -> forall w k d, In w (lv (i1 :: rest)) ->
    hg (fst (aft Ps)) w k d = hg (merged i1 (i1 :: rest) (fst (aft A))) w k d.
  Proof.
    intros A i1 rest B EP w k d Hw. set (p := i1 :: rest) in *. set (en2 := merged i1 p (fst (aft A))).
    assert (K : forall B1 B2, B = B1 ++ B2 -> forall w, In w (lv p) -> hg (fst (aft (A ++ p :: B1))) w k d = hg en2 (lhs_var eqs i1) k d).
    { induction B1 as [|q B1 IH] using rev_ind; intros B2 EB w' Hw'.
      - change (A ++ [p]) with (A ++ [i1 :: rest]). rewrite aft_snoc. destruct (do_part_spec st (aft A) i1 rest (aft_good A)) as (_ & _ & P & _). fold p in P.
        rewrite P by (right; apply (HR A p B p w' EP Hw'); left; reflexivity). destruct (merged_spec i1 rest (fst (aft A)) (aft_good A)) as (_ & _ & _ & M). apply M. exact Hw'.
      - assert (IH' : forall w, In w (lv p) -> hg (fst (aft (A ++ p :: B1))) w k d = hg en2 (lhs_var eqs i1) k d) by (apply (IH (q :: B2)); rewrite EB, <- app_assoc; reflexivity). clear IH.
        replace (A ++ p :: B1 ++ [q]) with ((A ++ p :: B1) ++ [q]) by (rewrite <- app_assoc; reflexivity). rewrite aft_snoc. destruct q as [|j1 qr]; [apply IH'; exact Hw'|]. set (q := j1 :: qr) in *.
        assert (Hq : In q (p :: B)) by (right; rewrite EB; apply in_or_app; left; apply in_or_app; right; left; reflexivity).
        destruct (do_part_spec st (aft (A ++ p :: B1)) j1 qr (aft_good _)) as (_ & _ & P & _). fold q in P. rewrite P by (right; exact (HR A p B q w' EP Hw' Hq)).
        destruct (merged_spec j1 qr (fst (aft (A ++ p :: B1))) (aft_good _)) as (_ & _ & U & M). fold q in U, M.
        destruct (in_dec Z.eq_dec w' (lv q)) as [I|N]; [|unfold hg; rewrite (U w' N); apply IH'; exact Hw'].
        destruct (M k d) as (M1 & w2 & Hw2 & E2). rewrite (M1 w' I), E2. apply IH'. apply (HS p q w' w2); try assumption; rewrite EP; [apply in_elt|]. apply in_or_app. right. exact Hq. }
    specialize (K B [] (eq_sym (app_nil_r B)) w Hw). rewrite <- EP in K. rewrite K. symmetry. destruct (merged_spec i1 rest (fst (aft A)) (aft_good A)) as (_ & _ & _ & M). apply M. exact Hw.
  Qed.

  (* what the parts of the stage give *)
  Lemma aft_cover : forall A p B, Ps = A ++ p :: B -> forall i e r w u d, In i p -> isin eqs i e -> In r (e_rhs e) -> In w (lv p) -> In d (vdims (p_var r)) ->
    hg (fst (aft Ps)) w (st, true, u) d - po vdims r d <= hg (fst (aft Ps)) (p_var r) (st, true, step_of (p_step r)) d /\
    hg (fst (aft Ps)) w (st, false, u) d + po vdims r d <= hg (fst (aft Ps)) (p_var r) (st, false, step_of (p_step r)) d.
  Proof.
    intros A p B EP i e r w u d Hi He Hr Hw Hd. destruct p as [|i1 rest]; [contradiction|]. rewrite !(aft_kept A i1 rest B EP w) by exact Hw.
    destruct (do_part_spec st (aft A) i1 rest (aft_good A)) as (_ & _ & _ & C). destruct (C i e r w u d Hi He Hr Hw Hd) as (C1 & C2).
    rewrite <- aft_snoc in C1, C2. pose proof (aft_le (A ++ [i1 :: rest]) B) as L. rewrite <- app_assoc in L. cbn [app] in L. rewrite <- EP in L.
    pose proof (ele_hg _ _ (p_var r) (st, true, step_of (p_step r)) d L). pose proof (ele_hg _ _ (p_var r) (st, false, step_of (p_step r)) d L). lia.
  Qed.
End SpanProofs.
