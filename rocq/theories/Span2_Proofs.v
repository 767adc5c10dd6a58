(* C53 for the parts and stages made by the compiler. *)
From Coq Require Import ZifyBool.
From Verif Require Import Base Deps_Model Deps_Spec Deps_Proofs Eqs_Model Eqs_Spec Parts_Model Parts_Spec Parts_Proofs Scratch_Proofs Halo_Model Halo_Spec Halo_Proofs Span_Model Span_Spec Span_Proofs.

Lemma combine_in0 : forall dims o (d x : Z), Forall (eq 0) o -> In (d, x) (combine dims o) -> x = 0.
Proof. induction dims as [|a dims IH]; intros o d x F H; [contradiction|]. destruct o as [|v o]; [contradiction|]. inversion F; subst. destruct H as [H|H]; [injection H as <- <-; reflexivity|eapply IH; eassumption]. Qed.

Section Phase1.
  Variable vdims : Z -> list Z.
  Variable eqs : list eqn.
  Variable sdep : Z -> Z -> bool.

  Lemma touch_good : forall st en p, egood en -> egood (touch vdims st en p).
  Proof. intros st en p E. apply env_upd_good; [exact E|]. apply upd_ofs_good, E. Qed.
  Lemma touch_up : forall st en p w k d, egood en -> hg (touch vdims st en p) w k d = hg en w k d \/ fst (fst k) = st /\ p_var p = w /\ exists x, In (d, x) (pt_ofs vdims p) /\ hg (touch vdims st en p) w k d = Z.abs x.
  Proof.
    intros st en p w k d E. unfold hg, touch. destruct (Z.eq_dec w (p_var p)) as [->|N]; [|left; rewrite env_upd_other by exact N; reflexivity]. rewrite env_upd_same.
    destruct (upd_ofs_up st (p_step p) (pt_ofs vdims p) (en (p_var p)) k d (proj1 (E _))) as [X|(x & H1 & H2 & H3)]; [left; exact X|right]. split; [rewrite H2; reflexivity|]. split; [reflexivity|]. exists x. auto.
  Qed.
  Lemma scan_good : forall st en i, egood en -> egood (scan_eq vdims eqs st en i).
  Proof.
    intros st en i E. unfold scan_eq. assert (G : egood (fold_left (touch vdims st) (e_lhs (eq_at eqs i) :: e_rhs (eq_at eqs i)) en)) by (apply fold_good; [apply touch_good|exact E]).
    apply env_upd_good; [exact G|]. specialize (G (p_var (e_lhs (eq_at eqs i)))). destruct G as (G1 & G2). split; [apply upd_write_ok; exact G1|]. unfold upd_write. destruct (p_step _); exact G2.
  Qed.
  Lemma scan_up : forall st en i w k d, egood en -> hg (scan_eq vdims eqs st en i) w k d = hg en w k d \/ fst (fst k) = st /\ exists p x, In p (e_lhs (eq_at eqs i) :: e_rhs (eq_at eqs i)) /\ p_var p = w /\ In (d, x) (pt_ofs vdims p) /\ hg (scan_eq vdims eqs st en i) w k d = Z.abs x.
  Proof.
    intros st en i w k d E. unfold scan_eq.
    assert (X : forall v s en', hg (env_upd v (upd_write st s) en') w k d = hg en' w k d).
    { intros v s en'. unfold hg. destruct (Z.eq_dec w v) as [->|N]; [|rewrite env_upd_other by exact N; reflexivity]. rewrite env_upd_same. unfold upd_write. destruct s; reflexivity. }
    rewrite X. generalize (e_lhs (eq_at eqs i) :: e_rhs (eq_at eqs i)). intros l. revert en E. induction l as [|p l IH]; intros en E; cbn [fold_left]; [left; reflexivity|].
    destruct (IH (touch vdims st en p) (touch_good st en p E)) as [H|(H & q & x & H1 & H2)]; [|right; split; [exact H|]; exists q, x; split; [right; exact H1|exact H2]].
    rewrite H. destruct (touch_up st en p w k d E) as [H'|(H1 & H2 & x & H3 & H4)]; [left; exact H'|right]. split; [exact H1|]. exists p, x. split; [left; reflexivity|]. auto.
  Qed.
  Definition scanned (sts : list stg) (st : stg) : list Z := concat (sg_parts st) ++ concat (flat_map sg_parts (filter (fun s2 => sdep (sg_id st) (sg_id s2)) sts)).
  Lemma phase1_up : forall sts, let en0 := phase1 vdims eqs sdep sts (fun _ => vinfo0) in
    egood en0 /\ forall w k d, 0 < hg en0 w k d ->
      exists st i p x, In st sts /\ sg_scr st = false /\ sg_id st = fst (fst k) /\ In i (scanned sts st) /\ In p (e_lhs (eq_at eqs i) :: e_rhs (eq_at eqs i)) /\ p_var p = w /\ In (d, x) (pt_ofs vdims p) /\ x <> 0.
  Proof.
    intros sts. unfold phase1.
    assert (F : forall st l en, egood en -> egood (fold_left (scan_eq vdims eqs st) l en) /\ forall w k d, hg (fold_left (scan_eq vdims eqs st) l en) w k d = hg en w k d \/
      fst (fst k) = st /\ exists i p x, In i l /\ In p (e_lhs (eq_at eqs i) :: e_rhs (eq_at eqs i)) /\ p_var p = w /\ In (d, x) (pt_ofs vdims p) /\ hg (fold_left (scan_eq vdims eqs st) l en) w k d = Z.abs x).
    { intros st. induction l as [|i l IH]; intros en E; cbn [fold_left]; [split; [exact E|left; reflexivity]|]. destruct (IH _ (scan_good st en i E)) as (G & U). split; [exact G|]. intros w k d.
      destruct (U w k d) as [H|(H & j & p & x & H1 & H2)]; [|right; split; [exact H|]; exists j, p, x; split; [right; exact H1|exact H2]].
      rewrite H. destruct (scan_up st en i w k d E) as [H'|(H1 & p & x & H2)]; [left; exact H'|right]. split; [exact H1|]. exists i, p, x. split; [left; reflexivity|exact H2]. }
    assert (Q : forall l en, egood en -> (forall st, In st l -> In st sts) -> let r := fold_left (fun en st => if sg_scr st then en else fold_left (scan_eq vdims eqs (sg_id st)) (scanned sts st) en) l en in
      egood r /\ forall w k d, hg r w k d = hg en w k d \/ exists st i p x, In st sts /\ sg_scr st = false /\ sg_id st = fst (fst k) /\ In i (scanned sts st) /\ In p (e_lhs (eq_at eqs i) :: e_rhs (eq_at eqs i)) /\ p_var p = w /\ In (d, x) (pt_ofs vdims p) /\ hg r w k d = Z.abs x).
    { induction l as [|st l IH]; intros en E H; cbn [fold_left]; [split; [exact E|left; reflexivity]|].
      set (en1 := if sg_scr st then en else fold_left (scan_eq vdims eqs (sg_id st)) (scanned sts st) en).
      assert (E1 : egood en1) by (unfold en1; destruct (sg_scr st); [exact E|apply F; exact E]).
      destruct (IH en1 E1 (fun s Hs => H s (or_intror Hs))) as (G & U). cbv zeta in *. split; [exact G|]. intros w k d. destruct (U w k d) as [X|X]; [|right; exact X]. rewrite X. unfold en1.
      destruct (sg_scr st) eqn:Es; [left; reflexivity|]. destruct (F (sg_id st) (scanned sts st) en E) as (_ & U'). destruct (U' w k d) as [Y|(Y & i & p & x & Y1 & Y2 & Y3 & Y4 & Y5)]; [left; exact Y|right].
      exists st, i, p, x. split; [apply H; left; reflexivity|]. auto 10. }
    destruct (Q sts (fun _ => vinfo0) (fun _ => vgood0) (fun _ H => H)) as (G & U). cbv zeta. split; [exact G|]. intros w k d P. destruct (U w k d) as [X|(st & i & p & x & H1 & H2 & H3 & H4 & H5 & H6 & H7 & H8)].
    - exfalso. assert (Z0 : hg (fun _ => vinfo0) w k d = 0) by reflexivity. rewrite Z0 in X. unfold scanned in X. lia.
    - exists st, i, p, x. repeat (split; [assumption|]). intros ->. unfold scanned in H8. cbn in H8. lia.
  Qed.
End Phase1.

(* the shadows are taken over *)
Lemma apply_up : forall sh en w k d, egood en -> egood (fst sh) -> egood (apply_shadows en sh) /\
  (hg (apply_shadows en sh) w k d = hg en w k d \/ hg (apply_shadows en sh) w k d = hg (fst sh) w k d).
Proof.
  intros (sv, l) en w k d E Es. unfold apply_shadows. cbn [fst snd] in *.
  assert (F : forall en a, egood en -> egood (env_upd a (upd_from (sv a)) en)) by (intros en' a E'; apply env_upd_good; [exact E'|]; apply upd_from_good; [apply Es|apply E']).
  split; [apply fold_good; [exact F|exact E]|]. revert en E. induction l as [|a l IH]; intros en E; cbn [fold_left]; [left; reflexivity|].
  destruct (IH _ (F en a E)) as [H|H]; [|right; exact H]. rewrite H. destruct (Z.eq_dec w a) as [->|N]; [|left; unfold hg; rewrite env_upd_other by exact N; reflexivity].
  assert (EM : hg (env_upd a (upd_from (sv a)) en) a k d = Z.max (hg sv a k d) (hg en a k d)) by (unfold hg; rewrite env_upd_same; apply upd_from_max; [apply Es|apply E]).
  rewrite EM. destruct (Z_le_gt_dec (hg sv a k d) (hg en a k d)); [left|right]; lia.
Qed.

Lemma nodup_app_r : forall (A : Type) (l m : list A), NoDup (l ++ m) -> NoDup m.
Proof. induction l as [|x l IH]; intros m H; [exact H|]. inversion H; auto. Qed.
Lemma nodup_app_disj : forall (A : Type) (l m : list A) x, NoDup (l ++ m) -> In x l -> ~ In x m.
Proof. induction l as [|y l IH]; intros m x H Hx; [contradiction|]. inversion H; subst. destruct Hx as [->|Hx]; [intros X; apply H2, in_or_app; right; exact X|apply IH; assumption]. Qed.
Lemma nodup_app_mk : forall (A : Type) (l m : list A), NoDup l -> NoDup m -> (forall x, In x l -> ~ In x m) -> NoDup (l ++ m).
Proof. induction l as [|y l IH]; intros m H1 H2 D; [exact H2|]. inversion H1; subst. cbn. constructor; [rewrite in_app_iff; intros [X|X]; [contradiction|exact (D y (or_introl eq_refl) X)]|]. apply IH; [assumption|assumption|]. intros x Hx. apply D. right. exact Hx. Qed.
Lemma nodup_concat_filter : forall (A B : Type) (g : A -> list B) f l, NoDup (concat (map g l)) -> NoDup (concat (map g (filter f l))).
Proof.
  induction l as [|a l IH]; intros H; [exact H|]. cbn in *. assert (H' : NoDup (concat (map g l))) by (eapply nodup_app_r; exact H). destruct (f a); [|apply IH; exact H']. cbn.
  apply nodup_app_mk; [clear - H; induction (g a) as [|x t IHt]; [constructor|cbn in H; inversion H; subst; constructor; [intros X; apply H2, in_or_app; left; exact X|apply IHt; assumption]]|apply IH; exact H'|].
  intros x Hx X. refine (nodup_app_disj _ _ _ x H Hx _). apply in_concat in X as (t & Ht & X). apply in_map_iff in Ht as (y & <- & Hy). apply filter_In in Hy as (Hy & _). apply in_concat. exists (g y). split; [apply in_map; exact Hy|exact X].
Qed.
Lemma concat_flat : forall (A : Type) (g : A -> list (list Z)) l, concat (flat_map g l) = concat (map (fun a => concat (g a)) l).
Proof. induction l as [|a l IH]; [reflexivity|]. cbn. rewrite concat_app, IH. reflexivity. Qed.

Section BuildS.
  Variable scr : Z -> bool.
  Variables dims_same halo_same : Z -> Z -> bool.
  Variables bundle bundle_scratch : bool.
  Variable regex : Z -> bool.
  Variables (dir d : Z) (eqs : list eqn).
  Hypothesis Hdir : dir = 1 \/ dir = -1.
  Hypothesis Hd : d = 0 \/ d = dir.
  Hypothesis Hleg : Forall (fun e => legal_lhs scr dir e /\ (scr (p_var (e_lhs e)) = false -> dir = 1 -> forall r s, In r (e_rhs e) -> p_step r = Some s -> s <= 1)) eqs.
  Hypothesis Hdis : distinct_lhs eqs.
  Variable vdims : Z -> list Z.
  Hypothesis Hwf : wf_eqs scr vdims eqs.
  Variables (eg : group) (ps : parts) (ss : stages).
  Hypothesis HB : build scr dims_same halo_same bundle bundle_scratch regex d eqs = Ok (eg, ps, ss).
  Let sts := h_stages ps ss.
  Let sdep := h_sdep ss.
  Let items := c_items (ps_clus ps).
  Let sitems := c_items (st_clus ss).
  Let sg := g_all (c_grp (st_clus ss)).
  Let mk (id : Z) : stg := mkStg id (nth (Z.to_nat id) (st_scr ss) false) (map (c_get items) (c_get sitems id)).
  Let Ps (a : Z) := scratch_parts sdep sts a.
  Let en0 := phase1 vdims eqs sdep sts (fun _ => vinfo0).
  Let h := calc_halos vdims eqs sdep sts.
  Let blk := block ps ss.

  Lemma wv_ : forall v, NoDup (vdims v). Proof. exact (proj1 Hwf). Qed.
  Lemma we_ : forall e p, In e eqs -> In p (e_lhs e :: e_rhs e) -> wf_pt vdims p. Proof. intros e p He Hp. apply (proj2 Hwf e p He Hp). Qed.
  Lemma sts_in : forall s, In s sts <-> exists a, In a sg /\ s = mk a.
  Proof. intros s. unfold sts, h_stages. rewrite in_map_iff. split; intros (a & H1 & H2); exists a; [split; [exact H2|symmetry; exact H1]|split; [symmetry; exact H2|exact H1]]. Qed.
  Lemma ps_in : forall a p, In p (Ps a) <-> exists y, In y sg /\ sdep a y = true /\ In p (sg_parts (mk y)).
  Proof.
    intros a p. unfold Ps, scratch_parts. rewrite in_flat_map. split.
    - intros (s & Hs & Hp). apply filter_In in Hs as (Hs & D). apply in_rev in Hs. apply sts_in in Hs as (y & Hy & ->). exists y. auto.
    - intros (y & Hy & D & Hp). exists (mk y). split; [|exact Hp]. apply filter_In. split; [|exact D]. apply -> in_rev. apply sts_in. exists y. auto.
  Qed.
  Lemma blk_in : forall y i, In i (blk y) <-> exists p, In p (sg_parts (mk y)) /\ In i p.
  Proof. intros y i. unfold blk, block. rewrite in_concat. reflexivity. Qed.
  Lemma facts : (forall i e, isin eqs i e -> scr (p_var (e_lhs e)) = true -> exists b, In b sg /\ In i (blk b)) /\
    (forall a i, In a sg -> In i (blk a) -> exists e, isin eqs i e) /\
    (forall a b i j e, In a sg -> In b sg -> In i (blk a) -> In j (blk b) -> isin eqs i e -> feeds eqs scr e j -> sdep a b = true) /\
    (forall a b c, sdep a b = true -> sdep b c = true -> sdep a c = true) /\
    (forall S1 b S2 i j e, sg = S1 ++ b :: S2 -> In i (blk b) -> isin eqs i e -> feeds eqs scr e j -> ~ In j (blk b) /\ forall c, In c S2 -> ~ In j (blk c)).
  Proof. exact (build_facts scr dims_same halo_same bundle bundle_scratch regex dir d eqs Hdir Hd Hleg Hdis vdims Hwf eg ps ss HB). Qed.

  (* parts of the solution and their stages *)
  Lemma pb_stage : forall p, In p (part_blocks ps) <-> exists y, In y sg /\ In p (sg_parts (mk y)).
  Proof.
    pose proof (build_ok scr dims_same halo_same bundle bundle_scratch regex dir d eqs Hdir Hd Hleg Hdis) as B. rewrite HB in B. destruct B as (_ & _ & _ & _ & _ & PCs & _).
    intros p. unfold part_blocks. rewrite in_map_iff. split.
    - intros (q & <- & Hq). apply (Permutation_in _ (Permutation_sym PCs)) in Hq. apply in_concat in Hq as (l & Hl & Hq). apply in_map_iff in Hl as (y & <- & Hy). exists y. split; [exact Hy|]. cbn. apply in_map. exact Hq.
    - intros (y & Hy & Hp). cbn in Hp. apply in_map_iff in Hp as (q & <- & Hq). exists q. split; [reflexivity|]. apply (Permutation_in _ PCs). apply in_concat. exists (c_get sitems y). split; [apply in_map; exact Hy|exact Hq].
  Qed.
  Lemma part_isin : forall p i, In p (part_blocks ps) -> In i p -> exists e, isin eqs i e.
  Proof. intros p i Hp Hi. apply pb_stage in Hp as (y & Hy & Hp). destruct facts as (_ & F2 & _). apply (F2 y i Hy). apply blk_in. exists p. auto. Qed.
  Lemma lv_writes : forall p w, In p (part_blocks ps) -> (In w (lv eqs p) <-> writes_var eqs p w).
  Proof.
    intros p w Hp. unfold lv, writes_var. rewrite in_map_iff. split.
    - intros (i & <- & Hi). destruct (part_isin p i Hp Hi) as (e & He). destruct (isin_at eqs i e He) as (_ & El & _). destruct He as (_ & He). exists i, e. auto.
    - intros (i & e & Hi & He & <-). exists i. split; [|exact Hi]. destruct (part_isin p i Hp Hi) as (e' & Pi & He'). destruct (isin_at eqs i e') as (_ & El & _); [split; assumption|]. congruence.
  Qed.
  Lemma scr_part : forall a p w, In p (Ps a) -> In w (lv eqs p) -> scr w = true.
  Proof.
    intros a p w Hp Hw. apply ps_in in Hp as (y & Hy & D & Hp).
    destruct (build_scr scr dims_same halo_same bundle bundle_scratch regex dir d eqs Hdir Hd Hleg Hdis eg ps ss HB) as (_ & _ & _ & _ & _ & _ & S7 & S8 & S9).
    destruct (S9 a y D) as (_ & Sy). cbn in Hp. apply in_map_iff in Hp as (q & <- & Hq). unfold lv in Hw. apply in_map_iff in Hw as (i & <- & Hi).
    assert (PQ : In q (g_all (c_grp (ps_clus ps)))).
    { pose proof (build_ok scr dims_same halo_same bundle bundle_scratch regex dir d eqs Hdir Hd Hleg Hdis) as B. rewrite HB in B. destruct B as (_ & _ & _ & _ & _ & PCs & _). apply (Permutation_in _ PCs). apply in_concat. exists (c_get sitems y). split; [apply in_map; exact Hy|exact Hq]. }
    pose proof (S8 q i PQ Hi) as X. rewrite (S7 y q Hy Hq), Sy in X. exact X.
  Qed.

  Lemma ps_after : forall a A p B i e j, Ps a = A ++ p :: B -> In i p -> isin eqs i e -> feeds eqs scr e j -> In j (concat B).
  Proof.
    intros a A p B i e j EP Hi He Hf. destruct facts as (F1 & F2 & F3 & F4 & F5).
    assert (FS : exists x, In x sg /\ In j (blk x)) by (destruct Hf as (r & e' & _ & Sr & Hj & L); apply (F1 j e' Hj); rewrite L; exact Sr).
    unfold Ps, scratch_parts in EP. apply flat_map_split in EP as (l1 & y & l2 & u & w & El & Ey & ->). apply filter_split in El as (m1 & m2 & Em & E1 & E2 & Dy).
    assert (Es : sts = rev m2 ++ y :: rev m1) by (rewrite <- (rev_involutive sts), Em, rev_app_distr; cbn; rewrite <- app_assoc; reflexivity).
    unfold sts, h_stages in Es. apply map_eq_app in Es as (S1 & S2' & Eg & M1 & M2). apply map_eq_cons in M2 as (b0 & S2 & -> & Eb & M2).
    assert (Eb' : y = mk b0) by (rewrite <- Eb; reflexivity). clear Eb. subst y.
    assert (Hib : In i (blk b0)) by (apply blk_in; exists p; split; [rewrite Ey; apply in_elt|exact Hi]).
    destruct (F5 S1 b0 S2 i j e Eg Hib He Hf) as (N1 & N2). destruct FS as (x & Hx & Hj).
    assert (Hb0 : In b0 sg) by (unfold sg; rewrite Eg; apply in_elt).
    cbn [sg_id] in Dy. assert (Hx1 : In x S1).
    { unfold sg in Hx. rewrite Eg in Hx. apply in_app_or in Hx as [Hx|[<-|Hx]]; [exact Hx|contradiction|exfalso; exact (N2 x Hx Hj)]. }
    assert (Dx : sdep a x = true) by (apply (F4 a b0 x Dy); exact (F3 b0 x i j e Hb0 Hx Hib Hj He Hf)).
    assert (Hm : In (mk x) l2) by (rewrite E2; apply filter_In; split; [apply in_rev; rewrite <- M1; unfold mk, items, sitems; apply in_map_iff; exists x; split; [reflexivity|exact Hx1]|exact Dx]).
    rewrite concat_app. apply in_or_app. right. apply blk_in in Hj as (l & Hl & Hj). apply in_concat. exists l. split; [|exact Hj]. apply in_flat_map. exists (mk x). split; [exact Hm|exact Hl].
  Qed.
  Lemma ps_nodup : forall a, NoDup (concat (Ps a)).
  Proof.
    intros a. unfold Ps, scratch_parts. rewrite concat_flat. apply nodup_concat_filter.
    pose proof (build_ok scr dims_same halo_same bundle bundle_scratch regex dir d eqs Hdir Hd Hleg Hdis) as B. rewrite HB in B. destruct B as (_ & PS & _).
    assert (N : NoDup (concat (map (fun s => concat (sg_parts s)) sts))).
    { unfold sts, h_stages. rewrite map_map. apply (Permutation_NoDup (Permutation_sym PS)). apply NoDup_filter, zseq_NoDup. }
    eapply Permutation_NoDup; [|exact N]. apply concat_perm. apply Permutation_map. apply Permutation_rev.
  Qed.
  Lemma ps_read_before : forall a A p B q w, Ps a = A ++ p :: B -> In w (lv eqs p) -> In q (p :: B) -> ~ rv eqs q w.
  Proof.
    intros a A p B q w EP Hw Hq (i & r & Hi & Hr & Ew).
    assert (Sw : scr w = true) by (apply (scr_part a p w); [rewrite EP; apply in_elt|exact Hw]).
    unfold lv in Hw. apply in_map_iff in Hw as (j & Ej & Hj).
    assert (PB : forall x, In x (Ps a) -> In x (part_blocks ps)) by (intros x Hx; apply ps_in in Hx as (y & Hy & _ & Hx); apply pb_stage; exists y; auto).
    destruct (part_isin p j) as (e' & He'); [apply PB; rewrite EP; apply in_elt|exact Hj|]. destruct (isin_at eqs j e' He') as (_ & El & _).
    assert (Hqp : In q (Ps a)) by (rewrite EP; apply in_or_app; right; exact Hq). destruct (part_isin q i (PB q Hqp) Hi) as (e & He). destruct (isin_at eqs i e He) as (Ea & _ & _). rewrite Ea in Hr.
    assert (Hf : feeds eqs scr e j) by (exists r, e'; split; [exact Hr|]; split; [rewrite <- Ew; exact Sw|]; split; [exact He'|congruence]).
    apply in_split in Hq as (C & D & EC).
    assert (EP' : Ps a = (A ++ C) ++ q :: D) by (rewrite EP, EC, <- app_assoc; reflexivity).
    pose proof (ps_after a _ _ _ i e j EP' Hi He Hf) as Hc.
    assert (HD : In j (concat B)).
    { destruct C as [|c C]; cbn in EC; injection EC as -> EB; [subst; exact Hc|]. rewrite EB, concat_app. apply in_or_app. right. cbn. apply in_or_app. right. exact Hc. }
    pose proof (ps_nodup a) as N. rewrite EP, concat_app in N. apply nodup_app_r in N. cbn in N. exact (nodup_app_disj _ _ _ j N Hj HD).
  Qed.

  (* a part that writes a scratch var read by a stage or by the scratch parts it needs is needed by it *)
  Lemma needed_part : forall a i e r p, In a sg -> In i (blk a) \/ In i (concat (Ps a)) -> isin eqs i e -> In r (e_rhs e) -> In p (part_blocks ps) -> In (p_var r) (lv eqs p) -> scr (p_var r) = true -> In p (Ps a).
  Proof.
    intros a i e r p Ha Hi He Hr Hp Hw Sw. destruct facts as (F1 & F2 & F3 & F4 & F5). pose proof Hp as Hp'. apply pb_stage in Hp as (y & Hy & Hp). apply ps_in. exists y. split; [exact Hy|]. split; [|exact Hp].
    unfold lv in Hw. apply in_map_iff in Hw as (j & Ej & Hj). destruct (part_isin p j Hp' Hj) as (e' & He'). destruct (isin_at eqs j e' He') as (_ & El & _).
    assert (Hf : feeds eqs scr e j) by (exists r, e'; split; [exact Hr|]; split; [exact Sw|]; split; [exact He'|congruence]).
    assert (Hjb : In j (blk y)) by (apply blk_in; exists p; auto).
    destruct Hi as [Hi|Hi]; [exact (F3 a y i j e Ha Hy Hi Hjb He Hf)|]. apply in_concat in Hi as (q & Hq & Hi). apply ps_in in Hq as (x & Hx & Dx & Hq).
    apply (F4 a x y Dx). apply (F3 x y i j e Hx Hy); try assumption. apply blk_in. exists q. auto.
  Qed.
  Lemma scanned_in : forall a i, In i (scanned sdep sts (mk a)) <-> In i (blk a) \/ In i (concat (Ps a)).
  Proof.
    intros a i. unfold scanned. rewrite in_app_iff. cbn [sg_id]. unfold Ps, scratch_parts. rewrite !concat_flat. assert (X : forall l, In i (concat (map (fun s => concat (sg_parts s)) (filter (fun s2 => sdep a (sg_id s2)) l))) <-> exists s, In s l /\ sdep a (sg_id s) = true /\ In i (concat (sg_parts s))).
    { intros l. rewrite in_concat. split; [intros (t & Ht & Hi); apply in_map_iff in Ht as (s & <- & Hs); apply filter_In in Hs as (Hs & D); exists s; auto|intros (s & Hs & D & Hi); exists (concat (sg_parts s)); split; [apply (in_map (fun s => concat (sg_parts s))), filter_In; auto|exact Hi]]. }
    change (sg_id (mk a)) with a. rewrite !X. split; (intros [H|(s & Hs & H)]; [left; exact H|right; exists s; split; [|exact H]]); [apply -> in_rev; exact Hs|apply in_rev; exact Hs].
  Qed.
  Lemma en0_good : egood en0. Proof. apply phase1_up. Qed.
  Lemma en0_read : forall w b l s k, scr w = true -> 0 < hg en0 w (b, l, s) k -> In b sg /\ nth (Z.to_nat b) (st_scr ss) false = false /\
    exists i e r, (In i (blk b) \/ In i (concat (Ps b))) /\ isin eqs i e /\ In r (e_rhs e) /\ p_var r = w.
  Proof.
    intros w b l s k Sw P. destruct (phase1_up vdims eqs sdep sts) as (_ & U). destruct (U w (b, l, s) k P) as (x & i & p & v & H1 & H2 & H3 & H4 & H5 & H6 & H7 & H8).
    apply sts_in in H1 as (a & Ha & ->). cbn in H3. subst a. split; [exact Ha|]. split; [exact H2|]. apply scanned_in in H4.
    assert (He : exists e, isin eqs i e).
    { destruct facts as (_ & F2 & _). destruct H4 as [H|H]; [exact (F2 b i Ha H)|]. apply in_concat in H as (q & Hq & Hi). apply ps_in in Hq as (y & Hy & _ & Hq). apply (F2 y i Hy). apply blk_in. exists q. auto. }
    destruct He as (e & He). destruct (isin_at eqs i e He) as (Ea & _ & Hin). rewrite Ea in H5. destruct H5 as [<-|H5]; [|exists i, e, p; auto].
    exfalso. rewrite Forall_forall in Hleg. destruct (Hleg e Hin) as ((Z0 & _) & _). apply H8. exact (combine_in0 _ _ _ _ Z0 H7).
  Qed.

  Let shd (c : Z) := shadows vdims eqs sdep sts en0 c.
  Lemma shd_after : forall c, shd c = after vdims eqs c en0 (Ps c). Proof. reflexivity. Qed.
  Lemma h_up : egood h /\ forall w k x, hg h w k x = hg en0 w k x \/ exists c, In c sg /\ nth (Z.to_nat c) (st_scr ss) false = false /\ hg h w k x = hg (fst (shd c)) w k x.
  Proof.
    unfold h, calc_halos. fold en0. cbv zeta.
    assert (F : forall l en, egood en -> (forall s, In s l -> In s sts /\ sg_scr s = false) -> let r := fold_left apply_shadows (map (fun st => shadows vdims eqs sdep sts en0 (sg_id st)) l) en in
      egood r /\ forall w k x, hg r w k x = hg en w k x \/ exists c, In c sg /\ nth (Z.to_nat c) (st_scr ss) false = false /\ hg r w k x = hg (fst (shd c)) w k x).
    { induction l as [|s l IH]; intros en E H; cbn [map fold_left]; [split; [exact E|left; reflexivity]|].
      assert (Es : egood (fst (shadows vdims eqs sdep sts en0 (sg_id s)))) by (apply (aft_good vdims eqs wv_ we_ (sg_id s) en0 en0_good (Ps (sg_id s)))).
      destruct (IH (apply_shadows en (shadows vdims eqs sdep sts en0 (sg_id s)))) as (G & U); [apply (apply_up _ en 0 (0, true, 0) 0); assumption|intros; apply H; right; assumption|]. cbv zeta in *. split; [exact G|]. intros w k x.
      destruct (U w k x) as [X|X]; [|right; exact X]. rewrite X. destruct (apply_up (shadows vdims eqs sdep sts en0 (sg_id s)) en w k x E Es) as (_ & [Y|Y]); [left; exact Y|right].
      destruct (H s (or_introl eq_refl)) as (Hs & Sc). apply sts_in in Hs as (c & Hc & ->). exists c. auto. }
    apply (F _ en0 en0_good). intros s Hs. apply filter_In in Hs as (Hs & N). split; [exact Hs|destruct (sg_scr s); [discriminate|reflexivity]].
  Qed.
  Lemma h_low : forall c w k x, In c sg -> nth (Z.to_nat c) (st_scr ss) false = false -> hg (fst (shd c)) w k x <= hg h w k x.
  Proof.
    intros c w k x Hc Sc.
    assert (AO : forall y, eok (fst (shd y)) /\ forall w, ~ In w (snd (shd y)) -> fst (shd y) w = en0 w) by (intros y; apply (after_ok vdims eqs wv_ we_ sdep y en0 (egood_ok _ en0_good) (Ps y))).
    assert (FA : forall (l : list stg) en1, eok en1 -> let enF := fold_left apply_shadows (map (fun st : stg => shadows vdims eqs sdep sts en0 (sg_id st)) l) en1 in
      eok enF /\ ele en1 enF /\ forall st w, In st l -> In w (snd (shd (sg_id st))) -> vle (fst (shd (sg_id st)) w) (enF w)).
    { induction l as [|y l IH]; intros en1 E1; cbn [map fold_left]; [split; [exact E1|]; split; [apply ele_refl|intros ? ? []]|].
      destruct (apply_ok en1 (shadows vdims eqs sdep sts en0 (sg_id y)) E1 (proj1 (AO _))) as (P1 & P2 & P3). destruct (IH _ P1) as (Q1 & Q2 & Q3). cbv zeta in *. split; [exact Q1|]. split; [eapply ele_trans; eassumption|].
      intros st w' [<-|Hst'] Hw; [eapply vle_trans; [apply P3; exact Hw|apply Q2]|apply Q3; assumption]. }
    destruct (FA (filter (fun st => negb (sg_scr st)) sts) en0 (egood_ok _ en0_good)) as (_ & Q2 & Q3). cbv zeta in *.
    change (fold_left apply_shadows (map (fun st0 => shadows vdims eqs sdep sts en0 (sg_id st0)) (filter (fun st0 => negb (sg_scr st0)) sts)) en0) with h in Q2, Q3.
    destruct (in_dec Z.eq_dec w (snd (shd c))) as [I|N].
    - refine (proj1 (Q3 (mk c) w _ I) k x). apply filter_In. split; [apply sts_in; exists c; auto|cbn; rewrite Sc; reflexivity].
    - unfold hg. rewrite (proj2 (AO c) w N). apply (ele_hg _ _ w k x Q2).
  Qed.

  Hypothesis Hsame : same_vars scr eqs (part_blocks ps).
  Lemma hs_ : forall a b p q w w', In p (part_blocks ps) -> In q (Ps b) -> In w (lv eqs p) -> In w (lv eqs q) -> In w' (lv eqs q) -> a = a :> Z -> In w' (lv eqs p).
  Proof.
    intros a b p q w w' Hp Hq H1 H2 H3 _. assert (Hq' : In q (part_blocks ps)) by (apply ps_in in Hq as (y & Hy & _ & Hq); apply pb_stage; exists y; auto).
    apply lv_writes; [exact Hp|]. apply (Hsame q p w w' Hq' Hp); [exact (scr_part b q w Hq H2)| | |]; apply lv_writes; assumption.
  Qed.

  (* the halo of a var written by a needed part comes from a stage that needs the part *)
  Lemma halo_source : forall p w b l s k, In p (part_blocks ps) -> In w (lv eqs p) -> scr w = true -> 0 < hg h w (b, l, s) k ->
    In b sg /\ nth (Z.to_nat b) (st_scr ss) false = false /\ In p (Ps b) /\ exists w', In w' (lv eqs p) /\ hg h w (b, l, s) k <= hg (fst (shd b)) w' (b, l, s) k.
  Proof.
    intros p w b l s k Hp Hw Sw P.
    assert (SP : forall w', In w' (lv eqs p) -> scr w' = true).
    { intros w' Hw'. unfold lv in Hw, Hw'. apply in_map_iff in Hw as (i & <- & Hi). apply in_map_iff in Hw' as (i' & <- & Hi').
      pose proof (build_ok scr dims_same halo_same bundle bundle_scratch regex dir d eqs Hdir Hd Hleg Hdis) as B. rewrite HB in B. destruct B as (_ & _ & _ & _ & _ & _ & B7 & _).
      specialize (B7 p i i' Hp Hi Hi'). apply (f_equal a_scr) in B7. cbn in B7. unfold eq_scr in B7. unfold lhs_var in *. rewrite <- B7. exact Sw. }
    assert (E0 : forall w', In w' (lv eqs p) -> hg h w (b, l, s) k <= hg en0 w' (b, l, s) k -> In b sg /\ nth (Z.to_nat b) (st_scr ss) false = false /\ In p (Ps b) /\ exists w', In w' (lv eqs p) /\ hg h w (b, l, s) k <= hg (fst (shd b)) w' (b, l, s) k).
    { intros w' Hw' L. destruct (en0_read w' b l s k (SP w' Hw')) as (Hb & Sb & i & e & r & Hi & He & Hr & Er); [lia|]. split; [exact Hb|]. split; [exact Sb|].
      split; [apply (needed_part b i e r p Hb Hi He Hr Hp); rewrite Er; [exact Hw'|apply SP; exact Hw']|]. exists w'. split; [exact Hw'|].
      pose proof (ele_hg _ _ w' (b, l, s) k (aft_le vdims eqs wv_ we_ b en0 en0_good [] (Ps b))) as X. cbn [app] in X. change (fst (after vdims eqs b en0 [])) with en0 in X. change (after vdims eqs b en0 (Ps b)) with (shd b) in X. lia. }
    destruct h_up as (_ & U). destruct (U w (b, l, s) k) as [E|(c & Hc & Sc & E)]; [apply (E0 w Hw); lia|].
    assert (Cl : forall q w1 w2, In q (Ps c) -> In w1 (lv eqs q) -> In w2 (lv eqs q) -> In w1 (lv eqs p) -> In w2 (lv eqs p)) by (intros q w1 w2 Hq H1 H2 H3; exact (hs_ 0 c p q w1 w2 Hp Hq H3 H1 H2 eq_refl)).
    assert (A0 : (forall q, In q (Ps c) -> b <> c \/ forall w', In w' (lv eqs p) -> ~ rv eqs q w') -> exists w', In w' (lv eqs p) /\ hg h w (b, l, s) k <= hg en0 w' (b, l, s) k).
    { intros HN. rewrite E. exact (aft_closed vdims eqs wv_ we_ c en0 en0_good (fun w => In w (lv eqs p)) (b, l, s) k (Ps c) HN Cl w Hw). }
    destruct (Z.eq_dec b c) as [->|N].
    - destruct (in_dec (list_eq_dec Z.eq_dec) p (Ps c)) as [I|NI].
      + split; [exact Hc|]. split; [exact Sc|]. split; [exact I|]. exists w. split; [exact Hw|lia].
      + destruct A0 as (w' & Hw' & L); [|exact (E0 w' Hw' L)]. intros q Hq. right. intros w' Hw' (i & r & Hi & Hr & Er). apply NI.
        assert (Hq' : In q (part_blocks ps)) by (apply ps_in in Hq as (y & Hy & _ & Hq); apply pb_stage; exists y; auto).
        destruct (part_isin q i Hq' Hi) as (e & He). destruct (isin_at eqs i e He) as (Ea & _ & _). rewrite Ea in Hr.
        apply (needed_part c i e r p Hc); [right; apply in_concat; exists q; auto|exact He|exact Hr|exact Hp|rewrite <- Er; exact Hw'|rewrite <- Er; apply SP; exact Hw'].
    - destruct A0 as (w' & Hw' & L); [intros q _; left; exact N|]. exact (E0 w' Hw' L).
  Qed.

  Lemma write_halo_le : forall part left k M, 0 <= M -> (forall w, In w (lv eqs part) -> halo_size k left (h w) <= M) -> write_halo vdims eqs h part left k <= M.
  Proof.
    intros part left k M P H. unfold write_halo.
    assert (X : forall l m, m <= M -> (forall i, In i l -> In i part) -> fold_left (fun m i => if existsb (Z.eqb k) (vdims (lhs_var eqs i)) then Z.max m (halo_size k left (h (lhs_var eqs i))) else m) l m <= M).
    { induction l as [|i l IH]; intros m Hm Hl; cbn [fold_left]; [exact Hm|]. apply IH; [|intros; apply Hl; right; assumption]. destruct (existsb _ _); [|exact Hm]. specialize (H (lhs_var eqs i) (in_map _ _ _ (Hl i (or_introl eq_refl)))). lia. }
    apply X; [exact P|auto].
  Qed.

  Lemma reads_needed : forall a v s o, In a sg -> reads scr vdims eqs (fun i => In i (blk a)) v s o -> scr v = true -> forall p, In p (part_blocks ps) -> In v (lv eqs p) -> In p (Ps a).
  Proof.
    intros a v s o Ha H. induction H as [i e r Hi He Hr|v s o j e r H IH Sv Pj Ej Lj Hr]; intros Sr p Hp Hw.
    - assert (II : isin eqs i e) by (destruct facts as (_ & F2 & _); destruct (F2 a i Ha Hi) as (e' & Pi & _); split; assumption). apply (needed_part a i e r p Ha (or_introl Hi) II Hr Hp Hw Sr).
    - assert (II : isin eqs j e) by (split; assumption). destruct facts as (F1 & _). destruct (F1 j e II) as (b & Hb & Hj); [rewrite Lj; exact Sv|]. apply blk_in in Hj as (q & Hq & Hj).
      assert (Hq' : In q (part_blocks ps)) by (apply pb_stage; exists b; auto).
      assert (Hqa : In q (Ps a)) by (apply (IH Sv q Hq'); unfold lv; apply in_map_iff; exists j; split; [destruct (isin_at eqs j e II) as (_ & El & _); congruence|exact Hj]).
      apply (needed_part a j e r p Ha); [right; apply in_concat; exists q; auto|exact II|exact Hr|exact Hp|exact Hw|exact Sr].
  Qed.

  Lemma ps_pb : forall a p, In p (Ps a) -> In p (part_blocks ps).
  Proof. intros a p Hp. apply ps_in in Hp as (y & Hy & _ & Hp). apply pb_stage. exists y. auto. Qed.
  Theorem span_reads_ps : forall a part, In a sg -> nth (Z.to_nat a) (st_scr ss) false = false -> In part (Ps a) ->
    forall i e r k, In i part -> nth_error eqs (Z.to_nat i) = Some e -> In r (e_rhs e) -> In k (vdims (p_var r)) ->
    - halo_size k true (h (p_var r)) <= dim_ofs (vdims (p_var r)) (p_dom r) k - write_halo vdims eqs h part true k /\
    dim_ofs (vdims (p_var r)) (p_dom r) k + write_halo vdims eqs h part false k <= halo_size k false (h (p_var r)).
  Proof.
    intros a part Ha Sa Na i e r k Hi He Hr Hk. pose proof (ps_pb a part Na) as Hp. set (v := lhs_var eqs i). assert (Hw : In v (lv eqs part)) by (apply in_map; exact Hi).
    assert (SP : forall w, In w (lv eqs part) -> scr w = true) by (intros w Hw'; exact (scr_part a part w Na Hw')).
    assert (II : isin eqs i e) by (destruct (part_isin part i Hp Hi) as (e' & Pi & _); split; assumption).
    destruct h_up as (Gh & _). fold (po vdims r k).
    (* what the shadows of a stage give for this read *)
    assert (CV : forall b w u, In b sg -> nth (Z.to_nat b) (st_scr ss) false = false -> In part (Ps b) -> In w (lv eqs part) ->
      hg (fst (shd b)) w (b, true, u) k - po vdims r k <= halo_size k true (h (p_var r)) /\ hg (fst (shd b)) w (b, false, u) k + po vdims r k <= halo_size k false (h (p_var r))).
    { intros b w u Hb Sb Hpb Hw'. apply in_split in Hpb as (A & B & EP).
      destruct (aft_cover vdims eqs wv_ we_ b (Ps b) en0 en0_good (fun p q w w' HP HQ H1 H2 H3 => hs_ 0 b p q w w' (proj2 (pb_stage p) (match proj1 (ps_in b p) HP with ex_intro _ y (conj Hy (conj _ Hp)) => ex_intro _ y (conj Hy Hp) end)) HQ H1 H2 H3 eq_refl) (ps_read_before b) A part B EP i e r w u k Hi II Hr Hw' Hk) as (C1 & C2).
      change (after vdims eqs b en0 (Ps b)) with (shd b) in C1, C2.
      pose proof (h_low b (p_var r) (b, true, step_of (p_step r)) k Hb Sb) as L1. pose proof (h_low b (p_var r) (b, false, step_of (p_step r)) k Hb Sb) as L2.
      pose proof (halo_size_ok b true (step_of (p_step r)) k (h (p_var r)) (proj1 (Gh _))) as M1. pose proof (halo_size_ok b false (step_of (p_step r)) k (h (p_var r)) (proj1 (Gh _))) as M2. unfold hg in *. lia. }
    destruct (CV a v 0 Ha Sa Na Hw) as (B1 & B2).
    assert (NN : forall u l, 0 <= hg (fst (shd a)) v (a, l, u) k) by (intros; apply hg_nn; apply (aft_good vdims eqs wv_ we_ a en0 en0_good (Ps a))).
    pose proof (NN 0 true). pose proof (NN 0 false).
    assert (W : forall w left u, In w (lv eqs part) -> halo_size k left (h w) <= (if left then halo_size k true (h (p_var r)) + po vdims r k else halo_size k false (h (p_var r)) - po vdims r k) \/ u <> u :> Z).
    { intros w left u Hw'. left. destruct (halo_size_at k left (h w) (Gh w)) as [E|(b & s' & E)]; [rewrite E; destruct left; lia|]. rewrite E. fold (hg h w (b, left, s') k).
      destruct (Z_le_gt_dec (hg h w (b, left, s') k) 0); [destruct left; lia|].
      destruct (halo_source part w b left s' k Hp Hw' (SP w Hw')) as (Hb & Sb & Hpb & w' & Hw2 & L); [lia|]. destruct (CV b w' s' Hb Sb Hpb Hw2) as (C1 & C2). destruct left; lia. }
    split.
    - assert (X : write_halo vdims eqs h part true k <= halo_size k true (h (p_var r)) + po vdims r k); [|lia]. apply write_halo_le; [lia|]. intros w Hw'. destruct (W w true 0 Hw') as [X|X]; [exact X|congruence].
    - assert (X : write_halo vdims eqs h part false k <= halo_size k false (h (p_var r)) - po vdims r k); [|lia]. apply write_halo_le; [lia|]. intros w Hw'. destruct (W w false 0 Hw') as [X|X]; [exact X|congruence].
  Qed.
  Theorem span_reads : forall a part v s o, In a sg -> nth (Z.to_nat a) (st_scr ss) false = false -> In part (part_blocks ps) -> writes_var eqs part v -> scr v = true ->
    reads scr vdims eqs (fun i => In i (blk a)) v s o ->
    forall i e r k, In i part -> nth_error eqs (Z.to_nat i) = Some e -> In r (e_rhs e) -> In k (vdims (p_var r)) ->
    - halo_size k true (h (p_var r)) <= dim_ofs (vdims (p_var r)) (p_dom r) k - write_halo vdims eqs h part true k /\
    dim_ofs (vdims (p_var r)) (p_dom r) k + write_halo vdims eqs h part false k <= halo_size k false (h (p_var r)).
  Proof. intros a part v s o Ha Sa Hp Hw Sv HR. apply lv_writes in Hw; [|exact Hp]. exact (span_reads_ps a part Ha Sa (reads_needed a v s o Ha HR Sv part Hp Hw)). Qed.
End BuildS.

Theorem span_reads_box : forall scr dims_same halo_same bundle bundle_scratch regex dir d eqs,
  dir = 1 \/ dir = -1 -> d = 0 \/ d = dir ->
  Forall (fun e => legal_lhs scr dir e /\ (scr (p_var (e_lhs e)) = false -> dir = 1 -> forall r s, In r (e_rhs e) -> p_step r = Some s -> s <= 1)) eqs ->
  distinct_lhs eqs -> forall vdims, wf_eqs scr vdims eqs ->
  forall eg ps ss, build scr dims_same halo_same bundle bundle_scratch regex d eqs = Ok (eg, ps, ss) ->
  same_vars scr eqs (part_blocks ps) ->
  forall a part v s o, In a (g_all (c_grp (st_clus ss))) -> nth (Z.to_nat a) (st_scr ss) false = false ->
    In part (part_blocks ps) -> writes_var eqs part v -> scr v = true -> reads scr vdims eqs (fun i => In i (block ps ss a)) v s o ->
  forall i e r k lo hi x, In i part -> nth_error eqs (Z.to_nat i) = Some e -> In r (e_rhs e) -> In k (vdims (p_var r)) ->
    let h := calc_halos vdims eqs (h_sdep ss) (h_stages ps ss) in
    lo - write_halo vdims eqs h part true k <= x < hi + write_halo vdims eqs h part false k ->
    lo - halo_size k true (h (p_var r)) <= x + dim_ofs (vdims (p_var r)) (p_dom r) k < hi + halo_size k false (h (p_var r)).
Proof.
  intros scr ds hs b bs rg dir d eqs H1 H2 H3 H4 vdims H5 eg ps ss H6 H7 a part v s o H8 H9 H10 H11 H12 H13 i e r k lo hi x H14 H15 H16 H17 h H18.
  pose proof (span_reads scr ds hs b bs rg dir d eqs H1 H2 H3 H4 vdims H5 eg ps ss H6 H7 a part v s o H8 H9 H10 H11 H12 H13 i e r k H14 H15 H16 H17) as X. fold h in X. lia.
Qed.

Lemma nodup_concat_same : forall (L : list (list Z)) p q i, NoDup (concat L) -> In p L -> In q L -> In i p -> In i q -> p = q.
Proof.
  induction L as [|b L IH]; intros p q i N Hp Hq Ip Iq; [contradiction|]. cbn in N.
  assert (D : forall t, In t L -> In i t -> In i b -> False) by (intros t Ht It Ib; refine (nodup_app_disj _ _ _ i N Ib _); apply in_concat; exists t; auto).
  destruct Hp as [->|Hp], Hq as [->|Hq]; [reflexivity|exfalso; eauto|exfalso; eauto|]. apply (IH p q i); try assumption. eapply nodup_app_r; exact N.
Qed.
Theorem one_writer_same : forall scr dims_same halo_same bundle bundle_scratch regex dir d eqs,
  dir = 1 \/ dir = -1 -> d = 0 \/ d = dir ->
  Forall (fun e => legal_lhs scr dir e /\ (scr (p_var (e_lhs e)) = false -> dir = 1 -> forall r s, In r (e_rhs e) -> p_step r = Some s -> s <= 1)) eqs ->
  distinct_lhs eqs -> 
  forall eg ps ss, build scr dims_same halo_same bundle bundle_scratch regex d eqs = Ok (eg, ps, ss) ->
  (forall i j e e', nth_error eqs i = Some e -> nth_error eqs j = Some e' -> p_var (e_lhs e) = p_var (e_lhs e') -> scr (p_var (e_lhs e)) = true -> i = j) ->
  same_vars scr eqs (part_blocks ps).
Proof.
  intros scr ds hs b bs rg dir d eqs H1 H2 H3 H4 eg ps ss HB U p q v w Hp Hq Sv (i & e & Hi & He & Ev) (j & e' & Hj & He' & Ev') Hw.
  pose proof (build_ok scr ds hs b bs rg dir d eqs H1 H2 H3 H4) as B. rewrite HB in B. destruct B as (_ & _ & _ & PP & _).
  assert (Pos : forall t x, In t (part_blocks ps) -> In x t -> 0 <= x) by (intros t x Ht Hx; assert (X : In x (filter (kept scr rg eqs) (zseq (Z.of_nat (length eqs))))) by (apply (Permutation_in _ PP); apply in_concat; exists t; auto); apply filter_In in X as (X & _); apply zseq_In in X; lia).
  assert (E : Z.to_nat i = Z.to_nat j) by (apply (U _ _ e e' He He'); [congruence|rewrite Ev; exact Sv]).
  assert (i = j) by (pose proof (Pos p i Hp Hi); pose proof (Pos q j Hq Hj); lia). subst j.
  assert (p = q) as <-; [|exact Hw]. apply (nodup_concat_same (part_blocks ps) p q i); try assumption. apply (Permutation_NoDup (Permutation_sym PP)), NoDup_filter, zseq_NoDup.
Qed.
Theorem span_reads_one : forall scr dims_same halo_same bundle bundle_scratch regex dir d eqs,
  dir = 1 \/ dir = -1 -> d = 0 \/ d = dir ->
  Forall (fun e => legal_lhs scr dir e /\ (scr (p_var (e_lhs e)) = false -> dir = 1 -> forall r s, In r (e_rhs e) -> p_step r = Some s -> s <= 1)) eqs ->
  distinct_lhs eqs -> forall vdims, wf_eqs scr vdims eqs ->
  forall eg ps ss, build scr dims_same halo_same bundle bundle_scratch regex d eqs = Ok (eg, ps, ss) ->
  (forall i j e e', nth_error eqs i = Some e -> nth_error eqs j = Some e' -> p_var (e_lhs e) = p_var (e_lhs e') -> scr (p_var (e_lhs e)) = true -> i = j) ->
  forall a part v s o, In a (g_all (c_grp (st_clus ss))) -> nth (Z.to_nat a) (st_scr ss) false = false ->
    In part (part_blocks ps) -> writes_var eqs part v -> scr v = true -> reads scr vdims eqs (fun i => In i (block ps ss a)) v s o ->
  forall i e r k lo hi x, In i part -> nth_error eqs (Z.to_nat i) = Some e -> In r (e_rhs e) -> In k (vdims (p_var r)) ->
    let h := calc_halos vdims eqs (h_sdep ss) (h_stages ps ss) in
    lo - write_halo vdims eqs h part true k <= x < hi + write_halo vdims eqs h part false k ->
    lo - halo_size k true (h (p_var r)) <= x + dim_ofs (vdims (p_var r)) (p_dom r) k < hi + halo_size k false (h (p_var r)).
Proof.
  intros scr ds hs b bs rg dir d eqs H1 H2 H3 H4 vdims H5 eg ps ss H6 H7. exact (span_reads_box scr ds hs b bs rg dir d eqs H1 H2 H3 H4 vdims H5 eg ps ss H6 (one_writer_same scr ds hs b bs rg dir d eqs H1 H2 H3 H4 eg ps ss H6 H7)).
Qed.
