(* The scratch dependencies of the parts and stages made by the compiler. *)
From Coq Require Import ZifyBool.
From Verif Require Import Base Deps_Model Deps_Spec Deps_Proofs Eqs_Model Eqs_Spec Eqs_Proofs Parts_Model Parts_Spec Parts_Proofs.

Definition scr_at (scr : Z -> bool) (eqs : list eqn) (i : Z) : bool :=
  match nth_error eqs (Z.to_nat i) with Some e => scr (p_var (e_lhs e)) | None => false end.

Definition sinvar (scrs : Z -> bool) (g : group) : Prop := forall i j, edge (g_scr g) i j <-> edge (g_deps g) i j /\ scrs j = true.
Lemma sinvar_set : forall scrs a b g g', gwf g -> sinvar scrs g -> g_set_imm scrs a b g = Ok g' -> gwf g' /\ sinvar scrs g'.
Proof.
  intros scrs a b g g' W S E. destruct (gwf_set _ _ _ _ _ W E) as (W' & _ & Ed & Es). split; [exact W'|]. intros i j. rewrite Ed, Es, (S i j).
  split; [intros [(-> & -> & X)|X]; tauto|intros ([(-> & ->)|X] & Y); tauto].
Qed.
Lemma sinvar_find : forall scrs g g', gwf g -> sinvar scrs g -> g_find_all g = Ok g' -> gwf g' /\ sinvar scrs g'.
Proof.
  intros scrs g g' W S E. pose proof (g_find_all_spec g W) as F. rewrite E in F. destruct F as (W' & _ & _ & Ed & Es & _). split; [exact W'|].
  intros i j. rewrite Ed, Es. apply S.
Qed.
Lemma rfold_inv : forall S A (P : S -> Prop) (f : S -> A -> res S) l s s', (forall s a s', P s -> f s a = Ok s' -> P s') -> P s -> rfold f l s = Ok s' -> P s'.
Proof.
  intros S A P f. induction l as [|a l IH]; intros s s' H Ps E; cbn [rfold] in E; [injection E as <-; exact Ps|].
  destruct (f s a) as [s1| | |] eqn:E1; try discriminate. cbn [rbind] in E. eapply IH; [exact H| |exact E]. eapply H; eassumption.
Qed.
Theorem analyze_scr : forall scr fd d eqs d' g, analyze_eqs scr fd d eqs = Ok (d', g) -> sinvar (scr_at scr eqs) g.
Proof.
  intros scr fd d eqs d' g H. unfold analyze_eqs in H. destruct (pass1 scr d eqs) as [p| | |]; try discriminate. cbn [rbind] in H.
  destruct (topo_sort _) as [g1| | |]; try discriminate. cbn [rbind] in H. destruct (pass2 _ _ _ _) as [g2| | |] eqn:P2; try discriminate. cbn [rbind] in H. injection H as _ <-.
  unfold pass2 in P2. set (ies := combine _ eqs) in *. set (scrs := fun i : Z => match nth_error eqs (Z.to_nat i) with Some e => scr (p_var (e_lhs e)) | None => false end) in *.
  assert (K : gwf g2 /\ sinvar scrs g2); [|exact (proj2 K)].
  refine (rfold_inv _ _ (fun g => gwf g /\ sinvar scrs g) _ _ _ _ _ _ P2).
  - intros s (i1 & e1) s' (W & S) E. destruct (rfold _ ies s) as [s1| | |] eqn:R; try discriminate. cbn [rbind] in E.
    assert (K : gwf s1 /\ sinvar scrs s1); [|destruct K; eapply sinvar_find; eassumption].
    refine (rfold_inv _ _ (fun g => gwf g /\ sinvar scrs g) _ _ _ _ _ _ R); [|split; assumption].
    clear. intros s (i2 & e2) s' (W & S) E. cbn [fst snd] in E. unfold do_pair in E. destruct (i1 =? i2); [injection E as <-; auto|]. destruct (negb _); [discriminate|].
    destruct (negb fd); [injection E as <-; auto|]. destruct (find_key _ _ _) as [o1|]; [|discriminate]. destruct (find_key _ _ _) as [o2|]; [|discriminate].
    destruct (is_dep_on _ _ _) as [b| | |]; try discriminate. cbn [rbind] in E. destruct b; [eapply sinvar_set; eassumption|injection E as <-; auto].
  - split.
    + unfold ies. constructor; cbn; [|apply dwf0|apply dwf0|intros a b []|intros a b []].
      assert (G : forall {A B} (l : list A) (m : list B), length l = length m -> map fst (combine l m) = l) by (induction l as [|x l IH]; intros [|y m] H; cbn in *; try discriminate; [reflexivity|f_equal; apply IH; lia]).
      rewrite G by (rewrite zseq_length; lia). apply zseq_NoDup.
    + intros i j. unfold edge. cbn. tauto.
Qed.

Definition dmem (g : group) (a b : Z) : bool := mem b (dm_get a (d_full (g_scr g))).
Lemma dmem_path : forall g a b, gwf g -> d_done (g_scr g) = true -> (dmem g a b = true <-> path (edge (g_scr g)) a b).
Proof. intros g a b W D. unfold dmem. rewrite mem_In. apply (dw_done _ (gw_s _ W) D). Qed.

Section BuildS.
  Variable scr : Z -> bool.
  Variables dims_same halo_same : Z -> Z -> bool.
  Variables bundle bundle_scratch : bool.
  Variable regex : Z -> bool.
  Variables (dir d : Z) (eqs : list eqn).
  Hypothesis Hdir : dir = 1 \/ dir = -1.
  Hypothesis Hd : d = 0 \/ d = dir.
  Hypothesis Hleg : Forall (fun e => legal_lhs scr dir e /\ (scr (p_var (e_lhs e)) = false -> dir = 1 -> forall r s, In r (e_rhs e) -> p_step r = Some s -> s <= 1)) eqs.
  Hypothesis Hdis : distinct_lhs eqs.

  Theorem build_scr : forall eg ps ss, build scr dims_same halo_same bundle bundle_scratch regex d eqs = Ok (eg, ps, ss) ->
    let items := c_items (ps_clus ps) in let pg := c_grp (ps_clus ps) in let sitems := c_items (st_clus ss) in let sg := c_grp (st_clus ss) in
    NoDup (g_all pg) /\ NoDup (g_all sg) /\
    (forall p q i j, In p (g_all pg) -> In q (g_all pg) -> In i (c_get items p) -> In j (c_get items q) -> needs scr eqs i j -> scr_at scr eqs j = true -> dmem pg p q = true) /\
    (forall p q r, dmem pg p q = true -> dmem pg q r = true -> dmem pg p r = true) /\
    (forall a b p q i j, In a (g_all sg) -> In b (g_all sg) -> In p (c_get sitems a) -> In q (c_get sitems b) -> In i (c_get items p) -> In j (c_get items q) -> needs scr eqs i j -> scr_at scr eqs j = true -> dmem sg a b = true) /\
    (forall a b c, dmem sg a b = true -> dmem sg b c = true -> dmem sg a c = true) /\
    (forall a p, In a (g_all sg) -> In p (c_get sitems a) -> a_scr (nth (Z.to_nat p) (ps_attr ps) attr0) = nth (Z.to_nat a) (st_scr ss) false) /\
    (forall p i, In p (g_all pg) -> In i (c_get items p) -> eq_scr scr eqs i = a_scr (nth (Z.to_nat p) (ps_attr ps) attr0)) /\
    (forall a b, dmem sg a b = true -> In b (g_all sg) /\ nth (Z.to_nat b) (st_scr ss) false = true).
  Proof.
    intros eg ps ss B. unfold build in B. pose proof (analyze_spec scr dir eqs d Hdir Hd Hleg Hdis) as S. destruct (analyze_eqs scr true d eqs) as [(d' & eg')| | |] eqn:EA; cbn [rbind] in B; try discriminate. clear S.
    destruct (edge_depends scr dir d eqs Hdir Hd Hleg Hdis d' eg' EA) as (W & A & ED & NC & T & I & Dn). cbn [snd] in B. pose proof (analyze_scr _ _ _ _ _ _ EA) as SI.
    destruct (make_parts_ok scr eqs eg' dims_same halo_same bundle bundle_scratch regex W T I Dn) as (ps' & Eps & Wp & Dp & Pp & Edp & PC & BO & ND & (AL & AI) & AC & Dsp & Esp).
    rewrite Eps in B. cbn [rbind] in B.
    pose proof (make_stages_ok scr eqs (c_grp (ps_clus ps')) (c_get (c_items (ps_clus ps'))) (fun p => a_scr (nth (Z.to_nat p) (ps_attr ps') attr0)) Wp Dp) as MS.
    destruct (make_stages _ _ _ _ _) as [ss'| | |]; cbn [rbind] in B; try discriminate. injection B as -> -> ->. cbv zeta in MS. destruct MS as (Ws & Ds & Ps & Eds & PCs & BOs & SS & Dss & Ess).
    cbv zeta. set (items := c_items (ps_clus ps)) in *. set (pg := c_grp (ps_clus ps)) in *. set (sitems := c_items (st_clus ss)) in *. set (sg := c_grp (st_clus ss)) in *.
    assert (ING : forall i p, In p (g_all pg) -> In i (c_get items p) -> In i (g_all eg)).
    { intros i p Hp Hi. assert (X : In i (concat (map (c_get items) (g_all pg)))) by (apply in_concat; exists (c_get items p); split; [apply in_map; exact Hp|exact Hi]). apply (Permutation_in _ PC) in X. apply filter_In in X. tauto. }
    assert (VP : forall p, In p (g_all pg) -> valid items p) by (intros p Hp; apply (Permutation_in _ Pp), zseq_In in Hp; exact Hp).
    assert (VS : forall a, In a (g_all sg) -> valid sitems a) by (intros p Hp; apply (Permutation_in _ Ps), zseq_In in Hp; exact Hp).
    assert (PE : forall p q i j, In p (g_all pg) -> In q (g_all pg) -> In i (c_get items p) -> In j (c_get items q) -> needs scr eqs i j -> scr_at scr eqs j = true -> p <> q /\ edge (g_scr pg) p q).
    { intros p q i j Hp Hq Hi Hj N Sj.
      assert (E : edge (g_deps eg) i j).
      { apply ED; [exact (ING i p Hp Hi)|exact (ING j q Hq Hj)|]. destruct N as (e & e' & r & N1 & N2 & N3 & N4 & N5 & N6). exists i, e, e. split; [exact N3|]. split; [exact N1|]. split; [exact N3|]. split; [repeat split|]. apply path_one. exists e, e', r. auto 10. }
      assert (NPQ : p <> q).
      { intros ->. apply in_split in Hq as (u & v & X). refine (BO (map (c_get items) u) (c_get items q) (map (c_get items) v) i j _ Hi _ E); [rewrite X, map_app; reflexivity|apply in_app_iff; left; exact Hj]. }
      split; [exact NPQ|]. apply Esp. split; [apply VP; exact Hp|]. split; [apply VP; exact Hq|]. split; [exact NPQ|]. exists i, j. split; [exact Hi|]. split; [exact Hj|]. split; [intros ->; exact (I _ E)|].
      apply SI. auto. }
    assert (SG : forall a p, In a (g_all sg) -> In p (c_get sitems a) -> In p (g_all pg)).
    { intros a p Ha Hp. apply (Permutation_in _ PCs). apply in_concat. exists (c_get sitems a). split; [apply in_map; exact Ha|exact Hp]. }
    assert (SE : forall p i, In p (g_all pg) -> In i (c_get items p) -> eq_scr scr eqs i = a_scr (nth (Z.to_nat p) (ps_attr ps) attr0)) by (intros p i Hp Hi; rewrite <- (AI p i (proj1 (VP p Hp)) Hi); reflexivity).
    split; [apply (gw_nd _ Wp)|]. split; [apply (gw_nd _ Ws)|]. split; [|split; [|split; [|split; [|split; [|split; [exact SE|]]]]]].
    - intros p q i j Hp Hq Hi Hj N Sj. apply (dmem_path pg p q Wp Dsp). apply path_one. eapply PE; eassumption.
    - intros p q r. rewrite !(dmem_path pg) by assumption. apply path_app.
    - intros a b p q i j Ha Hb Hp Hq Hi Hj N Sj. apply (dmem_path sg a b Ws Dss). apply path_one.
      destruct (PE p q i j (SG _ _ Ha Hp) (SG _ _ Hb Hq) Hi Hj N Sj) as (NPQ & E).
      assert (NAB : a <> b).
      { intros ->. apply in_split in Hb as (u & v & X). refine (BOs (map (c_get sitems) u) (c_get sitems b) (map (c_get sitems) v) p q _ Hp _ (gw_sub _ Wp _ _ E)); [rewrite X, map_app; reflexivity|apply in_app_iff; left; exact Hq]. }
      apply Ess. split; [apply VS; exact Ha|]. split; [apply VS; exact Hb|]. split; [exact NAB|]. exists p, q. auto.
    - intros a b c. rewrite !(dmem_path sg) by assumption. apply path_app.
    - intros a p Ha Hp. apply SS; assumption.
    - intros a b D. apply (dmem_path sg a b Ws Dss) in D. assert (L : exists c, edge (g_scr sg) c b) by (clear - D; induction D; eauto). destruct L as (c & L).
      apply Ess in L as (Vc & Vb & _ & p & q & Hp & Hq & _ & L). apply Esp in L as (Vp & Vq & _ & i & j & Hi & Hj & _ & L). apply SI in L as (_ & Sj).
      assert (Hb : In b (g_all sg)) by (apply (Permutation_in _ (Permutation_sym Ps)), zseq_In; exact Vb). split; [exact Hb|]. rewrite <- (SS b q Hb Hq), <- (SE q j (SG b q Hb Hq) Hj).
      unfold scr_at in Sj. unfold eq_scr, eq_var, eq_at. destruct (nth_error eqs (Z.to_nat j)) as [e|] eqn:Ee; [|discriminate]. rewrite (nth_error_nth _ _ eqn0 Ee). exact Sj.
  Qed.
End BuildS.
