(* The stages made by the compiler meet the conditions of C65. *)
From Coq Require Import ZifyBool.
From Verif Require Import Base Cover_Spec Deps_Model Deps_Spec Deps_Proofs Eqs_Model Eqs_Spec Eqs_Proofs Parts_Model Parts_Spec Parts_Proofs Scratch_Proofs Halo_Model Halo_Spec Halo_Proofs Span_Model Span_Spec Span_Proofs Span2_Proofs.
From Verif Require Import Sched_Spec Bbox_Model Micro_Model Micro_Spec Ref_Model Ref_Spec RefWhole_Proofs Link_Spec Link_Model.

Lemma nodup_map_concat : forall (A : Type) (g : A -> list Z) l p q i, NoDup (concat (map g l)) -> In p l -> In q l -> In i (g p) -> In i (g q) -> p = q.
Proof.
  induction l as [|b l IH]; intros p q i N Hp Hq Ip Iq; [contradiction|]. cbn in N.
  assert (D : forall t, In t l -> In i (g t) -> In i (g b) -> False) by (intros t Ht It Ib; refine (nodup_app_disj _ _ _ i N Ib _); apply in_concat; exists (g t); split; [apply in_map; exact Ht|exact It]).
  destruct Hp as [->|Hp], Hq as [->|Hq]; [reflexivity|exfalso; eauto|exfalso; eauto|]. apply (IH p q i); try assumption. eapply nodup_app_r; exact N.
Qed.

Section More.
  Variable scr : Z -> bool.
  Variables dims_same halo_same : Z -> Z -> bool.
  Variables bundle bundle_scratch : bool.
  Variable regex : Z -> bool.
  Variables (dir d : Z) (eqs : list eqn).
  Hypothesis Hdir : dir = 1 \/ dir = -1.
  Hypothesis Hd : d = 0 \/ d = dir.
  Hypothesis Hleg : Forall (fun e => legal_lhs scr dir e /\ (scr (p_var (e_lhs e)) = false -> dir = 1 -> forall r s, In r (e_rhs e) -> p_step r = Some s -> s <= 1)) eqs.
  Hypothesis Hdis : distinct_lhs eqs.

  Theorem build_more : forall eg ps ss, build scr dims_same halo_same bundle bundle_scratch regex d eqs = Ok (eg, ps, ss) ->
    let items := c_items (ps_clus ps) in let pg := c_grp (ps_clus ps) in let sitems := c_items (st_clus ss) in let sg := c_grp (st_clus ss) in
    (forall p i, In p (g_all pg) -> In i (c_get items p) -> eq_attr scr eqs i = nth (Z.to_nat p) (ps_attr ps) attr0) /\
    (forall p q, dmem pg p q = true -> In p (g_all pg) /\ In q (g_all pg) /\ a_scr (nth (Z.to_nat q) (ps_attr ps) attr0) = true) /\
    (forall p q, dmem pg p q = true -> forall a b, In a (g_all sg) -> In b (g_all sg) -> In p (c_get sitems a) -> In q (c_get sitems b) -> dmem sg a b = true) /\
    (forall a b, dmem sg a b = true -> forall S1 S2, g_all sg = S1 ++ a :: S2 -> In b S1) /\
    (forall p, In p (g_all pg) <-> exists a, In a (g_all sg) /\ In p (c_get sitems a)) /\
    (forall p a b, In a (g_all sg) -> In b (g_all sg) -> In p (c_get sitems a) -> In p (c_get sitems b) -> a = b) /\
    (forall i p q, In p (g_all pg) -> In q (g_all pg) -> In i (c_get items p) -> In i (c_get items q) -> p = q) /\
    (forall a, In a (g_all sg) -> NoDup (c_get sitems a)).
  Proof.
    intros eg ps ss B. unfold build in B. pose proof (analyze_spec scr dir eqs d Hdir Hd Hleg Hdis) as S. destruct (analyze_eqs scr true d eqs) as [(d' & eg')| | |] eqn:EA; cbn [rbind] in B; try discriminate. clear S.
    destruct (edge_depends scr dir d eqs Hdir Hd Hleg Hdis d' eg' EA) as (W & A & ED & NC & T & I & Dn). cbn [snd] in B. pose proof (analyze_scr _ _ _ _ _ _ EA) as SI.
    destruct (make_parts_ok scr eqs eg' dims_same halo_same bundle bundle_scratch regex W T I Dn) as (ps' & Eps & Wp & Dp & Pp & Edp & PC & BO & ND & (AL & AI) & AC & Dsp & Esp).
    rewrite Eps in B. cbn [rbind] in B.
    pose proof (make_stages_ok scr eqs (c_grp (ps_clus ps')) (c_get (c_items (ps_clus ps'))) (fun p => a_scr (nth (Z.to_nat p) (ps_attr ps') attr0)) Wp Dp) as MS.
    destruct (make_stages _ _ _ _ _) as [ss'| | |]; cbn [rbind] in B; try discriminate. injection B as -> -> ->. cbv zeta in MS. destruct MS as (Ws & Ds & Ps & Eds & PCs & BOs & SS & Dss & Ess).
    cbv zeta. set (items := c_items (ps_clus ps)) in *. set (pg := c_grp (ps_clus ps)) in *. set (sitems := c_items (st_clus ss)) in *. set (sg := c_grp (st_clus ss)) in *.
    assert (VP : forall p, In p (g_all pg) <-> valid items p) by (intros p; split; [intros Hp; apply (Permutation_in _ Pp), zseq_In in Hp; exact Hp|intros V; apply (Permutation_in _ (Permutation_sym Pp)), zseq_In; exact V]).
    assert (VS : forall a, In a (g_all sg) <-> valid sitems a) by (intros p; split; [intros Hp; apply (Permutation_in _ Ps), zseq_In in Hp; exact Hp|intros V; apply (Permutation_in _ (Permutation_sym Ps)), zseq_In; exact V]).
    assert (SG : forall p, In p (g_all pg) <-> exists a, In a (g_all sg) /\ In p (c_get sitems a)).
    { intros p. split.
      - intros Hp. apply (Permutation_in _ (Permutation_sym PCs)) in Hp. apply in_concat in Hp as (l & Hl & Hp). apply in_map_iff in Hl as (a & <- & Ha). exists a. auto.
      - intros (a & Ha & Hp). apply (Permutation_in _ PCs). apply in_concat. exists (c_get sitems a). split; [apply in_map; exact Ha|exact Hp]. }
    assert (AT : forall p i, In p (g_all pg) -> In i (c_get items p) -> eq_attr scr eqs i = nth (Z.to_nat p) (ps_attr ps) attr0) by (intros p i Hp Hi; apply AI; [apply (proj1 (VP p)) in Hp; apply Hp|exact Hi]).
    assert (NP : NoDup (concat (map (c_get sitems) (g_all sg)))) by (apply (Permutation_NoDup (Permutation_sym PCs)), (gw_nd _ Wp)).
    assert (ES : forall p q a b, edge (g_scr pg) p q -> In a (g_all sg) -> In b (g_all sg) -> In p (c_get sitems a) -> In q (c_get sitems b) -> edge (g_scr sg) a b).
    { intros p q a b L Ha Hb Hp Hq. assert (NAB : a <> b).
      { intros ->. apply in_split in Hb as (u & v & X). refine (BOs (map (c_get sitems) u) (c_get sitems b) (map (c_get sitems) v) p q _ Hp _ (gw_sub _ Wp _ _ L)); [rewrite X, map_app; reflexivity|apply in_app_iff; left; exact Hq]. }
      apply Ess. split; [apply VS; exact Ha|]. split; [apply VS; exact Hb|]. split; [exact NAB|]. exists p, q. split; [exact Hp|]. split; [exact Hq|]. split; [|exact L]. intros ->. apply Esp in L as (_ & _ & NN & _). exact (NN eq_refl). }
    split; [exact AT|]. split; [|split; [|split; [|split; [exact SG|split; [|split]]]]].
    - intros p q D. apply (dmem_path pg p q Wp Dsp) in D. split; [|].
      + assert (L : exists c, edge (g_scr pg) p c) by (destruct D; eauto). destruct L as (c & L). apply Esp in L as (Vp & _). apply VP. exact Vp.
      + assert (L : exists c, edge (g_scr pg) c q) by (clear - D; induction D; eauto). destruct L as (c & L). apply Esp in L as (_ & Vq & _ & i & j & _ & Hj & _ & L). apply SI in L as (_ & Sj). apply VP in Vq. split; [exact Vq|].
        rewrite <- (AT q j Vq Hj). cbn. unfold scr_at in Sj. unfold eq_scr, eq_var, eq_at. destruct (nth_error eqs (Z.to_nat j)) as [e|] eqn:Ee; [|discriminate]. rewrite (nth_error_nth _ _ eqn0 Ee). exact Sj.
    - intros p q D. apply (dmem_path pg p q Wp Dsp) in D. induction D as [p q L|p r q L D IH]; intros a b Ha Hb Hp Hq; apply (dmem_path sg a b Ws Dss); [apply path_one; eapply ES; eassumption|].
      assert (Hr : In r (g_all pg)) by (apply Esp in L as (_ & Vr & _); apply VP; exact Vr). apply SG in Hr as (c & Hc & Hr). apply path_step with c; [eapply ES; eassumption|]. apply (dmem_path sg c b Ws Dss). apply IH; assumption.
    - intros a b D. apply (dmem_path sg a b Ws Dss) in D.
      assert (ST : forall a b S1 S2, edge (g_scr sg) a b -> g_all sg = S1 ++ a :: S2 -> In b S1).
      { clear a b D. intros a b S1 S2 L Eg. apply Ess in L as (Va & Vb & _ & p & q & Hp & Hq & _ & L). apply VS in Vb. rewrite Eg in Vb. apply in_app_or in Vb as [Vb|Vb]; [exact Vb|exfalso].
        refine (BOs (map (c_get sitems) S1) (c_get sitems a) (map (c_get sitems) S2) p q _ Hp _ (gw_sub _ Wp _ _ L)); [rewrite Eg, map_app; reflexivity|]. apply in_app_iff. destruct Vb as [->|Vb]; [left; exact Hq|right; apply in_concat; exists (c_get sitems b); split; [apply in_map; exact Vb|exact Hq]]. }
      induction D as [a b L|a c b L D IH]; intros S1 S2 Eg; [exact (ST a b S1 S2 L Eg)|]. pose proof (ST a c S1 S2 L Eg) as Hc. apply in_split in Hc as (u & v & ->). apply in_or_app. left. apply (IH u (v ++ a :: S2)). rewrite Eg, <- app_assoc. reflexivity.
    - intros p a b Ha Hb Hp Hq. exact (nodup_map_concat _ (c_get sitems) (g_all sg) a b p NP Ha Hb Hp Hq).
    - intros i p q Hp Hq Hi Hj. refine (nodup_map_concat _ (c_get items) (g_all pg) p q i _ Hp Hq Hi Hj). apply (Permutation_NoDup (Permutation_sym PC)), NoDup_filter, (gw_nd _ W).
    - intros a Ha. clear - NP Ha. induction (g_all sg) as [|b l IH]; [contradiction|]. cbn in NP. destruct Ha as [->|Ha]; [|apply IH; [eapply nodup_app_r; exact NP|exact Ha]].
      clear IH. induction (c_get sitems a) as [|x t IHt]; [constructor|]. cbn in NP. inversion NP; subst. constructor; [intros X; apply H1, in_or_app; left; exact X|apply IHt; assumption].
  Qed.
End More.
