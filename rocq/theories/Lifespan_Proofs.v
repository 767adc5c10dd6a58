From Verif Require Import Base Deps_Model Lifespan_Model Lifespan_Spec.

Lemma fupd_same : forall A B (eqb : A -> A -> bool) (m : A -> B) k x, eqb k k = true -> fupd eqb m k x k = x.
Proof. intros. unfold fupd. rewrite H. reflexivity. Qed.
Lemma fupdZ_same : forall B (m : Z -> B) k x, fupd Z.eqb m k x k = x.
Proof. intros. apply fupd_same. apply Z.eqb_refl. Qed.
Lemma fupdZ_other : forall B (m : Z -> B) k x k', k' <> k -> fupd Z.eqb m k x k' = m k'.
Proof. intros. unfold fupd. destruct (k' =? k) eqn:E; [apply Z.eqb_eq in E; contradiction|reflexivity]. Qed.

(* ---- first_last ---- *)
Definition fl_in (n : Z) (vs : list Z) (m : Z -> option (Z * Z)) : Z -> option (Z * Z) :=
  fold_left (fun m v => fupd Z.eqb m v (match m v with None => Some (n, n) | Some (f, _) => Some (f, n) end)) vs m.

Lemma fl_in_spec : forall vs n m v,
  (In v vs -> fl_in n vs m v = match m v with None => Some (n, n) | Some (f, _) => Some (f, n) end) /\
  (~ In v vs -> fl_in n vs m v = m v).
Proof.
  induction vs as [|x vs IH]; intros n m v; cbn [fl_in fold_left In]; [split; [intros []|auto]|].
  set (m1 := fupd Z.eqb m x _). destruct (IH n m1 v) as (A & B). fold (fl_in n vs m1).
  destruct (Z.eq_dec v x) as [->|N].
  - split; [|tauto]. intros _. assert (m1 x = match m x with None => Some (n, n) | Some (f, _) => Some (f, n) end) as E by apply fupdZ_same.
    destruct (in_dec Z.eq_dec x vs) as [I|I]; [rewrite (A I) | rewrite (B I)]; rewrite E; destruct (m x) as [[f l]|]; reflexivity.
  - assert (m1 v = m v) as E by (apply fupdZ_other; exact N). split.
    + intros [->|I]; [contradiction|]. rewrite (A I), E. reflexivity.
    + intros I. rewrite B by tauto. exact E.
Qed.

Lemma fl_from_app : forall acc n vs m, first_last_from n (acc ++ [vs]) m = fl_in (n + Z.of_nat (length acc)) vs (first_last_from n acc m).
Proof.
  induction acc as [|x acc IH]; intros n vs m; cbn [app first_last_from length].
  - rewrite Z.add_0_r. reflexivity.
  - rewrite IH. f_equal. lia.
Qed.

Lemma accessed_app : forall acc vs v i, accessed (acc ++ [vs]) v i <-> accessed acc v i \/ (i = Z.of_nat (length acc) /\ In v vs).
Proof.
  intros acc vs v i. unfold accessed. split.
  - intros (H0 & w & E & I). destruct (lt_dec (Z.to_nat i) (length acc)) as [L|L].
    + rewrite nth_error_app1 in E by exact L. left. eauto.
    + rewrite nth_error_app2 in E by lia. destruct (Z.to_nat i - length acc)%nat eqn:Q; cbn in E.
      * injection E as ->. right. split; [lia|exact I].
      * destruct n; discriminate.
  - intros [(H0 & w & E & I)|(-> & I)].
    + split; [exact H0|]. exists w. split; [|exact I]. rewrite nth_error_app1; [exact E|]. apply nth_error_Some. congruence.
    + split; [lia|]. exists vs. split; [|exact I]. rewrite Nat2Z.id, nth_error_app2 by lia. rewrite Nat.sub_diag. reflexivity.
Qed.

Lemma accessed_lt : forall acc v i, accessed acc v i -> 0 <= i < Z.of_nat (length acc).
Proof. intros acc v i (H0 & w & E & _). assert (Z.to_nat i < length acc)%nat by (apply nth_error_Some; congruence). lia. Qed.

Lemma first_last_spec : forall acc v,
  match first_last acc v with
  | None => forall i, ~ accessed acc v i
  | Some (f, l) => accessed acc v f /\ accessed acc v l /\ forall i, accessed acc v i -> f <= i <= l
  end.
Proof.
  intros acc v. unfold first_last. induction acc as [|vs acc IH] using rev_ind.
  - cbn. intros i (H0 & w & E & _). destruct (Z.to_nat i); discriminate.
  - rewrite fl_from_app. cbn [Z.add]. set (m := first_last_from 0 acc (fun _ => None)) in *.
    destruct (fl_in_spec vs (0 + Z.of_nat (length acc)) m v) as (A & B).
    destruct (in_dec Z.eq_dec v vs) as [I|I].
    + rewrite (A I). destruct (m v) as [[f l]|].
      * destruct IH as (I1 & I2 & I3). split; [|split].
        -- apply accessed_app. auto.
        -- apply accessed_app. right. split; [lia|exact I].
        -- intros i Hi. apply accessed_app in Hi. destruct Hi as [Hi|(-> & _)].
           ++ pose proof (I3 i Hi). apply accessed_lt in Hi. lia.
           ++ apply accessed_lt in I1. lia.
      * split; [|split].
        -- apply accessed_app. right. split; [lia|exact I].
        -- apply accessed_app. right. split; [lia|exact I].
        -- intros i Hi. apply accessed_app in Hi. destruct Hi as [Hi|(-> & _)]; [destruct (IH i Hi)|lia].
    + rewrite (B I). destruct (m v) as [[f l]|].
      * destruct IH as (I1 & I2 & I3). split; [|split]; try (apply accessed_app; auto).
        intros i Hi. apply accessed_app in Hi. destruct Hi as [Hi|(_ & Q)]; [auto|contradiction].
      * intros i Hi. apply accessed_app in Hi. destruct Hi as [Hi|(_ & Q)]; [exact (IH i Hi)|contradiction].
Qed.

(* ---- greedy assignment ---- *)
Section SlotsP.
  Variable msz : Z -> Z.
  Variable fl : Z -> option (Z * Z).
  Variable order : list Z.
  Hypothesis Hnd : NoDup order.
  Hypothesis Hfl : forall v, In v order -> exists f l, fl v = Some (f, l) /\ 0 <= f <= l.

  Definition disjoint (u v : Z) : Prop :=
    exists fu lu fv lv, fl u = Some (fu, lu) /\ fl v = Some (fv, lv) /\ (lu < fv \/ lv < fu).

  (* A: has got a slot; D: slot has been released *)
  Record sinv (A D : Z -> Prop) (s : lstate) : Prop := mkSinv {
    si_nm : forall z, 0 <= l_nmems s z;
    si_slot : forall v, A v -> exists n, l_slots s v = Some n /\ 0 <= n < l_nmems s (msz v);
    si_none : forall v, ~ A v -> l_slots s v = None;
    si_free : forall z n, In n (l_free s z) -> 0 <= n < l_nmems s z;
    si_nd : forall z, NoDup (l_free s z);
    si_live_free : forall v n, A v -> ~ D v -> l_slots s v = Some n -> ~ In n (l_free s (msz v));
    si_live : forall u v, A u -> ~ D u -> A v -> ~ D v -> u <> v -> msz u = msz v -> l_slots s u <> l_slots s v;
    si_all : forall u v, A u -> A v -> u <> v -> msz u = msz v -> l_slots s u = l_slots s v -> disjoint u v
  }.

  Lemma sinv_ext : forall A D A' D' s, (forall v, A v <-> A' v) -> (forall v, D v <-> D' v) -> sinv A D s -> sinv A' D' s.
  Proof.
    intros A D A' D' s HA HD [H1 H2 H3 H4 H5 H6 H7 H8]. constructor; auto.
    - intros v Hv. apply H2. apply HA. exact Hv.
    - intros v Hv. apply H3. rewrite HA. exact Hv.
    - intros v n Hv Hd. apply H6; [apply HA; exact Hv|]. rewrite HD. exact Hd.
    - intros u v Hu Du Hv Dv. apply H7; try (apply HA; assumption); rewrite HD; assumption.
    - intros u v Hu Hv. apply H8; apply HA; assumption.
  Qed.

  Lemma sinv_alloc : forall A D s si v f l, sinv A D s -> ~ A v -> ~ D v -> fl v = Some (f, l) -> f = si ->
    (forall u, D u -> exists fu lu, fl u = Some (fu, lu) /\ lu < si) ->
    (forall u, D u \/ ~ D u) ->
    sinv (fun u => A u \/ u = v) D (do_alloc msz fl si s v).
  Proof.
    intros A D s si v f l [H1 H2 H3 H4 H5 H6 H7 H8] Hv HDv Ef -> HD Hdec. unfold do_alloc. rewrite Ef, Z.eqb_refl.
    assert (forall n, (forall u, A u -> ~ D u -> msz u = msz v -> l_slots s u <> Some n) ->
      forall u, A u -> msz u = msz v -> l_slots s u = Some n -> disjoint u v) as Hdis.
    { intros n Hn u Hu Em Es. destruct (Hdec u) as [Du|Du]; [|destruct (Hn u Hu Du Em Es)].
      destruct (HD u Du) as (fu & lu & Eu & Lu). exists fu, lu, si, l. auto. }
    assert (forall u v', disjoint u v' -> disjoint v' u) as Hsym.
    { intros u w (a & b & c & d & E1 & E2 & K). exists c, d, a, b. tauto. }
    destruct (l_free s (msz v)) as [|n r] eqn:Er.
    - (* new slot *)
      set (n := l_nmems s (msz v)).
      assert (forall u, A u -> msz u = msz v -> l_slots s u <> Some n) as Hnew.
      { intros u Hu Em Es. destruct (H2 u Hu) as (k & Ek & Lk). rewrite Em in Lk. rewrite Ek in Es. injection Es as ->. unfold n in Lk. lia. }
      constructor; cbn [l_nmems l_free l_slots].
      + intros z. unfold fupd. destruct (z =? msz v) eqn:E; [pose proof (H1 (msz v)); lia|apply H1].
      + intros u [Hu| ->].
        * destruct (Z.eq_dec u v) as [->|N]; [contradiction|]. rewrite fupdZ_other by exact N. destruct (H2 u Hu) as (k & Ek & Lk). exists k. split; [exact Ek|].
          unfold fupd. destruct (msz u =? msz v) eqn:E; [apply Z.eqb_eq in E; rewrite E in Lk; lia|exact Lk].
        * rewrite fupdZ_same. exists n. split; [reflexivity|]. rewrite fupdZ_same. unfold n. pose proof (H1 (msz v)). lia.
      + intros u Hu. rewrite fupdZ_other by tauto. apply H3. tauto.
      + intros z k Hk. specialize (H4 z k Hk). unfold fupd. destruct (z =? msz v) eqn:E; [apply Z.eqb_eq in E; rewrite E in H4; lia|exact H4].
      + exact H5.
      + intros u k [Hu| ->] Du.
        * destruct (Z.eq_dec u v) as [->|N]; [contradiction|]. rewrite fupdZ_other by exact N. apply H6; assumption.
        * intros _. rewrite Er. intros [].
      + intros u w [Hu| ->] Du [Hw| ->] Dw N Em; try contradiction.
        * rewrite !fupdZ_other by (intros ->; contradiction). apply H7; assumption.
        * rewrite fupdZ_same, fupdZ_other by exact N. apply Hnew; assumption.
        * rewrite fupdZ_same, fupdZ_other by (intros ->; contradiction). intros E. apply (Hnew w Hw); [lia|]. symmetry. exact E.
      + intros u w [Hu| ->] [Hw| ->] N Em E; try contradiction.
        * rewrite !fupdZ_other in E by (intros ->; contradiction). apply H8; assumption.
        * rewrite fupdZ_same, fupdZ_other in E by exact N. destruct (Hnew u Hu Em E).
        * rewrite fupdZ_same, fupdZ_other in E by (intros ->; contradiction). destruct (Hnew w Hw); [lia|]. symmetry. exact E.
    - (* freed slot *)
      assert (In n (l_free s (msz v))) as Hin by (rewrite Er; left; reflexivity).
      assert (forall u, A u -> ~ D u -> msz u = msz v -> l_slots s u <> Some n) as Hlive.
      { intros u Hu Du Em Es. pose proof (H6 u n Hu Du Es) as K. rewrite Em in K. contradiction. }
      pose proof (H5 (msz v)) as Hn. rewrite Er in Hn. inversion Hn as [|? ? Nn Nr]; subst.
      constructor; cbn [l_nmems l_free l_slots].
      + exact H1.
      + intros u [Hu| ->].
        * destruct (Z.eq_dec u v) as [->|N]; [contradiction|]. rewrite fupdZ_other by exact N. exact (H2 u Hu).
        * rewrite fupdZ_same. exists n. split; [reflexivity|]. apply H4. exact Hin.
      + intros u Hu. rewrite fupdZ_other by tauto. apply H3. tauto.
      + intros z k. unfold fupd. destruct (z =? msz v) eqn:E; [apply Z.eqb_eq in E; subst z; intros Hk; apply H4; rewrite Er; right; exact Hk|apply H4].
      + intros z. unfold fupd. destruct (z =? msz v) eqn:E; [exact Nr|apply H5].
      + intros u k [Hu| ->] Du.
        * destruct (Z.eq_dec u v) as [->|N]; [contradiction|]. rewrite fupdZ_other by exact N. intros Es Hk. apply (H6 u k Hu Du Es).
          unfold fupd in Hk. destruct (msz u =? msz v) eqn:E; [|exact Hk]. apply Z.eqb_eq in E. rewrite E, Er. right. exact Hk.
        * rewrite !fupdZ_same. intros E. injection E as <-. exact Nn.
      + intros u w [Hu| ->] Du [Hw| ->] Dw N Em; try contradiction.
        * rewrite !fupdZ_other by (intros ->; contradiction). apply H7; assumption.
        * rewrite fupdZ_same, fupdZ_other by exact N. apply Hlive; assumption.
        * rewrite fupdZ_same, fupdZ_other by (intros ->; contradiction). intros E. apply (Hlive w Hw Dw); [lia|]. symmetry. exact E.
      + intros u w [Hu| ->] [Hw| ->] N Em E; try contradiction.
        * rewrite !fupdZ_other in E by (intros ->; contradiction). apply H8; assumption.
        * rewrite fupdZ_same, fupdZ_other in E by exact N. apply (Hdis n Hlive u Hu Em E).
        * rewrite fupdZ_same, fupdZ_other in E by (intros ->; contradiction). apply Hsym. apply (Hdis n Hlive w Hw); [lia|]. symmetry. exact E.
  Qed.

  Lemma sinv_free : forall A D s si v f l, sinv A D s -> A v -> ~ D v -> fl v = Some (f, l) -> l = si ->
    exists s', do_free msz fl si s v = Ok s' /\ sinv A (fun u => D u \/ u = v) s'.
  Proof.
    intros A D s si v f l [H1 H2 H3 H4 H5 H6 H7 H8] Hv Dv Ef ->. unfold do_free. rewrite Ef, Z.eqb_refl.
    destruct (H2 v Hv) as (n & En & Ln). rewrite En. eexists. split; [reflexivity|].
    constructor; cbn [l_nmems l_free l_slots]; auto.
    - intros z k. unfold fupd. destruct (z =? msz v) eqn:E; [|apply H4]. apply Z.eqb_eq in E; subst z. intros [<-|Hk]; [exact Ln|apply H4; exact Hk].
    - intros z. unfold fupd. destruct (z =? msz v) eqn:E; [|apply H5]. constructor; [|apply H5]. apply (H6 v n Hv Dv En).
    - intros u k Hu Du Es Hk. assert (~ D u) as Du' by tauto. unfold fupd in Hk. destruct (msz u =? msz v) eqn:E; [|exact (H6 u k Hu Du' Es Hk)].
      apply Z.eqb_eq in E. destruct Hk as [<-|Hk].
      + assert (u <> v) as N by tauto. apply (H7 u v Hu Du' Hv Dv N E). congruence.
      + apply (H6 u k Hu Du' Es). rewrite E. exact Hk.
  Qed.

  Definition isf (v k : Z) : Prop := exists l, fl v = Some (k, l).
  Definition isl (v k : Z) : Prop := exists f, fl v = Some (f, k).

  Definition Aset (si : Z) (pre : list Z) (v : Z) : Prop := In v order /\ exists f l, fl v = Some (f, l) /\ (f < si \/ f = si /\ In v pre).
  Definition Dset (si : Z) (pre : list Z) (v : Z) : Prop := In v order /\ exists f l, fl v = Some (f, l) /\ (l < si \/ l = si /\ In v pre).

  Lemma alloc_loop : forall si post pre s, order = pre ++ post -> sinv (Aset si pre) (Dset si []) s ->
    sinv (Aset si order) (Dset si []) (fold_left (do_alloc msz fl si) post s).
  Proof.
    intros si. induction post as [|v post IH]; intros pre s E H; cbn [fold_left].
    - rewrite app_nil_r in E. rewrite E. exact H.
    - apply (IH (pre ++ [v])). { rewrite <- app_assoc. exact E. }
      assert (In v order) as Iv by (rewrite E; apply in_or_app; right; left; reflexivity).
      destruct (Hfl v Iv) as (f & l & Ef & Lf).
      assert (~ In v pre) as Np. { rewrite E in Hnd. apply NoDup_remove_2 in Hnd. intros I. apply Hnd. apply in_or_app. auto. }
      destruct (Z.eq_dec f si) as [Q|Q].
      + assert (forall v0, (Aset si pre v0 \/ v0 = v) <-> Aset si (pre ++ [v]) v0) as EA.
        { intros u. unfold Aset. split.
          - intros [(Iu & fu & lu & Eu & K)| ->].
            + split; [exact Iu|]. exists fu, lu. split; [exact Eu|]. destruct K as [K|(K1 & K2)]; [auto|]. right. split; [exact K1|]. apply in_or_app. auto.
            + split; [exact Iv|]. exists f, l. split; [exact Ef|]. right. split; [exact Q|]. apply in_or_app. right. left. reflexivity.
          - intros (Iu & fu & lu & Eu & [K|(K1 & K2)]).
            + left. split; [exact Iu|]. exists fu, lu. auto.
            + apply in_app_or in K2. destruct K2 as [K2|[->|[]]]; [|right; reflexivity]. left. split; [exact Iu|]. exists fu, lu. auto. }
        apply (sinv_ext (fun u => Aset si pre u \/ u = v) (Dset si []) _ _ _ EA (fun _ => iff_refl _)).
        apply (sinv_alloc _ _ _ _ _ f l); auto.
        * intros (_ & f' & l' & E' & K). rewrite Ef in E'. injection E' as <- <-. destruct K as [K|(_ & K)]; [lia|contradiction].
        * intros (_ & f' & l' & E' & K). rewrite Ef in E'. injection E' as <- <-. destruct K as [K|(_ & [])]. lia.
        * intros u (_ & f' & l' & E' & [K|(_ & [])]). eauto.
        * intros u. unfold Dset. destruct (in_dec Z.eq_dec u order) as [Iu|Iu]; [|right; tauto].
          destruct (Hfl u Iu) as (fu & lu & Eu & _). destruct (Z_lt_dec lu si) as [L|L].
          -- left. split; [exact Iu|]. exists fu, lu. auto.
          -- right. intros (_ & f' & l' & E' & [K|(_ & [])]). rewrite Eu in E'. injection E' as <- <-. lia.
      + assert (do_alloc msz fl si s v = s) as -> by (unfold do_alloc; rewrite Ef; replace (f =? si) with false by lia; reflexivity).
        apply (sinv_ext (Aset si pre) (Dset si [])); [|reflexivity|exact H].
        intros u. unfold Aset. split; intros (Iu & fu & lu & Eu & K); (split; [exact Iu|]); exists fu, lu; (split; [exact Eu|]).
        * destruct K as [K|(K1 & K2)]; [auto|]. right. split; [exact K1|]. apply in_or_app. auto.
        * destruct K as [K|(K1 & K2)]; [auto|]. right. split; [exact K1|]. apply in_app_or in K2. destruct K2 as [K2|[->|[]]]; [exact K2|].
          rewrite Ef in Eu. injection Eu as <- <-. contradiction.
  Qed.

  Lemma free_loop : forall si post pre s, order = pre ++ post -> sinv (Aset si order) (Dset si pre) s ->
    exists s', rfold (do_free msz fl si) post s = Ok s' /\ sinv (Aset si order) (Dset si order) s'.
  Proof.
    intros si. induction post as [|v post IH]; intros pre s E H; cbn [rfold].
    - rewrite app_nil_r in E. exists s. rewrite E in *. auto.
    - assert (In v order) as Iv by (rewrite E; apply in_or_app; right; left; reflexivity).
      destruct (Hfl v Iv) as (f & l & Ef & Lf).
      assert (~ In v pre) as Np. { rewrite E in Hnd. apply NoDup_remove_2 in Hnd. intros I. apply Hnd. apply in_or_app. auto. }
      assert (order = (pre ++ [v]) ++ post) as E' by (rewrite <- app_assoc; exact E).
      destruct (Z.eq_dec l si) as [Q|Q].
      + destruct (sinv_free _ _ s si v f l H) as (s1 & E1 & H1).
        * split; [exact Iv|]. exists f, l. split; [exact Ef|]. destruct (Z.eq_dec f si); [right; auto|left; lia].
        * intros (_ & f' & l' & E2 & K). rewrite Ef in E2. injection E2 as <- <-. destruct K as [K|(_ & K)]; [lia|contradiction].
        * exact Ef.
        * exact Q.
        * rewrite E1. cbn [rbind]. apply (IH (pre ++ [v]) s1 E').
          apply (sinv_ext (Aset si order) (fun u => Dset si pre u \/ u = v)); [reflexivity| |exact H1].
          intros u. unfold Dset. split.
          -- intros [(Iu & fu & lu & Eu & K)| ->].
             ++ split; [exact Iu|]. exists fu, lu. split; [exact Eu|]. destruct K as [K|(K1 & K2)]; [auto|]. right. split; [exact K1|]. apply in_or_app. auto.
             ++ split; [exact Iv|]. exists f, l. split; [exact Ef|]. right. split; [exact Q|]. apply in_or_app. right. left. reflexivity.
          -- intros (Iu & fu & lu & Eu & [K|(K1 & K2)]).
             ++ left. split; [exact Iu|]. exists fu, lu. auto.
             ++ apply in_app_or in K2. destruct K2 as [K2|[->|[]]]; [|right; reflexivity]. left. split; [exact Iu|]. exists fu, lu. auto.
      + assert (do_free msz fl si s v = Ok s) as -> by (unfold do_free; rewrite Ef; replace (l =? si) with false by lia; reflexivity).
        cbn [rbind]. apply (IH (pre ++ [v]) s E').
        apply (sinv_ext (Aset si order) (Dset si pre)); [reflexivity| |exact H].
        intros u. unfold Dset. split; intros (Iu & fu & lu & Eu & K); (split; [exact Iu|]); exists fu, lu; (split; [exact Eu|]).
        * destruct K as [K|(K1 & K2)]; [auto|]. right. split; [exact K1|]. apply in_or_app. auto.
        * destruct K as [K|(K1 & K2)]; [auto|]. right. split; [exact K1|]. apply in_app_or in K2. destruct K2 as [K2|[->|[]]]; [exact K2|].
          rewrite Ef in Eu. injection Eu as <- <-. contradiction.
  Qed.

  Lemma next_sets : forall si v, (Aset si order v <-> Aset (si + 1) [] v) /\ (Dset si order v <-> Dset (si + 1) [] v).
  Proof.
    intros si v. unfold Aset, Dset. split; split; intros (Iv & f & l & E & K); (split; [exact Iv|]); exists f, l; (split; [exact E|]);
      destruct K as [K|(K1 & K2)]; try (left; lia); try destruct K2.
    - destruct (Z_lt_dec f si); [left; assumption|right; split; [lia|exact Iv]].
    - destruct (Z_lt_dec l si); [left; assumption|right; split; [lia|exact Iv]].
  Qed.

  Lemma assign_loop : forall nst, 0 <= nst ->
    exists s, assign msz fl order nst = Ok s /\ sinv (Aset nst []) (Dset nst []) s.
  Proof.
    intros nst Hn. unfold assign.
    apply (rfold_zseq _ _ (fun k s => sinv (Aset k []) (Dset k []) s)).
    - exact Hn.
    - assert (forall v, ~ Aset 0 [] v) as NA.
      { intros v (Iv & f & l & E & [K|(_ & [])]). destruct (Hfl v Iv) as (f' & l' & E' & L). rewrite E in E'. injection E' as <- <-. lia. }
      constructor; cbn [l_nmems l_free l_slots ls0]; try reflexivity; try lia.
      + intros v Hv. destruct (NA v Hv).
      + intros z n [].
      + intros. constructor.
      + intros v n Hv. destruct (NA v Hv).
      + intros u v Hu. destruct (NA u Hu).
      + intros u v Hu. destruct (NA u Hu).
    - intros k s Hk H.
      assert (sinv (Aset k order) (Dset k []) (fold_left (do_alloc msz fl k) order s)) as H1 by (apply (alloc_loop k order []); auto).
      destruct (free_loop k order [] _ eq_refl H1) as (s' & E & H2). exists s'. split; [exact E|].
      apply (sinv_ext (Aset k order) (Dset k order)); [intros v; apply (next_sets k v)|intros v; apply (next_sets k v)|exact H2].
  Qed.
End SlotsP.

(* ---- final slot numbers ---- *)
Lemma ins_sorted_In : forall x l y, In y (ins_sorted x l) <-> y = x \/ In y l.
Proof.
  intros x l y. induction l as [|z l IH]; cbn [ins_sorted In].
  - intuition.
  - destruct (x <? z); [cbn [In]; intuition|]. destruct (x =? z) eqn:E; cbn [In]; [apply Z.eqb_eq in E; subst; intuition|]. rewrite IH. intuition.
Qed.

Lemma sizes_In : forall (msz : Z -> Z) (order l : list Z) y, In y (fold_left (fun l v => ins_sorted (msz v) l) order l) <-> In y l \/ exists v, In v order /\ msz v = y.
Proof.
  intros msz order. induction order as [|v o IH]; intros l y; cbn [fold_left In].
  - split; [auto|]. intros [H|(v & [] & _)]. exact H.
  - rewrite IH, ins_sorted_In. split.
    + intros [[->|H]|(w & A & B)]; [right; exists v; auto|auto|right; exists w; auto].
    + intros [H|(w & [->|A] & B)]; [auto|left; left; auto|right; eauto].
Qed.

Lemma slot_ofs_ge : forall nm sizes s o, (forall z, 0 <= nm z) -> o <= slot_ofs nm sizes s o.
Proof.
  intros nm sizes s. induction sizes as [|x r IH]; intros o H; cbn [slot_ofs]; [lia|].
  destruct (x =? s); [lia|]. pose proof (IH (o + nm x) H). pose proof (H x). lia.
Qed.

Lemma slot_ofs_disj : forall nm sizes s s' n n' o, (forall z, 0 <= nm z) -> In s sizes -> In s' sizes -> s <> s' ->
  0 <= n < nm s -> 0 <= n' < nm s' -> slot_ofs nm sizes s o + n <> slot_ofs nm sizes s' o + n'.
Proof.
  intros nm sizes s s' n n'. induction sizes as [|x r IH]; intros o H Is Is' N Hn Hn'; [destruct Is|].
  cbn [slot_ofs]. destruct (x =? s) eqn:E; destruct (x =? s') eqn:E'.
  - lia.
  - apply Z.eqb_eq in E. subst x. pose proof (slot_ofs_ge nm r s' (o + nm s) H). lia.
  - apply Z.eqb_eq in E'. subst x. pose proof (slot_ofs_ge nm r s (o + nm s') H). lia.
  - apply IH; auto; [destruct Is; [lia|assumption] | destruct Is'; [lia|assumption]].
Qed.

Lemma slots_ok : forall msz order acc, NoDup order -> (forall v, In v order <-> exists i, accessed acc v i) ->
  exists slot, calc_lifespans msz order acc = Ok slot /\
    (forall v, In v order -> exists n, slot v = Some n /\ 0 <= n) /\
    (forall u v, In u order -> In v order -> u <> v -> slot u = slot v -> msz u = msz v /\ ~ overlap acc u v).
Proof.
  intros msz order acc Hnd Hacc.
  assert (forall v, In v order -> exists f l, first_last acc v = Some (f, l) /\ 0 <= f <= l) as Hfl.
  { intros v Iv. pose proof (first_last_spec acc v) as H. apply Hacc in Iv. destruct Iv as (i & Hi).
    destruct (first_last acc v) as [[f l]|]; [|destruct (H i Hi)]. destruct H as (H1 & H2 & H3). exists f, l. split; [reflexivity|].
    pose proof (H3 f H1). apply accessed_lt in H1. lia. }
  destruct (assign_loop msz (first_last acc) order Hnd Hfl (Z.of_nat (length acc)) ltac:(lia)) as (s & E & I).
  unfold calc_lifespans. rewrite E. cbn [rbind]. eexists. split; [reflexivity|].
  set (sizes := fold_left _ order []).
  assert (forall v, In v order -> In (msz v) sizes) as Hsz by (intros v Iv; apply sizes_In; right; eauto).
  assert (forall v, In v order -> Aset (first_last acc) order (Z.of_nat (length acc)) [] v) as HA.
  { intros v Iv. split; [exact Iv|]. destruct (Hfl v Iv) as (f & l & Ef & L). exists f, l. split; [exact Ef|]. left.
    pose proof (first_last_spec acc v) as H. rewrite Ef in H. destruct H as (H1 & _). apply accessed_lt in H1. lia. }
  destruct I as [I1 I2 I3 I4 I5 I6 I7 I8]. split.
  - intros v Iv. destruct (I2 v (HA v Iv)) as (n & En & Ln). cbv beta. rewrite En. eexists. split; [reflexivity|].
    pose proof (slot_ofs_ge (l_nmems s) sizes (msz v) 0 I1). lia.
  - intros u v Iu Iv N. cbv beta. destruct (I2 u (HA u Iu)) as (n & En & Ln). destruct (I2 v (HA v Iv)) as (k & Ek & Lk). rewrite En, Ek.
    intros Eq. injection Eq as Eq. destruct (Z.eq_dec (msz u) (msz v)) as [Em|Nm].
    + split; [exact Em|]. rewrite Em in Eq.
      destruct (I8 u v (HA u Iu) (HA v Iv) N Em) as (fu & lu & fv & lv & Eu & Ev & K). { rewrite En, Ek. f_equal. lia. }
      pose proof (first_last_spec acc u) as Su. rewrite Eu in Su. destruct Su as (_ & _ & Su).
      pose proof (first_last_spec acc v) as Sv. rewrite Ev in Sv. destruct Sv as (_ & _ & Sv).
      intros (i & j & k' & L & [(A1 & A2 & A3)|(A1 & A2 & A3)]).
      * pose proof (Su i A1). pose proof (Su k' A2). pose proof (Sv j A3). lia.
      * pose proof (Sv i A1). pose proof (Sv k' A2). pose proof (Su j A3). lia.
    + exfalso. revert Eq. apply slot_ofs_disj; auto.
Qed.

(* ---- evaluation of one stage with shared storage ---- *)
Section ExecP.
  Variable V : Type.
  Variables rd wr : Z -> list (Z * Z).
  Variable f : Z -> Z * Z -> list V -> V.
  Variable slot : Z -> Z.
  Variable addr : Z * Z -> Z.
  (* different elements of a var are stored at different places *)
  Hypothesis Haddr : forall v e e', addr (v, e) = addr (v, e') -> e = e'.
  Definition skey (x : Z * Z) : Z * Z := (slot (fst x), addr x).
  Definition pkey (x : Z * Z) : Z * Z := x.

  Variable first last : Z -> Z.
  Hypothesis Hslot : forall u v, u <> v -> first u <= last u -> first v <= last v -> slot u = slot v -> last u < first v \/ last v < first u.

  Lemma pair_eqb_eq : forall a b, pair_eqb a b = true <-> a = b.
  Proof. intros [a1 a2] [b1 b2]. unfold pair_eqb. cbn [fst snd]. rewrite Bool.andb_true_iff, !Z.eqb_eq. split; [intros (-> & ->); reflexivity|intros E; injection E; auto]. Qed.

  Lemma writes_in : forall key p ins ws m x, (forall a b, In a ws -> In b (x :: ws) -> key a = key b -> a = b) -> In x ws ->
    fold_left (fun m w => fupd pair_eqb m (key w) (f p w ins)) ws m (key x) = f p x ins.
  Proof.
    intros key p ins ws. induction ws as [|w ws IH] using rev_ind; intros m x Hk Hx; [destruct Hx|].
    rewrite fold_left_app. cbn [fold_left]. unfold fupd at 1. destruct (pair_eqb (key x) (key w)) eqn:E.
    - apply pair_eqb_eq in E. assert (w = x) as ->; [|reflexivity]. apply Hk; [apply in_or_app; right; left; reflexivity|left; reflexivity|symmetry; exact E].
    - apply IH.
      + intros a b Ha Hb. apply Hk; [apply in_or_app; auto|]. destruct Hb as [->|Hb]; [left; reflexivity|right; apply in_or_app; auto].
      + apply in_app_or in Hx. destruct Hx as [Hx|[->|[]]]; [exact Hx|]. rewrite (proj2 (pair_eqb_eq _ _) eq_refl) in E. discriminate.
  Qed.

  Lemma writes_out : forall key p ins ws m a, (forall w, In w ws -> key w <> a) ->
    fold_left (fun m w => fupd pair_eqb m (key w) (f p w ins)) ws m a = m a.
  Proof.
    intros key p ins ws. induction ws as [|w ws IH]; intros m a H; cbn [fold_left]; [reflexivity|].
    rewrite IH by (intros; apply H; right; assumption). unfold fupd. destruct (pair_eqb a (key w)) eqn:E; [|reflexivity].
    apply pair_eqb_eq in E. destruct (H w); [left; reflexivity|auto].
  Qed.

  (* a list of parts with the stage numbers where they access their vars, in increasing order *)
  Definition touches (p i : Z) : Prop := forall x, In x (rd p) \/ In x (wr p) -> first (fst x) <= i <= last (fst x).

  Definition agree (w : Z * Z -> Prop) (i : Z) (ms mp : Z * Z -> V) : Prop :=
    forall x, w x -> first (fst x) <= i <= last (fst x) -> ms (skey x) = mp (pkey x).

  Lemma skey_inj : forall a b i, first (fst a) <= i <= last (fst a) -> first (fst b) <= i <= last (fst b) -> skey a = skey b -> a = b.
  Proof.
    intros [u e] [v e'] i Ha Hb E. cbn [fst] in *. unfold skey in E. cbn [fst] in E. injection E as Es Ea.
    destruct (Z.eq_dec u v) as [->|N]; [f_equal; exact (Haddr _ _ _ Ea)|].
    destruct (Hslot u v N ltac:(lia) ltac:(lia) Es); lia.
  Qed.

  Lemma exec_new : forall key ds m g p, mem p ds = false ->
    exec_part rd wr f key (mkX ds m g) p =
    mkX (p :: ds) (fold_left (fun m' w => fupd pair_eqb m' (key w) (f p w (map (fun e => m (key e)) (rd p)))) (wr p) m) (g ++ [(p, map (fun e => m (key e)) (rd p))]).
  Proof. intros key ds m g p H. unfold exec_part. cbn [x_done x_mem x_log]. rewrite H. reflexivity. Qed.

  Lemma list_agree : forall pl w i0 ms mp,
    (forall l1 p i l2, pl = l1 ++ (p, i) :: l2 -> i0 <= i /\ Forall (fun q => i <= snd q) l2 /\ touches p i /\
       forall x, In x (rd p) -> w x \/ exists q, In q l1 /\ In x (wr (fst q))) ->
    (forall x, w x -> first (fst x) <= i0) ->
    (forall x, w x -> i0 <= last (fst x) -> ms (skey x) = mp (pkey x)) ->
    forall ds dp gs gp, (forall q, In q pl -> mem (fst q) ds = false) -> (forall q, In q pl -> mem (fst q) dp = false) -> NoDup (map fst pl) -> ds = dp -> gs = gp ->
    let ss := fold_left (exec_part rd wr f skey) (map fst pl) (mkX ds ms gs) in
    let sp := fold_left (exec_part rd wr f pkey) (map fst pl) (mkX dp mp gp) in
    x_done ss = x_done sp /\ x_log ss = x_log sp.
  Proof.
    induction pl as [|[p i] pl IH]; intros w i0 ms mp Hpl Hf Hag ds dp gs gp Hds Hdp Hnd Ed Eg; cbn [map fold_left fst].
    - auto.
    - destruct (Hpl [] p i pl eq_refl) as (Hi & Hle & Ht & Hr).
      rewrite !exec_new by (exact (Hds (p, i) (or_introl eq_refl)) || exact (Hdp (p, i) (or_introl eq_refl))).
      assert (forall x, In x (rd p) -> ms (skey x) = mp (pkey x)) as Hrd.
      { intros x Ix. destruct (Hr x Ix) as [Hw|(q & [] & _)]. apply Hag; [exact Hw|]. pose proof (Ht x (or_introl Ix)). lia. }
      assert (map (fun e => ms (skey e)) (rd p) = map (fun e => mp (pkey e)) (rd p)) as Eins by (apply map_ext_in; exact Hrd).
      rewrite Eins. set (ins := map _ (rd p)).
      apply (IH (fun x => (w x /\ i <= last (fst x)) \/ In x (wr p)) i).
      + intros l1 q j l2 E. destruct (Hpl ((p, i) :: l1) q j l2) as (A1 & A2 & A3 & A4); [rewrite E; reflexivity|].
        assert (i <= j) as Lij. { rewrite E in Hle. apply Forall_app in Hle. destruct Hle as (_ & Hle). inversion Hle; subst. cbn [snd] in *. assumption. }
        split; [exact Lij|]. split; [exact A2|]. split; [exact A3|].
        intros x Ix. destruct (A4 x Ix) as [Hw|(r & [<-|Ir] & Iw)].
        * left. left. split; [exact Hw|]. pose proof (A3 x (or_introl Ix)). lia.
        * left. right. exact Iw.
        * right. exists r. auto.
      + intros x [(Hw & _)|Iw]; [pose proof (Hf x Hw); lia|]. pose proof (Ht x (or_intror Iw)). lia.
      + intros x Hx Hl.
        assert (forall a, In a (wr p) -> first (fst a) <= i <= last (fst a)) as Hw' by (intros a Ia; apply Ht; auto).
        assert (forall a b, In a (wr p) -> In b (wr p) -> skey a = skey b -> a = b) as Hinj by (intros a b Ia Ib; apply (skey_inj a b i); auto).
        destruct (in_dec (fun a b : Z * Z => ltac:(decide equality; apply Z.eq_dec)) x (wr p)) as [Ix|Ix].
        * rewrite (writes_in skey), (writes_in pkey); auto.
          -- intros a b Ia [<-|Ib]; [apply Hinj; auto|apply Hinj; auto].
        * destruct Hx as [(Hw & _)|Hx]; [|contradiction].
          rewrite (writes_out skey), (writes_out pkey).
          -- apply Hag; [exact Hw|lia].
          -- intros a Ia E. unfold pkey in E. subst a. contradiction.
          -- intros a Ia E. assert (a = x); [|subst; contradiction]. apply (skey_inj a x i); auto. pose proof (Hf x Hw). lia.
      + intros q Iq. cbn [mem existsb]. fold (mem (fst q) ds). rewrite (Hds q (or_intror Iq)). cbn [map fst] in Hnd. inversion Hnd; subst.
        rewrite Bool.orb_false_r. apply Z.eqb_neq. intros E. apply H1. rewrite <- E. apply in_map. exact Iq.
      + intros q Iq. cbn [mem existsb]. fold (mem (fst q) dp). rewrite (Hdp q (or_intror Iq)). cbn [map fst] in Hnd. inversion Hnd; subst.
        rewrite Bool.orb_false_r. apply Z.eqb_neq. intros E. apply H1. rewrite <- E. apply in_map. exact Iq.
      + cbn [map fst] in Hnd. inversion Hnd. assumption.
      + congruence.
      + congruence.
  Qed.
End ExecP.

Section StageP.
  Variable V : Type.
  Variables rd wr : Z -> list (Z * Z).
  Variable f : Z -> Z * Z -> list V -> V.
  Variable sts : list (bool * list Z).
  Variable ps : list Z.
  Variable sdeps : Z -> Z -> bool.
  Notation reqd := (reqd_parts sts ps sdeps).
  Definition stage_acc : list (list Z) := map (fun st : bool * list Z => flat_map (fun p => map fst (wr p) ++ map fst (rd p)) (snd st)) sts.
  Definition fst_st (v : Z) : Z := match first_last stage_acc v with Some (a, _) => a | None => 1 end.
  Definition lst_st (v : Z) : Z := match first_last stage_acc v with Some (_, b) => b | None => 0 end.

  Lemma touch : forall p i st, 0 <= i -> nth_error sts (Z.to_nat i) = Some st -> In p (snd st) -> touches rd wr fst_st lst_st p i.
  Proof.
    intros p i st Hi E Ip x Hx.
    assert (accessed stage_acc (fst x) i) as Ha.
    { split; [exact Hi|]. exists (flat_map (fun p => map fst (wr p) ++ map fst (rd p)) (snd st)). split.
      - unfold stage_acc. rewrite nth_error_map, E. reflexivity.
      - apply in_flat_map. exists p. split; [exact Ip|]. apply in_or_app. destruct Hx as [Hx|Hx]; [right|left]; apply in_map; exact Hx. }
    pose proof (first_last_spec stage_acc (fst x)) as H. unfold fst_st, lst_st. destruct (first_last stage_acc (fst x)) as [[a b]|]; [|destruct (H i Ha)].
    destruct H as (_ & _ & H). exact (H i Ha).
  Qed.

  Fixpoint with_idx (p j : Z) (l : list (bool * list Z)) : list (Z * Z) :=
    match l with
    | [] => []
    | st :: r => map (fun q => (q, j)) (if fst st then filter (fun p2 => sdeps p p2 && mem p2 (snd st)) ps else []) ++ with_idx p (j + 1) r
    end.

  Lemma with_idx_fst : forall p l j, map fst (with_idx p j l) = concat (map (fun st : bool * list Z => if fst st then filter (fun p2 => sdeps p p2 && mem p2 (snd st)) ps else []) l).
  Proof.
    intros p. induction l as [|st l IH]; intros j; cbn [with_idx map concat]; [reflexivity|].
    rewrite map_app, IH, map_map. f_equal. cbn [fst]. rewrite map_id. reflexivity.
  Qed.

  Lemma mem_In : forall x l, mem x l = true <-> In x l.
  Proof. intros. unfold mem. rewrite existsb_exists. split; [intros (y & I & E); apply Z.eqb_eq in E; subst; exact I|intros I; exists x; split; [exact I|apply Z.eqb_refl]]. Qed.

  Lemma with_idx_In : forall p l j q k, In (q, k) (with_idx p j l) ->
    j <= k /\ exists st, nth_error l (Z.to_nat (k - j)) = Some st /\ fst st = true /\ sdeps p q = true /\ In q (snd st).
  Proof.
    intros p. induction l as [|st l IH]; intros j q k H; cbn [with_idx] in H; [destruct H|].
    apply in_app_or in H. destruct H as [H|H].
    - apply in_map_iff in H. destruct H as (x & E & I). injection E as -> ->. split; [lia|]. exists st. rewrite Z.sub_diag. split; [reflexivity|].
      destruct (fst st); [|destruct I]. apply filter_In in I. destruct I as (_ & I). apply andb_prop in I. destruct I as (I1 & I2). split; [reflexivity|]. split; [exact I1|]. apply mem_In. exact I2.
    - destruct (IH (j + 1) q k H) as (L & st' & E & R). split; [lia|]. exists st'. split; [|exact R].
      replace (Z.to_nat (k - j)) with (S (Z.to_nat (k - (j + 1)))) by lia. exact E.
  Qed.

  Lemma with_idx_sorted : forall p l j l1 q k l2, with_idx p j l = l1 ++ (q, k) :: l2 -> Forall (fun y => k <= snd y) l2.
  Proof.
    intros p. induction l as [|st l IH]; intros j l1 q k l2 E; cbn [with_idx] in E; [destruct l1; discriminate|].
    set (A := map (fun q => (q, j)) _) in E.
    assert (forall y, In y A -> snd y = j) as HA. { intros y I. apply in_map_iff in I. destruct I as (x & <- & _). reflexivity. }
    assert (forall y, In y (with_idx p (j + 1) l) -> j <= snd y) as HB.
    { intros [y1 y2] I. apply with_idx_In in I. cbn [snd]. lia. }
    clearbody A. revert l1 E. induction A as [|a A IHA]; intros l1 E; cbn [app] in E.
    - exact (IH _ _ _ _ _ E).
    - destruct l1 as [|b l1]; cbn [app] in E.
      + injection E as -> E. subst l2. assert (k = j) as -> by (apply (HA (q, k)); left; reflexivity).
        apply Forall_forall. intros y I. apply in_app_or in I. destruct I as [I|I]; [rewrite (HA y); [lia|right; exact I] | exact (HB y I)].
      + injection E as _ E. apply (IHA (fun y I => HA y (or_intror I)) l1 E).
  Qed.

  Lemma done_sub : forall key l s q, In q (x_done (fold_left (exec_part rd wr f key) l s)) -> In q l \/ In q (x_done s).
  Proof.
    intros key. induction l as [|p l IH]; intros s q H; cbn [fold_left] in H; [auto|].
    destruct (IH _ _ H) as [I|I]; [left; right; exact I|]. unfold exec_part in I. destruct (mem p (x_done s)); [auto|]. cbn [x_done] in I.
    destruct I as [->|I]; [left; left; reflexivity|auto].
  Qed.

  Variable slot : Z -> Z.
  Variable addr : Z * Z -> Z.
  Hypothesis Haddr : forall v e e', addr (v, e) = addr (v, e') -> e = e'.
  Hypothesis Hslot : forall u v, u <> v -> fst_st u <= lst_st u -> fst_st v <= lst_st v -> slot u = slot v -> lst_st u < fst_st v \/ lst_st v < fst_st u.
  Variable i : Z.
  Variable parts : list Z.
  Hypothesis Hst : 0 <= i /\ nth_error sts (Z.to_nat i) = Some (false, parts).
  Hypothesis Hdeps : forall p j st p2, In p parts -> 0 <= j -> nth_error sts (Z.to_nat j) = Some st -> fst st = true -> sdeps p p2 = true -> In p2 (snd st) -> j < i.
  Hypothesis Hcomplete : forall p l1 q l2 x, In p parts -> reqd p = l1 ++ q :: l2 -> In x (rd q) -> exists b, In b l1 /\ In x (wr b).

  Lemma one_part : forall p ms mp ds gs, In p parts -> NoDup (reqd p) -> (forall q, In q (reqd p) -> mem q ds = false) ->
    let ss := fold_left (exec_part rd wr f (skey slot addr)) (reqd p) (mkX ds ms gs) in
    let sp := fold_left (exec_part rd wr f pkey) (reqd p) (mkX ds mp gs) in
    x_done ss = x_done sp /\ x_log ss = x_log sp.
  Proof.
    intros p ms mp ds gs Ip Hnd Hds. set (pl := with_idx p 0 sts ++ [(p, i)]).
    assert (map fst pl = reqd p) as Epl by (unfold pl; rewrite map_app, with_idx_fst; reflexivity).
    rewrite <- Epl. apply (list_agree V rd wr f slot addr Haddr fst_st lst_st Hslot pl (fun _ => False) 0).
    - intros l1 q k l2 E.
      assert (In (q, k) pl) as Iq by (rewrite E; apply in_or_app; right; left; reflexivity).
      assert (forall y, In y (with_idx p 0 sts) -> snd y < i) as Hlt.
      { intros [y1 y2] I. apply with_idx_In in I. destruct I as (L & st & E1 & E2 & E3 & E4). rewrite Z.sub_0_r in E1. cbn [snd]. exact (Hdeps p y2 st y1 Ip L E1 E2 E3 E4). }
      assert (0 <= k /\ touches rd wr fst_st lst_st q k) as (H0 & Ht).
      { unfold pl in Iq. apply in_app_or in Iq. destruct Iq as [Iq|[Iq|[]]].
        - apply with_idx_In in Iq. destruct Iq as (L & st & E1 & E2 & E3 & E4). rewrite Z.sub_0_r in E1. split; [exact L|]. exact (touch q k st L E1 E4).
        - injection Iq as <- <-. destruct Hst as (L & E1). split; [exact L|]. exact (touch p i _ L E1 Ip). }
      split; [exact H0|]. split; [|split; [exact Ht|]].
      + destruct l2 as [|z l2 _] using rev_ind; [constructor|]. unfold pl in E.
        change (l1 ++ (q, k) :: l2 ++ [z]) with (l1 ++ ((q, k) :: l2) ++ [z]) in E. rewrite app_assoc in E. apply app_inj_tail in E. destruct E as (E & <-).
        apply Forall_app. split; [exact (with_idx_sorted _ _ _ _ _ _ _ E)|]. constructor; [|constructor]. cbn [snd].
        specialize (Hlt (q, k)). cbn [snd] in Hlt. apply Z.lt_le_incl, Hlt. rewrite E. apply in_or_app. right. left. reflexivity.
      + intros x Ix. right. destruct (Hcomplete p (map fst l1) q (map fst l2) x Ip) as (b & Ib & Iw).
        * rewrite <- Epl, E, map_app. reflexivity.
        * exact Ix.
        * apply in_map_iff in Ib. destruct Ib as (y & <- & Iy). exists y. auto.
    - intros x [].
    - intros x [].
    - intros q Iq. apply Hds. rewrite <- Epl. apply in_map. exact Iq.
    - intros q Iq. apply Hds. rewrite <- Epl. apply in_map. exact Iq.
    - rewrite Epl. exact Hnd.
    - reflexivity.
    - reflexivity.
  Qed.

  Lemma NoDup_app_split : forall A (l1 l2 : list A), NoDup (l1 ++ l2) -> NoDup l1 /\ NoDup l2 /\ forall x, In x l1 -> ~ In x l2.
  Proof.
    intros A. induction l1 as [|a l1 IH]; intros l2 H; cbn [app] in H; [split; [constructor|]; split; [exact H|intros x []]|].
    inversion H as [|? ? N R]; subst. destruct (IH l2 R) as (A1 & A2 & A3). split; [constructor; [|exact A1]|split; [exact A2|]].
    - intros I. apply N. apply in_or_app. auto.
    - intros x [<-|I]; [intros I; apply N; apply in_or_app; auto|exact (A3 x I)].
  Qed.

  Lemma stage_logs : forall pp ms mp ds gs, incl pp parts -> NoDup (concat (map reqd pp)) -> (forall q, In q (concat (map reqd pp)) -> mem q ds = false) ->
    x_log (fold_left (exec_part rd wr f (skey slot addr)) (concat (map reqd pp)) (mkX ds ms gs)) =
    x_log (fold_left (exec_part rd wr f pkey) (concat (map reqd pp)) (mkX ds mp gs)).
  Proof.
    induction pp as [|p pp IH]; intros ms mp ds gs Hin Hnd Hds; cbn [map concat]; [reflexivity|].
    cbn [map concat] in Hnd, Hds. destruct (NoDup_app_split _ _ _ Hnd) as (N1 & N2 & N3).
    rewrite !fold_left_app.
    destruct (one_part p ms mp ds gs) as (E1 & E2); [apply Hin; left; reflexivity|exact N1|intros q Iq; apply Hds; apply in_or_app; auto|].
    cbv zeta in E1, E2.
    assert (forall q, In q (concat (map reqd pp)) -> mem q (x_done (fold_left (exec_part rd wr f (skey slot addr)) (reqd p) (mkX ds ms gs))) = false) as Hd.
    { intros q Iq. apply Bool.not_true_is_false. intros M. apply mem_In in M. apply done_sub in M. cbn [x_done] in M. destruct M as [M|M].
      - exact (N3 q M Iq).
      - apply mem_In in M. rewrite (Hds q) in M; [discriminate|]. apply in_or_app. auto. }
    destruct (fold_left (exec_part rd wr f (skey slot addr)) (reqd p) (mkX ds ms gs)) as [d1 m1 g1].
    destruct (fold_left (exec_part rd wr f pkey) (reqd p) (mkX ds mp gs)) as [d2 m2 g2].
    cbn [x_done x_log] in *. subst d2 g2. apply IH; [intros q Iq; apply Hin; right; exact Iq|exact N2|exact Hd].
  Qed.
End StageP.

(* with the slots of calc_lifespans *)
Lemma shared_slots_ok : forall V rd wr (f : Z -> Z * Z -> list V -> V) msz order sts ps sdeps sl addr i parts,
  NoDup order -> (forall v, In v order <-> exists k, accessed (stage_acc rd wr sts) v k) ->
  calc_lifespans msz order (stage_acc rd wr sts) = Ok sl ->
  (forall v e e', addr (v, e) = addr (v, e') -> e = e') ->
  0 <= i /\ nth_error sts (Z.to_nat i) = Some (false, parts) ->
  (forall p j st p2, In p parts -> 0 <= j -> nth_error sts (Z.to_nat j) = Some st -> fst st = true -> sdeps p p2 = true -> In p2 (snd st) -> j < i) ->
  (forall p l1 q l2 x, In p parts -> reqd_parts sts ps sdeps p = l1 ++ q :: l2 -> In x (rd q) -> exists b, In b l1 /\ In x (wr b)) ->
  NoDup (concat (map (reqd_parts sts ps sdeps) parts)) ->
  forall m1 m2, x_log (run_stage rd wr f (skey (fun v => match sl v with Some n => n | None => -1 end) addr) (reqd_parts sts ps sdeps) parts m1) =
                x_log (run_stage rd wr f pkey (reqd_parts sts ps sdeps) parts m2).
Proof.
  intros V rd wr f msz order sts ps sdeps sl addr i parts Hnd Hacc Hsl Haddr Hst Hdeps Hc Hn m1 m2. unfold run_stage.
  apply (stage_logs V rd wr f sts ps sdeps _ addr Haddr) with (i := i) (parts := parts); auto.
  - intros u v N Lu Lv Es. destruct (slots_ok msz order (stage_acc rd wr sts) Hnd Hacc) as (sl' & E & S1 & S2).
    rewrite Hsl in E. injection E as <-.
    assert (forall w, fst_st rd wr sts w <= lst_st rd wr sts w -> In w order /\ exists a b, first_last (stage_acc rd wr sts) w = Some (a, b) /\ accessed (stage_acc rd wr sts) w a /\ accessed (stage_acc rd wr sts) w b) as Hw.
    { intros w. unfold fst_st, lst_st. pose proof (first_last_spec (stage_acc rd wr sts) w) as H.
      destruct (first_last (stage_acc rd wr sts) w) as [[a b]|]; [|lia]. intros _. destruct H as (H1 & H2 & _). split; [apply Hacc; eauto|eauto 6]. }
    destruct (Hw u Lu) as (Iu & a & b & Eu & A1 & A2). destruct (Hw v Lv) as (Iv & c & d & Ev & A3 & A4).
    destruct (S1 u Iu) as (n & En & _). destruct (S1 v Iv) as (n' & En' & _). rewrite En, En' in Es. subst n'.
    destruct (S2 u v Iu Iv N ltac:(congruence)) as (_ & No). unfold fst_st, lst_st in *. rewrite Eu, Ev in *.
    destruct (Z_lt_dec b c); [left; assumption|]. destruct (Z_lt_dec d a); [right; assumption|]. exfalso. apply No.
    destruct (Z_le_dec a c).
    + exists a, c, b. split; [lia|]. left. auto.
    + exists c, a, d. split; [lia|]. right. auto.
  - intros q Iq. exact Iq.
Qed.
