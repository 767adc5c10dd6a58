From Verif Require Import Base VecSet_Model VecSet_Spec.

Section P.
  Variable A : Type.
  Variable eqd : forall a b : A, {a = b} + {a <> b}.

  Lemma find_set : forall m k p x, posn_find A eqd x (posn_set A eqd k p m) =
    if eqd k x then Some p else posn_find A eqd x m.
  Proof.
    induction m as [|(a & q) m IH]; intros k p x; cbn.
    - destruct (eqd k x); reflexivity.
    - destruct (eqd a k) as [->|N]; cbn.
      + destruct (eqd k x); reflexivity.
      + destruct (eqd a x) as [->|N2]; [destruct (eqd k x); congruence|]. apply IH.
  Qed.

  (* keys without duplicates *)
  Definition kok (m : list (A * nat)) := NoDup (map fst m).

  Lemma find_none : forall m x, posn_find A eqd x m = None <-> ~ In x (map fst m).
  Proof.
    induction m as [|(a & q) m IH]; intros x; cbn; [tauto|].
    destruct (eqd a x) as [->|N]; [split; [discriminate|tauto]|]. rewrite IH. tauto.
  Qed.

  Lemma find_erase : forall m k x, kok m -> posn_find A eqd x (posn_erase A eqd k m) =
    if eqd k x then None else posn_find A eqd x m.
  Proof.
    induction m as [|(a & q) m IH]; intros k x H; cbn.
    - destruct (eqd k x); reflexivity.
    - inversion H; subst. destruct (eqd a k) as [->|N]; cbn.
      + destruct (eqd k x) as [->|N2]; [apply find_none; assumption|reflexivity].
      + rewrite IH by assumption. destruct (eqd a x) as [->|N2]; [destruct (eqd k x); congruence|reflexivity].
  Qed.

  Lemma kok_set : forall m k p, kok m -> kok (posn_set A eqd k p m).
  Proof.
    unfold kok. induction m as [|(a & q) m IH]; intros k p H; cbn.
    - repeat constructor. auto.
    - inversion H; subst. destruct (eqd a k) as [->|N]; cbn; [assumption|].
      constructor; [|apply IH; assumption]. intros C. apply H2. clear - C N.
      induction m as [|(b & r) m IH]; cbn in *; [destruct C; [congruence|tauto]|].
      destruct (eqd b k) as [->|M]; cbn in *; [tauto|]. destruct C; [tauto|]. right; auto.
  Qed.

  Lemma erase_sub : forall m k x, In x (map fst (posn_erase A eqd k m)) -> In x (map fst m).
  Proof.
    induction m as [|(a & q) m IH]; intros k x; cbn; [tauto|].
    destruct (eqd a k); cbn; [tauto|]. intros [->|H]; [tauto|]. right. eapply IH. exact H.
  Qed.

  Lemma kok_erase : forall m k, kok m -> kok (posn_erase A eqd k m).
  Proof.
    unfold kok. induction m as [|(a & q) m IH]; intros k H; cbn; [constructor|].
    inversion H; subst. destruct (eqd a k); [assumption|]. cbn. constructor; [|apply IH; assumption].
    intros C. apply H2. eapply erase_sub. exact C.
  Qed.

  (* weak relation: items, membership; strong: positions too *)
  Definition weak (s : vset A) (l : list A) :=
    vs_items s = l /\ NoDup l /\ kok (vs_posn s) /\ (forall x, posn_find A eqd x (vs_posn s) <> None <-> In x l).
  Definition strong (s : vset A) (l : list A) :=
    weak s l /\ forall x p, posn_find A eqd x (vs_posn s) = Some p -> nth_error l p = Some x.

  Lemma upd_spec : forall l n (x : A) k, nth_error (upd A n x l) k =
    if Nat.eqb k n then match nth_error l n with Some _ => Some x | None => None end else nth_error l k.
  Proof.
    induction l as [|a l IH]; intros n x k; cbn.
    - destruct (Nat.eqb k n); destruct n, k; reflexivity.
    - destruct n as [|n], k as [|k]; cbn; try reflexivity. apply IH.
  Qed.

  Lemma upd_length : forall l n (x : A), length (upd A n x l) = length l.
  Proof. induction l as [|a l IH]; intros [|n] x; cbn; auto. Qed.

  Lemma nth_error_ext : forall (l1 l2 : list A), (forall k, nth_error l1 k = nth_error l2 k) -> l1 = l2.
  Proof.
    induction l1 as [|a l1 IH]; intros [|b l2] H; auto.
    - specialize (H 0%nat). discriminate.
    - specialize (H 0%nat). discriminate.
    - f_equal; [specialize (H 0%nat); cbn in H; congruence|]. apply IH. intros k. apply (H (S k)).
  Qed.

  Definition tr (i j n : nat) := if Nat.eqb n i then j else if Nat.eqb n j then i else n.

  Lemma swap_same : forall i j l xi xj, i <> j -> nth_error l i = Some xi -> nth_error l j = Some xj ->
    oset_swap A i j l = Some (upd A j xi (upd A i xj l)) /\
    (forall k, nth_error (upd A j xi (upd A i xj l)) k = nth_error l (tr i j k)).
  Proof.
    intros i j l xi xj N Hi Hj.
    assert (K : forall k, nth_error (upd A j xi (upd A i xj l)) k = nth_error l (tr i j k)).
    { intros k. rewrite !upd_spec. unfold tr. 
      destruct (Nat.eqb k j) eqn:E1; destruct (Nat.eqb k i) eqn:E2.
      - apply Nat.eqb_eq in E1, E2. congruence.
      - apply Nat.eqb_eq in E1. subst k.
        replace (Nat.eqb j i) with false by (symmetry; apply Nat.eqb_neq; congruence). rewrite Hj, Hi. reflexivity.
      - rewrite Hi, Hj. reflexivity.
      - reflexivity. }
    split; [|exact K].
    unfold oset_swap. rewrite Hi, Hj. f_equal. apply nth_error_ext. intros k. rewrite K.
    destruct (Nat.lt_ge_cases k (length l)) as [Hk|Hk].
    - rewrite nth_error_map.
      rewrite (nth_error_nth' (seq 0 (length l)) 0%nat) by (rewrite seq_length; assumption).
      rewrite seq_nth by assumption. cbn [option_map Nat.add].
      symmetry. apply (nth_error_nth' l xi). unfold tr.
      destruct (Nat.eqb k i); [apply nth_error_Some; congruence|].
      destruct (Nat.eqb k j); [apply nth_error_Some; congruence|]. assumption.
    - assert (nth_error l (tr i j k) = None) as ->.
      { unfold tr. assert (i < length l)%nat by (apply nth_error_Some; congruence).
        assert (j < length l)%nat by (apply nth_error_Some; congruence).
        replace (Nat.eqb k i) with false by (symmetry; apply Nat.eqb_neq; lia).
        replace (Nat.eqb k j) with false by (symmetry; apply Nat.eqb_neq; lia).
        apply nth_error_None. assumption. }
      apply nth_error_None. rewrite map_length, seq_length. assumption.
  Qed.

  Lemma tr_inv : forall i j n, tr i j (tr i j n) = n.
  Proof.
    intros. unfold tr. destruct (Nat.eqb n i) eqn:E1; destruct (Nat.eqb n j) eqn:E2;
      repeat match goal with |- context [Nat.eqb ?a ?b] => destruct (Nat.eqb a b) eqn:? end;
      rewrite ?Nat.eqb_eq, ?Nat.eqb_neq in *; try congruence.
  Qed.

  Lemma swap_perm : forall (l l' : list A) i j, NoDup l -> (forall k, nth_error l' k = nth_error l (tr i j k)) ->
    NoDup l' /\ (forall x, In x l' <-> In x l).
  Proof.
    intros l l' i j ND K. split.
    - apply NoDup_nth_error. intros a b Ha E. rewrite !K in E.
      assert (tr i j a = tr i j b).
      { apply (proj1 (NoDup_nth_error l) ND).
        - apply nth_error_Some. rewrite <- K. apply nth_error_Some. assumption.
        - assumption. }
      rewrite <- (tr_inv i j a), <- (tr_inv i j b). congruence.
    - intros x. split; intros H; apply In_nth_error in H as (k & Hk).
      + rewrite K in Hk. eapply nth_error_In; eauto.
      + apply (nth_error_In _ (tr i j k)). rewrite K, tr_inv. assumption.
  Qed.

  Lemma remove_notin : forall (l : list A) x, ~ In x l -> remove eqd x l = l.
  Proof.
    induction l as [|a l IH]; intros x H; cbn; [reflexivity|].
    destruct (eqd x a) as [->|]; [exfalso; apply H; left; reflexivity|].
    rewrite IH; [reflexivity|]. intros C; apply H; right; assumption.
  Qed.

  (* position known: erase_at is remove *)
  Lemma erase_at_remove : forall (l : list A) x p, NoDup l -> nth_error l p = Some x ->
    erase_at A p l = Ok (remove eqd x l).
  Proof.
    intros l x p ND H. unfold erase_at.
    assert (p < length l)%nat as Hp by (apply nth_error_Some; congruence).
    apply Nat.ltb_lt in Hp as Hp2. rewrite Hp2. f_equal.
    revert p H Hp Hp2. induction l as [|a l IH]; intros p H Hp Hp2; [destruct p; discriminate|].
    inversion ND; subst. destruct p as [|p]; cbn in H |- *.
    - injection H as ->. destruct (eqd x x); [|congruence]. rewrite remove_notin by assumption.
      destruct l; reflexivity.
    - destruct (eqd x a) as [->|]; [exfalso; apply H2; eapply nth_error_In; eauto|].
      cbn. f_equal. apply IH; auto; cbn in Hp; try lia.
  Qed.

  Lemma NoDup_snoc : forall (l : list A) x, NoDup l -> ~ In x l -> NoDup (l ++ [x]).
  Proof.
    intros. apply Permutation_NoDup with (x :: l); [|constructor; assumption].
    apply Permutation_cons_append.
  Qed.

  Lemma NoDup_remove' : forall (l : list A) x, NoDup l -> NoDup (remove eqd x l).
  Proof.
    induction l as [|a l IH]; intros x H; cbn; [constructor|]. inversion H; subst.
    destruct (eqd x a); [auto|]. constructor; auto. intros C. apply in_remove in C. tauto.
  Qed.

  Lemma some_none : forall (o : option nat), o <> None <-> exists p, o = Some p.
  Proof. destruct o; split; intros H; try discriminate; eauto; try congruence. destruct H; congruence. Qed.

  (* steps other than erase *)
  Lemma weak_step : forall s l o l', weak s l -> (forall x, o <> VErase x) ->
    oset_step A eqd l o = Some l' -> exists s', vs_step A eqd s o = Ok s' /\ weak s' l' /\ (strong s l -> strong s' l').
  Proof.
    intros s l o l' (Hi & ND & K & M) NE E. destruct o as [x|x|i j|]; cbn in *.
    - injection E as <-. exists (vs_insert A eqd s x). split; [reflexivity|].
      unfold vs_insert, vs_count. specialize (M x) as Mx.
      destruct (in_dec eqd x l) as [I|I].
      + destruct (posn_find A eqd x (vs_posn s)) eqn:F; [|exfalso; tauto].
        split; [repeat split; auto; apply M|]. auto.
      + destruct (posn_find A eqd x (vs_posn s)) eqn:F; [exfalso; apply I, Mx; discriminate|].
        assert (W : weak (mkVset (vs_items s ++ [x]) (posn_set A eqd x (length (vs_items s)) (vs_posn s))) (l ++ [x])).
        { split; [cbn; congruence|]. split; [apply NoDup_snoc; assumption|]. split; [apply kok_set; assumption|].
          intros y. cbn. rewrite find_set, in_app_iff. cbn.
          destruct (eqd x y) as [->|N]; [split; [tauto|discriminate]|]. rewrite M. intuition congruence. }
        split; [exact W|]. intros (_ & HS). split; [exact W|]. intros y p. cbn. rewrite find_set.
        destruct (eqd x y) as [->|N].
        * intros P. injection P as <-. rewrite Hi, nth_error_app2, Nat.sub_diag by lia. reflexivity.
        * intros P. apply HS in P. rewrite nth_error_app1; [assumption|]. apply nth_error_Some. congruence.
    - exfalso. eapply NE. reflexivity.
    - unfold vs_swap. destruct (Nat.eqb i j) eqn:Eij.
      + injection E as <-. exists s. split; [reflexivity|]. split; [repeat split; auto; apply M|auto].
      + apply Nat.eqb_neq in Eij.
        destruct (nth_error l i) as [xi|] eqn:Ni; [|unfold oset_swap in E; rewrite Ni in E; discriminate].
        destruct (nth_error l j) as [xj|] eqn:Nj; [|unfold oset_swap in E; rewrite Ni, Nj in E; discriminate].
        destruct (swap_same i j l xi xj Eij Ni Nj) as (E2 & KK). rewrite E2 in E. injection E as <-.
        rewrite Hi, Ni, Nj. eexists. split; [reflexivity|].
        destruct (swap_perm l _ i j ND KK) as (ND' & IN').
        match goal with |- weak ?s' ?l' /\ _ => assert (W : weak s' l') end.
        { split; [reflexivity|]. split; [assumption|]. split; [apply kok_set, kok_set; assumption|].
          intros y. cbn [vs_posn]. rewrite !find_set, IN'.
          destruct (eqd xi y) as [->|N1]; [split; [intros _; eapply nth_error_In; eauto|discriminate]|].
          destruct (eqd xj y) as [->|N2]; [split; [intros _; eapply nth_error_In; eauto|discriminate]|]. apply M. }
        split; [exact W|]. intros (_ & HS). split; [exact W|]. intros y p. cbn [vs_posn]. rewrite !find_set, KK.
        unfold tr.
        destruct (eqd xi y) as [->|N1].
        { intros P. injection P as <-. replace (Nat.eqb j i) with false by (symmetry; apply Nat.eqb_neq; congruence).
          rewrite Nat.eqb_refl. assumption. }
        destruct (eqd xj y) as [->|N2].
        { intros P. injection P as <-. rewrite Nat.eqb_refl. assumption. }
        intros P. apply HS in P.
        destruct (Nat.eqb p i) eqn:E3; [apply Nat.eqb_eq in E3; congruence|].
        destruct (Nat.eqb p j) eqn:E4; [apply Nat.eqb_eq in E4; congruence|]. assumption.
    - injection E as <-. exists vs_empty. split; [reflexivity|].
      assert (W : weak vs_empty []).
      { split; [reflexivity|]. split; [constructor|]. split; [constructor|]. intros x. cbn. tauto. }
      split; [assumption|]. intros _. split; [assumption|]. intros x p. discriminate.
  Qed.

  Lemma erase_step : forall s l x, strong s l ->
    exists s', vs_erase A eqd s x = Ok s' /\ weak s' (remove eqd x l) /\
      (~ In x l \/ (exists l0, l = l0 ++ [x]) -> strong s' (remove eqd x l)).
  Proof.
    intros s l x ((Hi & ND & K & M) & HS). unfold vs_erase.
    destruct (posn_find A eqd x (vs_posn s)) as [p|] eqn:F.
    - pose proof (HS _ _ F) as Np. rewrite Hi, (erase_at_remove l x p ND Np). cbn [rbind].
      eexists. split; [reflexivity|].
      assert (W : weak (mkVset (remove eqd x l) (posn_erase A eqd x (vs_posn s))) (remove eqd x l)).
      { split; [reflexivity|]. split; [apply NoDup_remove'; assumption|]. split; [apply kok_erase; assumption|].
        intros y. cbn [vs_posn]. rewrite find_erase by assumption. destruct (eqd x y) as [->|N].
        - split; [congruence|]. intros C. apply remove_In in C. tauto.
        - rewrite M. split; intros H; [apply in_in_remove; auto|apply in_remove in H; tauto]. }
      split; [exact W|]. intros [N|(l0 & ->)]; [exfalso; apply N; apply M; congruence|].
      split; [exact W|]. intros y q. cbn [vs_posn]. rewrite find_erase by assumption.
      destruct (eqd x y) as [->|N]; [discriminate|]. intros Q. apply HS in Q.
      assert (~ In x l0) as N0. { clear - ND. intros C. apply NoDup_remove_2 in ND. apply ND. rewrite app_nil_r. exact C. }
      rewrite remove_app, (remove_notin l0 x N0). cbn. destruct (eqd x x); [|congruence]. rewrite app_nil_r.
      assert (q < length (l0 ++ [x]))%nat as Hq by (apply nth_error_Some; congruence).
      rewrite app_length in Hq. cbn in Hq.
      destruct (Nat.eq_dec q (length l0)) as [->|].
      + rewrite nth_error_app2, Nat.sub_diag in Q by lia. cbn in Q. congruence.
      + rewrite nth_error_app1 in Q by lia. assumption.
    - assert (~ In x l) as N by (intros C; apply M in C; congruence).
      exists s. rewrite remove_notin by assumption. split; [reflexivity|].
      split; [repeat split; auto; apply M|]. intros _. split; [repeat split; auto; apply M|exact HS].
  Qed.

  Lemma run_app : forall ops1 ops2 s, vs_run eqd s (ops1 ++ ops2) = rbind (vs_run eqd s ops1) (fun s' => vs_run eqd s' ops2).
  Proof.
    induction ops1 as [|o ops1 IH]; intros; cbn; [reflexivity|].
    destruct (vs_step A eqd s o); cbn; auto.
  Qed.
  Lemma orun_app : forall ops1 ops2 l, oset_run eqd l (ops1 ++ ops2) =
    match oset_run eqd l ops1 with Some l' => oset_run eqd l' ops2 | None => None end.
  Proof.
    induction ops1 as [|o ops1 IH]; intros; cbn; [reflexivity|].
    destruct (oset_step A eqd l o); auto.
  Qed.

  Lemma back_run : forall ops s l l', strong s l -> back_erases eqd l ops -> oset_run eqd l ops = Some l' ->
    exists s', vs_run eqd s ops = Ok s' /\ strong s' l'.
  Proof.
    induction ops as [|o ops IH]; intros s l l' S B E; cbn in *.
    - injection E as <-. eauto.
    - destruct B as (B1 & B2). destruct (oset_step A eqd l o) as [l1|] eqn:E1; [|discriminate].
      destruct o as [x|x|i j|].
      2:{ cbn in E1. injection E1 as <-. destruct (erase_step s l x S) as (s1 & R1 & _ & S1).
          cbn [vs_step]. rewrite R1. cbn [rbind]. eapply IH; [apply S1; assumption|eassumption|assumption]. }
      all: match goal with |- context [vs_step _ _ _ ?o] =>
             destruct (weak_step s l o l1 (proj1 S)) as (s1 & R1 & _ & S1); [discriminate|assumption|] end;
           rewrite R1; cbn [rbind]; eapply IH; [apply S1; assumption|eassumption|assumption].
  Qed.

  Lemma noerase_run : forall ops s l l', weak s l -> no_erase ops -> oset_run eqd l ops = Some l' ->
    exists s', vs_run eqd s ops = Ok s' /\ weak s' l'.
  Proof.
    induction ops as [|o ops IH]; intros s l l' S B E; cbn in *.
    - injection E as <-. eauto.
    - destruct (oset_step A eqd l o) as [l1|] eqn:E1; [|discriminate].
      destruct (weak_step s l o l1 S) as (s1 & R1 & W1 & _); auto.
      { intros x C. apply (B x). left. assumption. }
      rewrite R1. cbn [rbind]. eapply IH; eauto. intros x C. apply (B x). right. assumption.
  Qed.

  Lemma weak_obs : forall s l, weak s l -> vs_items s = l /\ NoDup l /\ (forall x, vs_count eqd s x = true <-> In x l).
  Proof.
    intros s l (Hi & ND & K & M). split; [assumption|]. split; [assumption|].
    intros x. rewrite <- M. unfold vs_count. destruct (posn_find A eqd x (vs_posn s)); split; congruence.
  Qed.

  Lemma strong_empty : strong vs_empty [].
  Proof.
    split; [|discriminate]. split; [reflexivity|]. split; [constructor|]. split; [constructor|]. intros x. cbn. tauto.
  Qed.

  Theorem vset_history : forall ops1 x ops2 l,
    back_erases eqd [] ops1 -> no_erase ops2 ->
    oset_run eqd [] (ops1 ++ VErase x :: ops2) = Some l ->
    exists s, vs_run eqd vs_empty (ops1 ++ VErase x :: ops2) = Ok s /\
      vs_items s = l /\ NoDup l /\ (forall y, vs_count eqd s y = true <-> In y l).
  Proof.
    intros ops1 x ops2 l B N E. rewrite orun_app in E. cbn in E.
    destruct (oset_run eqd [] ops1) as [l1|] eqn:E1; [|discriminate].
    destruct (back_run ops1 vs_empty [] l1 strong_empty B E1) as (s1 & R1 & S1).
    rewrite run_app, R1. cbn [rbind vs_run vs_step].
    destruct (erase_step s1 l1 x S1) as (s2 & R2 & W2 & _). rewrite R2. cbn [rbind].
    destruct (noerase_run ops2 s2 _ l W2 N E) as (s & R & W).
    exists s. split; [exact R|]. apply weak_obs. assumption.
  Qed.

  Theorem vset_back_history : forall ops l,
    back_erases eqd [] ops -> oset_run eqd [] ops = Some l ->
    exists s, vs_run eqd vs_empty ops = Ok s /\
      vs_items s = l /\ NoDup l /\ (forall y, vs_count eqd s y = true <-> In y l) /\
      (forall y p, posn_find A eqd y (vs_posn s) = Some p <-> nth_error l p = Some y).
  Proof.
    intros ops l B E. destruct (back_run ops vs_empty [] l strong_empty B E) as (s & R & S).
    exists s. split; [exact R|]. destruct (weak_obs s l (proj1 S)) as (O1 & O2 & O3).
    split; [exact O1|]. split; [exact O2|]. split; [exact O3|].
    intros y p. split; [apply S|]. intros Np. destruct S as ((_ & _ & _ & M) & S).
    assert (In y l) as I by (eapply nth_error_In; eauto). apply M, some_none in I as (q & Q).
    pose proof (S _ _ Q) as Nq. rewrite Q. f_equal.
    apply (proj1 (NoDup_nth_error l) O2); [apply nth_error_Some; congruence|congruence].
  Qed.
End P.
