(* Two orders of the same instances that agree on conflicting pairs leave the same store. *)
From Verif Require Import Base Sched_Spec.

Lemma before_In : forall A (l : list A) a b, before l a b -> In a l /\ In b l.
Proof.
  intros A l a b (l1 & l2 & -> & H). split; apply in_or_app; right; [left; reflexivity|right; exact H].
Qed.
Lemma before_cons : forall A x (l : list A) a b, before l a b -> before (x :: l) a b.
Proof. intros A x l a b (l1 & l2 & -> & H). exists (x :: l1), l2. split; [reflexivity|exact H]. Qed.
Lemma before_head : forall A x (l : list A) b, In b l -> before (x :: l) x b.
Proof. intros A x l b H. exists [], l. split; [reflexivity|exact H]. Qed.
Lemma before_inv : forall A x (l : list A) a b, before (x :: l) a b -> (x = a /\ In b l) \/ before l a b.
Proof.
  intros A x l a b (l1 & l2 & E & H). destruct l1 as [|y l1]; cbn in E; injection E as E1 E2.
  - left. split; [exact E1|]. rewrite E2. exact H.
  - right. exists l1, l2. split; assumption.
Qed.
Lemma before_app : forall A (l r : list A) a b, before (l ++ r) a b <-> before l a b \/ before r a b \/ (In a l /\ In b r).
Proof.
  intros A l r. induction l as [|x l IH]; intros a b; cbn [app].
  - split; [intros H; right; left; exact H|]. intros [(l1 & l2 & E & _)|[H|[[] _]]]; [|exact H]. destruct l1; discriminate E.
  - split.
    + intros H. apply before_inv in H. destruct H as [(-> & H)|H].
      * apply in_app_or in H. destruct H as [H|H]; [left; apply before_head; exact H|right; right; split; [left; reflexivity|exact H]].
      * apply IH in H. destruct H as [H|[H|(H1 & H2)]]; [left; apply before_cons; exact H|right; left; exact H|right; right; split; [right; exact H1|exact H2]].
    + intros [H|[H|(H1 & H2)]].
      * apply before_inv in H. destruct H as [(-> & H)|H]; [apply before_head; apply in_or_app; left; exact H|apply before_cons; apply IH; left; exact H].
      * apply before_cons. apply IH. right; left; exact H.
      * destruct H1 as [->|H1]; [apply before_head; apply in_or_app; right; exact H2|apply before_cons; apply IH; right; right; split; assumption].
Qed.
Lemma before_total : forall A (l : list A) a b, In a l -> In b l -> a <> b -> before l a b \/ before l b a.
Proof.
  induction l as [|x l IH]; intros a b Ha Hb N; [destruct Ha|].
  destruct Ha as [->|Ha], Hb as [->|Hb]; [congruence|left; apply before_head; exact Hb|right; apply before_head; exact Ha|].
  destruct (IH a b Ha Hb N); [left|right]; apply before_cons; assumption.
Qed.
Lemma before_asym : forall A (l : list A) a b, NoDup l -> before l a b -> before l b a -> False.
Proof.
  intros A l. induction l as [|x l IH]; intros a b N H1 H2.
  - destruct H1 as (l1 & l2 & E & _). destruct l1; discriminate E.
  - inversion N as [|? ? Nx Nl]; subst. apply before_inv in H1. apply before_inv in H2.
    destruct H1 as [(-> & H1)|H1], H2 as [(E & H2)|H2].
    + subst. contradiction.
    + apply before_In in H2. destruct H2. contradiction.
    + subst. apply before_In in H1. destruct H1. contradiction.
    + exact (IH a b Nl H1 H2).
Qed.

Section Exec.
  Context {V : Type} (alloc : Z -> Z) (st : stencil V).
  Notation update := (update alloc st). Notation exec := (exec alloc st). Notation conflict := (conflict alloc st).

  Lemma conflict_sym : forall a b, conflict a b -> conflict b a.
  Proof. intros a b (c & H). exists c. tauto. Qed.

  Lemma map_ext_In : forall (m m' : cell -> V) l, (forall c, In c l -> m c = m' c) -> map m l = map m' l.
  Proof. intros m m' l H. apply map_ext_in. exact H. Qed.

  Lemma update_ext : forall m m' i, (forall c, m c = m' c) -> forall c, update m i c = update m' i c.
  Proof.
    intros m m' i H c. unfold Sched_Spec.update. rewrite (map_ext_In m m') by (intros; apply H).
    destruct (in_dec _ _ _); [reflexivity|apply H].
  Qed.
  Lemma exec_ext : forall l m m', (forall c, m c = m' c) -> forall c, exec l m c = exec l m' c.
  Proof. induction l as [|i l IH]; intros m m' H c; cbn; [apply H|]. apply IH. apply update_ext. exact H. Qed.
  Lemma exec_app : forall l r m, exec (l ++ r) m = exec r (exec l m).
  Proof. intros. apply fold_left_app. Qed.

  Lemma update_comm : forall m a b, ~ conflict a b -> forall c, update (update m a) b c = update (update m b) a c.
  Proof.
    intros m a b N c. unfold Sched_Spec.update at 1 3.
    assert (Ra : map (update m a) (rd_cells alloc st b) = map m (rd_cells alloc st b)).
    { apply map_ext_In. intros x Hx. unfold Sched_Spec.update. destruct (in_dec _ _ _) as [Hw|]; [|reflexivity].
      exfalso. apply N. exists x. left. split; [exact Hw|left; exact Hx]. }
    assert (Rb : map (update m b) (rd_cells alloc st a) = map m (rd_cells alloc st a)).
    { apply map_ext_In. intros x Hx. unfold Sched_Spec.update. destruct (in_dec _ _ _) as [Hw|]; [|reflexivity].
      exfalso. apply N. exists x. right. split; [exact Hx|exact Hw]. }
    rewrite Ra, Rb. unfold Sched_Spec.update.
    destruct (in_dec _ c (wr_cells alloc st b)) as [Hb|Hb], (in_dec _ c (wr_cells alloc st a)) as [Ha|Ha]; try reflexivity.
    exfalso. apply N. exists c. left. split; [exact Ha|right; exact Hb].
  Qed.

  Lemma exec_hoist : forall l i m, (forall x, In x l -> ~ conflict i x) -> forall c, exec (l ++ [i]) m c = exec (i :: l) m c.
  Proof.
    induction l as [|x l IH]; intros i m H c; [reflexivity|].
    cbn [app]. change (exec (l ++ [i]) (update m x) c = exec (x :: l) (update m i) c).
    rewrite IH by (intros y Hy; apply H; right; exact Hy).
    change (exec l (update (update m x) i) c = exec l (update (update m i) x) c).
    apply exec_ext. intros c'. apply update_comm. intros Q. apply (H x (or_introl eq_refl)). apply conflict_sym. exact Q.
  Qed.

  Theorem exec_conflict_order : forall r l m, NoDup r -> Permutation r l ->
    (forall a b, before r a b -> conflict a b -> before l a b) -> forall c, exec l m c = exec r m c.
  Proof.
    induction r as [|i r IH]; intros l m N P H c.
    - apply Permutation_nil in P. subst. reflexivity.
    - assert (Hi : In i l) by (eapply Permutation_in; [exact P|left; reflexivity]).
      apply in_split in Hi. destruct Hi as (l1 & l2 & ->).
      assert (Nl : NoDup (l1 ++ i :: l2)) by (eapply Permutation_NoDup; [exact P|exact N]).
      inversion N as [|? ? Ni Nr]; subst.
      assert (P' : Permutation r (l1 ++ l2)) by (apply Permutation_cons_app_inv in P; exact P).
      assert (D : forall x, In x l1 -> ~ conflict i x).
      { intros x Hx Q. assert (B1 : before (l1 ++ i :: l2) i x).
        { apply H; [|exact Q]. apply before_head. eapply Permutation_in; [apply Permutation_sym; exact P'|]. apply in_or_app. left. exact Hx. }
        assert (B2 : before (l1 ++ i :: l2) x i) by (apply before_app; right; right; split; [exact Hx|left; reflexivity]).
        exact (before_asym _ _ _ _ Nl B1 B2). }
      replace (l1 ++ i :: l2) with ((l1 ++ [i]) ++ l2) by (rewrite <- app_assoc; reflexivity).
      rewrite exec_app.
      transitivity (exec l2 (exec (i :: l1) m) c); [apply exec_ext; apply exec_hoist; exact D|].
      rewrite <- exec_app. cbn [app].
      change (exec (l1 ++ l2) (update m i) c = exec r (update m i) c).
      apply IH; [exact Nr|exact P'|]. intros a b B Q.
      assert (B' : before (l1 ++ i :: l2) a b) by (apply H; [apply before_cons; exact B|exact Q]).
      apply before_In in B. destruct B as (Ia & Ib).
      assert (Na : i <> a) by (intros ->; contradiction). assert (Nb : i <> b) by (intros ->; contradiction).
      apply before_app in B'. apply before_app. destruct B' as [B'|[B'|(A1 & A2)]].
      + left; exact B'.
      + apply before_inv in B'. destruct B' as [(E & _)|B']; [contradiction|right; left; exact B'].
      + destruct A2 as [E|A2]; [contradiction|right; right; split; assumption].
  Qed.

  Theorem exec_respects : forall dir r l m, dir = 1 \/ dir = -1 -> NoDup r -> Permutation r l ->
    respects alloc st dir r -> respects alloc st dir l -> forall c, exec l m c = exec r m c.
  Proof.
    intros dir r l m Hd N P R L. apply exec_conflict_order; [exact N|exact P|].
    intros a b B (c & Q).
    destruct (before_In _ _ _ _ B) as (Ia & Ib).
    assert (Ja : In a l) by (eapply Permutation_in; eassumption).
    assert (Jb : In b l) by (eapply Permutation_in; eassumption).
    assert (Nab : a <> b). { intros ->. exact (before_asym _ _ _ _ N B B). }
    assert (Nba : b <> a) by congruence.
    assert (X : before r b a -> before l a b) by (intros B'; exfalso; exact (before_asym _ _ _ _ N B B')).
    (* same variable and point in both elements: only the steps can differ *)
    assert (SE : forall e e' : elem, cell_of alloc e = cell_of alloc e' -> elem_step e = elem_step e' -> e = e').
    { intros [[v u] q] [[v' u'] q'] E1 E2. cbn in *. injection E1 as -> _ ->. subst. reflexivity. }
    unfold rd_cells, wr_cells in Q. rewrite !in_map_iff in Q.
    destruct Q as [((e & E1 & H1) & [(e' & E2 & H2)|(e' & E2 & H2)])|((e & E1 & H1) & (e' & E2 & H2))].
    - (* a writes e, b reads e' *)
      assert (E : cell_of alloc e' = cell_of alloc e) by congruence.
      destruct (Z.lt_trichotomy (dir * (elem_step e - elem_step e')) 0) as [D|[D|D]].
      + exact (r_fresh _ _ _ _ L b a e' e Jb Ja Nba H2 H1 E D).
      + assert (e' = e) by (apply SE; [exact E|destruct Hd; subst; lia]). subst. exact (r_produced _ _ _ _ L b a e Jb Ja Nba H2 H1).
      + apply X. exact (r_kept _ _ _ _ R b a e' e Ib Ia Nba H2 H1 E D).
    - (* both write *)
      assert (E : cell_of alloc e = cell_of alloc e') by congruence.
      destruct (Z.lt_trichotomy (dir * (elem_step e' - elem_step e)) 0) as [D|[D|D]].
      + apply X. apply (r_writes _ _ _ _ R b a e' e Ib Ia Nba H2 H1); [congruence|lia].
      + assert (e = e') by (apply SE; [exact E|destruct Hd; subst; lia]). subst. exfalso. apply Nab. exact (r_once _ _ _ _ R a b e' Ia Ib H1 H2).
      + exact (r_writes _ _ _ _ L a b e e' Ja Jb Nab H1 H2 E D).
    - (* a reads e, b writes e' *)
      assert (E : cell_of alloc e = cell_of alloc e') by congruence.
      destruct (Z.lt_trichotomy (dir * (elem_step e' - elem_step e)) 0) as [D|[D|D]].
      + apply X. exact (r_fresh _ _ _ _ R a b e e' Ia Ib Nab H1 H2 E D).
      + assert (e = e') by (apply SE; [exact E|destruct Hd; subst; lia]). subst. apply X. exact (r_produced _ _ _ _ R a b e' Ia Ib Nab H1 H2).
      + exact (r_kept _ _ _ _ L a b e e' Ja Jb Nab H1 H2 E D).
  Qed.
End Exec.
