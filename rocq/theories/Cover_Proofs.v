From Verif Require Import Base Cover_Spec.

Lemma hits_app : forall A B (inb : A -> B -> bool) l1 l2 x,
  hits inb (l1 ++ l2) x = (hits inb l1 x + hits inb l2 x)%nat.
Proof. intros. unfold hits. apply filter_app_length. Qed.

Lemma hits_cons : forall A B (inb : A -> B -> bool) a l x,
  hits inb (a :: l) x = ((if inb a x then 1 else 0) + hits inb l x)%nat.
Proof. intros. unfold hits. cbn. destruct (inb a x); reflexivity. Qed.

Lemma hits_nil : forall A B (inb : A -> B -> bool) x, hits inb [] x = 0%nat.
Proof. reflexivity. Qed.

Lemma hits_concat : forall A B (inb : A -> B -> bool) ls x,
  hits inb (concat ls) x = list_sum (map (fun l => hits inb l x) ls).
Proof.
  induction ls as [|l ls IH]; intros x; [reflexivity|].
  change (concat (l :: ls)) with (l ++ concat ls).
  rewrite hits_app, IH. reflexivity.
Qed.

Lemma hits_perm : forall A B (inb : A -> B -> bool) l1 l2 x,
  Permutation l1 l2 -> hits inb l1 x = hits inb l2 x.
Proof. intros. unfold hits. apply Permutation_filter_length. assumption. Qed.

Lemma chain_le : forall l b e, chain b e l -> b <= e.
Proof.
  induction l as [|[s t] l IH]; intros b e H; cbn in H; [lia|].
  destruct H as (-> & Hlt & Hc). apply IH in Hc. lia.
Qed.

Lemma chain_hits : forall l b e x, chain b e l ->
  hits in_iv l x = if in_iv (b, e) x then 1%nat else 0%nat.
Proof.
  induction l as [|[s t] l IH]; intros b e x H; cbn in H.
  - subst. rewrite hits_nil. unfold in_iv; cbn.
    destruct (e <=? x) eqn:?, (x <? e) eqn:?; cbn; try reflexivity; lia.
  - destruct H as (-> & Hlt & Hc). rewrite hits_cons, (IH t e) by assumption.
    apply chain_le in Hc. unfold in_iv; cbn [fst snd].
    destruct (b <=? x) eqn:?, (x <? t) eqn:?, (t <=? x) eqn:?, (x <? e) eqn:?; cbn; try reflexivity; lia.
Qed.

Lemma chain_exact_cover : forall l b e, chain b e l -> exact_cover in_iv l (in_iv (b, e)).
Proof. intros l b e H x. apply chain_hits. assumption. Qed.

Lemma chain_app : forall l1 l2 a b c, chain a b l1 -> chain b c l2 -> chain a c (l1 ++ l2).
Proof.
  induction l1 as [|[s t] l1 IH]; intros l2 a b c H1 H2; cbn in *.
  - subst; assumption.
  - destruct H1 as (-> & Hlt & Hc). repeat split; try assumption. eapply IH; eauto.
Qed.

Lemma exact_cover_perm : forall A B (inb : A -> B -> bool) l1 l2 P,
  Permutation l1 l2 -> exact_cover inb l1 P -> exact_cover inb l2 P.
Proof. intros A B inb l1 l2 P Hp H x. rewrite <- (hits_perm _ _ _ _ _ _ Hp). apply H. Qed.

Lemma chain_wchain : forall l b e, chain b e l -> wchain b e l.
Proof.
  induction l as [|[s t] l IH]; intros b e H; cbn in *; [assumption|].
  destruct H as (-> & Hlt & Hc). repeat split; [lia|auto].
Qed.

Lemma wchain_le : forall l b e, wchain b e l -> b <= e.
Proof.
  induction l as [|[s t] l IH]; intros b e H; cbn in H; [lia|].
  destruct H as (-> & Hlt & Hc). apply IH in Hc. lia.
Qed.

Lemma wchain_hits : forall l b e x, wchain b e l ->
  hits in_iv l x = if in_iv (b, e) x then 1%nat else 0%nat.
Proof.
  induction l as [|[s t] l IH]; intros b e x H; cbn in H.
  - subst. rewrite hits_nil. unfold in_iv; cbn.
    destruct (e <=? x) eqn:?, (x <? e) eqn:?; cbn; try reflexivity; lia.
  - destruct H as (-> & Hlt & Hc). rewrite hits_cons, (IH t e) by assumption.
    apply wchain_le in Hc. unfold in_iv; cbn [fst snd].
    destruct (b <=? x) eqn:?, (x <? t) eqn:?, (t <=? x) eqn:?, (x <? e) eqn:?; cbn; try reflexivity; lia.
Qed.

Lemma wchain_exact_cover : forall l b e, wchain b e l -> exact_cover in_iv l (in_iv (b, e)).
Proof. intros l b e H x. apply wchain_hits. assumption. Qed.

Lemma wchain_app : forall l1 l2 a b c, wchain a b l1 -> wchain b c l2 -> wchain a c (l1 ++ l2).
Proof.
  induction l1 as [|[s t] l1 IH]; intros l2 a b c H1 H2; cbn in *.
  - subst; assumption.
  - destruct H1 as (-> & Hlt & Hc). repeat split; try assumption. eapply IH; eauto.
Qed.

(* Chains from a monotone cut function. *)
Lemma wchain_cuts : forall (f : Z -> Z) n, 0 <= n ->
  (forall i, 0 <= i < n -> f i <= f (i + 1)) ->
  wchain (f 0) (f n) (map (fun i => (f i, f (i + 1))) (zseq n)).
Proof.
  intros f n Hn. revert n Hn.
  refine (natlike_ind _ _ _).
  - intros _. cbn. reflexivity.
  - intros n Hn IH Hm. unfold Z.succ in *. rewrite zseq_succ by assumption. rewrite map_app.
    eapply wchain_app.
    + apply IH. intros; apply Hm. lia.
    + cbn. repeat split. apply Hm. lia.
Qed.

Lemma chain_cuts : forall (f : Z -> Z) n, 0 <= n ->
  (forall i, 0 <= i < n -> f i < f (i + 1)) ->
  chain (f 0) (f n) (map (fun i => (f i, f (i + 1))) (zseq n)).
Proof.
  intros f n Hn. revert n Hn.
  refine (natlike_ind _ _ _).
  - intros _. cbn. reflexivity.
  - intros n Hn IH Hm. unfold Z.succ in *. rewrite zseq_succ by assumption. rewrite map_app.
    eapply chain_app.
    + apply IH. intros; apply Hm. lia.
    + cbn. repeat split. apply Hm. lia.
Qed.
