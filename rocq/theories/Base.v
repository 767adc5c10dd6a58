(* Shared imports, tactics and list lemmas.  Nothing here models the code. *)
From Coq Require Export ZArith List Lia Bool Permutation.
From Coq Require Import ZifyBool.
Export ListNotations.
Global Open Scope Z_scope.
Global Arguments Z.add : simpl never.
Global Arguments Z.mul : simpl never.
Global Arguments Z.sub : simpl never.
Global Arguments Z.opp : simpl never.
Global Arguments Z.of_nat : simpl never.

(* Result of running a piece of C++: a value, a thrown yask_exception,
   undefined behaviour, or (only for fuelled models of unbounded loops) lack of fuel. *)
Inductive res (A : Type) : Type :=
| Ok (a : A)
| Throw
| UB
| OutOfFuel.
Arguments Ok {A} _.
Arguments Throw {A}.
Arguments UB {A}.
Arguments OutOfFuel {A}.

Definition rbind {A B} (r : res A) (f : A -> res B) : res B :=
  match r with
  | Ok a => f a
  | Throw => Throw
  | UB => UB
  | OutOfFuel => OutOfFuel
  end.

(* [zseq n] = 0, 1, ..., n-1 as integers (empty when n <= 0). *)
Definition zseq (n : Z) : list Z := map Z.of_nat (seq 0 (Z.to_nat n)).

(* [zrange b e] = b, b+1, ..., e-1. *)
Definition zrange (b e : Z) : list Z := map (fun i => b + i) (zseq (e - b)).

Fixpoint zsum (l : list Z) : Z :=
  match l with [] => 0 | x :: r => x + zsum r end.

Fixpoint zprod (l : list Z) : Z :=
  match l with [] => 1 | x :: r => x * zprod r end.

(* List indexed by Z with a default; in-bounds use is always stated. *)
Definition znth (i : Z) (l : list Z) : Z := nth (Z.to_nat i) l 0.

Lemma zseq_In : forall n x, In x (zseq n) <-> 0 <= x < n.
Proof.
  intros n x. unfold zseq. rewrite in_map_iff. split.
  - intros (k & <- & Hk). apply in_seq in Hk. lia.
  - intros H. exists (Z.to_nat x). split; [lia|]. apply in_seq. lia.
Qed.

Lemma zseq_length : forall n, length (zseq n) = Z.to_nat n.
Proof. intros. unfold zseq. rewrite map_length, seq_length. reflexivity. Qed.

Lemma zseq_NoDup : forall n, NoDup (zseq n).
Proof.
  intros. unfold zseq.
  apply FinFun.Injective_map_NoDup; [|apply seq_NoDup].
  intros a b H. lia.
Qed.

Lemma zseq_nil : forall n, n <= 0 -> zseq n = [].
Proof. intros. unfold zseq. replace (Z.to_nat n) with 0%nat by lia. reflexivity. Qed.

Lemma zseq_succ : forall n, 0 <= n -> zseq (n + 1) = zseq n ++ [n].
Proof.
  intros. unfold zseq. replace (Z.to_nat (n + 1)) with (Z.to_nat n + 1)%nat by lia.
  rewrite seq_app, map_app. cbn. do 2 f_equal; lia.
Qed.

Lemma zseq_app : forall a b, 0 <= a -> 0 <= b ->
  zseq (a + b) = zseq a ++ map (fun i => a + i) (zseq b).
Proof.
  intros. unfold zseq. replace (Z.to_nat (a + b)) with (Z.to_nat a + Z.to_nat b)%nat by lia.
  rewrite seq_app, map_app. f_equal. cbn.
  rewrite map_map. rewrite <- (Nat.add_0_r (Z.to_nat a)) at 1.
  generalize 0%nat as k. generalize (Z.to_nat b) as m.
  induction m as [|m IH]; intros k; cbn; [reflexivity|].
  f_equal; [lia|]. rewrite <- IH. f_equal. f_equal. lia.
Qed.

Lemma zseq_cons : forall n, 0 < n -> zseq n = 0 :: map (fun i => 1 + i) (zseq (n - 1)).
Proof.
  intros. replace n with (1 + (n - 1)) at 1 by lia.
  rewrite zseq_app by lia. reflexivity.
Qed.

Lemma zrange_In : forall b e x, In x (zrange b e) <-> b <= x < e.
Proof.
  intros. unfold zrange. rewrite in_map_iff. split.
  - intros (k & <- & Hk). apply zseq_In in Hk. lia.
  - intros H. exists (x - b). split; [lia|]. apply zseq_In. lia.
Qed.

Lemma zrange_NoDup : forall b e, NoDup (zrange b e).
Proof.
  intros. unfold zrange.
  apply FinFun.Injective_map_NoDup; [|apply zseq_NoDup].
  intros x y H. lia.
Qed.

Lemma zrange_length : forall b e, length (zrange b e) = Z.to_nat (e - b).
Proof. intros. unfold zrange. rewrite map_length. apply zseq_length. Qed.

Lemma zrange_nil : forall b e, e <= b -> zrange b e = [].
Proof. intros. unfold zrange. rewrite zseq_nil by lia. reflexivity. Qed.

Lemma zrange_app : forall a b c, a <= b <= c -> zrange a c = zrange a b ++ zrange b c.
Proof.
  intros. unfold zrange. replace (c - a) with ((b - a) + (c - b)) by lia.
  rewrite zseq_app by lia. rewrite map_app, map_map. f_equal.
  apply map_ext. intros; lia.
Qed.

Lemma zrange_one : forall a, zrange a (a + 1) = [a].
Proof.
  intros. unfold zrange. replace (a + 1 - a) with 1 by lia.
  change (zseq 1) with [0]. cbn [map]. f_equal. lia.
Qed.

Lemma zrange_cons : forall a b, a < b -> zrange a b = a :: zrange (a + 1) b.
Proof.
  intros. rewrite (zrange_app a (a + 1) b) by lia. rewrite zrange_one. reflexivity.
Qed.

Lemma zrange_snoc : forall a b, a <= b -> zrange a (b + 1) = zrange a b ++ [b].
Proof.
  intros. rewrite (zrange_app a b (b + 1)) by lia. rewrite zrange_one. reflexivity.
Qed.

Lemma zsum_app : forall a b, zsum (a ++ b) = zsum a + zsum b.
Proof. induction a; intros; cbn; [lia|]. rewrite IHa. lia. Qed.

Lemma zprod_app : forall a b, zprod (a ++ b) = zprod a * zprod b.
Proof. induction a; intros; cbn; [lia|]. rewrite IHa. lia. Qed.

Lemma zprod_pos : forall l, Forall (fun x => 0 < x) l -> 0 < zprod l.
Proof. induction 1; cbn; nia. Qed.

Lemma Forall2_length' : forall A B (R : A -> B -> Prop) l1 l2,
  Forall2 R l1 l2 -> length l1 = length l2.
Proof. induction 1; cbn; congruence. Qed.

Lemma filter_length_0 : forall A (f : A -> bool) l,
  (forall x, In x l -> f x = false) -> length (filter f l) = 0%nat.
Proof.
  induction l as [|a l IH]; intros H; cbn; [reflexivity|].
  rewrite (H a) by (left; reflexivity). apply IH. intros; apply H; right; assumption.
Qed.

Lemma filter_app_length : forall A (f : A -> bool) l1 l2,
  length (filter f (l1 ++ l2)) = (length (filter f l1) + length (filter f l2))%nat.
Proof. intros. rewrite filter_app, app_length. reflexivity. Qed.

Lemma Permutation_filter_length : forall A (f : A -> bool) l1 l2,
  Permutation l1 l2 -> length (filter f l1) = length (filter f l2).
Proof.
  induction 1; cbn; auto.
  - destruct (f x); cbn; congruence.
  - destruct (f x), (f y); reflexivity.
  - congruence.
Qed.

Lemma nth_map_zseq : forall A (f : Z -> A) n i d, 0 <= i < n ->
  nth (Z.to_nat i) (map f (zseq n)) d = f i.
Proof.
  intros A f n i d Hi.
  rewrite (nth_indep _ d (f 0)) by (rewrite map_length, zseq_length; lia).
  rewrite map_nth. f_equal. unfold zseq.
  rewrite (nth_indep _ 0 (Z.of_nat 0)) by (rewrite map_length, seq_length; lia).
  rewrite map_nth, seq_nth by lia. cbn [Nat.add]. rewrite Z2Nat.id by lia. reflexivity.
Qed.

Global Arguments Z.modulo : simpl never.
Global Arguments Z.div : simpl never.
Global Arguments Z.quot : simpl never.
Global Arguments Z.rem : simpl never.

Lemma Forall_rev' : forall A (P : A -> Prop) l, Forall P l -> Forall P (rev l).
Proof.
  intros A P l H. rewrite Forall_forall in *. intros x Hx. apply H. apply in_rev. assumption.
Qed.

Lemma zprod_rev : forall l, zprod (rev l) = zprod l.
Proof. induction l; cbn; [reflexivity|]. rewrite zprod_app, IHl. cbn. lia. Qed.

Lemma zprod_perm : forall l1 l2, Permutation l1 l2 -> zprod l1 = zprod l2.
Proof. induction 1; cbn; lia. Qed.

Lemma zsum_perm : forall l1 l2, Permutation l1 l2 -> zsum l1 = zsum l2.
Proof. induction 1; cbn; lia. Qed.

(* for-loop over a list whose body may fail *)
Fixpoint rfold {A St} (body : St -> A -> res St) (l : list A) (st : St) : res St :=
  match l with
  | [] => Ok st
  | a :: r => rbind (body st a) (fun st' => rfold body r st')
  end.

Lemma rfold_app : forall A St (body : St -> A -> res St) l1 l2 st,
  rfold body (l1 ++ l2) st = rbind (rfold body l1 st) (rfold body l2).
Proof.
  induction l1 as [|a l1 IH]; intros l2 st; cbn; [reflexivity|].
  destruct (body st a); cbn; auto.
Qed.

Lemma rfold_zrange : forall St (body : St -> Z -> res St) (P : Z -> St -> Prop) b e st,
  b <= e -> P b st ->
  (forall i s, b <= i < e -> P i s -> exists s', body s i = Ok s' /\ P (i + 1) s') ->
  exists s', rfold body (zrange b e) st = Ok s' /\ P e s'.
Proof.
  intros St body P b e st H H0 Hs.
  assert (G : forall n, 0 <= n -> n <= e - b -> exists s', rfold body (zrange b (b + n)) st = Ok s' /\ P (b + n) s').
  { refine (natlike_ind _ _ _).
    - intros _. rewrite zrange_nil by lia. exists st. split; [reflexivity|]. replace (b + 0) with b by lia. assumption.
    - intros n Hn IH Hle. destruct IH as (s & E & Ps); [lia|]. unfold Z.succ.
      replace (b + (n + 1)) with (b + n + 1) by lia. rewrite zrange_snoc by lia. rewrite rfold_app, E. cbn [rbind rfold].
      destruct (Hs (b + n) s) as (s' & E' & Ps'); [lia|assumption|]. rewrite E'. cbn [rbind]. eauto. }
  destruct (G (e - b)) as (s & E & Ps); [lia|lia|]. replace (b + (e - b)) with e in * by lia. eauto.
Qed.

Lemma zrange_0 : forall n, zrange 0 n = zseq n.
Proof. intros. unfold zrange. rewrite Z.sub_0_r. rewrite (map_ext _ (fun x => x)) by (intros; lia). apply map_id. Qed.

Lemma rfold_zseq : forall St (body : St -> Z -> res St) (P : Z -> St -> Prop) n st,
  0 <= n -> P 0 st ->
  (forall i s, 0 <= i < n -> P i s -> exists s', body s i = Ok s' /\ P (i + 1) s') ->
  exists s', rfold body (zseq n) st = Ok s' /\ P n s'.
Proof. intros. rewrite <- zrange_0. apply rfold_zrange; assumption. Qed.
