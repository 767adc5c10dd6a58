(* From pairs of tasks to pairs of instances in every interleaving. *)
From Verif Require Import Base Sched_Spec Sched_Proofs.

(* every ordered pair of positions satisfies P *)
Fixpoint pairs {A} (P : A -> A -> Prop) (l : list A) : Prop :=
  match l with [] => True | x :: r => (forall y, In y r -> P x y) /\ pairs P r end.

Lemma pairs_app : forall A (P : A -> A -> Prop) l r,
  pairs P (l ++ r) <-> pairs P l /\ pairs P r /\ (forall x y, In x l -> In y r -> P x y).
Proof.
  intros A P l r. induction l as [|a l IH]; cbn [app pairs].
  - split; [intros H; repeat split; auto; intros x y []|tauto].
  - rewrite IH. split.
    + intros (H & P1 & P2 & P3). repeat split; auto.
      * intros y Hy. apply H. apply in_or_app; left; exact Hy.
      * intros x y [->|Hx] Hy; [apply H; apply in_or_app; right; exact Hy|apply P3; assumption].
    + intros ((H & P1) & P2 & P3). repeat split; auto.
      * intros y Hy. apply in_app_or in Hy. destruct Hy as [Hy|Hy]; [apply H; exact Hy|apply P3; [left; reflexivity|exact Hy]].
      * intros x y Hx Hy. apply P3; [right; exact Hx|exact Hy].
Qed.
Lemma pairs_impl : forall A (P Q : A -> A -> Prop) l, (forall x y, In x l -> In y l -> P x y -> Q x y) -> pairs P l -> pairs Q l.
Proof.
  intros A P Q l. induction l as [|a l IH]; cbn [pairs]; [tauto|]. intros H (H1 & H2). split.
  - intros y Hy. apply H; [left; reflexivity|right; exact Hy|apply H1; exact Hy].
  - apply IH; [|exact H2]. intros x y Hx Hy. apply H; right; assumption.
Qed.
Lemma pairs_before : forall A (P : A -> A -> Prop) l x y, pairs P l -> before l x y -> P x y.
Proof.
  intros A P l x y H (l1 & l2 & -> & Hy). apply pairs_app in H. destruct H as (_ & (H & _) & _). apply H. exact Hy.
Qed.
Lemma pairs_NoDup : forall A (P : A -> A -> Prop) l, (forall x, ~ P x x) -> pairs P l -> NoDup l.
Proof.
  intros A P l N. induction l as [|a l IH]; [constructor|]. intros (H1 & H2). constructor; [|apply IH; exact H2].
  intros I. exact (N a (H1 a I)).
Qed.
Lemma pairs_concat : forall A (P : A -> A -> Prop) ls, (forall l, In l ls -> pairs P l) ->
  pairs (fun l r => forall x y, In x l -> In y r -> P x y) ls -> pairs P (concat ls).
Proof.
  intros A P ls. induction ls as [|l ls IH]; intros H1 H2; [exact I|]. cbn [concat]. destruct H2 as (H2 & H3).
  apply pairs_app. split; [apply H1; left; reflexivity|]. split; [apply IH; [intros; apply H1; right; assumption|exact H3]|].
  intros x y Hx Hy. apply in_concat in Hy. destruct Hy as (r & Hr & Hy). exact (H2 r Hr x y Hx Hy).
Qed.
Lemma pairs_map : forall A B (f : A -> B) (P : B -> B -> Prop) l, pairs P (map f l) <-> pairs (fun x y => P (f x) (f y)) l.
Proof.
  intros A B f P l. induction l as [|a l IH]; cbn [map pairs]; [tauto|]. rewrite IH. split; intros (H1 & H2); (split; [|exact H2]).
  - intros y Hy. apply H1. apply in_map. exact Hy.
  - intros y Hy. apply in_map_iff in Hy. destruct Hy as (z & <- & Hz). apply H1. exact Hz.
Qed.
Lemma pairs_perm : forall A (P : A -> A -> Prop) l r, (forall x y, P x y -> P y x) -> Permutation l r -> pairs P l -> pairs P r.
Proof.
  intros A P l r S H. induction H as [|x l r H IH|x y l|l1 l2 l3 H1 IH1 H2 IH2]; cbn [pairs]; auto.
  - intros (A1 & A2). split; [|apply IH; exact A2]. intros y Hy. apply A1. eapply Permutation_in; [apply Permutation_sym; exact H|exact Hy].
  - intros (A1 & A2 & A3). repeat split; auto.
    + intros z [->|Hz]; [apply S; apply A1; left; reflexivity|apply A2; exact Hz].
    + intros z Hz. apply A1. right. exact Hz.
Qed.

Lemma shuffle_In : forall A ls (l : list A), shuffle ls l -> forall x, In x l <-> exists k, In k ls /\ In x k.
Proof.
  intros A ls l H. induction H as [ls H|l1 a r l2 out H IH]; intros x.
  - split; [intros []|]. intros (k & Hk & Hx). rewrite Forall_forall in H. rewrite <- (H k Hk) in Hx. destruct Hx.
  - cbn [In]. rewrite IH. split.
    + intros [->|(k & Hk & Hx)].
      * exists (x :: r). split; [apply in_or_app; right; left; reflexivity|left; reflexivity].
      * apply in_app_or in Hk. destruct Hk as [Hk|[<-|Hk]].
        -- exists k. split; [apply in_or_app; left; exact Hk|exact Hx].
        -- exists (a :: r). split; [apply in_or_app; right; left; reflexivity|right; exact Hx].
        -- exists k. split; [apply in_or_app; right; right; exact Hk|exact Hx].
    + intros (k & Hk & Hx). apply in_app_or in Hk. destruct Hk as [Hk|[<-|Hk]].
      * right. exists k. split; [apply in_or_app; left; exact Hk|exact Hx].
      * destruct Hx as [->|Hx]; [left; reflexivity|]. right. exists r. split; [apply in_or_app; right; left; reflexivity|exact Hx].
      * right. exists k. split; [apply in_or_app; right; right; exact Hk|exact Hx].
Qed.
Lemma shuffle_pairs : forall A (P : A -> A -> Prop) ls l, shuffle ls l -> (forall k, In k ls -> pairs P k) ->
  pairs (fun k k' => forall x y, In x k -> In y k' -> P x y /\ P y x) ls -> pairs P l.
Proof.
  intros A P ls l H. induction H as [ls H|l1 a r l2 out H IH]; intros H1 H2; [exact I|].
  cbn [pairs]. assert (Hr : pairs P (a :: r)) by (apply H1; apply in_or_app; right; left; reflexivity).
  apply pairs_app in H2. destruct H2 as (A1 & (A2 & A3) & A4).
  split.
  - intros y Hy. apply (shuffle_In _ _ _ H) in Hy. destruct Hy as (k & Hk & Hy).
    apply in_app_or in Hk. destruct Hk as [Hk|[<-|Hk]].
    + apply (A4 k (a :: r) Hk (or_introl eq_refl) y a Hy (or_introl eq_refl)).
    + apply Hr. exact Hy.
    + apply (A2 k Hk a y (or_introl eq_refl) Hy).
  - apply IH.
    + intros k Hk. apply in_app_or in Hk. destruct Hk as [Hk|[<-|Hk]]; [apply H1; apply in_or_app; left; exact Hk|apply Hr|apply H1; apply in_or_app; right; right; exact Hk].
    + apply pairs_app. split; [exact A1|]. split; [split|].
      * intros k Hk x y Hx Hy. apply (A2 k Hk x y (or_intror Hx) Hy).
      * exact A3.
      * intros k k' Hk [<-|Hk'] x y Hx Hy; [apply (A4 k (a :: r) Hk (or_introl eq_refl) x y Hx (or_intror Hy))|apply (A4 k k' Hk (or_intror Hk') x y Hx Hy)].
Qed.

Lemma thread_In : forall ks l, runs_thread ks l -> forall x, In x l <-> exists k, In k ks /\ k x.
Proof.
  intros ks l H. induction H as [|k ks l r (N & T) H IH]; intros x; [split; [intros []|intros (k & [] & _)]|].
  rewrite in_app_iff, T, IH. split.
  - intros [Hk|(k' & Hk' & Hx)]; [exists k; split; [left; reflexivity|exact Hk]|exists k'; split; [right; exact Hk'|exact Hx]].
  - intros (k' & [->|Hk'] & Hx); [left; exact Hx|right; exists k'; split; assumption].
Qed.
Section Pairs.
  (* bad y x: [y] must not come after [x] (nor be [x]) *)
  Variable bad : inst -> inst -> Prop.
  Notation ok := (fun x y => ~ bad y x).
  Definition sep (k k' : inst -> Prop) : Prop := forall x y, k x -> k' y -> ~ bad y x.
  (* inside one task only the instance itself may be bad *)
  Definition task_ok (k : inst -> Prop) : Prop := forall x y, k x -> k y -> bad y x -> x = y.

  Lemma task_pairs : forall k l, task_ok k -> runs_task k l -> pairs ok l.
  Proof.
    intros k l T (N & H). revert H N. assert (G : forall l', NoDup l' -> (forall x, In x l' -> k x) -> pairs ok l').
    { induction l' as [|a l' IH]; intros N Hk; [exact I|]. inversion N as [|? ? Na Nl]; subst. split.
      - intros y Hy B. apply Na. rewrite (T a y); [exact Hy|apply Hk; left; reflexivity|apply Hk; right; exact Hy|exact B].
      - apply IH; [exact Nl|intros; apply Hk; right; assumption]. }
    intros H N. apply G; [exact N|]. intros x Hx. apply H. exact Hx.
  Qed.
  Lemma thread_pairs : forall ks l, runs_thread ks l -> (forall k, In k ks -> task_ok k) -> pairs sep ks -> pairs ok l.
  Proof.
    intros ks l H. induction H as [|k ks l r T H IH]; intros H1 H2; [exact I|]. destruct H2 as (H2 & H3).
    apply pairs_app. split; [eapply task_pairs; [apply H1; left; reflexivity|exact T]|].
    split; [apply IH; [intros; apply H1; right; assumption|exact H3]|].
    intros x y Hx Hy. apply (thread_In _ _ H) in Hy. destruct Hy as (k' & Hk' & Hy). apply (H2 k' Hk' x y); [apply T; exact Hx|exact Hy].
  Qed.
  Definition region_ok (g : list (list (inst -> Prop))) : Prop :=
    (forall t k, In t g -> In k t -> task_ok k) /\ (forall t, In t g -> pairs sep t) /\
    pairs (fun t t' => forall k k', In k t -> In k' t' -> sep k k' /\ sep k' k) g.
  Lemma region_In : forall g l, runs_region g l -> forall x, In x l <-> exists t k, In t g /\ In k t /\ k x.
  Proof.
    intros g l (ls & F & S) x. rewrite (shuffle_In _ _ _ S). split.
    - intros (k & Hk & Hx). clear S. induction F as [|t l0 g ls T F IH]; [destruct Hk|]. destruct Hk as [->|Hk].
      + apply (thread_In _ _ T) in Hx. destruct Hx as (k' & Hk' & Hx). exists t, k'. split; [left; reflexivity|split; assumption].
      + destruct (IH Hk) as (t' & k' & H1 & H2). exists t', k'. split; [right; exact H1|exact H2].
    - intros (t & k & Ht & Hk & Hx). clear S. induction F as [|t' l0 g ls T F IH]; [destruct Ht|]. destruct Ht as [->|Ht].
      + exists l0. split; [left; reflexivity|]. apply (thread_In _ _ T). exists k. split; assumption.
      + destruct (IH Ht) as (l1 & H1 & H2). exists l1. split; [right; exact H1|exact H2].
  Qed.
  Lemma region_pairs : forall g l, runs_region g l -> region_ok g -> pairs ok l.
  Proof.
    intros g l (ls & F & S) (H1 & H2 & H3). apply (shuffle_pairs _ _ _ _ S).
    - intros k Hk. clear S H3. induction F as [|t l0 g ls T F IH]; [destruct Hk|]. destruct Hk as [->|Hk].
      + apply (thread_pairs _ _ T); [intros; eapply H1; [left; reflexivity|assumption]|apply H2; left; reflexivity].
      + apply IH; [intros; eapply H1; [right; eassumption|assumption]|intros; apply H2; right; assumption|exact Hk].
    - clear S H1 H2. induction F as [|t l0 g ls T F IH]; [exact I|]. destruct H3 as (H3 & H4). split; [|apply IH; exact H4].
      intros k Hk x y Hx Hy. apply (thread_In _ _ T) in Hx. destruct Hx as (kx & Hkx & Hx).
      assert (G : exists t' k', In t' g /\ In k' t' /\ k' y).
      { clear -F Hk Hy. induction F as [|t' l0 g ls T F IH]; [destruct Hk|]. destruct Hk as [->|Hk].
        - apply (thread_In _ _ T) in Hy. destruct Hy as (k' & A & B). exists t', k'. split; [left; reflexivity|split; assumption].
        - destruct (IH Hk) as (t2 & k2 & A & B). exists t2, k2. split; [right; exact A|exact B]. }
      destruct G as (t' & k' & A & B & Cy). destruct (H3 t' A kx k' Hkx B) as (S1 & S2).
      split; [apply S1; assumption|apply S2; assumption].
  Qed.
  Definition reg_before (g g' : list (list (inst -> Prop))) : Prop :=
    forall t k t' k', In t g -> In k t -> In t' g' -> In k' t' -> sep k k'.
  Lemma regions_In : forall gs l, runs_regions gs l -> forall x, In x l <-> exists g t k, In g gs /\ In t g /\ In k t /\ k x.
  Proof.
    intros gs l H. induction H as [|g gs l r G H IH]; intros x; [split; [intros []|intros (g & t & k & [] & _)]|].
    rewrite in_app_iff, (region_In _ _ G), IH. split.
    - intros [(t & k & A)|(g' & t & k & A & B)]; [exists g, t, k; split; [left; reflexivity|exact A]|exists g', t, k; split; [right; exact A|exact B]].
    - intros (g' & t & k & [->|A] & B); [left; exists t, k; exact B|right; exists g', t, k; split; assumption].
  Qed.
  Theorem regions_pairs : forall gs l, runs_regions gs l -> (forall g, In g gs -> region_ok g) -> pairs reg_before gs -> pairs ok l.
  Proof.
    intros gs l H. induction H as [|g gs l r G H IH]; intros H1 H2; [exact I|]. destruct H2 as (H2 & H3).
    apply pairs_app. split; [apply (region_pairs _ _ G); apply H1; left; reflexivity|].
    split; [apply IH; [intros; apply H1; right; assumption|exact H3]|].
    intros x y Hx Hy. apply (region_In _ _ G) in Hx. destruct Hx as (t & k & A1 & A2 & A3).
    apply (regions_In _ _ H) in Hy. destruct Hy as (g' & t' & k' & B1 & B2 & B3 & B4).
    exact (H2 g' B1 t k t' k' A1 A2 B2 B3 x y A3 B4).
  Qed.
End Pairs.

(* Everything together: an interleaving in which no instance comes after one that depends on it. *)
Section Final.
  Context {V : Type} (alloc : Z -> Z) (st : stencil V) (dir : Z).
  Hypothesis Hdir : dir = 1 \/ dir = -1.
  Lemma step_order_total : forall a b, step_order dir a b \/ step_order dir b a \/ (i_t a = i_t b /\ i_s a = i_s b).
  Proof. intros a b. unfold step_order. destruct Hdir; subst; lia. Qed.
  Theorem order_exec : forall (bad : inst -> inst -> Prop) r l m, NoDup r -> Permutation r l -> plain_run dir r ->
    pairs (fun x y => ~ bad y x) l ->
    (forall a b, In a r -> In b r -> a <> b -> i_t a = i_t b -> i_s a = i_s b -> ~ conflict alloc st a b) ->
    (forall a b, In a r -> In b r -> step_order dir a b -> conflict alloc st a b -> bad a b) ->
    forall c, exec alloc st l m c = exec alloc st r m c.
  Proof.
    intros bad r l m N P R B S C. apply exec_conflict_order; [exact N|exact P|]. intros a b Bab Q.
    destruct (before_In _ _ _ _ Bab) as (Ia & Ib).
    assert (Nab : a <> b) by (intros ->; exact (before_asym _ _ _ _ N Bab Bab)).
    assert (Ja : In a l) by (eapply Permutation_in; eassumption). assert (Jb : In b l) by (eapply Permutation_in; eassumption).
    destruct (before_total _ l a b Ja Jb Nab) as [H|H]; [exact H|]. exfalso.
    destruct (step_order_total a b) as [O|[O|(O1 & O2)]].
    - exact (pairs_before _ _ _ _ _ B H (C a b Ia Ib O Q)).
    - exact (before_asym _ _ _ _ N Bab (R b a Ib Ia O)).
    - exact (S a b Ia Ib Nab O1 O2 Q).
  Qed.
End Final.
