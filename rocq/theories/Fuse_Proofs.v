(* Proofs about merged vars. *)
From Coq Require Import Lia.
From Verif Require Import Base Resize_Model Resize_Spec Resize_Proofs Fuse_Model Fuse_Spec.
Open Scope Z_scope.

Lemma upd_nth_length : forall A (f : A -> A) l n, length (upd_nth n f l) = length l.
Proof. induction l as [|a l IH]; intros [|n]; cbn; congruence. Qed.

Lemma upd_nth_same : forall A (f : A -> A) l n x, nth_error l n = Some x -> nth_error (upd_nth n f l) n = Some (f x).
Proof. induction l as [|a l IH]; intros [|n] x E; cbn in *; try discriminate; [congruence|auto]. Qed.

Lemma upd_nth_other : forall A (f : A -> A) l n k, n <> k -> nth_error (upd_nth n f l) k = nth_error l k.
Proof. induction l as [|a l IH]; intros [|n] [|k] N; cbn; auto; congruence. Qed.

(* handles and what they refer to *)
Lemma put_ref : forall m h b, m_ref (put_base m h b) = m_ref m.
Proof. intros m h b. unfold put_base. destruct (nth_error (m_ref m) h); reflexivity. Qed.

Lemma put_same : forall m h k b b0, nth_error (m_ref m) h = nth_error (m_ref m) k -> base_of m k = Some b0 ->
  base_of (put_base m h b) k = Some b.
Proof.
  intros m h k b b0 E K. unfold base_of in *. rewrite put_ref. unfold put_base. rewrite E.
  destruct (nth_error (m_ref m) k) as [i|]; [|discriminate]. cbn [m_bases].
  rewrite (upd_nth_same _ _ _ _ _ K). reflexivity.
Qed.

Lemma put_other : forall m h k b, nth_error (m_ref m) h <> nth_error (m_ref m) k ->
  base_of (put_base m h b) k = base_of m k.
Proof.
  intros m h k b N. unfold base_of. rewrite put_ref. unfold put_base.
  destruct (nth_error (m_ref m) h) as [i|] eqn:Eh; [|reflexivity].
  destruct (nth_error (m_ref m) k) as [j|] eqn:Ek; [|reflexivity]. cbn [m_bases].
  rewrite upd_nth_other by congruence. reflexivity.
Qed.

Lemma opt_nat_dec : forall a b : option nat, a = b \/ a <> b.
Proof. intros [a|] [b|]; try (left; reflexivity); try (right; discriminate). destruct (Nat.eq_dec a b); [left|right]; congruence. Qed.

Lemma put_bases : forall (P : base -> Prop) m h b, Forall P (m_bases m) -> P b -> Forall P (m_bases (put_base m h b)).
Proof.
  intros P m h b F B. unfold put_base. destruct (nth_error (m_ref m) h) as [i|]; [|assumption].
  cbn [m_bases]. apply Forall_upd_nth; auto.
Qed.

Lemma base_in : forall m h b, base_of m h = Some b -> In b (m_bases m).
Proof.
  intros m h b E. unfold base_of in E. destruct (nth_error (m_ref m) h); [|discriminate].
  apply (nth_error_In _ _ E).
Qed.

(* is_storage_layout_identical() *)
Lemma dims_identical_false : forall n1 n2 d1 d2, length n1 = length n2 -> length n1 = length d1 -> length n2 = length d2 ->
  dims_identical false n1 n2 d1 d2 = true <-> n1 = n2 /\ map r_vvl d1 = map r_vvl d2.
Proof.
  induction n1 as [|a n1 IH]; intros [|b n2] [|x d1] [|y d2] L1 L2 L3; try discriminate; cbn.
  - tauto.
  - cbn in *. rewrite andb_true_r, !andb_true_iff, !Z.eqb_eq, IH by lia.
    split; [intros ((-> & ->) & -> & ->); auto|intros (E1 & E2); injection E1 as -> ->; injection E2 as -> ->; auto].
Qed.

Lemma compatible_dec : forall b o, shaped b -> shaped o -> layout_identical false b o = true <-> compatible b o.
Proof.
  intros b o (L1 & _) (L2 & _). unfold layout_identical, compatible. cbn [andb].
  destruct (Nat.eqb_spec (length (b_dn b)) (length (b_dn o))) as [L|L]; cbn [negb].
  - apply dims_identical_false; assumption.
  - split; [discriminate|]. intros (E & _). rewrite E in L. congruence.
Qed.

Definition alloc_dim (d : rdim) : Prop :=
  r_alloc d = r_lpad d + r_dom d + r_rpad d /\ (r_domain d = false -> r_lpad d = 0 /\ r_rpad d = 0).

Lemma dims_identical_true : forall n1 n2 d1 d2, length n1 = length n2 -> length n1 = length d1 -> length n2 = length d2 ->
  Forall alloc_dim d1 -> Forall alloc_dim d2 ->
  (forall i x y, nth_error d1 i = Some x -> nth_error d2 i = Some y -> nth_error n1 i = nth_error n2 i -> r_domain x = r_domain y) ->
  dims_identical true n1 n2 d1 d2 = true <->
  (n1 = n2 /\ map r_vvl d1 = map r_vvl d2) /\
  Forall2 (fun x y => r_alloc x = r_alloc y /\
    (r_domain x = true -> r_dom x = r_dom y /\ r_lpad x = r_lpad y /\ r_rpad x = r_rpad y)) d1 d2.
Proof.
  induction n1 as [|a n1 IH]; intros [|b n2] [|x d1] [|y d2] L1 L2 L3 A1 A2 K; try discriminate; cbn.
  - split; [intros _; split; auto|auto].
  - cbn in *. inversion A1 as [|? ? (X1 & X2) F1]; inversion A2 as [|? ? (Y1 & Y2) F2]; subst.
    rewrite !andb_true_iff, !Z.eqb_eq, IH; try lia; try assumption.
    2:{ intros i. apply (K (S i)). }
    split.
    + intros (((-> & ->) & (E1 & E2) & E3) & (-> & ->) & F). split; [auto|]. constructor; [|assumption].
      split; [lia|]. auto.
    + intros ((E1 & E2) & F). injection E1 as -> ->. injection E2 as -> ->. inversion F as [|? ? ? ? (G1 & G2) F']; subst.
      specialize (K O x y eq_refl eq_refl eq_refl).
      split; [split; [auto|]|auto].
      destruct (r_domain x) eqn:D.
      * destruct (G2 eq_refl) as (-> & -> & ->). auto.
      * destruct (X2 eq_refl) as (-> & ->). destruct (Y2 (eq_sym K)) as (-> & ->).
        destruct (X2 eq_refl), (Y2 (eq_sym K)). split; [split|]; lia.
Qed.

Lemma alloc_same : forall b o, same_sizes b o -> num_elems b = num_elems o.
Proof.
  intros b o H. unfold num_elems. f_equal. unfold same_sizes in H. induction H as [|x y ? ? (E & _) _ IH]; cbn; congruence.
Qed.

Theorem layout_ok : forall b o, shaped b -> shaped o -> allocated b -> allocated o -> kinds_agree b o ->
  layout_identical true b o = true <-> compatible b o /\ same_sizes b o.
Proof.
  intros b o (L1 & _) (L2 & _) A1 A2 K. unfold layout_identical. cbn [andb].
  destruct (Z.eqb_spec (num_elems b) (num_elems o)) as [E|E]; cbn [negb].
  - destruct (Nat.eqb_spec (length (b_dn b)) (length (b_dn o))) as [L|L]; cbn [negb].
    + apply dims_identical_true; assumption.
    + split; [discriminate|]. intros ((E' & _) & _). rewrite E' in L. congruence.
  - split; [discriminate|]. intros (_ & H). apply alloc_same in H. congruence.
Qed.

(* fuse_vars() *)
Lemma fuse_user : forall m this src b sb, base_of m this = Some b -> base_of m src = Some sb -> shaped b -> shaped sb ->
  b_user b = true ->
  (~ compatible b sb -> fuse_vars m this src = Throw) /\
  (compatible b sb -> exists m', fuse_vars m this src = Ok m' /\
     base_of m' this = Some (not_user sb) /\ base_of m' src = Some (not_user sb) /\
     forall h, h <> this -> nth_error (m_ref m') h = nth_error (m_ref m) h).
Proof.
  intros m this src b sb Eb Es Wb Ws U. pose proof Es as Es'. unfold base_of in Es'.
  destruct (nth_error (m_ref m) src) as [j|] eqn:Ej; [|discriminate].
  unfold fuse_vars. rewrite Eb, Es, Ej, U. split; intros C.
  - destruct (layout_identical false b sb) eqn:E; [|reflexivity]. apply compatible_dec in E; tauto.
  - rewrite (proj2 (compatible_dec b sb Wb Ws) C). eexists. split; [reflexivity|].
    set (m' := mkM _ _).
    assert (Rt : nth_error (m_ref m') this = Some j).
    { unfold base_of in Eb. destruct (nth_error (m_ref m) this) eqn:Et; [|discriminate].
      cbn. rewrite (upd_nth_same _ _ _ _ _ Et). reflexivity. }
    assert (Rs : nth_error (m_ref m') src = Some j).
    { cbn. destruct (Nat.eq_dec this src) as [<-|N]; [exact Rt|]. rewrite upd_nth_other by assumption. exact Ej. }
    assert (Bt : base_of m' this = Some sb) by (unfold base_of; rewrite Rt; exact Es').
    assert (Bs : base_of m' src = Some sb) by (unfold base_of; rewrite Rs; exact Es').
    repeat split.
    + apply (put_same _ _ _ _ sb); [reflexivity|assumption].
    + apply (put_same _ _ _ _ sb); [congruence|assumption].
    + intros h N. rewrite put_ref. cbn. apply upd_nth_other. congruence.
Qed.

Lemma fuse_ref : forall m this src m', fuse_vars m this src = Ok m' ->
  exists j, nth_error (m_ref m) src = Some j /\ nth_error (m_ref m') this = Some j /\ nth_error (m_ref m') src = Some j /\
    (forall h, h <> this -> nth_error (m_ref m') h = nth_error (m_ref m) h) /\
    exists sb, base_of m src = Some sb /\
      (m_bases m' = m_bases m \/
       (m_bases m' = upd_nth j (fun _ => not_user sb) (m_bases m) /\ exists b, base_of m this = Some b /\ b_user b = true)) /\
      (exists b, base_of m this = Some b).
Proof.
  intros m this src m' H. unfold fuse_vars in H.
  destruct (base_of m this) as [b|] eqn:Eb; [|discriminate].
  destruct (base_of m src) as [sb|] eqn:Es; [|discriminate].
  destruct (nth_error (m_ref m) src) as [j|] eqn:Ej; [|discriminate].
  exists j. split; [reflexivity|].
  assert (Rt : nth_error (upd_nth this (fun _ => j) (m_ref m)) this = Some j).
  { unfold base_of in Eb. destruct (nth_error (m_ref m) this) eqn:Et; [|discriminate].
    rewrite (upd_nth_same _ _ _ _ _ Et). reflexivity. }
  assert (Rs : nth_error (upd_nth this (fun _ => j) (m_ref m)) src = Some j).
  { destruct (Nat.eq_dec this src) as [<-|N]; [exact Rt|]. rewrite upd_nth_other by assumption. exact Ej. }
  assert (Ro : forall h, h <> this -> nth_error (upd_nth this (fun _ => j) (m_ref m)) h = nth_error (m_ref m) h).
  { intros h N. apply upd_nth_other. congruence. }
  destruct (b_user b) eqn:U.
  - destruct (layout_identical false b sb); [|discriminate]. injection H as <-. rewrite put_ref. cbn [m_ref].
    repeat split; auto. exists sb. split; [reflexivity|]. split; [|eauto]. right. split; [|exists b; auto].
    unfold put_base. cbn [m_ref]. rewrite Rt. reflexivity.
  - injection H as <-. cbn [m_ref m_bases]. repeat split; auto. exists sb. split; [reflexivity|]. split; [auto|eauto].
Qed.

(* what a call does to the references *)
Lemma call_ref : forall m h c, (forall src, c <> CFuse src) -> m_ref (snd (run_call m h c)) = m_ref m.
Proof.
  intros m h c N. unfold run_call. destruct (base_of m h) as [b|]; [|reflexivity].
  destruct c as [p s|i| |a x|n|src]; cbn; rewrite ?put_ref; try reflexivity.
  - destruct (resize _); cbn; apply put_ref.
  - exfalso. apply (N src). reflexivity.
Qed.

Lemma call_keeps : forall m p h k, keeps h k p -> nth_error (m_ref m) h = nth_error (m_ref m) k ->
  nth_error (m_ref (snd (run_call m (fst p) (snd p)))) h = nth_error (m_ref (snd (run_call m (fst p) (snd p)))) k.
Proof.
  intros m [g c] h k K E. cbn [fst snd] in *.
  assert (D : (forall src, c <> CFuse src) \/ exists src, c = CFuse src) by (destruct c; eauto; left; discriminate).
  destruct D as [N|(src & ->)].
  - rewrite call_ref by assumption. assumption.
  - cbn in K. unfold run_call. destruct (base_of m g); [|assumption].
    destruct (fuse_vars m g src) as [m'| | |] eqn:F; try assumption.
    apply fuse_ref in F. destruct F as (j & _ & _ & _ & Ro & _). cbn [snd]. rewrite !Ro by intuition congruence. assumption.
Qed.

Lemma call_some : forall m g c h b, base_of m h = Some b -> exists b', base_of (snd (run_call m g c)) h = Some b'.
Proof.
  intros m g c h b E.
  assert (P : forall b', exists b'', base_of (put_base m g b') h = Some b'').
  { intros b'. destruct (opt_nat_dec (nth_error (m_ref m) g) (nth_error (m_ref m) h)) as [R|R].
    - exists b'. apply (put_same _ _ _ _ b); assumption.
    - exists b. rewrite put_other by assumption. assumption. }
  unfold run_call. destruct (base_of m g) as [gb|] eqn:Eg; [|eauto].
  destruct c as [p s|i| |a x|n|src]; cbn [snd]; try apply P.
  - cbn [run_rop]. destruct (resize _); cbn; apply P.
  - destruct (fuse_vars m g src) as [m'| | |] eqn:F; cbn [snd]; eauto.
    apply fuse_ref in F. destruct F as (j & R1 & R2 & R3 & Ro & sb & S1 & S2 & _).
    assert (L : forall i, (exists b0, nth_error (m_bases m) i = Some b0) -> exists b0, nth_error (m_bases m') i = Some b0).
    { intros i (b0 & B0). destruct S2 as [->|(-> & _)]; [eauto|].
      destruct (Nat.eq_dec j i) as [<-|N].
      - rewrite (upd_nth_same _ _ _ _ _ B0). eauto.
      - rewrite upd_nth_other by assumption. eauto. }
    unfold base_of in *. destruct (Nat.eq_dec h g) as [->|N].
    + rewrite R2. apply L. rewrite R1 in S1. eauto.
    + rewrite Ro by assumption. destruct (nth_error (m_ref m) h); [|discriminate]. apply L. eauto.
Qed.

Theorem fused_alias : forall m this src m' l, fuse_vars m this src = Ok m' -> Forall (keeps this src) l ->
  same_var (run_calls m' l) this src.
Proof.
  intros m this src m' l F K. unfold same_var.
  assert (R : nth_error (m_ref m') this = nth_error (m_ref m') src /\ exists b, base_of m' this = Some b).
  { apply fuse_ref in F. destruct F as (j & R1 & R2 & R3 & Ro & sb & S1 & S2 & _). split; [congruence|].
    unfold base_of in *. rewrite R2. rewrite R1 in S1. destruct S2 as [->|(-> & _)]; [eauto|].
    rewrite (upd_nth_same _ _ _ _ _ S1). eauto. }
  clear F. revert m' R. induction K as [|p l Kp _ IH]; intros m' (R & b & B); cbn [run_calls fold_left].
  - split; [|congruence]. unfold base_of. rewrite R. reflexivity.
  - apply IH. split; [apply call_keeps; assumption|]. eapply call_some. eassumption.
Qed.

(* which bases are user vars, through any calls *)
Lemma call_user : forall x m p, solution_ok x m -> solution_sources x m [p] -> Forall shaped (m_bases m) ->
  solution_ok x (snd (run_call m (fst p) (snd p))).
Proof.
  intros x m [g c] (O & A & W & U) (Sc & _) _. cbn [fst snd] in *.
  split; [assumption|]. split.
  { intros h Hh. destruct (A h Hh) as (b & B). eapply call_some. eassumption. }
  assert (P : forall b b', base_of m g = Some b -> shaped b' -> b_user b' = b_user b ->
    Forall shaped (m_bases (put_base m g b')) /\
    (forall h b0, In h (x_orig x) -> base_of (put_base m g b') h = Some b0 -> b_user b0 = false)).
  { intros b b' Eb Wb Ub. split; [apply put_bases; assumption|].
    intros h b0 Hh E. destruct (opt_nat_dec (nth_error (m_ref m) g) (nth_error (m_ref m) h)) as [R|R].
    - assert (E2 : base_of m h = Some b) by (unfold base_of in *; rewrite <- R; assumption).
      rewrite (put_same _ _ _ _ b R E2) in E. injection E as <-. rewrite Ub. apply (U h); assumption.
    - rewrite put_other in E by assumption. apply (U h); assumption. }
  unfold run_call. destruct (base_of m g) as [b|] eqn:Eb; [|auto].
  assert (Wb : shaped b) by (apply (proj1 (Forall_forall _ _) W); apply (base_in _ _ _ Eb)).
  assert (Wv : forall v, length (rv_dims v) = length (dims_of b) -> shaped (with_var b v)).
  { intros v L. destruct Wb as (W1 & W2 & W3 & W4). unfold shaped, with_var. cbn. rewrite L. auto. }
  destruct c as [p s|i| |a v|n|src]; cbn [run_rop fst snd].
  - destruct (resize _) as [v| | |] eqn:E; cbn [snd]; apply (P b); try assumption; try reflexivity; apply Wv; cbn.
    + unfold resize in E. destruct (existsb _ _); [discriminate|]. cbv zeta in E. destruct (_ && _); [discriminate|].
      injection E as <-. cbn. rewrite map_length. apply upd_nth_length.
    + apply upd_nth_length.
    + apply upd_nth_length.
    + apply upd_nth_length.
  - apply (P b); try assumption; reflexivity.
  - apply (P b); try assumption; reflexivity.
  - apply (P b); try assumption; reflexivity.
  - apply (P b); try assumption; reflexivity.
  - destruct (fuse_vars m g src) as [m'| | |] eqn:F; cbn [snd]; auto.
    apply fuse_ref in F. destruct F as (j & R1 & R2 & R3 & Ro & sb & S1 & S2 & _).
    assert (Wsb : shaped sb) by (apply (proj1 (Forall_forall _ _) W); apply (base_in _ _ _ S1)).
    split.
    { destruct S2 as [->|(-> & _)]; [assumption|]. apply Forall_upd_nth; [assumption|]. intros _ _. exact Wsb. }
    intros h b0 Hh E.
    assert (N : forall i b1, nth_error (m_bases m') i = Some b1 ->
      nth_error (m_bases m) i = Some b1 \/ b_user b1 = false).
    { intros i b1 B1. destruct S2 as [S2|(S2 & _)]; [rewrite S2 in B1; auto|]. rewrite S2 in B1.
      destruct (Nat.eq_dec j i) as [<-|Nj].
      - unfold base_of in S1. rewrite R1 in S1. rewrite (upd_nth_same _ _ _ _ _ S1) in B1. injection B1 as <-. auto.
      - rewrite upd_nth_other in B1 by assumption. auto. }
    unfold base_of in E. destruct (nth_error (m_ref m') h) as [i|] eqn:Ei; [|discriminate].
    destruct (N i b0 E) as [B|B]; [|assumption].
    destruct (Nat.eq_dec h g) as [->|Nh].
    + rewrite R2 in Ei. injection Ei as <-. apply (Sc Hh). unfold base_of. rewrite R1. assumption.
    + apply (U h b0 Hh). unfold base_of. rewrite <- Ro, Ei by assumption. assumption.
Qed.

Lemma calls_user : forall x l m, solution_ok x m -> solution_sources x m l -> solution_ok x (run_calls m l).
Proof.
  intros x l. induction l as [|p l IH]; intros m H Hs; cbn [run_calls fold_left]; [assumption|].
  cbn [solution_sources] in Hs. destruct Hs as (H1 & H2). apply IH; [|assumption].
  apply call_user; [assumption|cbn [solution_sources]; auto|apply H].
Qed.
