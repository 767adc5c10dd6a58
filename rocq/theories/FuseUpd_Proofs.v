(* Proofs about sizing vars and finding the largest halos. *)
From Coq Require Import Lia.
From Verif Require Import Base Resize_Model Resize_Spec Resize_Proofs Fuse_Model Fuse_Spec Fuse_Proofs.
Open Scope Z_scope.

Lemma posn_of_some : forall n l i, posn_of n l = Some i -> nth_error l i = Some n.
Proof.
  induction l as [|a l IH]; intros i; cbn; [discriminate|]. destruct (Z.eqb_spec a n) as [->|N].
  - intros E. injection E as <-. reflexivity.
  - destruct (posn_of n l) as [j|]; [|discriminate]. cbn. intros E. injection E as <-. cbn. apply IH. reflexivity.
Qed.

Lemma posn_of_none : forall n l, posn_of n l = None -> ~ In n l.
Proof.
  induction l as [|a l IH]; cbn; [tauto|]. destruct (Z.eqb_spec a n) as [->|N]; [discriminate|].
  destruct (posn_of n l); [discriminate|]. intros _ [E|E]; [congruence|]. apply IH; auto.
Qed.

Lemma nodup_nth : forall A (l : list A) i j x, NoDup l -> nth_error l i = Some x -> nth_error l j = Some x -> i = j.
Proof.
  intros A l i j x N E1 E2. apply (proj1 (NoDup_nth_error l) N); [apply nth_error_Some; congruence|congruence].
Qed.

(* what all setters of the library keep *)
Definition kept (b b' : base) : Prop :=
  b_name b' = b_name b /\ b_dn b' = b_dn b /\ b_user b' = b_user b /\ b_fixed b' = b_fixed b /\ b_l1 b' = b_l1 b /\
  b_data b' = b_data b /\ length (b_rofs b') = length (b_rofs b) /\ length (b_lofs b') = length (b_lofs b) /\
  map (fun d => (r_lh d, r_rh d)) (dims_of b') = map (fun d => (r_lh d, r_rh d)) (dims_of b).

Lemma kept_refl : forall b, kept b b.
Proof. intros b. repeat split; reflexivity. Qed.

Lemma kept_trans : forall a b c, kept a b -> kept b c -> kept a c.
Proof. intros a b c (A1&A2&A3&A4&A5&A6&A7&A8&A9) (B1&B2&B3&B4&B5&B6&B7&B8&B9). repeat split; congruence. Qed.

Lemma kept_len : forall b b', kept b b' -> length (dims_of b') = length (dims_of b).
Proof. intros b b' (_&_&_&_&_&_&_&_&H). apply (f_equal (@length _)) in H. rewrite !map_length in H. exact H. Qed.

Lemma kept_shaped : forall b b', kept b b' -> shaped b -> shaped b'.
Proof.
  intros b b' K (W1 & W2 & W3 & W4). pose proof (kept_len _ _ K) as L.
  destruct K as (_&E2&_&_&_&_&E7&E8&_). unfold shaped. rewrite E2, E7, E8, L. auto.
Qed.

(* one setter *)
Definition dom_setting (s : setting) : bool := match s with SDomain _ => true | _ => false end.
Definition halo_setting (s : setting) : bool := match s with SHalo _ _ => true | _ => false end.

Lemma set_dim_inv : forall posn s b b', set_dim posn s b = Ok b' ->
  exists np st di, b' = with_var b (mkRV (map (fun d => set_pads d (np d)) (upd_nth posn (edit_dim s) (dims_of b))) st
    (rv_addl (b_var b)) (rv_vlen_gt1 (b_var b)) di).
Proof.
  intros posn s b b' H. unfold set_dim in H. cbn [run_rop] in H. destruct (resize _) as [v| | |] eqn:E; cbn in H; try discriminate.
  injection H as <-. unfold resize in E. destruct (existsb _ _); [discriminate|]. cbv zeta in E. destruct (_ && _); [discriminate|].
  injection E as <-. cbn. do 3 eexists. reflexivity.
Qed.

Lemma map_upd_nth : forall A B (g : A -> B) f n l, (forall x, g (f x) = g x) -> map g (upd_nth n f l) = map g l.
Proof. intros A B g f n l H. revert n. induction l as [|a l IH]; intros [|n]; cbn; [reflexivity..| |]; f_equal; auto. Qed.

Lemma set_dim_kept : forall posn s b b', halo_setting s = false -> set_dim posn s b = Ok b' ->
  kept b b' /\ b_rofs b' = b_rofs b /\ b_lofs b' = b_lofs b.
Proof.
  intros posn s b b' Hs H. apply set_dim_inv in H. destruct H as (np & st & di & ->). unfold kept, with_var. cbn.
  repeat split. rewrite map_map. cbn. apply map_upd_nth. intros d. destruct s; try reflexivity. discriminate.
Qed.

Lemma set_dim_nth : forall posn s b b' i d', set_dim posn s b = Ok b' -> nth_error (dims_of b') i = Some d' ->
  exists d, nth_error (dims_of b) i = Some d /\
    r_dom d' = r_dom (if Nat.eqb i posn then edit_dim s d else d).
Proof.
  intros posn s b b' i d' H E. apply set_dim_inv in H. destruct H as (np & st & di & ->). cbn in E.
  rewrite nth_error_map in E. destruct (nth_error (upd_nth _ _ _) i) as [e|] eqn:Ee; [|discriminate].
  injection E as <-. destruct (Nat.eqb_spec i posn) as [->|N].
  - destruct (nth_error (dims_of b) posn) as [d|] eqn:Ed.
    + rewrite (upd_nth_same _ _ _ _ _ Ed) in Ee. injection Ee as <-. exists d. auto.
    + apply nth_error_None in Ed. assert (nth_error (upd_nth posn (edit_dim s) (dims_of b)) posn = None).
      { apply nth_error_None. rewrite upd_nth_length. assumption. } congruence.
  - rewrite upd_nth_other in Ee by congruence. exists e. auto.
Qed.

Definition resized (force : bool) (b : base) : bool := negb (b_fixed b) || (negb (b_user b) && force).

Lemma size_var_kept : forall force o posn b b', size_var force o posn b = Ok b' -> kept b b'.
Proof.
  intros force o posn b b' H. unfold size_var in H. destruct (_ || _).
  - destruct (set_dim posn (SDomain _) b) as [b1| | |] eqn:E1; cbn in H; try discriminate.
    destruct (set_dim posn (SExtraUp _ _) b1) as [b2| | |] eqn:E2; cbn in H; try discriminate.
    destruct (set_dim posn (SMinPadUp _ _) b2) as [b3| | |] eqn:E3; cbn in H; try discriminate.
    injection H as <-. apply set_dim_kept in E1, E2, E3; try reflexivity.
    destruct E1 as (K1 & _), E2 as (K2 & _), E3 as (K3 & _).
    apply (kept_trans _ b3); [apply (kept_trans _ b2); [apply (kept_trans _ b1)|]; assumption|].
    unfold kept, with_ofs. cbn. repeat split; apply upd_nth_length.
  - injection H as <-. apply kept_refl.
Qed.

Lemma size_var_nth : forall force o posn b b' i d', resized force b = true -> size_var force o posn b = Ok b' ->
  nth_error (dims_of b') i = Some d' ->
  (i = posn /\ r_dom d' = o_size o) \/ (i <> posn /\ exists d, nth_error (dims_of b) i = Some d /\ r_dom d' = r_dom d).
Proof.
  intros force o posn b b' i d' R H E. unfold size_var in H. fold (resized force b) in H. rewrite R in H.
  destruct (set_dim posn (SDomain _) b) as [b1| | |] eqn:E1; cbn in H; try discriminate.
  destruct (set_dim posn (SExtraUp _ _) b1) as [b2| | |] eqn:E2; cbn in H; try discriminate.
  destruct (set_dim posn (SMinPadUp _ _) b2) as [b3| | |] eqn:E3; cbn in H; try discriminate.
  injection H as <-. unfold with_ofs in E. cbn in E.
  destruct (set_dim_nth _ _ _ _ _ _ E3 E) as (d3 & N3 & R3).
  destruct (set_dim_nth _ _ _ _ _ _ E2 N3) as (d2 & N2 & R2).
  destruct (set_dim_nth _ _ _ _ _ _ E1 N2) as (d1 & N1 & R1).
  destruct (Nat.eqb_spec i posn) as [->|N]; cbn in *; [left; split; [reflexivity|congruence]|right].
  split; [assumption|]. exists d1. split; [assumption|congruence].
Qed.

Lemma size_var_ofs : forall force o posn b b', resized force b = true -> size_var force o posn b = Ok b' ->
  b_rofs b' = upd_nth posn (fun _ => o_rofs o) (b_rofs b) /\ b_lofs b' = upd_nth posn (fun _ => 0) (b_lofs b).
Proof.
  intros force o posn b b' R H. unfold size_var in H. fold (resized force b) in H. rewrite R in H.
  destruct (set_dim posn (SDomain _) b) as [b1| | |] eqn:E1; cbn in H; try discriminate.
  destruct (set_dim posn (SExtraUp _ _) b1) as [b2| | |] eqn:E2; cbn in H; try discriminate.
  destruct (set_dim posn (SMinPadUp _ _) b2) as [b3| | |] eqn:E3; cbn in H; try discriminate.
  injection H as <-. apply set_dim_kept in E1, E2, E3; try reflexivity.
  destruct E1 as (_ & R1 & L1), E2 as (_ & R2 & L2), E3 as (_ & R3 & L3). unfold with_ofs. cbn.
  rewrite R3, R2, R1, L3, L2, L1. auto.
Qed.

Lemma upd_const : forall A (x : A) n l, (n < length l)%nat -> nth_error (upd_nth n (fun _ => x) l) n = Some x.
Proof.
  intros A x n l H. destruct (nth_error l n) eqn:E.
  - apply (upd_nth_same _ _ _ _ _ E).
  - apply nth_error_None in E. lia.
Qed.

(* a var that is resized gets the sizes of the rank *)
Lemma size_var_sized : forall force o posn b b', shaped b -> posn_of (o_name o) (b_dn b) = Some posn ->
  resized force b = true -> size_var force o posn b = Ok b' -> sized_as o b'.
Proof.
  intros force o posn b b' W P R H i d E1 E2. pose proof (size_var_kept _ _ _ _ _ H) as K.
  destruct W as (W1 & W2 & W3 & W4).
  assert (i = posn).
  { destruct K as (_ & K2 & _). rewrite K2 in E1. apply (nodup_nth _ (b_dn b) _ _ (o_name o)); try assumption.
    apply posn_of_some. assumption. }
  subst i. destruct (size_var_nth _ _ _ _ _ _ _ R H E2) as [(_ & D)|(N & _)]; [|congruence].
  destruct (size_var_ofs _ _ _ _ _ R H) as (O1 & O2).
  assert (L : (posn < length (dims_of b))%nat).
  { rewrite <- (kept_len _ _ K). apply nth_error_Some. congruence. }
  split; [assumption|]. rewrite O1, O2. split; apply upd_const; lia.
Qed.

(* and keeps those of other dims *)
Lemma size_var_keeps : forall force o o' posn b b', shaped b -> posn_of (o_name o') (b_dn b) = Some posn ->
  (o' = o \/ o_name o' <> o_name o) -> sized_as o b -> size_var force o' posn b = Ok b' -> sized_as o b'.
Proof.
  intros force o o' posn b b' W P C Z H. destruct (resized force b) eqn:R.
  - destruct C as [->|N]; [apply (size_var_sized force o posn b); assumption|].
    intros i d E1 E2. pose proof (size_var_kept _ _ _ _ _ H) as K. destruct K as (_ & K2 & _). rewrite K2 in E1.
    assert (Hi : i <> posn).
    { intros ->. apply posn_of_some in P. congruence. }
    destruct (size_var_nth _ _ _ _ _ _ _ R H E2) as [(E & _)|(_ & d0 & D1 & D2)]; [congruence|].
    destruct (Z i d0 E1 D1) as (Z1 & Z2 & Z3). destruct (size_var_ofs _ _ _ _ _ R H) as (O1 & O2).
    rewrite O1, O2, !upd_nth_other by congruence. split; [congruence|auto].
  - unfold size_var in H. fold (resized force b) in H. rewrite R in H. injection H as <-. assumption.
Qed.

Lemma size_var_alone : forall force o posn b, left_alone b -> size_var force o posn b = Ok b.
Proof. intros force o posn b (U & F). unfold size_var. rewrite U, F. reflexivity. Qed.

(* states *)
Definition evolve (m m' : mem) : Prop := m_ref m' = m_ref m /\ Forall2 kept (m_bases m) (m_bases m').

Lemma evolve_refl : forall m, evolve m m.
Proof. intros m. split; [reflexivity|]. induction (m_bases m); constructor; auto using kept_refl. Qed.

Lemma forall2_trans : forall A (R : A -> A -> Prop), (forall a b c, R a b -> R b c -> R a c) ->
  forall l1 l2 l3, Forall2 R l1 l2 -> Forall2 R l2 l3 -> Forall2 R l1 l3.
Proof.
  intros A R T l1 l2 l3 H. revert l3. induction H; intros l3 H3; inversion H3; subst; constructor; eauto.
Qed.

Lemma evolve_trans : forall a b c, evolve a b -> evolve b c -> evolve a c.
Proof.
  intros a b c (R1 & F1) (R2 & F2). split; [congruence|]. apply (forall2_trans _ kept kept_trans _ (m_bases b)); assumption.
Qed.

Lemma forall2_nth : forall A (R : A -> A -> Prop) l l' i x', Forall2 R l l' -> nth_error l' i = Some x' ->
  exists x, nth_error l i = Some x /\ R x x'.
Proof. intros A R l l' i x' F. revert i. induction F; intros [|i] E; cbn in *; try discriminate; [injection E as <-; eauto|eauto]. Qed.

Lemma evolve_base : forall m m' h b', evolve m m' -> base_of m' h = Some b' -> exists b, base_of m h = Some b /\ kept b b'.
Proof.
  intros m m' h b' (R & F) E. unfold base_of in *. rewrite R in E. destruct (nth_error (m_ref m) h); [|discriminate].
  apply (forall2_nth _ _ _ _ _ _ F E).
Qed.

Lemma forall2_upd : forall A (R : A -> A -> Prop) (Rr : forall a, R a a) l i b b', nth_error l i = Some b -> R b b' ->
  Forall2 R l (upd_nth i (fun _ => b') l).
Proof.
  intros A R Rr. induction l as [|a l IH]; intros [|i] b b' E K; cbn in *; try discriminate.
  - injection E as <-. constructor; [assumption|]. clear IH. induction l; constructor; auto.
  - constructor; eauto.
Qed.

Lemma put_evolve : forall m h b b', base_of m h = Some b -> kept b b' -> evolve m (put_base m h b').
Proof.
  intros m h b b' E K. split; [apply put_ref|]. unfold put_base. unfold base_of in E.
  destruct (nth_error (m_ref m) h) as [i|]; [|discriminate]. cbn [m_bases].
  apply (forall2_upd _ kept kept_refl _ _ b); assumption.
Qed.

Lemma evolve_shaped : forall m m', evolve m m' -> Forall shaped (m_bases m) -> Forall shaped (m_bases m').
Proof.
  intros m m' (_ & F) W. induction F; inversion W; subst; constructor; eauto using kept_shaped.
Qed.

Lemma visit_evolve : forall force o m mx h m' mx', visit_var force o (m, mx) h = Ok (m', mx') -> evolve m m' /\ mx <= mx'.
Proof.
  intros force o m mx h m' mx' H. unfold visit_var in H. destruct (base_of m h) as [b|] eqn:E; [|discriminate].
  destruct (posn_of _ _) as [posn|] eqn:P.
  - destruct (size_var force o posn b) as [b'| | |] eqn:Sz; cbn in H; try discriminate. injection H as <- <-.
    split; [apply (put_evolve _ _ b); [assumption|apply (size_var_kept _ _ _ _ _ Sz)]|]. destruct (b_user b'); lia.
  - injection H as <- <-. split; [apply evolve_refl|lia].
Qed.

Lemma halos_kept : forall n mx b b', kept b b' -> halos_within n mx b -> halos_within n mx b'.
Proof.
  intros n mx b b' (_&K2&_&_&_&_&_&_&K9) H i d E1 E2. rewrite K2 in E1.
  pose proof (map_nth_error (fun d => (r_lh d, r_rh d)) i _ E2) as M. rewrite K9, nth_error_map in M.
  destruct (nth_error (dims_of b) i) as [d0|] eqn:E0; [|discriminate]. cbn in M. injection M as M1 M2.
  rewrite <- M1, <- M2. apply (H i d0); assumption.
Qed.

Lemma halos_mono : forall n mx mx' b, mx <= mx' -> halos_within n mx b -> halos_within n mx' b.
Proof. intros n mx mx' b L H i d E1 E2. destruct (H i d E1 E2). lia. Qed.

Lemma visit_halos : forall force o m mx h m' mx' b', Forall shaped (m_bases m) ->
  visit_var force o (m, mx) h = Ok (m', mx') -> base_of m' h = Some b' -> b_user b' = false ->
  halos_within (o_name o) mx' b' /\ (resized force b' = true -> sized_as o b').
Proof.
  intros force o m mx h m' mx' b' W H B U. unfold visit_var in H. destruct (base_of m h) as [b|] eqn:E; [|discriminate].
  assert (Wb : shaped b) by (apply (proj1 (Forall_forall _ _) W); apply (base_in _ _ _ E)).
  destruct (posn_of _ _) as [posn|] eqn:P.
  - destruct (size_var force o posn b) as [b1| | |] eqn:Sz; cbn in H; try discriminate. injection H as <- <-.
    rewrite (put_same _ _ _ _ b eq_refl E) in B. injection B as <-. rewrite U.
    pose proof (size_var_kept _ _ _ _ _ Sz) as K. split.
    + intros i d E1 E2. pose proof (kept_shaped _ _ K Wb) as (_ & N & _).
      assert (i = posn).
      { apply (nodup_nth _ (b_dn b1) _ _ (o_name o)); try assumption.
        destruct K as (_ & -> & _). apply posn_of_some. assumption. }
      subst i. unfold halos_at. rewrite E2. cbn. lia.
    + intros R. apply (size_var_sized force o posn b); try assumption. destruct K as (_&_&K3&K4&_).
      unfold resized in *. rewrite K3, K4 in R. exact R.
  - injection H as <- <-. rewrite E in B. injection B as <-.
    assert (X : forall i, nth_error (b_dn b) i <> Some (o_name o)).
    { intros i Ei. apply (posn_of_none _ _ P). apply (nth_error_In _ _ Ei). }
    split; [intros i d Ei; destruct (X i Ei)|intros _ i d Ei; destruct (X i Ei)].
Qed.

Lemma visit_sized : forall force o o' m mx h m' mx' g b', Forall shaped (m_bases m) ->
  (o' = o \/ o_name o' <> o_name o) -> visit_var force o' (m, mx) h = Ok (m', mx') ->
  (forall b, base_of m g = Some b -> sized_as o b) -> base_of m' g = Some b' -> sized_as o b'.
Proof.
  intros force o o' m mx h m' mx' g b' W C H Z B. unfold visit_var in H. destruct (base_of m h) as [b|] eqn:E; [|discriminate].
  destruct (posn_of _ _) as [posn|] eqn:P.
  - destruct (size_var force o' posn b) as [b1| | |] eqn:Sz; cbn in H; try discriminate. injection H as <- <-.
    destruct (opt_nat_dec (nth_error (m_ref m) h) (nth_error (m_ref m) g)) as [R|R].
    + assert (Eg : base_of m g = Some b) by (unfold base_of in *; rewrite <- R; assumption).
      rewrite (put_same _ _ _ _ b R Eg) in B. injection B as <-.
      apply (size_var_keeps force o o' posn b); try assumption; [|apply Z; assumption].
      apply (proj1 (Forall_forall _ _) W). apply (base_in _ _ _ E).
    + rewrite put_other in B by assumption. apply Z. assumption.
  - injection H as <- <-. apply Z. assumption.
Qed.

Lemma visit_alone : forall force o m mx h m' mx' g b, visit_var force o (m, mx) h = Ok (m', mx') ->
  left_alone b -> base_of m g = Some b -> base_of m' g = Some b.
Proof.
  intros force o m mx h m' mx' g b H A B. unfold visit_var in H. destruct (base_of m h) as [c|] eqn:E; [|discriminate].
  destruct (posn_of _ _) as [posn|] eqn:P.
  - destruct (size_var force o posn c) as [b1| | |] eqn:Sz; cbn in H; try discriminate. injection H as <- <-.
    destruct (opt_nat_dec (nth_error (m_ref m) h) (nth_error (m_ref m) g)) as [R|R].
    + assert (Eg : base_of m g = Some c) by (unfold base_of in *; rewrite <- R; assumption).
      assert (c = b) by congruence. subst c. rewrite size_var_alone in Sz by assumption. injection Sz as <-.
      apply (put_same _ _ _ _ b R Eg).
    + rewrite put_other by assumption. assumption.
  - injection H as <- <-. assumption.
Qed.

(* the loop over the vars *)
Lemma visits : forall force o hs m mx m' mx', Forall shaped (m_bases m) ->
  rfold (visit_var force o) hs (m, mx) = Ok (m', mx') ->
  evolve m m' /\ mx <= mx' /\
  (forall h b', In h hs -> base_of m' h = Some b' -> b_user b' = false ->
     halos_within (o_name o) mx' b' /\ (force = true -> sized_as o b')) /\
  (forall o' g b', o = o' \/ o_name o <> o_name o' -> (forall b, base_of m g = Some b -> sized_as o' b) ->
     base_of m' g = Some b' -> sized_as o' b') /\
  (forall g b, left_alone b -> base_of m g = Some b -> base_of m' g = Some b).
Proof.
  intros force o. induction hs as [|h hs IH]; intros m mx m' mx' W H; cbn [rfold] in H.
  - injection H as <- <-. split; [apply evolve_refl|]. split; [lia|]. split; [intros h b' []|]. split; auto.
  - destruct (visit_var force o (m, mx) h) as [[m1 mx1]| | |] eqn:V; cbn [rbind] in H; try discriminate.
    destruct (visit_evolve _ _ _ _ _ _ _ V) as (Ev & Lm). pose proof (evolve_shaped _ _ Ev W) as W1.
    destruct (IH _ _ _ _ W1 H) as (I1 & I2 & I3 & I4 & I5).
    split; [apply (evolve_trans _ m1); assumption|]. split; [lia|]. split; [|split].
    + intros k b' [<-|Hk] B U; [|apply (I3 k); assumption].
      destruct (evolve_base _ _ _ _ I1 B) as (b1 & B1 & K1).
      assert (U1 : b_user b1 = false) by (destruct K1 as (_&_&<-&_); assumption).
      destruct (visit_halos _ _ _ _ _ _ _ _ W V B1 U1) as (H1 & H2). split.
      * apply (halos_kept _ _ b1); [assumption|]. apply (halos_mono _ mx1); assumption.
      * intros ->. apply (I4 o h); [auto| |assumption]. intros b Eb. assert (b = b1) by congruence. subst b. apply H2.
        unfold resized. rewrite U1. apply orb_true_r.
    + intros o' g b' C Z B. apply (I4 o' g); try assumption. intros b Eb.
      apply (visit_sized force o' o m mx h m1 mx1 g); assumption.
    + intros g b A B. apply I5; [assumption|]. apply (visit_alone _ _ _ _ _ _ _ _ _ V); assumption.
Qed.

Lemma upd_loop : forall force hs os m acc m' mxs, Forall shaped (m_bases m) ->
  rfold (fun s o => rbind (rfold (visit_var force o) hs (fst s, 0)) (fun r => Ok (fst r, snd s ++ [snd r]))) os (m, acc) = Ok (m', mxs) ->
  exists ms, mxs = acc ++ ms /\ length ms = length os /\ evolve m m' /\
  (forall k o h b', nth_error os k = Some o -> In h hs -> base_of m' h = Some b' -> b_user b' = false ->
     0 <= nth k ms 0 /\ halos_within (o_name o) (nth k ms 0) b' /\
     (force = true -> NoDup (map o_name os) -> sized_as o b')) /\
  (forall o' g b', (forall o, In o os -> o_name o <> o_name o') -> (forall b, base_of m g = Some b -> sized_as o' b) ->
     base_of m' g = Some b' -> sized_as o' b') /\
  (forall g b, left_alone b -> base_of m g = Some b -> base_of m' g = Some b).
Proof.
  intros force hs. induction os as [|o os IH]; intros m acc m' mxs W H; cbn [rfold] in H.
  - injection H as <- <-. exists []. rewrite app_nil_r. split; [reflexivity|]. split; [reflexivity|].
    split; [apply evolve_refl|]. split; [intros [|k]; discriminate|]. split; auto.
  - cbn [fst snd] in H.
    destruct (rfold (visit_var force o) hs (m, 0)) as [[m1 mx]| | |] eqn:V; cbn [rbind] in H; try discriminate.
    destruct (visits _ _ _ _ _ _ _ W V) as (V1 & V2 & V3 & V4 & V5). cbn [fst snd] in H.
    pose proof (evolve_shaped _ _ V1 W) as W1.
    destruct (IH _ _ _ _ W1 H) as (ms & -> & L & I1 & I2 & I3 & I4). exists (mx :: ms).
    rewrite <- app_assoc. cbn [app length]. split; [reflexivity|]. split; [congruence|].
    split; [apply (evolve_trans _ m1); assumption|]. split; [|split].
    + intros [|k] o0 h b' E Hh B U; cbn [nth_error nth] in *.
      * injection E as <-. split; [assumption|].
        destruct (evolve_base _ _ _ _ I1 B) as (b1 & B1 & K1).
        assert (U1 : b_user b1 = false) by (destruct K1 as (_&_&<-&_); assumption).
        destruct (V3 h b1 Hh B1 U1) as (H1 & H2). split; [apply (halos_kept _ _ b1); assumption|].
        intros F N. apply (I3 o h); try assumption.
        -- intros o1 I E. inversion N as [|? ? N1 N2]; subst. apply N1. rewrite <- E. apply in_map. assumption.
        -- intros b Eb. assert (b = b1) by congruence. subst b. auto.
      * destruct (I2 k o0 h b' E Hh B U) as (P1 & P2 & P3). split; [assumption|]. split; [assumption|].
        intros F N. apply P3; [assumption|]. inversion N; assumption.
    + intros o' g b' N Z B. apply (I3 o' g); try assumption; [intros o1 I; apply N; right; assumption|].
      intros b Eb. apply (V4 o' g); try assumption. right. apply N. left. reflexivity.
    + intros g b A B. apply I4; [assumption|]. apply V5; assumption.
Qed.

Theorem update_ok : forall force x os m m' mxs, Forall shaped (m_bases m) -> update_info force x os m = Ok (m', mxs) ->
  length mxs = length os /\ evolve m m' /\
  (forall k o h b', nth_error os k = Some o -> In h (map snd (x_all x)) -> base_of m' h = Some b' -> b_user b' = false ->
     halos_within (o_name o) (nth k mxs 0) b' /\ (force = true -> NoDup (map o_name os) -> sized_as o b')) /\
  (forall h b, left_alone b -> base_of m h = Some b -> base_of m' h = Some b).
Proof.
  intros force x os m m' mxs W H. unfold update_info in H. apply upd_loop in H; [|assumption].
  destruct H as (ms & -> & L & E & P & _ & A). cbn [app]. split; [assumption|]. split; [assumption|]. split; [|assumption].
  intros k o h b' Eo Hh B U. apply (P k o h b'); assumption.
Qed.

(* after any calls that give no user var to the solution *)
Theorem solution_halos : forall x m l os m' mxs, solution_ok x m -> solution_sources x m l -> NoDup (map o_name os) ->
  update_info true x os (run_calls m l) = Ok (m', mxs) ->
  forall k o h, nth_error os k = Some o -> In h (x_orig x) ->
    exists b, base_of m' h = Some b /\ halos_within (o_name o) (nth k mxs 0) b /\ sized_as o b.
Proof.
  intros x m l os m' mxs Ok_ Hs N H k o h Eo Hh. destruct (calls_user x l m Ok_ Hs) as (O & A & W & U).
  destruct (update_ok _ _ _ _ _ _ W H) as (_ & (R & F) & P & _).
  destruct (A h (O h Hh)) as (b & B). pose proof B as B0. unfold base_of in B.
  destruct (nth_error (m_ref (run_calls m l)) h) as [i|] eqn:Ei; [|discriminate].
  assert (L : (i < length (m_bases m'))%nat).
  { assert (Le : length (m_bases m') = length (m_bases (run_calls m l))).
    { clear - F. induction F; cbn; congruence. }
    rewrite Le. apply nth_error_Some. congruence. }
  destruct (nth_error (m_bases m') i) as [b'|] eqn:E'; [|apply nth_error_None in E'; lia].
  assert (B' : base_of m' h = Some b') by (unfold base_of; rewrite R, Ei; assumption).
  exists b'. split; [assumption|].
  destruct (evolve_base (run_calls m l) m' h b' (conj R F) B') as (b1 & B1 & K1).
  assert (U' : b_user b' = false) by (destruct K1 as (_&_&->&_); apply (U h); assumption).
  destruct (P k o h b' Eo (O h Hh) B' U') as (P1 & P2). auto.
Qed.

Theorem fixed_alone : forall force x os m m' mxs h b, Forall shaped (m_bases m) -> update_info force x os m = Ok (m', mxs) ->
  left_alone b -> base_of m h = Some b -> base_of m' h = Some b.
Proof. intros force x os m m' mxs h b W H A B. destruct (update_ok _ _ _ _ _ _ W H) as (_ & _ & _ & P). apply P; assumption. Qed.
