From Verif Require Import Base Idiv_Model Idiv_Proofs Tuple_Model MixedRadix Tuple_Proofs Cover_Spec Cover_Proofs Rank_Model Rank_Spec.
From Coq Require Import ZifyBool.

Lemma rmapM_ok : forall A B (f : A -> res B) l bs, rmapM f l = Ok bs -> Forall2 (fun a b => f a = Ok b) l bs.
Proof.
  intros A B f. induction l as [|a l IH]; intros bs H; cbn [rmapM] in H.
  - inversion H. constructor.
  - destruct (f a) as [b| | |] eqn:E; try discriminate. cbn [rbind] in H.
    destruct (rmapM f l) as [bs'| | |] eqn:E2; try discriminate.
    cbn [rbind] in H. inversion H. constructor; [exact E|]. apply IH. reflexivity.
Qed.
Lemma F2_len : forall A B (R : A -> B -> Prop) l l', Forall2 R l l' -> length l = length l'.
Proof. intros. induction H; cbn; auto. Qed.
Lemma F2_nth : forall A B (R : A -> B -> Prop) l l' n a, Forall2 R l l' -> nth_error l n = Some a -> exists b, nth_error l' n = Some b /\ R a b.
Proof. intros A B R l l' n a H. revert n. induction H; intros [|n] E; cbn in *; try discriminate; [injection E as <-; eauto|eauto]. Qed.
Lemma F2_nth_r : forall A B (R : A -> B -> Prop) l l' n b, Forall2 R l l' -> nth_error l' n = Some b -> exists a, nth_error l n = Some a /\ R a b.
Proof. intros A B R l l' n b H. revert n. induction H; intros [|n] E; cbn in *; try discriminate; [injection E as <-; eauto|eauto]. Qed.
Lemma F2_In_r : forall A B (R : A -> B -> Prop) l l' b, Forall2 R l l' -> In b l' -> exists a, In a l /\ R a b.
Proof. intros A B R l l' b H. induction H; intros []; [subst; eexists; split; [left; reflexivity|assumption]|]. destruct (IHForall2 H1) as (a & I & Ra). exists a. split; [right; exact I|exact Ra]. Qed.
Lemma F2_impl : forall A B (R S : A -> B -> Prop) l l', (forall a b, R a b -> S a b) -> Forall2 R l l' -> Forall2 S l l'.
Proof. intros. induction H0; constructor; auto. Qed.
Lemma nth_error_combine : forall A B (l : list A) (l' : list B) n, length l = length l' ->
  nth_error (combine l l') n = match nth_error l n, nth_error l' n with Some a, Some b => Some (a, b) | _, _ => None end.
Proof. induction l as [|a l IH]; intros [|b l'] [|n] E; cbn in *; try discriminate; try reflexivity. apply IH. lia. Qed.
Lemma nth_error_zseq : forall n k, (k < Z.to_nat n)%nat -> nth_error (zseq n) k = Some (Z.of_nat k).
Proof. intros. unfold zseq. erewrite map_nth_error; [reflexivity|]. rewrite (nth_error_nth' _ 0%nat); [rewrite seq_nth by lia; reflexivity|rewrite seq_length; lia]. Qed.
Lemma zsum_perm : forall l l', Permutation l l' -> zsum l = zsum l'.
Proof. intros. induction H; cbn; lia. Qed.
Lemma zsum_app : forall l l', zsum (l ++ l') = zsum l + zsum l'.
Proof. induction l; intros; cbn; [lia|rewrite IHl; lia]. Qed.
Lemma NoDup_map_inj : forall A B (f : A -> B) l x y, NoDup (map f l) -> In x l -> In y l -> f x = f y -> x = y.
Proof.
  intros A B f l x y. induction l as [|a l IH]; cbn; [tauto|]. intros N Ix Iy E. inversion N; subst.
  destruct Ix as [->|Ix], Iy as [->|Iy]; auto; exfalso; apply H1; [rewrite E|rewrite <- E]; apply in_map; assumption.
Qed.
Lemma pos_map_seq : forall f nd j, (j < nd)%nat -> pos j (map f (seq 0 nd)) = f j.
Proof. intros. unfold pos. rewrite (nth_indep _ 0 (f 0%nat)) by (rewrite map_length, seq_length; lia). rewrite map_nth, seq_nth by lia. reflexivity. Qed.
Lemma forallb_seq : forall f nd, forallb f (seq 0 nd) = true <-> forall j, (j < nd)%nat -> f j = true.
Proof. intros. rewrite forallb_forall. split; intros H j L; apply H; [apply in_seq; lia|apply in_seq in L; lia]. Qed.
Lemma list_eq_pos : forall a b, length a = length b -> (forall j, (j < length a)%nat -> pos j a = pos j b) -> a = b.
Proof. intros. apply (nth_ext a b 0 0); assumption. Qed.

Lemma zsum_abs0 : forall l, zsum (map Z.abs l) = 0 <-> Forall (fun x => x = 0) l.
Proof.
  assert (forall l, 0 <= zsum (map Z.abs l)) as N. { induction l; cbn; lia. }
  induction l as [|x l IH]; cbn; [split; [constructor|lia]|]. specialize (N l). split.
  - intros H. constructor; [lia|apply IH; lia].
  - intros H. inversion H; subst. apply IH in H3. lia.
Qed.

Lemma count_none : forall A B (f : A -> B) (t : B -> bool) l, (forall q, In q l -> t (f q) = false) -> length (filter t (map f l)) = 0%nat.
Proof. intros A B f t. induction l as [|q l IH]; intros Q; [reflexivity|]. cbn [map filter]. rewrite Q by (left; reflexivity). apply IH. intros; apply Q; right; assumption. Qed.
Lemma count_one : forall A B (f : A -> B) (t : B -> bool) l r, NoDup l -> In r l -> (forall q, In q l -> (t (f q) = true <-> q = r)) -> length (filter t (map f l)) = 1%nat.
Proof.
  intros A B f t l r NL. induction NL as [|q L0 Nq NL IH]; intros Ir Q; [destruct Ir|]. cbn [map filter]. destruct Ir as [->|Ir].
  - replace (t (f r)) with true by (symmetry; apply Q; [left|]; reflexivity). cbn [length]. f_equal. apply count_none.
    intros q Iq. destruct (t (f q)) eqn:E; [|reflexivity]. apply Q in E; [|right; exact Iq]. subst. contradiction.
  - destruct (t (f q)) eqn:E.
    + apply Q in E; [|left; reflexivity]. subst. contradiction.
    + apply IH; [exact Ir|]. intros; apply Q; right; assumption.
Qed.

(* ---- a complete grid of ranks whose sizes agree on the lines ---- *)
Section Grid.
  Variable J : job.
  Notation nd := (j_nd J).
  Lemma inline_iff : forall a b di, is_inline J a b di = true <-> forall j, (j < nd)%nat -> j <> di -> pos j (k_coords a) = pos j (k_coords b).
  Proof.
    intros a b di. unfold is_inline. rewrite forallb_seq. split.
    - intros H j Lj Ne. specialize (H j Lj). unfold rdeltas in H. rewrite pos_map_seq in H by assumption. lia.
    - intros H j Lj. unfold rdeltas. rewrite pos_map_seq by assumption. destruct (Nat.eq_dec j di) as [->|Ne]; [rewrite Nat.eqb_refl; reflexivity|].
      specialize (H j Lj Ne). lia.
  Qed.
  Variable L : list rank_in.
  Hypothesis Lc : forall r, In r L -> length (k_coords r) = nd.
  Hypothesis Ls : forall r, In r L -> length (k_sizes r) = nd.
  Hypothesis Nn : length (j_nranks J) = nd.
  Hypothesis Co : forall r, In r L -> in_sizes (j_nranks J) (k_coords r).
  Hypothesis Nd : NoDup (map k_coords L).
  Hypothesis Ct : Z.of_nat (length L) = zprod (j_nranks J).
  Hypothesis Al : forall a b, In a L -> In b L -> aligned_with J a b = true.

  Lemma in_sizes_pos_iff : forall c, length c = nd -> (in_sizes (j_nranks J) c <-> forall j, (j < nd)%nat -> 0 <= pos j c < pos j (j_nranks J)).
  Proof.
    intros c Hc. unfold in_sizes. clear - Hc Nn. revert c Hc Nn. generalize nd as n. generalize (j_nranks J) as ss. intros ss.
    induction ss as [|s ss IH]; intros n c Hc Hn.
    - assert (n = 0)%nat by (cbn in Hn; lia). subst. destruct c; [|discriminate]. split; [intros _ j Lj; lia|constructor].
    - destruct n as [|n]; [discriminate|]. destruct c as [|x c]; [discriminate|]. cbn in Hc, Hn.
      specialize (IH n c ltac:(lia) ltac:(lia)). split.
      + intros H. inversion H; subst. intros [|j] Lj; unfold pos; cbn [nth]; [assumption|]. apply IH; [assumption|lia].
      + intros H. constructor; [apply (H 0%nat); lia|]. apply IH. intros j Lj. apply (H (S j)). lia.
  Qed.
  Lemma cpos : forall r j, In r L -> (j < nd)%nat -> 0 <= pos j (k_coords r) < pos j (j_nranks J).
  Proof. intros r j I Lj. apply in_sizes_pos_iff; auto. Qed.

  Lemma full : forall c, in_sizes (j_nranks J) c -> exists r, In r L /\ k_coords r = c.
  Proof.
    intros c Hc. assert (Forall (fun s => 0 < s) (j_nranks J)) as Fp by (eapply in_sizes_pos; eauto).
    assert (In c (map k_coords L)) as I.
    { assert (incl (box_points (j_nranks J)) (map k_coords L)) as Hi; [|apply Hi, box_points_In; assumption].
      apply NoDup_length_incl; [exact Nd| |].
      - unfold box_points. rewrite !map_length, zseq_length. lia.
      - intros x Ix. apply in_map_iff in Ix. destruct Ix as (r & <- & Ir). apply box_points_In; auto. }
    apply in_map_iff in I. destruct I as (r & E & Ir). eauto.
  Qed.
  Lemma same_rank : forall a b, In a L -> In b L -> (forall j, (j < nd)%nat -> pos j (k_coords a) = pos j (k_coords b)) -> a = b.
  Proof.
    intros a b Ia Ib E. apply (NoDup_map_inj _ _ k_coords L); auto. apply list_eq_pos; [rewrite !Lc by assumption; reflexivity|].
    rewrite Lc by assumption. exact E.
  Qed.

  Definition mixc (k : nat) (a b : list Z) : list Z := map (fun j => if (j <? k)%nat then pos j b else pos j a) (seq 0 nd).
  Lemma mix_pos : forall k a b j, (j < nd)%nat -> pos j (mixc k a b) = if (j <? k)%nat then pos j b else pos j a.
  Proof. intros. unfold mixc. rewrite pos_map_seq by assumption. reflexivity. Qed.
  Lemma mix_rank : forall k a b, In a L -> In b L -> exists r, In r L /\ k_coords r = mixc k (k_coords a) (k_coords b).
  Proof.
    intros k a b Ia Ib. apply full. apply in_sizes_pos_iff; [unfold mixc; rewrite map_length, seq_length; reflexivity|].
    intros j Lj. rewrite mix_pos by assumption. destruct (j <? k)%nat; apply cpos; assumption.
  Qed.
  Lemma same_size : forall a b j, In a L -> In b L -> (j < nd)%nat -> pos j (k_coords a) = pos j (k_coords b) -> pos j (k_sizes a) = pos j (k_sizes b).
  Proof.
    intros a b j Ia Ib Lj E.
    assert (forall k r, (k <= nd)%nat -> In r L -> k_coords r = mixc k (k_coords a) (k_coords b) -> pos j (k_sizes r) = pos j (k_sizes a)) as W.
    { induction k as [|k IH]; intros r Hk Ir Er.
      - f_equal. f_equal. apply same_rank; auto. intros i Li. rewrite Er, mix_pos by assumption. reflexivity.
      - destruct (mix_rank k a b Ia Ib) as (q & Iq & Eq). rewrite <- (IH q) by (auto; lia).
        destruct (Nat.eq_dec j k) as [->|Ne].
        + f_equal. f_equal. apply same_rank; auto. intros i Li. rewrite Er, Eq, !mix_pos by assumption.
          destruct (i <? S k)%nat eqn:E1, (i <? k)%nat eqn:E2; try reflexivity; [|lia]. assert (i = k) by lia. subst. lia.
        + pose proof (Al r q Ir Iq) as A. unfold aligned_with in A. rewrite forallb_seq in A. specialize (A k ltac:(lia)).
          replace (is_inline J r q k) with true in A.
          * cbn [negb orb] in A. rewrite forallb_seq in A. specialize (A j Lj). replace (j =? k)%nat with false in A by lia. cbn [orb] in A. lia.
          * symmetry. apply inline_iff. intros i Li Ni. rewrite Er, Eq, !mix_pos by assumption.
            destruct (i <? S k)%nat eqn:E1, (i <? k)%nat eqn:E2; try reflexivity; lia. }
    symmetry. apply (W nd); auto. apply list_eq_pos.
    - unfold mixc. rewrite map_length, seq_length. apply Lc, Ib.
    - rewrite Lc by assumption. intros i Li. rewrite mix_pos by assumption. replace (i <? nd)%nat with true by lia. reflexivity.
  Qed.

  Definition Sf (j : nat) (c : Z) : Z := match find (fun r => pos j (k_coords r) =? c) L with Some r => pos j (k_sizes r) | None => 0 end.
  Lemma Sf_ok : forall r j, In r L -> (j < nd)%nat -> Sf j (pos j (k_coords r)) = pos j (k_sizes r).
  Proof.
    intros r j I Lj. unfold Sf. destruct (find _ L) as [q|] eqn:F.
    - apply find_some in F. destruct F as [Iq F]. apply same_size; auto. lia.
    - apply (find_none _ _ F) in I. lia.
  Qed.

  Lemma line_sum : forall me j lim, In me L -> (j < nd)%nat -> 0 <= lim <= pos j (j_nranks J) ->
    zsum (map (fun rn => pos j (k_sizes rn)) (filter (fun rn => is_inline J me rn j && (pos j (k_coords rn) <? lim)) L)) = zsum (map (Sf j) (zseq lim)).
  Proof.
    intros me j lim Im Lj Hl. set (F := filter _ L).
    assert (forall r, In r F <-> In r L /\ is_inline J me r j = true /\ pos j (k_coords r) < lim) as HF.
    { intros r. subst F. rewrite filter_In, andb_true_iff. split; intros (A & B & C); repeat split; auto; lia. }
    assert (map (fun rn => pos j (k_sizes rn)) F = map (Sf j) (map (fun r => pos j (k_coords r)) F)) as ->.
    { rewrite map_map. apply map_ext_in. intros r Ir. apply HF in Ir. symmetry. apply Sf_ok; tauto. }
    apply zsum_perm. apply Permutation_map. apply NoDup_Permutation; [|apply zseq_NoDup|].
    - assert (NoDup F) as NF by (apply NoDup_filter; eapply NoDup_map_inv; exact Nd).
      assert (forall a b, In a F -> In b F -> pos j (k_coords a) = pos j (k_coords b) -> a = b) as Inj.
      { intros a b Ia Ib E. apply HF in Ia, Ib. apply same_rank; try tauto. intros i Li. destruct (Nat.eq_dec i j) as [->|Ne]; [exact E|].
        destruct Ia as (_ & Ia & _), Ib as (_ & Ib & _). rewrite inline_iff in Ia, Ib. rewrite <- Ia, <- Ib by assumption. reflexivity. }
      clearbody F. clear - NF Inj. induction NF as [|x l Nx NF IH]; cbn; [constructor|]. constructor.
      + intros I. apply in_map_iff in I. destruct I as (y & E & Iy). apply Nx. rewrite (Inj x y); [exact Iy|left; reflexivity|right; exact Iy|lia].
      + apply IH. intros; apply Inj; auto; right; assumption.
    - intros c. rewrite zseq_In, in_map_iff. split.
      + intros (r & <- & Ir). apply HF in Ir. destruct Ir as (Ir & _ & B). pose proof (cpos r j Ir Lj). lia.
      + intros Hc. destruct (full (map (fun i => if (i =? j)%nat then c else pos i (k_coords me)) (seq 0 nd))) as (r & Ir & Er).
        { apply in_sizes_pos_iff; [rewrite map_length, seq_length; reflexivity|]. intros i Li. rewrite pos_map_seq by assumption.
          destruct (i =? j)%nat eqn:E; [assert (i = j) by lia; subst; lia|apply cpos; assumption]. }
        assert (forall i, (i < nd)%nat -> pos i (k_coords r) = if (i =? j)%nat then c else pos i (k_coords me)) as Pr.
        { intros i Li. rewrite Er, pos_map_seq by assumption. reflexivity. }
        exists r. split; [rewrite Pr, Nat.eqb_refl by assumption; reflexivity|]. apply HF. split; [exact Ir|]. split.
        * apply inline_iff. intros i Li Ni. rewrite Pr by assumption. replace (i =? j)%nat with false by lia. reflexivity.
        * rewrite Pr, Nat.eqb_refl by assumption. lia.
  Qed.
  Definition Pf (j : nat) (c : Z) : Z := zsum (map (Sf j) (zseq c)).
  Lemma domain_sum_eq : forall me j, In me L -> (j < nd)%nat -> domain_sum J L me j = Pf j (pos j (j_nranks J)).
  Proof.
    intros me j Im Lj. unfold domain_sum, Pf. rewrite <- (line_sum me) by (auto; pose proof (cpos me j Im Lj); lia).
    f_equal. f_equal. apply filter_ext_in. intros r Ir. pose proof (cpos r j Ir Lj). replace (_ <? _) with true by lia. rewrite andb_true_r. reflexivity.
  Qed.
  Lemma offset_eq : forall me j, In me L -> (j < nd)%nat -> offset_dim J L me j = Pf j (pos j (k_coords me)).
  Proof.
    intros me j Im Lj. unfold offset_dim, Pf. rewrite <- (line_sum me) by (auto; pose proof (cpos me j Im Lj); lia).
    f_equal. f_equal. apply filter_ext_in. intros r Ir. f_equal. unfold rdeltas. rewrite pos_map_seq by assumption. lia.
  Qed.

  Hypothesis Ps : forall r j, In r L -> (j < nd)%nat -> 0 < pos j (k_sizes r).
  Lemma Sf_pos : forall j c, (j < nd)%nat -> L <> [] -> 0 <= c < pos j (j_nranks J) -> 0 < Sf j c.
  Proof.
    intros j c Lj Ne Hc. destruct L as [|r0 L0] eqn:EL; [congruence|]. rewrite <- EL in *.
    assert (In r0 L) as I0 by (rewrite EL; left; reflexivity).
    destruct (full (map (fun i => if (i =? j)%nat then c else pos i (k_coords r0)) (seq 0 nd))) as (r & Ir & Er).
    { apply in_sizes_pos_iff; [rewrite map_length, seq_length; reflexivity|]. intros i Li. rewrite pos_map_seq by assumption.
      destruct (i =? j)%nat eqn:E; [assert (i = j) by lia; subst; lia|apply cpos; assumption]. }
    assert (pos j (k_coords r) = c) as Ec. { rewrite Er, pos_map_seq, Nat.eqb_refl by assumption. reflexivity. }
    rewrite <- Ec, Sf_ok by assumption. apply Ps; assumption.
  Qed.
  Lemma Pf_succ : forall j c, 0 <= c -> Pf j (c + 1) = Pf j c + Sf j c.
  Proof. intros. unfold Pf. rewrite zseq_succ by assumption. rewrite map_app, zsum_app. cbn. lia. Qed.
  Lemma Pf_0 : forall j, Pf j 0 = 0.
  Proof. reflexivity. Qed.
  Lemma Pf_mono : forall j a b, (j < nd)%nat -> L <> [] -> 0 <= a <= b -> b <= pos j (j_nranks J) -> Pf j a <= Pf j b.
  Proof.
    intros j a b Lj Ne Ha Hb. replace b with (a + (b - a)) by lia. assert (0 <= b - a) as H by lia. assert (a + (b - a) <= pos j (j_nranks J)) as H2 by lia.
    revert H2. pattern (b - a). apply natlike_ind; [intros; rewrite Z.add_0_r; lia| |exact H].
    intros x Hx IH H2. replace (a + Z.succ x) with (a + x + 1) by lia. rewrite Pf_succ by lia. specialize (IH ltac:(lia)).
    pose proof (Sf_pos j (a + x) Lj Ne ltac:(lia)). lia.
  Qed.
  Lemma Pf_find : forall j x, (j < nd)%nat -> L <> [] -> 0 <= x < Pf j (pos j (j_nranks J)) -> exists c, 0 <= c < pos j (j_nranks J) /\ Pf j c <= x < Pf j (c + 1).
  Proof.
    intros j x Lj Ne Hx. destruct L as [|r0 L0] eqn:EL; [congruence|]. rewrite <- EL in *.
    assert (In r0 L) as I0 by (rewrite EL; left; reflexivity). assert (0 <= pos j (j_nranks J)) as Hn by (pose proof (cpos r0 j I0 Lj); lia). clear r0 L0 EL I0.
    assert (forall n, 0 <= n -> x < Pf j n -> exists c, 0 <= c < n /\ Pf j c <= x < Pf j (c + 1)) as W.
    { intros n Hn'. pattern n. apply natlike_ind; [rewrite Pf_0; lia| |exact Hn'].
      intros m Hm IH Hx'. replace (Z.succ m) with (m + 1) in * by lia. destruct (Z_lt_dec x (Pf j m)) as [H|H].
      - destruct (IH H) as (c & A & B). exists c. lia.
      - exists m. lia. }
    apply W; lia.
  Qed.
  Lemma Pf_unique : forall j x c c', (j < nd)%nat -> L <> [] -> 0 <= c < pos j (j_nranks J) -> 0 <= c' < pos j (j_nranks J) ->
    Pf j c <= x < Pf j (c + 1) -> Pf j c' <= x < Pf j (c' + 1) -> c = c'.
  Proof.
    intros j x c c' Lj Ne Hc Hc' A B. destruct (Z.lt_trichotomy c c') as [H|[H|H]]; [|exact H|]; exfalso.
    - pose proof (Pf_mono j (c + 1) c' Lj Ne ltac:(lia) ltac:(lia)). lia.
    - pose proof (Pf_mono j (c' + 1) c Lj Ne ltac:(lia) ltac:(lia)). lia.
  Qed.

  Lemma in_box_iff : forall b p, in_box b p = true <-> length b = length p /\ forall j, (j < length b)%nat -> fst (nth j b (0, 0)) <= pos j p < snd (nth j b (0, 0)).
  Proof.
    induction b as [|c b IH]; intros [|x p]; cbn [in_box length]; try (split; [discriminate|intros [H _]; discriminate]).
    - split; [intros _; split; [reflexivity|intros; lia]|reflexivity].
    - rewrite andb_true_iff, IH. unfold in_iv. split.
      + intros (A & B & C). split; [lia|]. intros [|j] Lj; unfold pos; cbn [nth]; [lia|]. apply C. lia.
      + intros (A & B). split; [specialize (B 0%nat ltac:(lia)); unfold pos in B; cbn [nth] in B; lia|]. split; [lia|].
        intros j Lj. specialize (B (S j) ltac:(lia)). exact B.
  Qed.
  Definition box_of (r : rank_in) : list (Z * Z) := map (fun p : Z * Z => (fst p, fst p + snd p)) (combine (map (offset_dim J L r) (seq 0 nd)) (k_sizes r)).
  Lemma box_of_nth : forall r j, In r L -> (j < nd)%nat -> nth j (box_of r) (0, 0) = (Pf j (pos j (k_coords r)), Pf j (pos j (k_coords r) + 1)).
  Proof.
    intros r j Ir Lj. unfold box_of. set (f := fun p : Z * Z => (fst p, fst p + snd p)).
    change (0, 0) with (f (0, 0)) at 1. rewrite map_nth. rewrite combine_nth by (rewrite map_length, seq_length; symmetry; apply Ls; assumption).
    fold (pos j (map (offset_dim J L r) (seq 0 nd))). rewrite pos_map_seq by assumption. rewrite offset_eq by assumption.
    rewrite Pf_succ by (pose proof (cpos r j Ir Lj); lia). rewrite Sf_ok by assumption. reflexivity.
  Qed.
  Lemma box_of_len : forall r, In r L -> length (box_of r) = nd.
  Proof. intros. unfold box_of. rewrite map_length, combine_length, map_length, seq_length, Ls by assumption. lia. Qed.
  Definition gbox : list (Z * Z) := map (fun j => (0, Pf j (pos j (j_nranks J)))) (seq 0 nd).
  Lemma gbox_nth : forall j, (j < nd)%nat -> nth j gbox (0, 0) = (0, Pf j (pos j (j_nranks J))).
  Proof.
    intros j Lj. unfold gbox. set (f := fun j => (0, Pf j (pos j (j_nranks J)))).
    rewrite (nth_indep _ (0, 0) (f 0%nat)) by (rewrite map_length, seq_length; lia).
    rewrite map_nth, seq_nth by lia. reflexivity.
  Qed.

  Lemma grid_cover : L <> [] -> exact_cover in_box (map box_of L) (in_box gbox).
  Proof.
    intros Ne x. unfold hits. destruct (in_box gbox x) eqn:E.
    - apply in_box_iff in E. unfold gbox at 1 2 in E. rewrite map_length, seq_length in E. destruct E as [Lx E].
      assert (forall j, (j < nd)%nat -> exists c, 0 <= c < pos j (j_nranks J) /\ Pf j c <= pos j x < Pf j (c + 1)) as W.
      { intros j Lj. specialize (E j Lj). rewrite gbox_nth in E by assumption. apply Pf_find; auto. }
      assert (exists cs, length cs = nd /\ forall j, (j < nd)%nat -> 0 <= pos j cs < pos j (j_nranks J) /\ Pf j (pos j cs) <= pos j x < Pf j (pos j cs + 1)) as (cs & Lcs & Hcs).
      { clear - W. assert (forall n, (n <= nd)%nat -> exists cs, length cs = n /\ forall j, (j < n)%nat -> 0 <= pos j cs < pos j (j_nranks J) /\ Pf j (pos j cs) <= pos j x < Pf j (pos j cs + 1)) as G.
        { induction n as [|n IH]; intros Hn; [exists []; split; [reflexivity|intros; lia]|].
          destruct (IH ltac:(lia)) as (cs & A & B). destruct (W n ltac:(lia)) as (c & C). exists (cs ++ [c]). rewrite app_length. cbn. split; [lia|].
          intros j Lj. destruct (Nat.eq_dec j n) as [->|Nj].
          - replace (pos n (cs ++ [c])) with c; [exact C|]. unfold pos. rewrite app_nth2 by lia. rewrite A, Nat.sub_diag. reflexivity.
          - replace (pos j (cs ++ [c])) with (pos j cs); [apply B; lia|]. unfold pos. rewrite app_nth1 by lia. reflexivity. }
        apply G. lia. }
      destruct (full cs) as (r & Ir & Er). { apply in_sizes_pos_iff; [exact Lcs|]. intros j Lj. apply Hcs, Lj. }
      assert (forall q, In q L -> (in_box (box_of q) x = true <-> q = r)) as Q.
      { intros q Iq. rewrite in_box_iff, box_of_len by assumption. split.
        - intros [_ H]. apply same_rank; auto. intros j Lj. specialize (H j Lj). rewrite box_of_nth in H by assumption. cbn [fst snd] in H.
          rewrite Er. apply (Pf_unique j (pos j x)); auto; [apply cpos; assumption|apply Hcs..]; assumption.
        - intros ->. split; [symmetry; lia|]. intros j Lj. rewrite box_of_nth by assumption. cbn [fst snd]. rewrite Er. apply Hcs, Lj. }
      assert (NoDup L) as NL by (eapply NoDup_map_inv; exact Nd).
      apply (count_one _ _ box_of (fun c => in_box c x) L r NL Ir Q).
    - assert (forall q, In q L -> in_box (box_of q) x = false) as Q.
      { intros q Iq. destruct (in_box (box_of q) x) eqn:F; [|reflexivity]. rewrite <- E. symmetry. apply in_box_iff. apply in_box_iff in F.
        rewrite box_of_len in F by assumption. destruct F as [Lx F]. unfold gbox at 1 2. rewrite map_length, seq_length. split; [exact Lx|].
        intros j Lj. specialize (F j Lj). rewrite box_of_nth in F by assumption. rewrite gbox_nth by assumption. cbn [fst snd] in *.
        pose proof (cpos q j Iq Lj). pose proof (Pf_mono j 0 (pos j (k_coords q)) Lj Ne ltac:(lia) ltac:(lia)). rewrite Pf_0 in *.
        pose proof (Pf_mono j (pos j (k_coords q) + 1) (pos j (j_nranks J)) Lj Ne ltac:(lia) ltac:(lia)). lia. }
      apply (count_none _ _ box_of (fun c => in_box c x) L Q).
  Qed.
End Grid.

Lemma guard_ok : forall b u, guard b = Ok u -> b = true.
Proof. intros [] u H; [reflexivity|discriminate]. Qed.
Lemma rbind_ok : forall A B (x : res A) (f : A -> res B) y, rbind x f = Ok y -> exists a, x = Ok a /\ f a = Ok y.
Proof. intros A B [a| | |] f y H; try discriminate. eauto. Qed.

Lemma pass0_dim_ok : forall J sum me j a b, pass0_dim J sum me j = Ok (a, b) ->
  (pos j (k_sizes me) <> 0 /\ a = pos j (k_sizes me)) \/
  (pos j (k_sizes me) = 0 /\ b = pos j (j_gsz J) /\ sum = 0 /\
   let rsz := ROUND_UP (CEIL_DIV (pos j (j_gsz J)) (pos j (j_nranks J))) (pos j (j_fold J)) in
   let rem := pos j (j_gsz J) - rsz * (pos j (j_nranks J) - 1) in
   0 < rem /\ a = (if pos j (k_coords me) =? pos j (j_nranks J) - 1 then rem else rsz)).
Proof.
  intros J sum me j a b H. unfold pass0_dim in H. destruct (pos j (k_sizes me) =? 0) eqn:E.
  - right. destruct (sum =? 0) eqn:Es; cbn [negb] in H; [|discriminate]. cbv zeta in H.
    destruct (_ <=? 0) eqn:Er; [discriminate|]. injection H as <- <-. cbv zeta. repeat split; try lia. 
  - left. injection H as <- <-. split; [lia|reflexivity].
Qed.

Lemma unlayout_len : forall fi ss n l, unlayout_vals fi ss n = Ok l -> length l = length ss.
Proof.
  assert (forall ss n p l, unlayout_loop ss n p = Ok l -> length l = length ss) as W.
  { induction ss as [|s ss IH]; intros n p l H; cbn in H; [injection H as <-; reflexivity|].
    destruct (_ || _); [discriminate|]. apply rbind_ok in H. destruct H as (r & E & H). apply IH in E. injection H as <-. cbn. lia. }
  intros fi ss n l H. unfold unlayout_vals in H. apply rbind_ok in H. destruct H as (r & E & H). apply W in E. injection H as <-.
  destruct fi; cbn [inner_first] in *; [exact E|]. rewrite rev_length in *. exact E.
Qed.

Lemma In_combine_zseq : forall A (l : list A) i a, In (i, a) (combine (zseq (Z.of_nat (length l))) l) <-> 0 <= i /\ nth_error l (Z.to_nat i) = Some a.
Proof.
  intros A l i a. assert (length (zseq (Z.of_nat (length l))) = length l) as E by (rewrite zseq_length; lia). split.
  - intros H. apply In_nth_error in H. destruct H as (n & H). rewrite nth_error_combine in H by exact E.
    destruct (nth_error l n) as [b|] eqn:En; [|destruct (nth_error (zseq _) n); discriminate].
    rewrite nth_error_zseq in H by (assert (n < length l)%nat by (apply nth_error_Some; congruence); lia).
    injection H as <- <-. split; [lia|]. rewrite Nat2Z.id. exact En.
  - intros (Hi & H). apply (nth_error_In _ (Z.to_nat i)). rewrite nth_error_combine by exact E. rewrite H.
    rewrite nth_error_zseq by (assert (Z.to_nat i < length l)%nat by (apply nth_error_Some; congruence); lia). rewrite Z2Nat.id by lia. reflexivity.
Qed.

Lemma pos_Forall : forall (P : Z -> Prop) l j, Forall P l -> (j < length l)%nat -> P (pos j l).
Proof. intros P l j H Lj. apply (proj1 (Forall_forall _ _) H). apply nth_In. exact Lj. Qed.

Definition out_of (J : job) (L : list rank_in) (r : rank_in) : rank_out :=
  mkRo (k_coords r) (k_sizes r) (map (fun j => Pf L j (pos j (j_nranks J))) (seq 0 (j_nd J))) (map (offset_dim J L r) (seq 0 (j_nd J))).
(* what setup_ranks() establishes *)
Record grid (J : job) (L : list rank_in) : Prop := mkGrid {
  g_Lc : forall r, In r L -> length (k_coords r) = j_nd J;
  g_Ls : forall r, In r L -> length (k_sizes r) = j_nd J;
  g_Nn : length (j_nranks J) = j_nd J;
  g_Co : forall r, In r L -> in_sizes (j_nranks J) (k_coords r);
  g_Nd : NoDup (map k_coords L);
  g_Ct : Z.of_nat (length L) = zprod (j_nranks J);
  g_Al : forall a b, In a L -> In b L -> aligned_with J a b = true;
  g_Ps : forall r j, In r L -> (j < j_nd J)%nat -> 0 < pos j (k_sizes r);
  g_Ne : L <> []
}.
Lemma setup_facts : forall J ranks outs, ranks_wf J ranks -> setup_ranks J ranks = Ok outs ->
  exists L, grid J L /\ length L = length ranks /\ outs = map (out_of J L) L /\
    (forall i r o j, nth_error ranks i = Some r -> nth_error L i = Some o -> (j < j_nd J)%nat -> pos j (k_sizes r) <> 0 -> pos j (k_sizes o) = pos j (k_sizes r)) /\
    (forall j, (j < j_nd J)%nat -> pos j (j_gsz J) <> 0 -> Pf L j (pos j (j_nranks J)) = pos j (j_gsz J)).
Proof.
  intros J ranks outs (Wne & Wg & Wn & Wf & Pg & Pf' & Wr) H. unfold setup_ranks in H. cbv zeta in H.
  apply rbind_ok in H. destruct H as (u1 & Hg & H). apply guard_ok in Hg. clear u1.
  apply rbind_ok in H. destruct H as (u2 & Hp & H). apply guard_ok in Hp. clear u2.
  apply rbind_ok in H. destruct H as (ranks1 & H1 & H). apply rmapM_ok in H1.
  apply rbind_ok in H. destruct H as (u3 & Hc & H). apply guard_ok in Hc. clear u3.
  apply rbind_ok in H. destruct H as (l & H0 & H). apply rmapM_ok in H0. apply rmapM_ok in H.
  set (nd := j_nd J) in *.
  assert (length ranks1 = length ranks) as Len1 by (apply F2_len in H1; rewrite combine_length, zseq_length in H1; lia).
  rewrite <- Len1 in H0.
  assert (length l = length ranks) as Len2 by (apply F2_len in H0; rewrite combine_length, zseq_length in H0; lia).
  assert (length outs = length ranks) as Len3 by (apply F2_len in H; lia).
  (* ranks1 vs ranks *)
  assert (forall n r1, nth_error ranks1 n = Some r1 -> exists r, nth_error ranks n = Some r /\ k_sizes r1 = k_sizes r /\ length (k_coords r1) = nd) as R1.
  { intros n r1 E. destruct (F2_nth_r _ _ _ _ _ _ _ H1 E) as ((i, r) & A & B). cbn [fst snd] in B.
    assert (In (i, r) (combine (zseq (Z.of_nat (length ranks))) ranks)) as I by (eapply nth_error_In; exact A).
    rewrite nth_error_combine in A by (rewrite zseq_length; lia). exists r.
    destruct (nth_error (zseq _) n); [|discriminate]. destruct (nth_error ranks n) as [r'|] eqn:Er; [|discriminate]. injection A as <- <-.
    split; [reflexivity|]. apply nth_error_In in Er. pose proof (proj1 (Forall_forall _ _) Wr _ Er) as (La & Lb & Pz).
    unfold rank_coords in B. destruct (j_find J).
    - apply rbind_ok in B. destruct B as (c & B & B2). injection B2 as <-. cbn. split; [reflexivity|]. apply unlayout_len in B. rewrite B. exact Wn.
    - injection B as <-. split; [reflexivity|exact La]. }
  (* l vs ranks1 *)
  assert (forall n e, nth_error l n = Some e -> exists r1, nth_error ranks1 n = Some r1 /\ pass0 J ranks1 (Z.of_nat n) r1 = Ok e) as R2.
  { intros n e E. destruct (F2_nth_r _ _ _ _ _ _ _ H0 E) as ((i, r) & A & B). cbn [fst snd] in B.
    assert (n < length ranks1)%nat as Ln by (assert (n < length l)%nat by (apply nth_error_Some; congruence); lia).
    rewrite nth_error_combine in A by (rewrite zseq_length; lia). rewrite nth_error_zseq in A by lia.
    destruct (nth_error ranks1 n) as [r'|]; [|discriminate]. injection A as <- <-. eauto. }
  assert (forall me i e, pass0 J ranks1 i me = Ok e -> k_coords (fst e) = k_coords me /\ length (k_sizes (fst e)) = nd /\ length (snd e) = nd /\
    (forall j, (j < nd)%nat -> exists a b, pass0_dim J (domain_sum J ranks1 me j) me j = Ok (a, b) /\ pos j (k_sizes (fst e)) = a /\ pos j (snd e) = b) /\
    (forall n rn, nth_error ranks1 n = Some rn -> place_ok J i me (Z.of_nat n) rn = true)) as P0.
  { intros me i e E. unfold pass0 in E. apply rbind_ok in E. destruct E as (u & Eg & E). apply guard_ok in Eg.
    apply rbind_ok in E. destruct E as (d & Ed & E). injection E as <-. cbn [fst snd]. apply rmapM_ok in Ed.
    assert (length d = nd) as Ld by (apply F2_len in Ed; rewrite seq_length in Ed; fold nd in Ed; lia).
    split; [reflexivity|]. split; [cbn; rewrite map_length; exact Ld|]. split; [rewrite map_length; exact Ld|]. split.
    - intros j Lj. assert (nth_error (seq 0 nd) j = Some j) as Es. { rewrite (nth_error_nth' _ 0%nat) by (rewrite seq_length; lia). rewrite seq_nth by lia. reflexivity. }
      destruct (F2_nth _ _ _ _ _ _ _ Ed Es) as ((a, b) & E1 & E2). exists a, b. split; [exact E2|]. unfold pos. cbn.
      split; apply nth_error_nth; erewrite map_nth_error; [|exact E1| |exact E1]; reflexivity.
    - intros n rn En. rewrite forallb_forall in Eg. apply (Eg (Z.of_nat n, rn)). apply In_combine_zseq. split; [lia|]. rewrite Nat2Z.id. exact En. }
  set (L := map fst l) in *.
  assert (forall n r, nth_error L n = Some r -> exists e r1 r0, nth_error l n = Some e /\ fst e = r /\ nth_error ranks1 n = Some r1 /\ pass0 J ranks1 (Z.of_nat n) r1 = Ok e /\
    nth_error ranks n = Some r0 /\ k_sizes r1 = k_sizes r0 /\ length (k_coords r1) = nd) as RL.
  { intros n r E. subst L. rewrite nth_error_map in E. destruct (nth_error l n) as [e|] eqn:Ee; [|discriminate]. injection E as <-.
    destruct (R2 n e Ee) as (r1 & A & B). destruct (R1 n r1 A) as (r0 & C & D & F). exists e, r1, r0. repeat split; auto. }
  assert (forall r, In r L -> length (k_coords r) = nd) as Lc.
  { intros r I. apply In_nth_error in I. destruct I as (n & I). destruct (RL n r I) as (e & r1 & r0 & A & <- & B & C & D & E & F).
    destruct (P0 _ _ _ C) as (Ec & _). rewrite Ec. exact F. }
  assert (forall r, In r L -> length (k_sizes r) = nd) as Ls.
  { intros r I. apply In_nth_error in I. destruct I as (n & I). destruct (RL n r I) as (e & r1 & r0 & A & <- & B & C & D & E & F).
    destruct (P0 _ _ _ C) as (_ & Es & _). exact Es. }
  assert (forall r1, In r1 ranks1 -> length (k_coords r1) = nd -> in_sizes (j_nranks J) (k_coords r1)) as Co1.
  { intros r1 I E. rewrite forallb_forall in Hc. specialize (Hc r1 I). unfold coords_ok in Hc. rewrite forallb_seq in Hc.
    apply (in_sizes_pos_iff J Wn); [exact E|]. intros j Lj. specialize (Hc j Lj). lia. }
  assert (forall r, In r L -> in_sizes (j_nranks J) (k_coords r)) as Co.
  { intros r I. apply In_nth_error in I. destruct I as (n & I). destruct (RL n r I) as (e & r1 & r0 & A & <- & B & C & D & E & F).
    destruct (P0 _ _ _ C) as (Ec & _). rewrite Ec. apply Co1; [eapply nth_error_In; exact B|exact F]. }
  assert (NoDup (map k_coords L)) as Nd.
  { apply NoDup_nth_error. intros a b La E. rewrite map_length in La.
    destruct (nth_error L a) as [ra|] eqn:Ea; [|exfalso; apply nth_error_None in Ea; lia].
    rewrite !nth_error_map, Ea in E. cbn in E. destruct (nth_error L b) as [rb|] eqn:Eb; [|discriminate]. cbn in E. injection E as E.
    destruct (RL _ _ Ea) as (ea & ra1 & ra0 & A1 & <- & A3 & A4 & A5 & A6 & A7). destruct (RL _ _ Eb) as (eb & rb1 & rb0 & B1 & <- & B3 & B4 & B5 & B6 & B7).
    destruct (P0 _ _ _ A4) as (Ca & _ & _ & _ & Pa). destruct (P0 _ _ _ B4) as (Cb & _). specialize (Pa _ _ B3). unfold place_ok in Pa.
    destruct (Z.of_nat b =? Z.of_nat a) eqn:Eab; [lia|]. exfalso.
    assert (mandist (rdeltas J ra1 rb1) = 0); [|lia]. unfold mandist. apply zsum_abs0. unfold rdeltas. apply Forall_forall. intros x Ix.
    apply in_map_iff in Ix. destruct Ix as (j & <- & _). rewrite <- Ca, <- Cb, E. lia. }
  assert (Z.of_nat (length L) = zprod (j_nranks J)) as Ct by (subst L; rewrite map_length; lia).
  assert (forall n o, nth_error outs n = Some o -> exists e, nth_error l n = Some e /\ pass1 J L (fst e) (snd e) = Ok o) as RO.
  { intros n o E. apply (F2_nth_r _ _ _ _ _ _ _ H E). }
  assert (forall n e, nth_error l n = Some e -> exists o, nth_error outs n = Some o /\ pass1 J L (fst e) (snd e) = Ok o) as RO'.
  { intros n o E. apply (F2_nth _ _ _ _ _ _ _ H E). }
  assert (forall me g o, pass1 J L me g = Ok o -> (forall b, In b L -> aligned_with J me b = true) /\ (forall j, (j < nd)%nat -> pos j g = domain_sum J L me j) /\
    o = mkRo (k_coords me) (k_sizes me) g (map (offset_dim J L me) (seq 0 nd))) as P1.
  { intros me g o E. unfold pass1 in E. apply rbind_ok in E. destruct E as (u & Ea & E). apply guard_ok in Ea.
    apply rbind_ok in E. destruct E as (u' & Eb & E). apply guard_ok in Eb. injection E as <-. rewrite forallb_forall in Ea. rewrite forallb_seq in Eb.
    split; [exact Ea|]. split; [|reflexivity]. intros j Lj. specialize (Eb j Lj). lia. }
  assert (forall a b, In a L -> In b L -> aligned_with J a b = true) as Al.
  { intros a b Ia Ib. apply In_nth_error in Ia. destruct Ia as (n & Ia). destruct (RL _ _ Ia) as (e & r1 & r0 & A & <- & _).
    destruct (RO' n e A) as (o & _ & E). apply P1 in E. destruct E as (E & _). apply E, Ib. }
  assert (forall n r r0 j, nth_error L n = Some r -> nth_error ranks n = Some r0 -> (j < nd)%nat ->
     0 < pos j (k_sizes r) /\ (pos j (k_sizes r0) <> 0 -> pos j (k_sizes r) = pos j (k_sizes r0))) as Sz.
  { intros n r r0' j I I0 Lj. destruct (RL n r I) as (e & r1 & r0 & A & <- & B & C & D & E & F). assert (r0' = r0) by congruence. subst r0'.
    destruct (P0 _ _ _ C) as (Ec & _ & _ & Ed & _). destruct (Ed j Lj) as (a & b & X & -> & _). apply pass0_dim_ok in X.
    pose proof (proj1 (Forall_forall _ _) Wr r0 ltac:(eapply nth_error_In; exact D)) as (La & Lb & Pz). rewrite E in X.
    assert (0 <= pos j (k_sizes r0)) as Pz' by (apply (pos_Forall (fun z => 0 <= z)); [exact Pz|lia]).
    destruct X as [(X & ->)|(X & -> & _ & Y & ->)]; [split; lia|].
    assert (0 < pos j (j_gsz J)) as Hg0.
    { assert (0 <= pos j (j_gsz J)) by (apply (pos_Forall (fun z => 0 <= z)); [exact Pg|lia]). rewrite forallb_forall in Hg.
      specialize (Hg r0 ltac:(eapply nth_error_In; exact D)). unfold sizes_given in Hg. rewrite forallb_seq in Hg. specialize (Hg j Lj). lia. }
    assert (0 < pos j (j_nranks J)) as Hn0.
    { pose proof (Co1 r1 ltac:(eapply nth_error_In; exact B) F) as Q. rewrite (in_sizes_pos_iff J Wn) in Q by exact F. specialize (Q j Lj). lia. }
    assert (1 <= pos j (j_fold J)) as Hf0 by (apply (pos_Forall (fun z => 1 <= z)); [exact Pf'|lia]).
    split; [|lia]. cbv zeta in Y. destruct (pos j (k_coords r1) =? _); [exact Y|].
    pose proof (CEIL_DIV_bounds (pos j (j_gsz J)) (pos j (j_nranks J)) ltac:(lia) ltac:(lia)) as Hcd.
    pose proof (ROUND_UP_bounds (CEIL_DIV (pos j (j_gsz J)) (pos j (j_nranks J))) (pos j (j_fold J)) ltac:(lia) ltac:(lia)). nia. }
  assert (forall r j, In r L -> (j < nd)%nat -> 0 < pos j (k_sizes r)) as Ps.
  { intros r j I Lj. apply In_nth_error in I. destruct I as (n & I). destruct (RL n r I) as (e & r1 & r0 & A & _ & B & C & D & E & F).
    apply (Sz n r r0 j I D Lj). }
  assert (L <> []) as Ne.
  { intros E0. apply (f_equal (@length _)) in E0. subst L. rewrite map_length in E0. cbn in E0. destruct ranks; [congruence|cbn in Len2; lia]. }
  set (G := map (fun j => Pf L j (pos j (j_nranks J))) (seq 0 nd)).
  assert (forall j, (j < nd)%nat -> pos j G = Pf L j (pos j (j_nranks J))) as Gp by (intros; apply pos_map_seq; assumption).
  assert (length G = nd) as LG by (subst G; rewrite map_length, seq_length; reflexivity).
  assert (forall n e, nth_error l n = Some e -> snd e = G) as GG.
  { intros n e A. destruct (RO' n e A) as (o & _ & E). apply P1 in E. destruct E as (_ & E & _).
    assert (In (fst e) L) as Ie by (subst L; apply in_map; eapply nth_error_In; exact A).
    destruct (R2 n e A) as (r1 & _ & E1). destruct (P0 _ _ _ E1) as (_ & _ & Lg & _).
    apply list_eq_pos; [lia|]. rewrite Lg. intros j Lj. rewrite E, Gp by assumption. apply domain_sum_eq; assumption. }
  exists L. split; [constructor; assumption|]. split; [subst L; rewrite map_length; exact Len2|]. split; [|split].
  - assert (outs = map (out_of J L) (map fst l)) as Q; [|exact Q].
    assert (forall e, In e l -> snd e = G) as GI. { intros e I. apply In_nth_error in I. destruct I as (n & I). apply (GG n e I). }
    clear - H P1 GI. clearbody L. induction H as [|e o l' outs' He H IH]; [reflexivity|]. cbn [map]. f_equal; [|apply IH; intros; apply GI; right; assumption].
    apply P1 in He. destruct He as (_ & _ & ->). rewrite GI by (left; reflexivity). reflexivity.
  - intros i r o j A B Lj Hnz. apply (Sz i o r j); auto.
  - intros j Lj Hnz. destruct l as [|e l'] eqn:El; [exfalso; apply Ne; reflexivity|].
    destruct (R2 0%nat e eq_refl) as (r1 & _ & E1). destruct (P0 _ _ _ E1) as (_ & _ & _ & Ed & _). destruct (Ed j Lj) as (a & b & X & _ & Y).
    rewrite <- Gp, <- (GG 0%nat e eq_refl), Y by exact Lj. unfold pass0_dim in X. destruct (_ =? 0) eqn:Z1.
    + destruct (negb _); [discriminate|]. cbv zeta in X. destruct (_ <=? 0); [discriminate|]. injection X as _ <-. reflexivity.
    + injection X as _ <-. destruct (pos j (j_gsz J) =? 0) eqn:Z2; [lia|reflexivity].
Qed.

Theorem setup_ranks_ok : forall J ranks outs, ranks_wf J ranks -> setup_ranks J ranks = Ok outs ->
  length outs = length ranks /\
  (forall o, In o outs -> length (o_sizes o) = j_nd J /\ Forall (fun z => 0 < z) (o_sizes o)) /\
  (forall i r o j, nth_error ranks i = Some r -> nth_error outs i = Some o -> (j < j_nd J)%nat -> pos j (k_sizes r) <> 0 -> pos j (o_sizes o) = pos j (k_sizes r)) /\
  exists G, length G = j_nd J /\ (forall o, In o outs -> o_gsz o = G) /\
    (forall j, (j < j_nd J)%nat -> pos j (j_gsz J) <> 0 -> pos j G = pos j (j_gsz J)) /\
    exact_cover in_box (map rank_box outs) (in_box (map (fun g => (0, g)) G)).
Proof.
  intros J ranks outs W H. destruct (setup_facts J ranks outs W H) as (L & [Lc Ls Nn Co Nd Ct Al Ps Ne] & Len & -> & Sz & Gz).
  split; [rewrite map_length; exact Len|]. split; [|split].
  - intros o I. apply in_map_iff in I. destruct I as (r & <- & I). cbn. split; [apply Ls, I|].
    apply Forall_forall. intros x Ix. apply (In_nth _ _ 0) in Ix. destruct Ix as (j & Lj & <-). apply (Ps r j I). rewrite Ls in Lj by exact I. exact Lj.
  - intros i r o j A B Lj Hnz. rewrite nth_error_map in B. destruct (nth_error L i) as [q|] eqn:E; [|discriminate]. injection B as <-. cbn. apply (Sz i r q j); assumption.
  - exists (map (fun j => Pf L j (pos j (j_nranks J))) (seq 0 (j_nd J))). split; [rewrite map_length, seq_length; reflexivity|]. split; [|split].
    + intros o I. apply in_map_iff in I. destruct I as (r & <- & I). reflexivity.
    + intros j Lj Hnz. rewrite pos_map_seq by exact Lj. apply Gz; assumption.
    + rewrite !map_map. apply (grid_cover J L); assumption.
Qed.

(* the bounds of a rank in a dim depend on its position in that dim only *)
Lemma setup_grid : forall J ranks outs, ranks_wf J ranks -> setup_ranks J ranks = Ok outs ->
  exists P : nat -> Z -> Z,
    (forall j, P j 0 = 0) /\ (forall j c, (j < j_nd J)%nat -> 0 <= c < pos j (j_nranks J) -> P j c < P j (c + 1)) /\
    NoDup (map o_coords outs) /\
    (forall o, In o outs -> length (o_coords o) = j_nd J /\ length (o_sizes o) = j_nd J /\ length (o_ofs o) = j_nd J) /\
    (forall o j, In o outs -> (j < j_nd J)%nat ->
      0 <= pos j (o_coords o) < pos j (j_nranks J) /\ pos j (o_ofs o) = P j (pos j (o_coords o)) /\
      pos j (o_ofs o) + pos j (o_sizes o) = P j (pos j (o_coords o) + 1) /\ pos j (o_gsz o) = P j (pos j (j_nranks J))) /\
    (forall c, length c = j_nd J -> (forall j, (j < j_nd J)%nat -> 0 <= pos j c < pos j (j_nranks J)) -> exists o, In o outs /\ o_coords o = c).
Proof.
  intros J ranks outs W H. destruct (setup_facts J ranks outs W H) as (L & [Lc Ls Nn Co Nd Ct Al Ps Ne] & Len & -> & Sz & Gz).
  exists (Pf L). split; [reflexivity|]. split; [|split; [|split; [|split]]].
  - intros j c Lj Hc. rewrite (Pf_succ J L) by (assumption || lia). pose proof (Sf_pos J L Lc Ls Nn Co Nd Ct Al Ps j c Lj Ne Hc). lia.
  - rewrite map_map. exact Nd.
  - intros o I. apply in_map_iff in I. destruct I as (r & <- & I). cbn. rewrite map_length, seq_length. auto.
  - intros o j I Lj. apply in_map_iff in I. destruct I as (r & <- & I). cbn [o_coords o_sizes o_ofs o_gsz out_of]. pose proof (cpos J L Lc Nn Co r j I Lj) as Hc.
    rewrite !pos_map_seq by exact Lj. rewrite (offset_eq J L Lc Nn Co Nd Ct Al) by assumption.
    rewrite (Pf_succ J L) by (assumption || lia). rewrite (Sf_ok J L Lc Nn Co Nd Ct Al) by assumption. repeat split; lia.
  - intros c Lc' Hc. destruct (full J L Nn Co Nd Ct c) as (r & Ir & Er). { apply (in_sizes_pos_iff J Nn); assumption. }
    exists (out_of J L r). split; [apply in_map; exact Ir|exact Er].
Qed.

(* ---- automatic positions and sizes: it succeeds exactly when there is something left for the last rank ---- *)
Definition auto_rsz (J : job) (j : nat) : Z := ROUND_UP (CEIL_DIV (pos j (j_gsz J)) (pos j (j_nranks J))) (pos j (j_fold J)).
Definition auto_size (J : job) (j : nat) (c : Z) : Z :=
  if c =? pos j (j_nranks J) - 1 then pos j (j_gsz J) - auto_rsz J j * (pos j (j_nranks J) - 1) else auto_rsz J j.

Lemma rmapM_map : forall A B (f : A -> res B) (g : A -> B) l, (forall a, In a l -> f a = Ok (g a)) -> rmapM f l = Ok (map g l).
Proof.
  intros A B f g. induction l as [|a l IH]; intros H; cbn [rmapM map]; [reflexivity|]. rewrite H by (left; reflexivity). cbn [rbind].
  fold (rmapM f). rewrite IH by (intros; apply H; right; assumption). reflexivity.
Qed.
Lemma guard_true : forall b, b = true -> guard b = Ok tt.
Proof. intros b ->. reflexivity. Qed.

Section Auto.
  Variable J : job.
  Notation nd := (j_nd J).
  Variable ranks : list rank_in.
  Hypothesis W : ranks_wf J ranks.
  Hypothesis Find : j_find J = true.
  Hypothesis Gp : forall j, (j < nd)%nat -> 0 < pos j (j_gsz J).
  Hypothesis Np : Forall (fun n => 0 < n) (j_nranks J).
  Hypothesis Cnt : zprod (j_nranks J) = Z.of_nat (length ranks).
  Hypothesis Auto : forall r j, In r ranks -> (j < nd)%nat -> pos j (k_sizes r) = 0.

  Let N := Z.of_nat (length ranks).
  Let pt (i : Z) : list Z := point_of (j_fi J) (j_nranks J) i.
  Let R1 := map (fun e : Z * rank_in => mkRk (pt (fst e)) (k_sizes (snd e))) (combine (zseq N) ranks).
  Let out0 (c : list Z) : rank_in * list Z := (mkRk c (map (fun j => auto_size J j (pos j c)) (seq 0 nd)), map (fun j => pos j (j_gsz J)) (seq 0 nd)).

  Lemma au_len1 : length R1 = length ranks.
  Proof. subst R1. rewrite map_length, combine_length, zseq_length. subst N. lia. Qed.
  Lemma au_In1 : forall r, In r R1 -> exists i r0, 0 <= i < N /\ In r0 ranks /\ r = mkRk (pt i) (k_sizes r0).
  Proof.
    intros r I. subst R1. apply in_map_iff in I. destruct I as ((i, r0) & <- & I). subst N. apply In_combine_zseq in I. destruct I as (Hi & E). cbn [fst snd].
    exists i, r0. split; [|split; [eapply nth_error_In; exact E|reflexivity]].
    assert (Z.to_nat i < length ranks)%nat by (apply nth_error_Some; congruence). lia.
  Qed.
  Lemma au_nth1 : forall i r, In (i, r) (combine (zseq N) R1) -> 0 <= i < N /\ k_coords r = pt i.
  Proof.
    intros i r I. assert (N = Z.of_nat (length R1)) as E by (rewrite au_len1; reflexivity). rewrite E in I. apply In_combine_zseq in I. destruct I as (Hi & I).
    subst R1. rewrite nth_error_map in I. destruct (nth_error (combine _ _) _) as [(i', r0)|] eqn:En; [|discriminate]. cbn in I. injection I as <-. cbn.
    rewrite nth_error_combine in En by (rewrite zseq_length; subst N; lia).
    assert (Z.to_nat i < length ranks)%nat as Li.
    { apply nth_error_Some. intros X. rewrite X in En. destruct (nth_error (zseq N) _); discriminate. }
    rewrite nth_error_zseq in En by (subst N; lia). destruct (nth_error ranks _); [|discriminate]. injection En as <- <-. rewrite Z2Nat.id by lia. split; [subst N; lia|reflexivity].
  Qed.
  Lemma pt_in : forall i, in_sizes (j_nranks J) (pt i).
  Proof. intros. apply point_of_in. exact Np. Qed.
  Lemma pt_len : forall i, length (pt i) = nd.
  Proof. intros. destruct W as (_ & _ & Wn & _). rewrite <- Wn. symmetry. eapply F2_len. exact (pt_in i). Qed.
  Lemma pt_inj : forall i k, 0 <= i < N -> 0 <= k < N -> pt i = pt k -> i = k.
  Proof.
    intros i k Hi Hk E. rewrite <- (layout_point (j_fi J) (j_nranks J) i), <- (layout_point (j_fi J) (j_nranks J) k) by (auto; lia).
    unfold pt in E. rewrite E. reflexivity.
  Qed.
  Lemma au_coords : rmapM (fun e : Z * rank_in => rank_coords J (fst e) (snd e)) (combine (zseq N) ranks) = Ok R1.
  Proof.
    subst R1. apply rmapM_map. intros (i, r) I. subst N. apply In_combine_zseq in I. destruct I as (Hi & _). cbn [fst snd]. unfold rank_coords. rewrite Find.
    rewrite unlayout_vals_point by (auto; lia). reflexivity.
  Qed.
  Lemma au_sizes1 : forall r j, In r R1 -> (j < nd)%nat -> pos j (k_sizes r) = 0.
  Proof. intros r j I Lj. destruct (au_In1 r I) as (i & r0 & _ & I0 & ->). cbn. apply Auto; assumption. Qed.
  Lemma au_sum0 : forall me j, (j < nd)%nat -> domain_sum J R1 me j = 0.
  Proof.
    intros me j Lj. unfold domain_sum. assert (forall r, In r (filter (fun rn => is_inline J me rn j) R1) -> pos j (k_sizes r) = 0) as Z0.
    { intros r I. apply filter_In in I. apply au_sizes1; tauto. }
    revert Z0. generalize (filter (fun rn => is_inline J me rn j) R1). intros l Z0. induction l as [|r l IH]; [reflexivity|]. cbn. rewrite Z0 by (left; reflexivity).
    rewrite IH; [reflexivity|]. intros; apply Z0; right; assumption.
  Qed.
  Lemma au_pass0 : (forall j, (j < nd)%nat -> auto_rsz J j * (pos j (j_nranks J) - 1) < pos j (j_gsz J)) ->
    rmapM (fun e : Z * rank_in => pass0 J R1 (fst e) (snd e)) (combine (zseq N) R1) = Ok (map (fun e : Z * rank_in => out0 (k_coords (snd e))) (combine (zseq N) R1)).
  Proof.
    intros Room. apply rmapM_map. intros (i, me) I. cbn [fst snd]. destruct (au_nth1 i me I) as (Hi & Ec). unfold pass0.
    rewrite guard_true.
    - cbn [rbind]. rewrite rmapM_map with (g := fun j => (auto_size J j (pos j (k_coords me)), pos j (j_gsz J))).
      + cbn [rbind]. unfold out0. rewrite !map_map. reflexivity.
      + intros j Ij. apply in_seq in Ij. unfold pass0_dim. rewrite au_sizes1 by (try lia; eapply in_combine_r; exact I). rewrite Z.eqb_refl, au_sum0 by lia. cbn [Z.eqb negb].
        cbv zeta. fold (auto_rsz J j). specialize (Room j ltac:(lia)). destruct (_ <=? 0) eqn:E; [lia|]. reflexivity.
    - apply forallb_forall. intros (k, rn) Ik. cbn [fst snd]. assert (Z.of_nat (length R1) = N) as E by (rewrite au_len1; reflexivity). rewrite E in Ik.
      destruct (au_nth1 k rn Ik) as (Hk & Eck). unfold place_ok. destruct (k =? i) eqn:Eki.
      + assert (k = i) by lia. subst k. apply Z.eqb_eq. apply zsum_abs0. apply Forall_forall. intros x Ix. apply in_map_iff in Ix. destruct Ix as (j & <- & _).
        rewrite Ec, Eck. lia.
      + apply negb_true_iff, Z.eqb_neq. intros X. apply zsum_abs0 in X. assert (k = i); [|lia]. apply pt_inj; auto. rewrite <- Ec, <- Eck.
        apply list_eq_pos; [rewrite Ec, Eck, !pt_len; reflexivity|]. rewrite Eck, pt_len. intros j Lj.
        assert (pos j (rdeltas J me rn) = 0) as P by (apply (pos_Forall (fun z => z = 0)); [exact X|unfold rdeltas; rewrite map_length, seq_length; exact Lj]).
        unfold rdeltas in P. rewrite pos_map_seq in P by exact Lj. rewrite <- Eck. lia.
  Qed.
  Let L := map fst (map (fun e : Z * rank_in => out0 (k_coords (snd e))) (combine (zseq N) R1)).
  Lemma au_L : forall r, In r L -> exists i, 0 <= i < N /\ r = fst (out0 (pt i)).
  Proof.
    intros r I. subst L. rewrite map_map in I. apply in_map_iff in I. destruct I as ((i, r1) & <- & I). destruct (au_nth1 i r1 I) as (Hi & E). exists i.
    cbn [snd]. rewrite E. auto.
  Qed.
  Lemma au_size : forall c j, (j < nd)%nat -> pos j (k_sizes (fst (out0 c))) = auto_size J j (pos j c).
  Proof. intros. cbn. apply pos_map_seq. assumption. Qed.
  Lemma au_align : forall a b, In a L -> In b L -> aligned_with J a b = true.
  Proof.
    intros a b Ia Ib. destruct (au_L a Ia) as (i & _ & ->). destruct (au_L b Ib) as (k & _ & ->). unfold aligned_with. apply forallb_seq. intros di Ldi.
    destruct (is_inline J _ _ di) eqn:E; [|reflexivity]. cbn [negb orb]. apply forallb_seq. intros dj Ldj. destruct (dj =? di)%nat eqn:Ed; [reflexivity|]. cbn [orb].
    rewrite !au_size by assumption. rewrite inline_iff in E. specialize (E dj Ldj ltac:(lia)). cbn [out0 fst k_coords] in E. rewrite E. apply Z.eqb_refl.
  Qed.
  Lemma au_coordsL : map k_coords L = map pt (zseq N).
  Proof.
    subst L. rewrite !map_map. cbn. transitivity (map (fun e : Z * rank_in => pt (fst e)) (combine (zseq N) R1)).
    - apply map_ext_in. intros (i, r) I. apply au_nth1 in I. tauto.
    - rewrite <- (map_map fst pt). f_equal. pose proof au_len1 as E. assert (length (zseq N) = length R1) as E2 by (rewrite E, zseq_length; subst N; lia).
      revert E2. clear. generalize (zseq N), R1. induction l as [|z l IH]; intros [|r l'] E2; try discriminate; [reflexivity|]. cbn. f_equal. apply IH. cbn in E2. lia.
  Qed.
  Lemma au_sum : forall me j, In me L -> (j < nd)%nat -> domain_sum J L me j = pos j (j_gsz J).
  Proof.
    intros me j Im Lj. destruct W as (Wne & Wg & Wn & _).
    assert (forall r, In r L -> length (k_coords r) = nd) as Lc. { intros r I. destruct (au_L r I) as (i & _ & ->). apply pt_len. }
    assert (forall r, In r L -> in_sizes (j_nranks J) (k_coords r)) as Co. { intros r I. destruct (au_L r I) as (i & _ & ->). apply pt_in. }
    assert (NoDup (map k_coords L)) as Nd.
    { rewrite au_coordsL. assert (forall a b, In a (zseq N) -> In b (zseq N) -> pt a = pt b -> a = b) as Inj.
      { intros a b Ia Ib. apply pt_inj; apply zseq_In; assumption. }
      pose proof (zseq_NoDup N) as NZ. revert Inj NZ. generalize (zseq N). clear. intros l Inj NZ. induction NZ as [|x l Nx NZ IH]; cbn; [constructor|]. constructor.
      - intros I. apply in_map_iff in I. destruct I as (y & E & Iy). apply Nx. rewrite (Inj x y); [exact Iy|left; reflexivity|right; exact Iy|congruence].
      - apply IH. intros; apply Inj; auto; right; assumption. }
    assert (Z.of_nat (length L) = zprod (j_nranks J)) as Ct.
    { rewrite <- (map_length k_coords), au_coordsL, map_length, zseq_length. subst N. lia. }
    rewrite (domain_sum_eq J L Lc Wn Co Nd Ct au_align) by assumption.
    pose proof (cpos J L Lc Wn Co me j Im Lj) as Hn. set (n := pos j (j_nranks J)) in *.
    assert (forall c, 0 <= c < n -> Sf L j c = auto_size J j c) as SS.
    { intros c Hc. destruct (full J L Wn Co Nd Ct (map (fun i => if (i =? j)%nat then c else pos i (k_coords me)) (seq 0 nd))) as (r & Ir & Er).
      { apply (in_sizes_pos_iff J Wn); [rewrite map_length, seq_length; reflexivity|]. intros i Li. rewrite pos_map_seq by assumption.
        destruct (i =? j)%nat eqn:E; [assert (i = j) by lia; subst i; exact Hc|apply (cpos J L Lc Wn Co); assumption]. }
      assert (pos j (k_coords r) = c) as Ec. { rewrite Er, pos_map_seq, Nat.eqb_refl by assumption. reflexivity. }
      rewrite <- Ec, (Sf_ok J L Lc Wn Co Nd Ct au_align) by assumption. destruct (au_L r Ir) as (i & _ & ->). apply au_size. exact Lj. }
    assert (forall m, 0 <= m -> m <= n - 1 -> Pf L j m = auto_rsz J j * m) as PP.
    { intros m Hm. pattern m. apply natlike_ind; [intros; rewrite Pf_0; lia| |exact Hm]. intros x Hx IH Hle. replace (Z.succ x) with (x + 1) by lia.
      rewrite (Pf_succ J) by assumption. rewrite IH, SS by lia. unfold auto_size. fold n. destruct (x =? n - 1) eqn:E; lia. }
    replace n with (n - 1 + 1) by lia. rewrite (Pf_succ J) by (assumption || lia). rewrite PP, SS by lia. unfold auto_size. fold n. rewrite Z.eqb_refl. lia.
  Qed.
  Theorem auto_ok : (forall j, (j < nd)%nat -> auto_rsz J j * (pos j (j_nranks J) - 1) < pos j (j_gsz J)) -> exists outs, setup_ranks J ranks = Ok outs /\
    forall o j, In o outs -> (j < nd)%nat -> pos j (o_sizes o) = auto_size J j (pos j (o_coords o)).
  Proof.
    intros Room. unfold setup_ranks. cbv zeta. fold N.
    rewrite guard_true.
    2:{ apply forallb_forall. intros r I. unfold sizes_given. apply forallb_seq. intros j Lj. specialize (Gp j Lj). lia. }
    cbn [rbind]. rewrite guard_true by (rewrite Cnt; apply Z.eqb_refl). cbn [rbind]. rewrite au_coords. cbn [rbind].
    rewrite guard_true.
    2:{ apply forallb_forall. intros r I. destruct (au_In1 r I) as (i & r0 & _ & _ & ->). unfold coords_ok. apply forallb_seq. intros j Lj. cbn [k_coords].
        destruct W as (_ & _ & Wn & _). pose proof (pt_in i) as P. rewrite (in_sizes_pos_iff J Wn) in P by apply pt_len. specialize (P j Lj). lia. }
    cbn [rbind]. rewrite au_pass0 by exact Room. cbn [rbind]. fold L. eexists. split; [apply rmapM_map with (g := fun e => mkRo (k_coords (fst e)) (k_sizes (fst e)) (snd e) (map (offset_dim J L (fst e)) (seq 0 nd)))|].
    2:{ intros o j Io Lj. apply in_map_iff in Io. destruct Io as (e & <- & Ie). apply in_map_iff in Ie. destruct Ie as (e' & <- & _). cbn [o_sizes o_coords]. apply au_size. exact Lj. }
    intros e I. assert (In (fst e) L) as Ie by (apply in_map; exact I). unfold pass1. rewrite guard_true by (apply forallb_forall; intros b Ib; apply au_align; assumption). cbn [rbind].
    rewrite guard_true; [reflexivity|]. apply forallb_seq. intros j Lj. rewrite au_sum by assumption. apply in_map_iff in I. destruct I as (e' & <- & _). cbn [out0 fst snd].
    rewrite pos_map_seq by exact Lj. apply Z.eqb_refl.
  Qed.
  Theorem auto_throw : forall j, (j < nd)%nat -> pos j (j_gsz J) <= auto_rsz J j * (pos j (j_nranks J) - 1) -> forall outs, setup_ranks J ranks <> Ok outs.
  Proof.
    intros j Lj Bad outs E. unfold setup_ranks in E. cbv zeta in E. fold N in E.
    apply rbind_ok in E. destruct E as (u1 & _ & E). apply rbind_ok in E. destruct E as (u2 & _ & E).
    rewrite au_coords in E. cbn [rbind] in E. apply rbind_ok in E. destruct E as (u3 & _ & E). apply rbind_ok in E. destruct E as (l & E & _).
    apply rmapM_ok in E. destruct W as (Wne & _). assert (exists e, In e (combine (zseq N) R1)) as (e & Ie).
    { destruct (combine (zseq N) R1) as [|e l'] eqn:Ec; [|exists e; left; reflexivity]. exfalso. apply (f_equal (@length _)) in Ec. rewrite combine_length, zseq_length, au_len1 in Ec. subst N. cbn in Ec.
      destruct ranks; [congruence|cbn in Ec; lia]. }
    assert (exists o, pass0 J R1 (fst e) (snd e) = Ok o) as (o & Eo).
    { apply In_nth_error in Ie. destruct Ie as (n & Ie). destruct (F2_nth _ _ _ _ _ _ _ E Ie) as (o & _ & Eo). eauto. }
    unfold pass0 in Eo. apply rbind_ok in Eo. destruct Eo as (u & _ & Eo). apply rbind_ok in Eo. destruct Eo as (d & Ed & _). apply rmapM_ok in Ed.
    assert (nth_error (seq 0 nd) j = Some j) as Es. { rewrite (nth_error_nth' _ 0%nat) by (rewrite seq_length; lia). rewrite seq_nth by lia. reflexivity. }
    destruct (F2_nth _ _ _ _ _ _ _ Ed Es) as ((a, b) & _ & X). unfold pass0_dim in X. destruct e as (i, me). cbn [fst snd] in *.
    rewrite au_sizes1 in X by (try lia; eapply in_combine_r; exact Ie). rewrite Z.eqb_refl, au_sum0 in X by lia. cbn [Z.eqb negb] in X. cbv zeta in X. fold (auto_rsz J j) in X.
    destruct (_ <=? 0) eqn:E0; [discriminate|lia].
  Qed.
End Auto.

Theorem auto_iff : forall J ranks, ranks_wf J ranks -> j_find J = true ->
  (forall j, (j < j_nd J)%nat -> 0 < pos j (j_gsz J)) -> Forall (fun n => 0 < n) (j_nranks J) ->
  zprod (j_nranks J) = Z.of_nat (length ranks) -> (forall r j, In r ranks -> (j < j_nd J)%nat -> pos j (k_sizes r) = 0) ->
  ((exists outs, setup_ranks J ranks = Ok outs) <->
   forall j, (j < j_nd J)%nat ->
     let n := pos j (j_nranks J) in let f := pos j (j_fold J) in let g := pos j (j_gsz J) in
     ((g + n - 1) / n + f - 1) / f * f * (n - 1) < g).
Proof.
  intros J ranks W F Gp Np Cnt Au. pose proof W as (_ & Wg & Wn & Wf & _ & Pf' & _).
  assert (forall j, (j < j_nd J)%nat -> auto_rsz J j = ((pos j (j_gsz J) + pos j (j_nranks J) - 1) / pos j (j_nranks J) + pos j (j_fold J) - 1) / pos j (j_fold J) * pos j (j_fold J)) as E.
  { intros j Lj. assert (0 < pos j (j_nranks J)) by (apply (pos_Forall (fun z => 0 < z)); [exact Np|lia]).
    assert (1 <= pos j (j_fold J)) by (apply (pos_Forall (fun z => 1 <= z)); [exact Pf'|lia]). specialize (Gp j Lj).
    unfold auto_rsz, ROUND_UP. pose proof (CEIL_DIV_bounds (pos j (j_gsz J)) (pos j (j_nranks J)) ltac:(lia) ltac:(lia)).
    rewrite (CEIL_DIV_spec (CEIL_DIV _ _)) by lia. rewrite CEIL_DIV_spec by lia. reflexivity. }
  split.
  - intros (outs & H) j Lj. cbv zeta. rewrite <- E by exact Lj. destruct (Z_lt_le_dec (auto_rsz J j * (pos j (j_nranks J) - 1)) (pos j (j_gsz J))) as [Y|Y]; [exact Y|].
    exfalso. exact (auto_throw J ranks W F Np Cnt Au j Lj Y outs H).
  - intros H. destruct (auto_ok J ranks W F Gp Np Cnt Au) as (outs & Ho & _); [|eauto]. intros j Lj. specialize (H j Lj). cbv zeta in H. rewrite <- E in H by exact Lj. exact H.
Qed.

(* automatic: every rank begins at a whole number of vectors *)
Theorem auto_aligned : forall J ranks outs, ranks_wf J ranks -> j_find J = true ->
  (forall j, (j < j_nd J)%nat -> 0 < pos j (j_gsz J)) -> Forall (fun n => 0 < n) (j_nranks J) ->
  zprod (j_nranks J) = Z.of_nat (length ranks) -> (forall r j, In r ranks -> (j < j_nd J)%nat -> pos j (k_sizes r) = 0) ->
  setup_ranks J ranks = Ok outs -> forall o j, In o outs -> (j < j_nd J)%nat -> (pos j (j_fold J) | pos j (o_ofs o)).
Proof.
  intros J ranks outs W F Gp Np Cnt Au H o j Io Lj.
  assert (forall j, (j < j_nd J)%nat -> auto_rsz J j * (pos j (j_nranks J) - 1) < pos j (j_gsz J)) as Room.
  { intros k Lk. destruct (Z_lt_le_dec (auto_rsz J k * (pos k (j_nranks J) - 1)) (pos k (j_gsz J))) as [Y|Y]; [exact Y|].
    exfalso. exact (auto_throw J ranks W F Np Cnt Au k Lk Y outs H). }
  destruct (auto_ok J ranks W F Gp Np Cnt Au Room) as (outs' & H' & Sz). rewrite H in H'. injection H' as <-.
  destruct (setup_grid J ranks outs W H) as (P & P0 & _ & _ & Pl & Pc & Pe).
  assert (0 < auto_rsz J j /\ (pos j (j_fold J) | auto_rsz J j)) as (_ & D).
  { pose proof W as (_ & _ & _ & Wf & _ & Pf' & _). assert (1 <= pos j (j_fold J)) by (apply (pos_Forall (fun z => 1 <= z)); [exact Pf'|lia]).
    pose proof W as (_ & Wg & Wn & _). assert (0 < pos j (j_nranks J)) by (apply (pos_Forall (fun z => 0 < z)); [exact Np|lia]). specialize (Gp j Lj).
    pose proof (CEIL_DIV_bounds (pos j (j_gsz J)) (pos j (j_nranks J)) ltac:(lia) ltac:(lia)) as B.
    assert (1 <= CEIL_DIV (pos j (j_gsz J)) (pos j (j_nranks J))) as B1 by nia.
    pose proof (CEIL_DIV_bounds (CEIL_DIV (pos j (j_gsz J)) (pos j (j_nranks J))) (pos j (j_fold J)) ltac:(lia) ltac:(lia)) as B2.
    unfold auto_rsz, ROUND_UP. split; [lia|]. eexists; reflexivity. }
  destruct (Pc o j Io Lj) as (A & -> & _).
  assert (forall c, 0 <= c -> c < pos j (j_nranks J) -> (pos j (j_fold J) | P j c)) as G; [|apply G; lia].
  intros c Hc. pattern c. apply natlike_ind; [intros; rewrite P0; apply Z.divide_0_r| |exact Hc]. intros x Hx IH Hlt.
  destruct (Pe (map (fun i => if (i =? j)%nat then x else pos i (o_coords o)) (seq 0 (j_nd J)))) as (o' & Io' & Eo').
  { rewrite map_length, seq_length. reflexivity. }
  { intros i Li. rewrite pos_map_seq by exact Li. destruct (i =? j)%nat eqn:E; [assert (i = j) by lia; subst i; lia|]. destruct (Pc o i Io Li) as (Q & _). exact Q. }
  destruct (Pc o' j Io' Lj) as (_ & B & C & _). specialize (Sz o' j Io' Lj). rewrite Eo', pos_map_seq, Nat.eqb_refl in Sz, B, C by exact Lj.
  replace (Z.succ x) with (x + 1) by lia. rewrite <- C, B, Sz. apply Z.divide_add_r; [apply IH; lia|]. unfold auto_size. replace (x =? pos j (j_nranks J) - 1) with false by lia. exact D.
Qed.
