From Verif Require Import Base MixedRadix Layout_Model.

Arguments dget : simpl never.
Notation allpos := (Forall (fun s => 0 < s)).

Lemma mr_pos_app : forall s1 o1 s2 o2, length s1 = length o1 ->
  mr_pos (s1 ++ s2) (o1 ++ o2) = mr_pos s1 o1 + zprod s1 * mr_pos s2 o2.
Proof.
  induction s1 as [|s s1 IH]; intros [|o o1] s2 o2 H; cbn in *; try discriminate; [lia|].
  rewrite IH by lia. lia.
Qed.

Lemma gl_layout_pos : forall p ss j,
  gl_layout p ss j = mr_pos (rev (map (dget ss) p)) (rev (map (dget j) p)).
Proof.
  induction p as [|k p IH]; intros ss j; cbn; [reflexivity|].
  rewrite mr_pos_app by (rewrite !rev_length, !map_length; reflexivity).
  rewrite <- IH, zprod_rev. cbn. lia.
Qed.

Lemma set_nth_length : forall k v l, length (set_nth k v l) = length l.
Proof. induction k; intros v [|x l]; cbn; auto. Qed.

Lemma dget_set_same : forall k v l, (k < length l)%nat -> dget (set_nth k v l) k = v.
Proof.
  unfold dget. induction k; intros v [|x l] H; cbn in *; try lia; try reflexivity. apply IHk. lia.
Qed.

Lemma dget_set_other : forall k i v l, i <> k -> dget (set_nth k v l) i = dget l i.
Proof.
  unfold dget. induction k; intros [|i] v [|x l] H; cbn; try reflexivity; try congruence.
  apply IHk. congruence.
Qed.

(* the values written by gl_unlayout_from *)
Fixpoint gl_vals (first : bool) (p : list nat) (sizes : list Z) (ai : Z) : list Z :=
  match p with
  | [] => []
  | k :: p' =>
      let q := Z.quot ai (zprod (map (dget sizes) p')) in
      (if first then q else Z.rem q (dget sizes k)) :: gl_vals false p' sizes ai
  end.

Lemma unlayout_length : forall p b ss ai j, length (gl_unlayout_from b p ss ai j) = length j.
Proof. induction p; intros; cbn; [reflexivity|]. rewrite IHp, set_nth_length. reflexivity. Qed.

Lemma unlayout_other : forall p b ss ai j k, ~ In k p ->
  dget (gl_unlayout_from b p ss ai j) k = dget j k.
Proof.
  induction p as [|a p IH]; intros b ss ai j k H; cbn; [reflexivity|].
  rewrite IH by (intros ?; apply H; right; assumption).
  apply dget_set_other. intros ->. apply H. left. reflexivity.
Qed.

Lemma unlayout_vals : forall p b ss ai j, NoDup p -> (forall k, In k p -> (k < length j)%nat) ->
  map (dget (gl_unlayout_from b p ss ai j)) p = gl_vals b p ss ai.
Proof.
  induction p as [|a p IH]; intros b ss ai j Hnd Hlt; [reflexivity|].
  inversion Hnd as [|? ? Hna Hnd']; subst.
  cbn [gl_unlayout_from map gl_vals]. f_equal.
  - rewrite unlayout_other by assumption. rewrite dget_set_same by (apply Hlt; left; reflexivity).
    destruct p; [|reflexivity]. cbn [map zprod]. rewrite Z.quot_1_r. reflexivity.
  - rewrite IH; [reflexivity|assumption|].
    intros k Hk. rewrite set_nth_length. apply Hlt. right. assumption.
Qed.

Lemma mr_digits_app : forall s1 s2 i, allpos s1 -> 0 <= i ->
  mr_digits (s1 ++ s2) i = mr_digits s1 i ++ mr_digits s2 (i / zprod s1).
Proof.
  induction s1 as [|s s1 IH]; intros s2 i Hs Hi; cbn; [rewrite Z.div_1_r; reflexivity|].
  inversion Hs; subst. f_equal. rewrite IH by (auto; apply Z.div_pos; lia).
  pose proof (zprod_pos s1 ltac:(assumption)).
  rewrite Z.div_div by lia. reflexivity.
Qed.

Lemma gl_vals_digits : forall p b ss ai, allpos (map (dget ss) p) -> 0 <= ai ->
  (b = true -> ai < zprod (map (dget ss) p)) ->
  gl_vals b p ss ai = rev (mr_digits (rev (map (dget ss) p)) ai).
Proof.
  induction p as [|k p IH]; intros b ss ai Hs Hi Hb; [reflexivity|].
  cbn [map] in *. inversion Hs; subst. cbn [rev gl_vals].
  pose proof (zprod_pos (map (dget ss) p) ltac:(assumption)).
  rewrite mr_digits_app by (auto using Forall_rev').
  rewrite rev_app_distr, zprod_rev. cbn [mr_digits rev app].
  rewrite Z.quot_div_nonneg by lia.
  assert (0 <= ai / zprod (map (dget ss) p)) by (apply Z.div_pos; lia).
  rewrite Z.rem_mod_nonneg by lia.
  f_equal; [|apply IH; auto; discriminate].
  destruct b; [|reflexivity]. symmetry. apply Z.mod_small. split; [assumption|].
  apply Z.div_lt_upper_bound; [lia|]. specialize (Hb eq_refl). cbn in Hb. lia.
Qed.

  Lemma in_sizes_dget : forall a b, length a = length b ->
    in_sizes a b <-> forall k, (k < length a)%nat -> 0 <= dget b k < dget a k.
  Proof.
    unfold in_sizes, dget. induction a as [|x a IH]; intros [|y b] H; cbn in *; try discriminate.
    - split; [intros; lia|constructor].
    - split.
      + intros Q. inversion Q; subst. intros [|k] Hk; [assumption|]. apply IH; [lia|assumption|lia].
      + intros Q. constructor; [apply (Q 0%nat); lia|]. apply IH; [lia|].
        intros k Hk. apply (Q (S k)). lia.
  Qed.

Section Perm.
  Variables (n : nat) (p : list nat) (ss : list Z).
  Hypothesis Hp : Permutation p (seq 0 n).
  Hypothesis Hlen : length ss = n.

  Lemma perm_nodup : NoDup p.
  Proof. eapply Permutation_NoDup; [apply Permutation_sym; exact Hp|apply seq_NoDup]. Qed.

  Lemma perm_in : forall k, In k p <-> (k < n)%nat.
  Proof.
    intros k. split; intros H.
    - apply (Permutation_in _ Hp) in H. apply in_seq in H. lia.
    - apply (Permutation_in _ (Permutation_sym Hp)). apply in_seq. lia.
  Qed.

  Lemma list_eq_dget : forall a b, length a = n -> length b = n ->
    (forall k, (k < n)%nat -> dget a k = dget b k) -> a = b.
  Proof.
    intros a b La Lb H. apply nth_ext with (d := 0) (d' := 0); [congruence|].
    intros i Hi. apply H. lia.
  Qed.

  Lemma map_dget_inj : forall a b, length a = n -> length b = n ->
    map (dget a) p = map (dget b) p -> a = b.
  Proof.
    intros a b La Lb H. apply list_eq_dget; [assumption|assumption|].
    intros k Hk. apply perm_in in Hk. clear Hp. revert H Hk.
    induction p as [|x q IH]; cbn; [tauto|]. intros E [->|Hk]; inversion E; auto.
  Qed.

  Lemma map_dget_seq : forall l, map (dget l) (seq 0 (length l)) = l.
  Proof.
    intros l. apply nth_ext with (d := 0) (d' := 0); [rewrite map_length, seq_length; reflexivity|].
    intros i Hi. rewrite map_length, seq_length in Hi.
    rewrite (nth_indep _ 0 (dget l 0)) by (rewrite map_length, seq_length; assumption).
    rewrite map_nth, seq_nth by assumption. reflexivity.
  Qed.

  Lemma in_sizes_perm : forall j, length j = n ->
    in_sizes ss j <-> in_sizes (map (dget ss) p) (map (dget j) p).
  Proof.
    intros j Lj. rewrite in_sizes_dget by congruence. split.
    - intros H. assert (Q : forall k, In k p -> 0 <= dget j k < dget ss k).
      { intros k Hk. apply perm_in in Hk. apply H. lia. }
      clear H Hp. induction p as [|k q IH]; cbn; constructor.
      + apply Q. left. reflexivity.
      + apply IH. intros; apply Q. right. assumption.
    - intros H k Hk. rewrite Hlen in Hk. apply perm_in in Hk. clear Hp.
      induction p as [|x q IH]; [destruct Hk|]. cbn in H. inversion H; subst.
      destruct Hk as [->|Hk]; auto.
  Qed.

  Lemma perm_zprod : zprod (map (dget ss) p) = zprod ss.
  Proof.
    rewrite <- (map_dget_seq ss) at 2. rewrite Hlen.
    apply zprod_perm, Permutation_map. assumption.
  Qed.

  Lemma perm_allpos : allpos ss -> allpos (map (dget ss) p).
  Proof.
    intros H. apply Forall_forall. intros x Hx. apply in_map_iff in Hx.
    destruct Hx as (k & <- & Hk). apply perm_in in Hk. rewrite Forall_forall in H.
    apply H. apply nth_In. lia.
  Qed.

  Lemma gl_round1 : forall j, in_sizes ss j ->
    0 <= gl_layout p ss j < zprod ss /\ gl_unlayout p ss (gl_layout p ss j) = j.
  Proof.
    intros j Hj. pose proof (in_sizes_length _ _ Hj) as Lj.
    pose proof (in_sizes_pos _ _ Hj) as Hpos.
    assert (Hj' := Hj). apply in_sizes_perm in Hj'; [|congruence].
    apply in_sizes_rev in Hj'.
    assert (Hb : 0 <= gl_layout p ss j < zprod ss).
    { rewrite gl_layout_pos, <- perm_zprod, <- zprod_rev. apply mr_pos_bound. assumption. }
    split; [assumption|].
    apply map_dget_inj; [unfold gl_unlayout; rewrite unlayout_length; assumption|congruence|].
    unfold gl_unlayout.
    rewrite unlayout_vals; [|apply perm_nodup|intros k Hk; apply perm_in in Hk; lia].
    rewrite gl_vals_digits; [|apply perm_allpos; assumption|lia|rewrite perm_zprod; lia].
    rewrite gl_layout_pos, mr_digits_pos by assumption. apply rev_involutive.
  Qed.

  Lemma gl_round2 : forall ai, allpos ss -> 0 <= ai < zprod ss ->
    in_sizes ss (gl_unlayout p ss ai) /\ gl_layout p ss (gl_unlayout p ss ai) = ai.
  Proof.
    intros ai Hpos Hai.
    assert (HL : length (gl_unlayout p ss ai) = n) by (unfold gl_unlayout; rewrite unlayout_length; assumption).
    assert (HM : map (dget (gl_unlayout p ss ai)) p = rev (mr_digits (rev (map (dget ss) p)) ai)).
    { unfold gl_unlayout.
      rewrite unlayout_vals; [|apply perm_nodup|intros k Hk; apply perm_in in Hk; lia].
      apply gl_vals_digits; [apply perm_allpos; assumption|lia|rewrite perm_zprod; lia]. }
    pose proof (perm_allpos Hpos) as HP.
    split.
    - apply in_sizes_perm; [assumption|]. rewrite HM.
      rewrite <- (rev_involutive (map (dget ss) p)) at 1. apply in_sizes_rev.
      apply mr_digits_in. apply Forall_rev'. assumption.
    - rewrite gl_layout_pos, HM, rev_involutive. apply mr_pos_digits.
      + apply Forall_rev'. assumption.
      + rewrite zprod_rev, perm_zprod. assumption.
  Qed.

  (* stride of dim k: product of the sizes listed after it *)
  Fixpoint after (k : nat) (q : list nat) : list nat :=
    match q with [] => [] | x :: r => if Nat.eqb x k then r else after k r end.

  Lemma gl_layout_set : forall q j k v, NoDup q -> (k < length j)%nat -> In k q ->
    gl_layout q ss (set_nth k v j) = gl_layout q ss j + (v - dget j k) * zprod (map (dget ss) (after k q)).
  Proof.
    induction q as [|x q IH]; intros j k v Hnd Hk Hin; [destruct Hin|].
    inversion Hnd; subst. cbn [gl_layout after].
    destruct (Nat.eqb_spec x k) as [->|Hne].
    - rewrite dget_set_same by assumption.
      assert (E : gl_layout q ss (set_nth k v j) = gl_layout q ss j).
      { clear -H1. induction q as [|y q IHq]; cbn; [reflexivity|].
        rewrite dget_set_other by (intros ->; apply H1; left; reflexivity).
        rewrite IHq; [reflexivity|]. intros ?; apply H1; right; assumption. }
      rewrite E. lia.
    - rewrite dget_set_other by assumption. rewrite IH; [lia|assumption|assumption|].
      destruct Hin; [contradiction|assumption].
  Qed.

  Lemma stride_after : forall k, (k < n)%nat ->
    gl_stride p ss k = zprod (map (dget ss) (after k p)).
  Proof.
    intros k Hk. unfold gl_stride.
    rewrite gl_layout_set; [|apply perm_nodup|rewrite map_length; lia|apply perm_in; assumption].
    replace (dget (map (fun _ => 0) ss) k) with 0; [lia|].
    unfold dget. clear. revert k. induction ss; destruct k; cbn; auto.
  Qed.
End Perm.

Lemma after_split : forall p1 k p2, ~ In k p1 -> after k (p1 ++ k :: p2) = p2.
Proof.
  induction p1 as [|x p1 IH]; intros k p2 H; cbn.
  - rewrite Nat.eqb_refl. reflexivity.
  - destruct (Nat.eqb_spec x k); [subst; exfalso; apply H; left; reflexivity|].
    apply IH. intros ?; apply H; right; assumption.
Qed.

Lemma layout_bijective : forall (n : nat) (p : list nat) (sizes : list Z),
  Permutation p (seq 0 n) -> length sizes = n -> Forall (fun s => 1 <= s) sizes ->
  (forall j, in_sizes sizes j ->
     0 <= gl_layout p sizes j < zprod sizes /\ gl_unlayout p sizes (gl_layout p sizes j) = j) /\
  (forall ai, 0 <= ai < zprod sizes ->
     in_sizes sizes (gl_unlayout p sizes ai) /\ gl_layout p sizes (gl_unlayout p sizes ai) = ai).
Proof.
  intros n p ss Hp Hl Hs.
  assert (Hpos : allpos ss) by (eapply Forall_impl; [|exact Hs]; intros; cbn in *; lia).
  split; intros; [eapply gl_round1|eapply gl_round2]; eassumption.
Qed.

Lemma layout_strides : forall (n : nat) (p p1 p2 : list nat) (k : nat) (sizes j : list Z) (d : Z),
  Permutation p (seq 0 n) -> p = p1 ++ k :: p2 -> length sizes = n -> length j = n ->
  gl_stride p sizes k = zprod (map (fun i => nth i sizes 0) p2) /\
  gl_layout p sizes (set_nth k (nth k j 0 + d) j) = gl_layout p sizes j + d * gl_stride p sizes k.
Proof.
  intros n p p1 p2 k ss j d Hp E Hl Hj.
  pose proof (perm_nodup n p Hp) as Hnd.
  assert (Hin : In k p) by (subst p; apply in_or_app; right; left; reflexivity).
  assert (Hk : (k < n)%nat) by (apply (perm_in n p ss Hp Hl); assumption).
  assert (Ha : after k p = p2).
  { subst p. apply after_split. apply NoDup_remove_2 in Hnd. intros ?; apply Hnd, in_or_app; auto. }
  rewrite (stride_after n p ss Hp Hl k Hk), Ha. split; [reflexivity|].
  rewrite (gl_layout_set n p ss Hp Hl) by (auto; lia). rewrite Ha. unfold dget. lia.
Qed.
