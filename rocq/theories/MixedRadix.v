(* Mixed-radix numbers, innermost digit first: the mathematical object behind every
   n-D <-> 1-D mapping.  Specification and its theory; not a model of the code. *)
From Verif Require Import Base.

(* Row-major position of [os] in a box of sizes [ss], first entry fastest. *)
Fixpoint mr_pos (ss os : list Z) : Z :=
  match ss, os with
  | s :: ss', o :: os' => o + s * mr_pos ss' os'
  | _, _ => 0
  end.

Fixpoint mr_digits (ss : list Z) (i : Z) : list Z :=
  match ss with
  | [] => []
  | s :: ss' => i mod s :: mr_digits ss' (i / s)
  end.

(* [os] is a point of the box [0,s0) x [0,s1) x ... *)
Definition in_sizes (ss os : list Z) : Prop := Forall2 (fun s o => 0 <= o < s) ss os.

Lemma mr_pos_bound : forall ss os, in_sizes ss os -> 0 <= mr_pos ss os < zprod ss.
Proof.
  induction 1 as [|s o ss os Ho H IH]; cbn; [lia|]. nia.
Qed.

Lemma mr_digits_pos : forall ss os, in_sizes ss os -> mr_digits ss (mr_pos ss os) = os.
Proof.
  induction 1 as [|s o ss os Ho H IH]; cbn; [reflexivity|].
  replace (o + s * mr_pos ss os) with (o + mr_pos ss os * s) by lia.
  rewrite Z.mod_add, Z.div_add by lia.
  rewrite Z.mod_small, Z.div_small by lia. rewrite Z.add_0_l, IH. reflexivity.
Qed.

Lemma mr_pos_digits : forall ss i, Forall (fun s => 0 < s) ss -> 0 <= i < zprod ss ->
  mr_pos ss (mr_digits ss i) = i.
Proof.
  induction ss as [|s ss IH]; intros i Hs Hi; cbn in *; [lia|].
  inversion Hs; subst. pose proof (zprod_pos ss ltac:(assumption)).
  rewrite IH; [|assumption|].
  - pose proof (Z.div_mod i s). lia.
  - split; [apply Z.div_pos; lia|]. apply Z.div_lt_upper_bound; lia.
Qed.

Lemma mr_digits_in : forall ss i, Forall (fun s => 0 < s) ss -> in_sizes ss (mr_digits ss i).
Proof.
  induction ss as [|s ss IH]; intros i Hs; cbn; [constructor|].
  inversion Hs; subst. constructor; [apply Z.mod_pos_bound; lia|apply IH; assumption].
Qed.

Lemma mr_digits_length : forall ss i, length (mr_digits ss i) = length ss.
Proof. induction ss; intros; cbn; auto. Qed.

Lemma mr_pos_inj : forall ss o1 o2, in_sizes ss o1 -> in_sizes ss o2 ->
  mr_pos ss o1 = mr_pos ss o2 -> o1 = o2.
Proof.
  intros ss o1 o2 H1 H2 E. rewrite <- (mr_digits_pos ss o1 H1), <- (mr_digits_pos ss o2 H2).
  rewrite E. reflexivity.
Qed.

Lemma in_sizes_pos : forall ss os, in_sizes ss os -> Forall (fun s => 0 < s) ss.
Proof. induction 1; constructor; [lia|assumption]. Qed.

Lemma in_sizes_length : forall ss os, in_sizes ss os -> length ss = length os.
Proof. intros. eapply Forall2_length'. eassumption. Qed.

Lemma in_sizes_app : forall s1 s2 o1 o2, in_sizes s1 o1 -> in_sizes s2 o2 ->
  in_sizes (s1 ++ s2) (o1 ++ o2).
Proof. intros. apply Forall2_app; assumption. Qed.

Lemma in_sizes_rev : forall ss os, in_sizes ss os -> in_sizes (rev ss) (rev os).
Proof.
  induction 1; cbn; [constructor|]. apply in_sizes_app; [assumption|].
  constructor; [assumption|constructor].
Qed.

Lemma mr_digits_zero : forall ss, Forall (fun s => 0 < s) ss -> mr_digits ss 0 = map (fun _ => 0) ss.
Proof.
  induction 1 as [|s ss Hs H IH]; cbn; [reflexivity|].
  rewrite Z.mod_0_l, Z.div_0_l by lia. rewrite IH. reflexivity.
Qed.

(* Adding one with carries. *)
Fixpoint mr_succ (ss os : list Z) : list Z :=
  match ss, os with
  | s :: ss', o :: os' => if o + 1 <? s then (o + 1) :: os' else 0 :: mr_succ ss' os'
  | _, _ => []
  end.

Lemma mr_succ_digits : forall ss i, Forall (fun s => 0 < s) ss -> 0 <= i ->
  mr_succ ss (mr_digits ss i) = mr_digits ss (i + 1).
Proof.
  induction ss as [|s ss IH]; intros i Hs Hi; cbn; [reflexivity|].
  inversion Hs; subst.
  pose proof (Z.mod_pos_bound i s ltac:(lia)) as Hm.
  pose proof (Z.div_mod i s ltac:(lia)) as Hd.
  destruct (i mod s + 1 <? s) eqn:E.
  - apply Z.ltb_lt in E.
    assert (E1 : (i + 1) / s = i / s) by (symmetry; apply Z.div_unique with (r := i mod s + 1); lia).
    assert (E2 : (i + 1) mod s = i mod s + 1)
      by (symmetry; apply Z.mod_unique with (q := i / s); lia).
    rewrite E1, E2. reflexivity.
  - apply Z.ltb_ge in E.
    assert (E1 : (i + 1) / s = i / s + 1) by (symmetry; apply Z.div_unique with (r := 0); lia).
    assert (E2 : (i + 1) mod s = 0)
      by (symmetry; apply Z.mod_unique with (q := i / s + 1); lia).
    rewrite E1, E2. f_equal. apply IH; [assumption|]. apply Z.div_pos; lia.
Qed.

(* All points of a box in row-major order (first entry fastest). *)
Definition box_points (ss : list Z) : list (list Z) :=
  map (mr_digits ss) (zseq (zprod ss)).

Lemma box_points_In : forall ss os, Forall (fun s => 0 < s) ss ->
  In os (box_points ss) <-> in_sizes ss os.
Proof.
  intros ss os Hs. unfold box_points. rewrite in_map_iff. split.
  - intros (i & <- & Hi). apply mr_digits_in. assumption.
  - intros H. exists (mr_pos ss os). split; [apply mr_digits_pos; assumption|].
    apply zseq_In. apply mr_pos_bound. assumption.
Qed.

Lemma NoDup_map_on : forall A B (f : A -> B) l,
  (forall x y, In x l -> In y l -> f x = f y -> x = y) -> NoDup l -> NoDup (map f l).
Proof.
  induction l as [|a l IH]; intros Hinj Hnd; cbn; [constructor|].
  inversion Hnd; subst. constructor.
  - rewrite in_map_iff. intros (y & Ey & Hy).
    assert (y = a) by (apply Hinj; [right; assumption|left; reflexivity|assumption]).
    subst. contradiction.
  - apply IH; [|assumption]. intros; apply Hinj; try right; assumption.
Qed.

Lemma box_points_NoDup : forall ss, Forall (fun s => 0 < s) ss -> NoDup (box_points ss).
Proof.
  intros ss Hs. unfold box_points. apply NoDup_map_on; [|apply zseq_NoDup].
  intros x y Hx Hy E. apply zseq_In in Hx, Hy.
  rewrite <- (mr_pos_digits ss x Hs Hx), <- (mr_pos_digits ss y Hs Hy), E. reflexivity.
Qed.
