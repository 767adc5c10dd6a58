From Coq Require Import ZifyBool.
From Verif Require Import Base Deps_Model Deps_Spec Deps_Proofs Eqs_Model Eqs_Spec Eqs_Proofs Parts_Model Parts_Spec.

Arguments c_get : simpl never.
Arguments c_ins : simpl never.
Lemma zseq_add_item : forall n, 0 <= n -> add_item n (zseq n) = zseq (n + 1).
Proof. intros n H. unfold add_item. assert (M : mem n (zseq n) = false) by (apply mem_false; rewrite zseq_In; lia). rewrite M. symmetry. apply zseq_succ. exact H. Qed.

Section Items.
  Definition valid (items : list (list Z)) (id : Z) : Prop := 0 <= id < Z.of_nat (length items).
  Lemma get_range : forall items id a, 0 <= id -> In a (c_get items id) -> valid items id.
  Proof.
    intros items id a H I. unfold valid. destruct (Z_lt_ge_dec id (Z.of_nat (length items))); [lia|]. unfold c_get in I. rewrite nth_overflow in I by lia. contradiction.
  Qed.
  Lemma upd_length : forall f l n, length (upd_nth n f l) = length l.
  Proof. induction l as [|x l IH]; intros [|n]; cbn; auto. Qed.
  Lemma upd_get : forall f l n m, nth m (upd_nth n f l) [] = if Nat.eqb m n && Nat.ltb n (length l) then f (nth m l []) else nth m l [].
  Proof.
    induction l as [|x l IH]; intros [|n] [|m]; cbn [upd_nth nth length Nat.eqb andb]; try reflexivity.
    - cbn. rewrite andb_false_r. reflexivity.
    - rewrite IH. reflexivity.
  Qed.
  Lemma ins_length : forall id x items, length (c_ins id x items) = length items.
  Proof. intros. apply upd_length. Qed.
  Lemma ins_get : forall id x items j a, valid items id -> 0 <= j -> (In a (c_get (c_ins id x items) j) <-> (j = id /\ a = x) \/ In a (c_get items j)).
  Proof.
    intros id x items j a (H1 & H2) Hj. unfold c_get, c_ins. rewrite upd_get.
    replace (Nat.ltb (Z.to_nat id) (length items)) with true by (symmetry; apply Nat.ltb_lt; lia). rewrite andb_true_r.
    destruct (Nat.eqb_spec (Z.to_nat j) (Z.to_nat id)) as [E|E].
    - assert (j = id) by lia. subst. rewrite add_item_In. tauto.
    - split; [tauto|]. intros [(-> & _)|H]; [congruence|exact H].
  Qed.
  Lemma ins_concat : forall x items n, (n < length items)%nat -> ~ In x (concat items) -> Permutation (concat (upd_nth n (add_item x) items)) (x :: concat items).
  Proof.
    intros x. induction items as [|b items IH]; intros n Hn N; cbn in Hn; [lia|]. cbn [concat] in *. rewrite in_app_iff in N. destruct n as [|n]; cbn [upd_nth concat].
    - unfold add_item. replace (mem x b) with false by (symmetry; apply mem_false; tauto). rewrite <- app_assoc. symmetry. apply Permutation_middle.
    - rewrite (IH n) by (try lia; tauto). symmetry. apply Permutation_middle.
  Qed.
  Lemma concat_get : forall items a, In a (concat items) <-> exists id, valid items id /\ In a (c_get items id).
  Proof.
    intros items a. rewrite in_concat. split.
    - intros (b & Hb & Ha). apply In_nth with (d := []) in Hb as (n & Hn & E). exists (Z.of_nat n). split; [unfold valid; lia|]. unfold c_get. rewrite Nat2Z.id, E. exact Ha.
    - intros (id & (H1 & H2) & Ha). exists (c_get items id). split; [|exact Ha]. unfold c_get. apply nth_In. lia.
  Qed.
  Lemma get_unique : forall items i j a, NoDup (concat items) -> valid items i -> valid items j -> In a (c_get items i) -> In a (c_get items j) -> i = j.
  Proof.
    intros items i j a. unfold valid, c_get. intros N Hi Hj. assert (G : forall l n m, NoDup (concat l) -> (n < length l)%nat -> (m < length l)%nat -> In a (nth n l []) -> In a (nth m l []) -> n = m).
    { clear. induction l as [|b l IH]; intros n m N Hn Hm A B; cbn in Hn, Hm; [lia|]. cbn [concat] in N.
      assert (D : forall k, (k < length l)%nat -> In a b -> In a (nth k l []) -> False).
      { intros k Hk A1 A2. assert (X : In a (concat l)) by (apply in_concat; exists (nth k l []); split; [apply nth_In; exact Hk|exact A2]). clear - N A1 X. induction b as [|y b IH]; [contradiction|]. cbn in N. inversion N; subst. destruct A1 as [->|A1]; [apply H1; apply in_app_iff; tauto|apply IH; assumption]. }
      destruct n as [|n], m as [|m]; cbn in A, B; [reflexivity|exfalso; apply (D m); [lia|exact A|exact B]|exfalso; apply (D n); [lia|exact B|exact A]|]. f_equal. apply IH; try assumption; try lia. clear - N. induction b as [|y b IHb]; [exact N|]. cbn in N. inversion N; subst. auto. }
    intros A B. assert (Z.to_nat i = Z.to_nat j); [|lia]. eapply G; try eassumption; lia.
  Qed.
End Items.

(* the state of a cluster container that is being filled with xs; D = dependency between items *)
Record cinv (D : Z -> Z -> Prop) (c : clus) (xs : list Z) : Prop := {
  ci_all : g_all (c_grp c) = zseq (Z.of_nat (length (c_items c)));
  ci_g : gwf (c_grp c);
  ci_no : forall a b, ~ edge (g_deps (c_grp c)) a b;
  ci_perm : Permutation (concat (c_items c)) xs;
  ci_ind : forall id a b, 0 <= id -> In a (c_get (c_items c) id) -> In b (c_get (c_items c) id) -> ~ D a b
}.
Lemma cinv0 : forall D, cinv D clus0 [].
Proof. intros D. constructor; cbn; [reflexivity|apply gwf0|intros a b []|constructor|]. intros id a b _ H. unfold c_get in H. destruct (Z.to_nat id); contradiction. Qed.
Lemma cinv_clear : forall D c xs, cinv D c xs -> cinv D (mkClus (c_items c) (c_clear (c_grp c))) xs.
Proof.
  intros D c xs [A B C P I]. constructor; cbn; try assumption; [|intros a b []]. constructor; cbn; [apply (gw_nd _ B)|apply dwf_clear|apply dwf_clear|intros a b []|intros a b []].
Qed.
Lemma cinv_ins : forall D c xs id x, cinv D c xs -> valid (c_items c) id -> ~ In x xs ->
  (forall a, In a (c_get (c_items c) id) -> ~ D x a /\ ~ D a x) -> ~ D x x ->
  cinv D (mkClus (c_ins id x (c_items c)) (c_grp c)) (x :: xs).
Proof.
  intros D c xs id x [A B C P I] V N Hd Hx. constructor; cbn; try assumption.
  - rewrite A, ins_length. reflexivity.
  - rewrite <- P. apply ins_concat; [unfold valid in V; lia|]. intros H. apply N. eapply Permutation_in; eassumption.
  - intros j a b Hj Ha Hb. apply (ins_get id x _ j _ V Hj) in Ha. apply (ins_get id x _ j _ V Hj) in Hb. destruct Ha as [(-> & ->)|Ha], Hb as [(E & ->)|Hb]; subst; [exact Hx|apply Hd; exact Hb|apply Hd; exact Ha|eapply I; eassumption].
Qed.
Lemma new_get : forall items j, c_get (items ++ [[]]) j = c_get items j.
Proof.
  intros items j. unfold c_get. destruct (Nat.lt_ge_cases (Z.to_nat j) (length items)); [rewrite app_nth1 by assumption; reflexivity|].
  rewrite app_nth2 by assumption. rewrite (nth_overflow items) by assumption. destruct (Z.to_nat j - length items)%nat as [|[|k]]; reflexivity.
Qed.
Lemma cinv_new : forall D c xs, cinv D c xs -> cinv D (snd (c_new c)) xs /\ fst (c_new c) = Z.of_nat (length (c_items c)) /\ c_items (snd (c_new c)) = c_items c ++ [[]].
Proof.
  intros D c xs [A B C P I]. unfold c_new. cbn [fst snd c_items c_grp]. split; [|split; reflexivity]. constructor; cbn; try assumption.
  - rewrite A, app_length. cbn. rewrite zseq_add_item by lia. f_equal. lia.
  - apply gwf_add. exact B.
  - rewrite concat_app. cbn. rewrite !app_nil_r. exact P.
  - intros id a b H Ha Hb. rewrite new_get in Ha, Hb. eapply I; eassumption.
Qed.

Lemma rall_spec : forall A (f : A -> res bool) (P : A -> Prop) l, (forall x, In x l -> exists b, f x = Ok b /\ (b = true -> P x)) -> exists b, rall f l = Ok b /\ (b = true -> Forall P l).
Proof.
  induction l as [|x l IH]; intros H; cbn [rall]; [exists true; split; [reflexivity|constructor]|].
  destruct (H x (or_introl eq_refl)) as (b & E & Hb). rewrite E. cbn [rbind]. destruct b; [|exists false; split; [reflexivity|discriminate]].
  destruct IH as (b & E2 & Hb2); [intros y Hy; apply H; right; exact Hy|]. exists b. split; [exact E2|]. intros T. constructor; auto.
Qed.
Lemma is_dep_ok : forall d a b, d_done d = true -> exists x, is_dep d a b = Ok x /\ (x = false -> is_dep_on d a b = Ok false /\ is_dep_on d b a = Ok false).
Proof.
  intros d a b H. unfold is_dep, is_dep_on. rewrite H. cbn [rbind]. destruct (mem b (dm_get a (d_full d))); [exists true; split; [reflexivity|discriminate]|].
  eexists. split; [reflexivity|]. intros ->. auto.
Qed.

Lemma trial_ok : forall D full id x c xs, gwf full -> cinv D c xs ->
  exists b, c_trial full id x c = Ok b /\ (b = true -> ~ cyclic (condensed (c_get (c_ins id x (c_items c))) (c_grp c) (g_deps full))).
Proof.
  intros D full id x c xs Wf [A B C P I]. unfold c_trial. pose proof (inherit_spec full (c_get (c_ins id x (c_items c))) (c_grp c) Wf B C) as S.
  destruct (inherit_deps_from _ _ _) as [g| | |]; try contradiction; [exists true|exists false]; (split; [reflexivity|]); [intros _; tauto|discriminate].
Qed.

Lemma map_get : forall items, map (c_get items) (zseq (Z.of_nat (length items))) = items.
Proof.
  intros items. apply (nth_ext _ _ [] []); [rewrite map_length, zseq_length; lia|]. intros n Hn. rewrite map_length, zseq_length in Hn.
  rewrite (nth_indep _ [] (c_get items 0)) by (rewrite map_length, zseq_length; lia). rewrite map_nth. unfold c_get. f_equal. unfold zseq.
  rewrite (nth_indep _ 0 (Z.of_nat 0)) by (rewrite map_length, seq_length; lia). rewrite map_nth, seq_nth by lia. lia.
Qed.
Lemma concat_perm : forall (l l' : list (list Z)), Permutation l l' -> Permutation (concat l) (concat l').
Proof.
  intros l l' P. induction P; cbn [concat]; [constructor|apply Permutation_app_head; exact IHP| |etransitivity; eassumption].
  rewrite !app_assoc. apply Permutation_app_tail. apply Permutation_app_comm.
Qed.

(* the final inherit_deps_from + topo_sort *)
Theorem finish_ok : forall full c xs, gwf full -> cinv (path (edge (g_deps full))) c xs ->
  match rbind (inherit_deps_from full (c_get (c_items c)) (c_grp c)) topo_sort with
  | Ok g => gwf g /\ d_done (g_deps g) = true /\ Permutation (g_all g) (zseq (Z.of_nat (length (c_items c)))) /\
      (forall x y, edge (g_deps g) x y <-> condensed (c_get (c_items c)) (c_grp c) (g_deps full) x y) /\
      Permutation (concat (map (c_get (c_items c)) (g_all g))) xs /\
      blocks_ordered (edge (g_deps full)) (map (c_get (c_items c)) (g_all g)) /\
      d_done (g_scr g) = true /\ (forall x y, edge (g_scr g) x y <-> condensed (c_get (c_items c)) (c_grp c) (g_scr full) x y)
  | Throw => cyclic (condensed (c_get (c_items c)) (c_grp c) (g_deps full))
  | _ => False
  end.
Proof.
  intros full c xs Wf [A B C P I]. pose proof (inherit_spec full (c_get (c_items c)) (c_grp c) Wf B C) as S. pose proof (inherit_done full (c_get (c_items c)) (c_grp c)) as DN.
  destruct (inherit_deps_from full (c_get (c_items c)) (c_grp c)) as [g1| | |]; cbn [rbind]; try contradiction; [|exact S].
  destruct (DN g1 eq_refl Wf B C) as (DN1 & DN2). destruct S as (W1 & A1 & E1 & S1 & NC).
  destruct (topo_sort_acyclic g1 W1) as (g & Eg & Pg & Og). { rewrite (cyclic_iff _ _ E1). exact NC. }
  rewrite Eg. pose proof (topo_sort_spec g1 W1) as T. rewrite Eg in T. destruct T as (_ & _ & _ & Ed & _). destruct (topo_gwf g1 g W1 Eg) as (Wg & Dg & Sg & Dsg).
  assert (PA : Permutation (g_all g) (zseq (Z.of_nat (length (c_items c))))) by (rewrite Pg, A1, A; reflexivity).
  split; [exact Wg|]. split; [apply Dg; exact DN1|]. split; [exact PA|]. split; [intros x y; rewrite Ed; apply E1|]. split; [|split; [|split; [apply Dsg; exact DN2|intros x y; rewrite Sg; apply S1]]].
  - rewrite <- P. rewrite <- (map_get (c_items c)) at 2. apply concat_perm. apply Permutation_map. exact PA.
  - intros l1 b l2 x y E Hx Hy. symmetry in E.
    assert (X : exists g1' id g2, g_all g = g1' ++ id :: g2 /\ b = c_get (c_items c) id /\ l2 = map (c_get (c_items c)) g2).
    { symmetry in E. apply map_eq_app in E as (g1' & g2' & E1' & E2' & E3'). apply map_eq_cons in E3' as (id & g2 & -> & <- & <-). exists g1', id, g2. auto. }
    destruct X as (g1' & id & g2 & Eall & -> & ->). assert (Hid : In id (g_all g)) by (rewrite Eall; apply in_app_iff; right; left; reflexivity).
    assert (Vid : valid (c_items c) id) by (apply (Permutation_in _ PA), zseq_In in Hid; exact Hid).
    intros Exy. apply in_app_iff in Hy as [Hy|Hy]; [eapply (I id); [apply Vid|exact Hx|exact Hy|apply path_one; exact Exy]|].
    apply in_concat in Hy as (b2 & Hb2 & Hy). apply in_map_iff in Hb2 as (id2 & <- & Hid2).
    assert (Hid2' : In id2 (g_all g)) by (rewrite Eall; apply in_app_iff; right; right; exact Hid2).
    assert (Vid2 : valid (c_items c) id2) by (apply (Permutation_in _ PA), zseq_In in Hid2'; exact Hid2').
    assert (NE : id <> id2). { intros <-. pose proof (gw_nd _ Wg) as N. rewrite Eall in N. apply NoDup_remove_2 in N. apply N. apply in_app_iff. right. exact Hid2. }
    apply (Og g1' id g2 id2 Eall); [|exact Hid2]. apply path_one. apply E1. split; [rewrite A; apply zseq_In; exact Vid|]. split; [rewrite A; apply zseq_In; exact Vid2|].
    split; [exact NE|]. exists x, y. split; [exact Hx|]. split; [exact Hy|]. split; [|exact Exy]. intros ->. apply (I id y y); try apply Vid; try exact Hx. apply path_one. exact Exy.
Qed.

Definition cond_s (full : group) (items : list (list Z)) (x y : Z) : Prop := valid items x /\ valid items y /\ lifts (c_get items) (g_scr full) x y.
Lemma cond_s_condensed : forall full c, g_all (c_grp c) = zseq (Z.of_nat (length (c_items c))) -> forall x y, cond_s full (c_items c) x y <-> condensed (c_get (c_items c)) (c_grp c) (g_scr full) x y.
Proof. intros full c A x y. unfold cond_s, condensed, valid. rewrite A, !zseq_In. tauto. Qed.
Definition cond (full : group) (items : list (list Z)) (x y : Z) : Prop := valid items x /\ valid items y /\ lifts (c_get items) (g_deps full) x y.
Lemma cond_condensed : forall full c, g_all (c_grp c) = zseq (Z.of_nat (length (c_items c))) -> forall x y, cond full (c_items c) x y <-> condensed (c_get (c_items c)) (c_grp c) (g_deps full) x y.
Proof. intros full c A x y. unfold cond, condensed, valid. rewrite A, !zseq_In. tauto. Qed.

Section PartsP.
  Variable scr : Z -> bool.
  Variable eqs : list eqn.
  Variable eg : group.
  Variables dims_same halo_same : Z -> Z -> bool.
  Variables bundle bundle_scratch : bool.
  Variable regex : Z -> bool.
  Hypothesis Weg : gwf eg.
  Hypothesis Etr : forall a b c, edge (g_deps eg) a b -> edge (g_deps eg) b c -> edge (g_deps eg) a c.
  Hypothesis Eirr : forall a, ~ edge (g_deps eg) a a.
  Hypothesis Edn : g_all eg <> [] -> d_done (g_deps eg) = true.
  Local Notation E := (edge (g_deps eg)).
  Local Notation D := (path (edge (g_deps eg))).
  Local Notation eq_attr := (eq_attr scr eqs).

  Lemma DE : forall a b, D a b <-> E a b.
  Proof. intros a b. split; [|apply path_one]. intros P. induction P; [assumption|]. eapply Etr; eassumption. Qed.
  Lemma dep_false : forall a b, is_dep_on (g_deps eg) a b = Ok false -> ~ D a b.
  Proof.
    intros a b H P. unfold is_dep_on in H. destruct (d_done (g_deps eg)) eqn:Dn; [|discriminate]. injection H as H. apply mem_false in H. apply H. apply (dw_done _ (gw_d _ Weg) Dn). exact P.
  Qed.

  Lemma eq_fits_ok : forall i j, g_all eg <> [] -> exists b, eq_fits scr eqs eg dims_same halo_same bundle_scratch i j = Ok b /\ (b = true -> ~ D i j /\ ~ D j i).
  Proof.
    intros i j NE. unfold eq_fits. destruct (eq_scr scr eqs i && _); [exists false; split; [reflexivity|discriminate]|].
    destruct (is_dep_ok (g_deps eg) i j (Edn NE)) as (x & Ex & Hx). rewrite Ex. cbn [rbind]. destruct x; [exists false; split; [reflexivity|discriminate]|].
    destruct (Hx eq_refl) as (H1 & H2). destruct (rall_spec Z (fun k => rbind (is_dep (g_deps eg) j k) (fun b => Ok (negb b))) (fun _ => True) (rel_eqs scr eqs eg i)) as (b & Eb & _).
    { intros k _. destruct (is_dep_ok (g_deps eg) j k (Edn NE)) as (y & Ey & _). rewrite Ey. cbn [rbind]. eexists. split; [reflexivity|auto]. }
    exists b. split; [exact Eb|]. intros _. split; apply dep_false; assumption.
  Qed.

  Lemma attr_same_eq : forall a b, attr_same a b = true -> a = b.
  Proof.
    intros [s d c t] [s' d' c' t'] H. unfold attr_same in H. cbn in H. apply andb_prop in H as (H & H4). apply andb_prop in H as (H & H3). apply andb_prop in H as (H1 & H2).
    apply oz_eqb_eq in H2, H3, H4. apply Bool.eqb_prop in H1. congruence.
  Qed.

  Definition ainv (at_ : list attr) (items : list (list Z)) : Prop :=
    length at_ = length items /\ forall id e, 0 <= id -> In e (c_get items id) -> eq_attr e = nth (Z.to_nat id) at_ attr0.
  Definition acyc (items : list (list Z)) : Prop := ~ cyclic (cond eg items).
  Definition pinv (at_ : list attr) (c : clus) (xs : list Z) : Prop := cinv D c xs /\ ainv at_ (c_items c) /\ acyc (c_items c).

  Lemma find_part_ok : forall i at_ ids c xs, g_all eg <> [] -> pinv at_ c xs -> ~ In i xs -> Forall (valid (c_items c)) ids ->
    exists o c', find_part scr eqs eg dims_same halo_same bundle_scratch i ids at_ c = Ok (o, c') /\
      match o with Some _ => pinv at_ c' (i :: xs) | None => pinv at_ c' xs end.
  Proof.
    intros i at_ ids. induction ids as [|id ids IH]; intros c xs NE PI Ni V; cbn [find_part]; [exists None, c; auto|].
    inversion V as [|? ? Vid V']; subst.
    destruct (attr_same (nth (Z.to_nat id) at_ attr0) (eq_attr i)) eqn:AS; cbn [rbind]; [|apply IH; assumption].
    destruct (rall_spec Z (eq_fits scr eqs eg dims_same halo_same bundle_scratch i) (fun j => ~ D i j /\ ~ D j i) (c_get (c_items c) id)) as (b & Eb & Hb).
    { intros j _. apply eq_fits_ok. exact NE. }
    rewrite Eb. cbn [rbind]. destruct b; [|apply IH; assumption]. specialize (Hb eq_refl).
    destruct PI as (CI & (AL & AI) & AC). destruct (trial_ok D eg id i c xs Weg CI) as (t & Et & Ht). rewrite Et. cbn [rbind].
    destruct t; [|apply IH; try assumption; split; [apply cinv_clear; exact CI|split; [split; assumption|exact AC]]].
    exists (Some id). eexists. split; [reflexivity|]. split; [|split].
    - apply (cinv_clear D (mkClus (c_ins id i (c_items c)) (c_grp c))). apply cinv_ins; try assumption; [|rewrite DE; apply Eirr]. rewrite Forall_forall in Hb. exact Hb.
    - cbn. split; [rewrite ins_length; exact AL|]. intros j e Hj He. apply (ins_get id i _ j _ Vid Hj) in He. destruct He as [(-> & ->)|He]; [symmetry; apply attr_same_eq; exact AS|apply AI; assumption].
    - cbn. unfold acyc. rewrite (cyclic_iff _ _ (cond_condensed eg (mkClus (c_ins id i (c_items c)) (c_grp c)) ltac:(cbn; rewrite ins_length; apply (ci_all _ _ _ CI)))). apply Ht. reflexivity.
  Qed.

  Lemma new_acyc : forall c xs x, cinv D c xs -> acyc (c_items c) -> acyc (c_ins (Z.of_nat (length (c_items c))) x (c_items c ++ [[]])).
  Proof.
    intros c xs x CI AC. set (items := c_items c) in *. set (n := Z.of_nat (length items)). set (items' := c_ins n x (items ++ [[]])).
    assert (Vn : valid (items ++ [[]]) n) by (unfold valid, n; rewrite app_length; cbn; lia).
    assert (V' : forall j, valid items' j <-> valid items j \/ j = n) by (intros j; unfold valid, items', n; rewrite ins_length, app_length; cbn; lia).
    assert (G' : forall j a, 0 <= j -> (In a (c_get items' j) <-> (j = n /\ a = x) \/ In a (c_get items j))) by (intros j a Hj; unfold items'; rewrite (ins_get n x _ j a Vn Hj), new_get; reflexivity).
    assert (G0 : forall a, ~ In a (c_get items n)) by (intros a H; apply get_range in H; [unfold valid, n in H; lia|unfold n; lia]).
    assert (GO : forall j a, valid items j -> (In a (c_get items' j) <-> In a (c_get items j))).
    { intros j a Hj. rewrite G' by apply Hj. split; [intros [(-> & _)|H]; [unfold valid, n in Hj; lia|exact H]|tauto]. }
    assert (GN : forall a, In a (c_get items' n) <-> a = x) by (intros a; rewrite G' by (unfold n; lia); split; [intros [(_ & H)|H]; [exact H|destruct (G0 _ H)]|auto]).
    assert (OO : forall p q, valid items p -> valid items q -> cond eg items' p q -> cond eg items p q).
    { intros p q Hp Hq (_ & _ & Npq & f1 & f2 & H1 & H2 & H3 & H4). split; [exact Hp|]. split; [exact Hq|]. split; [exact Npq|]. exists f1, f2. rewrite GO in H1, H2 by assumption. auto. }
    assert (IN : forall p f1 f2, valid items p -> In f1 (c_get items p) -> In f2 (c_get items p) -> E f1 x -> E x f2 -> False).
    { intros p f1 f2 Vp H1 H2 H3 H4. apply (ci_ind _ _ _ CI p f1 f2 (proj1 Vp) H1 H2). apply path_one. eapply Etr; eassumption. }
    assert (VN : ~ valid items n) by (unfold valid, n; lia).
    assert (BR : forall p q f1 f2, valid items p -> valid items q -> In f1 (c_get items p) -> In f2 (c_get items q) -> E f1 x -> E x f2 -> cond eg items p q).
    { intros p q f1 f2 Vp Vq H1 H2 H3 H4. split; [exact Vp|]. split; [exact Vq|]. split; [intros ->; exact (IN q f1 f2 Vq H1 H2 H3 H4)|]. exists f1, f2. split; [exact H1|]. split; [exact H2|]. pose proof (Etr _ _ _ H3 H4) as X. split; [intros ->; exact (Eirr _ X)|exact X]. }
    assert (K : forall a b, path (cond eg items') a b -> valid items b -> (valid items a -> path (cond eg items) a b) /\ (a = n -> forall p f1, valid items p -> In f1 (c_get items p) -> E f1 x -> path (cond eg items) p b)).
    { intros a b P. induction P as [a b H|a m b H P IH]; intros Vb.
      - split; [intros Va; apply path_one; apply OO; assumption|]. intros -> p f1 Vp Hf1 Ef1. destruct H as (_ & _ & Nnb & g1 & g2 & H1 & H2 & H3 & H4). apply GN in H1. subst g1. rewrite GO in H2 by assumption.
        apply path_one. eapply BR; eassumption.
      - destruct (IH Vb) as (IH1 & IH2). pose proof H as (Va' & Vm' & Nam & g1 & g2 & H1 & H2 & H3 & H4). apply V' in Va', Vm'.
        destruct Va' as [Va|Ea], Vm' as [Vm|Em]; subst; try congruence.
        + split; [|intros ->; contradiction]. intros _. eapply path_step; [apply OO; eassumption|auto].
        + split; [|intros ->; contradiction]. intros _. rewrite GO in H1 by assumption. apply GN in H2. subst g2. apply (IH2 eq_refl a g1 Va H1 H4).
        + split; [intros; contradiction|]. intros _ p f1 Vp Hf1 Ef1. apply GN in H1. subst g1. rewrite GO in H2 by assumption.
          eapply path_step; [|apply IH1; exact Vm]. eapply BR; eassumption. }
    intros (a & P). assert (X : exists b, valid items b /\ path (cond eg items') b b).
    { inversion P as [u v H|u v w H Q]; subst; [destruct H as (_ & _ & X & _); congruence|]. pose proof H as (Va' & Vm' & Nam & _). apply V' in Va', Vm'.
      destruct Va' as [Va|Ea]; [exists a; auto|]. destruct Vm' as [Vm|Em]; [|congruence]. exists v. split; [exact Vm|]. eapply path_snoc; eassumption. }
    destruct X as (b & Vb & Pb). apply AC. exists b. apply (K b b Pb Vb). exact Vb.
  Qed.

  Lemma add_eq_ok : forall s i, g_all eg <> [] -> pinv (ps_attr s) (ps_clus s) (ps_added s) -> ~ In i (ps_added s) ->
    exists s', add_eq_to_part scr eqs eg dims_same halo_same bundle bundle_scratch s i = Ok s' /\ pinv (ps_attr s') (ps_clus s') (ps_added s') /\ ps_added s' = i :: ps_added s.
  Proof.
    intros s i NE PI Ni. unfold add_eq_to_part. replace (mem i (ps_added s)) with false by (symmetry; apply mem_false; exact Ni).
    assert (X : exists o c', (if bundle then find_part scr eqs eg dims_same halo_same bundle_scratch i (g_all (c_grp (ps_clus s))) (ps_attr s) (ps_clus s) else Ok (None, ps_clus s)) = Ok (o, c') /\
      match o with Some _ => pinv (ps_attr s) c' (i :: ps_added s) | None => pinv (ps_attr s) c' (ps_added s) end).
    { destruct bundle; [|exists None, (ps_clus s); auto]. apply find_part_ok; try assumption. rewrite (ci_all _ _ _ (proj1 PI)). apply Forall_forall. intros x Hx. apply zseq_In in Hx. exact Hx. }
    destruct X as (o & c' & Eo & Ho). rewrite Eo. cbn [rbind fst snd]. destruct o as [id|]; [eexists; split; [reflexivity|]; cbn; auto|].
    destruct Ho as (CI & (AL & AI) & AC). destruct (cinv_new D c' _ CI) as (CN & Fn & Gn). destruct (c_new c') as (id & c2). cbn [fst snd] in *.
    eexists. split; [reflexivity|]. cbn. split; [|reflexivity].
    assert (Vid : valid (c_items c2) id) by (rewrite Gn, Fn; unfold valid; rewrite app_length; cbn; lia).
    assert (GE : forall a, In a (c_get (c_items c2) id) -> False). { intros a H. rewrite Gn, new_get in H. apply get_range in H; [|rewrite Fn; lia]. rewrite Fn in H. unfold valid in H. lia. }
    split; [|split].
    - apply cinv_ins; try assumption; [intros a H; destruct (GE a H)|rewrite DE; apply Eirr].
    - cbn. split; [rewrite ins_length, Gn, !app_length; cbn; lia|]. intros j e Hj He. apply (ins_get id i _ j _ Vid Hj) in He. destruct He as [(-> & ->)|He].
      + rewrite Fn, Nat2Z.id, <- AL, app_nth2, Nat.sub_diag by lia. reflexivity.
      + rewrite Gn, new_get in He. pose proof (get_range _ _ _ Hj He) as V. unfold valid in V. rewrite app_nth1 by lia. apply AI; assumption.
    - cbn. rewrite Gn, Fn. eapply new_acyc; eassumption.
  Qed.

  Lemma chosen_perm : NoDup (g_all eg) -> Permutation (chosen scr eqs eg regex) (filter (fun i => eq_scr scr eqs i || regex (eq_var eqs i)) (g_all eg)).
  Proof.
    intros _. unfold chosen. clear. induction (g_all eg) as [|x l IH]; [constructor|]. cbn [filter]. destruct (eq_scr scr eqs x) eqn:S; cbn [negb andb orb].
    - rewrite <- Permutation_middle. constructor. exact IH.
    - destruct (regex (eq_var eqs x)); [cbn [app]; constructor; exact IH|exact IH].
  Qed.
  Lemma chosen_incl : incl (chosen scr eqs eg regex) (g_all eg).
  Proof. intros x H. unfold chosen in H. apply in_app_iff in H as [H|H]; apply filter_In in H; tauto. Qed.

  Theorem make_parts_ok : exists ps, make_parts scr eqs eg dims_same halo_same bundle bundle_scratch regex = Ok ps /\
    let items := c_items (ps_clus ps) in let g := c_grp (ps_clus ps) in
    gwf g /\ d_done (g_deps g) = true /\ Permutation (g_all g) (zseq (Z.of_nat (length items))) /\
    (forall x y, edge (g_deps g) x y <-> cond eg items x y) /\
    Permutation (concat (map (c_get items) (g_all g))) (filter (fun i => eq_scr scr eqs i || regex (eq_var eqs i)) (g_all eg)) /\
    blocks_ordered E (map (c_get items) (g_all g)) /\
    NoDup (concat items) /\
    ainv (ps_attr ps) items /\ ~ cyclic (cond eg items) /\ d_done (g_scr g) = true /\ (forall x y, edge (g_scr g) x y <-> cond_s eg items x y).
  Proof.
    assert (N : NoDup (chosen scr eqs eg regex)). { eapply Permutation_NoDup; [symmetry; apply chosen_perm; apply (gw_nd _ Weg)|]. apply NoDup_filter. apply (gw_nd _ Weg). }
    unfold make_parts. set (body := add_eq_to_part scr eqs eg dims_same halo_same bundle bundle_scratch).
    assert (G : forall l s, incl l (g_all eg) -> NoDup (l ++ ps_added s) -> pinv (ps_attr s) (ps_clus s) (ps_added s) ->
      exists s', rfold body l s = Ok s' /\ pinv (ps_attr s') (ps_clus s') (ps_added s') /\ Permutation (ps_added s') (l ++ ps_added s)).
    { induction l as [|i l IH]; intros s HI HN PI; cbn [rfold]; [exists s; auto|].
      assert (NE : g_all eg <> []) by (intros X; rewrite X in HI; apply (HI i); left; reflexivity).
      cbn [app] in HN. inversion HN as [|? ? Ni HN']; subst. destruct (add_eq_ok s i NE PI) as (s1 & E1 & PI1 & A1); [intros X; apply Ni; apply in_app_iff; auto|].
      unfold body at 1. rewrite E1. cbn [rbind]. destruct (IH s1) as (s' & E' & PI' & A').
      - intros y Hy. apply HI. right. exact Hy.
      - rewrite A1. apply (Permutation_NoDup (l := i :: l ++ ps_added s)); [apply Permutation_middle|exact HN].
      - exact PI1.
      - exists s'. split; [exact E'|]. split; [exact PI'|]. rewrite A', A1. cbn. symmetry. apply Permutation_middle. }
    destruct (G (chosen scr eqs eg regex) parts0 chosen_incl) as (s & Es & PI & As).
    { cbn. rewrite app_nil_r. exact N. }
    { split; [apply cinv0|]. split; [split; [reflexivity|]; cbn; intros id e _ H; unfold c_get in H; destruct (Z.to_nat id); contradiction|]. intros (a & P). cbn in P. inversion P as [u v H|u v w H _]; subst; destruct H as (V & _); unfold valid in V; cbn in V; lia. }
    rewrite Es. cbn [rbind]. destruct PI as (CI & AI & AC). cbn in As. rewrite app_nil_r in As.
    pose proof (finish_ok eg (ps_clus s) (ps_added s) Weg CI) as F. destruct (inherit_deps_from eg (c_get (c_items (ps_clus s))) (c_grp (ps_clus s))) as [g1| | |]; cbn [rbind] in *; try contradiction.
    2:{ exfalso. apply AC. rewrite (cyclic_iff _ _ (cond_condensed eg (ps_clus s) (ci_all _ _ _ CI))). exact F. }
    destruct (topo_sort g1) as [g| | |]; cbn [rbind] in *; try contradiction.
    2:{ exfalso. apply AC. rewrite (cyclic_iff _ _ (cond_condensed eg (ps_clus s) (ci_all _ _ _ CI))). exact F. }
    destruct F as (W & Dn & P & Ed & PC & BO & Ds & Es'). eexists. split; [reflexivity|]. cbn. split; [exact W|]. split; [exact Dn|]. split; [exact P|].
    split; [intros x y; rewrite Ed; symmetry; apply cond_condensed; apply (ci_all _ _ _ CI)|]. split; [rewrite PC, As; apply chosen_perm; apply (gw_nd _ Weg)|]. split; [exact BO|].
    split; [|split; [exact AI|split; [exact AC|split; [exact Ds|intros x y; rewrite Es'; symmetry; apply cond_s_condensed; apply (ci_all _ _ _ CI)]]]]. eapply Permutation_NoDup; [symmetry; apply (ci_perm _ _ _ CI)|]. eapply Permutation_NoDup; [symmetry; exact As|exact N].
  Qed.
End PartsP.

Section StagesP.
  Variable scr : Z -> bool.
  Variable eqs : list eqn.
  Variable pg : group.
  Variable peqs : Z -> list Z.
  Variable pscr : Z -> bool.
  Hypothesis Wpg : gwf pg.
  Hypothesis Pdn : d_done (g_deps pg) = true.
  Local Notation E := (edge (g_deps pg)).
  Local Notation D := (path (edge (g_deps pg))).

  Lemma Dirr : forall a, ~ D a a.
  Proof. intros a P. apply (proj1 (dw_done _ (gw_d _ Wpg) Pdn)). exists a. exact P. Qed.
  Lemma pdep_false : forall a b, is_dep_on (g_deps pg) a b = Ok false -> ~ D a b.
  Proof. intros a b H P. unfold is_dep_on in H. rewrite Pdn in H. injection H as H. apply mem_false in H. apply H. apply (dw_done _ (gw_d _ Wpg) Pdn). exact P. Qed.

  Lemma try_parts_ok : forall pps id c xs, cinv D c xs ->
    exists b c', try_parts pg pps id c = Ok (b, c') /\ cinv D c' xs /\ c_items c' = c_items c /\
      (b = true -> forall p a, In p pps -> In a (c_get (c_items c) id) -> ~ D p a /\ ~ D a p).
  Proof.
    induction pps as [|p pps IH]; intros id c xs CI; cbn [try_parts]; [exists true, c; split; [reflexivity|split; [exact CI|split; [reflexivity|intros _ p a []]]]|].
    destruct (rall_spec Z (fun p2 => rbind (is_dep (g_deps pg) p p2) (fun b => Ok (negb b))) (fun a => ~ D p a /\ ~ D a p) (c_get (c_items c) id)) as (ok & Eok & Hok).
    { intros a _. destruct (is_dep_ok (g_deps pg) p a Pdn) as (x & Ex & Hx). rewrite Ex. cbn [rbind]. eexists. split; [reflexivity|]. destruct x; [discriminate|]. intros _. destruct (Hx eq_refl). split; apply pdep_false; assumption. }
    rewrite Eok. cbn [rbind]. destruct ok; [|exists false, c; split; [reflexivity|split; [exact CI|split; [reflexivity|discriminate]]]].
    destruct (trial_ok D pg id p c xs Wpg CI) as (t & Et & _). rewrite Et. cbn [rbind]. pose proof (cinv_clear D c xs CI) as CC.
    destruct t; [|eexists; eexists; split; [reflexivity|split; [exact CC|split; [reflexivity|discriminate]]]].
    destruct (IH id _ xs CC) as (b & c' & Eb & CI' & Ei & Hb). rewrite Eb. exists b, c'. split; [reflexivity|]. split; [exact CI'|]. split; [exact Ei|].
    intros T q a [<-|Hq] Ha; [|apply Hb; assumption]. specialize (Hok eq_refl). rewrite Forall_forall in Hok. auto.
  Qed.
  Lemma find_stage_ok : forall vg lvg pps ss ids sc c xs, cinv D c xs -> Forall (valid (c_items c)) ids ->
    exists o c', find_stage scr eqs pg peqs vg lvg pps ss ids sc c = Ok (o, c') /\ cinv D c' xs /\ c_items c' = c_items c /\
      match o with Some id => valid (c_items c) id /\ nth (Z.to_nat id) sc false = ss /\ forall p a, In p pps -> In a (c_get (c_items c) id) -> ~ D p a /\ ~ D a p | None => True end.
  Proof.
    intros vg lvg pps ss ids. induction ids as [|id ids IH]; intros sc c xs CI V; cbn [find_stage]; [exists None, c; auto|]. inversion V as [|? ? Vid V']; subst.
    destruct (Bool.eqb (nth (Z.to_nat id) sc false) ss) eqn:Es; cbn [negb]; [|apply IH; assumption]. destruct (_ && _); [apply IH; assumption|].
    destruct (try_parts_ok pps id c xs CI) as (b & c1 & E1 & CI1 & I1 & H1). rewrite E1. cbn [rbind fst snd]. destruct b.
    - exists (Some id), c1. split; [reflexivity|]. split; [exact CI1|]. split; [exact I1|]. split; [exact Vid|]. split; [apply Bool.eqb_prop; exact Es|apply H1; reflexivity].
    - rewrite <- I1 in V'. destruct (IH sc c1 xs CI1 V') as (o & c' & E' & CI' & I' & H'). exists o, c'. rewrite I1 in *. auto.
  Qed.

  Definition indep (l : list Z) : Prop := forall a b, In a l -> In b l -> ~ D a b.
  Lemma fold_ins : forall pps id c xs, cinv D c xs -> valid (c_items c) id -> NoDup (pps ++ xs) -> indep pps ->
    (forall p a, In p pps -> In a (c_get (c_items c) id) -> ~ D p a /\ ~ D a p) ->
    let items := fold_left (fun it p => c_ins id p it) pps (c_items c) in
    cinv D (mkClus items (c_grp c)) (rev pps ++ xs) /\ length items = length (c_items c) /\
    (forall j a, 0 <= j -> In a (c_get items j) -> (j = id /\ In a pps) \/ In a (c_get (c_items c) j)).
  Proof.
    induction pps as [|p pps IH]; intros id c xs CI V N ID H; cbn [fold_left rev app].
    - destruct c. cbn in *. split; [exact CI|]. split; [reflexivity|auto].
    - cbn in N. inversion N as [|? ? Np N']; subst.
      assert (C1 : cinv D (mkClus (c_ins id p (c_items c)) (c_grp c)) (p :: xs)).
      { apply cinv_ins; try assumption; [intros X; apply Np; apply in_app_iff; auto|intros a Ha; apply H; [left; reflexivity|exact Ha]|apply Dirr]. }
      destruct (IH id (mkClus (c_ins id p (c_items c)) (c_grp c)) (p :: xs) C1) as (C2 & L2 & H2).
      + unfold valid in *. cbn. rewrite ins_length. exact V.
      + eapply Permutation_NoDup; [apply Permutation_middle|exact N].
      + intros a b Ha Hb. apply ID; right; assumption.
      + cbn. intros q a Hq Ha. apply (ins_get id p _ id _ V (proj1 V)) in Ha. destruct Ha as [(_ & ->)|Ha]; [split; apply ID; try (left; reflexivity); right; exact Hq|apply H; [right; exact Hq|exact Ha]].
      + cbn in *. rewrite <- app_assoc. cbn. split; [exact C2|]. split; [rewrite L2, ins_length; reflexivity|]. intros j a Hj Ha. destruct (H2 j a Hj Ha) as [(X & Y)|X]; [auto|]. apply (ins_get id p _ j _ V Hj) in X. destruct X as [(X & ->)|X]; auto.
  Qed.

  Definition sainv (sc : list bool) (items : list (list Z)) : Prop :=
    length sc = length items /\ forall id p, 0 <= id -> In p (c_get items id) -> pscr p = nth (Z.to_nat id) sc false.
  Definition sinv (s : stages) : Prop := cinv D (st_clus s) (st_added s) /\ sainv (st_scr s) (c_items (st_clus s)).
  Definition samescr (l : list Z) : Prop := forall a b, In a l -> In b l -> pscr a = pscr b.
  Lemma nodup_rev : forall (l m : list Z), NoDup (l ++ m) -> Permutation (rev l ++ m) (l ++ m).
  Proof. intros l m _. apply Permutation_app_tail. symmetry. apply Permutation_rev. Qed.

  Lemma add_stage_ok : forall vg lvg s pps, sinv s -> NoDup (pps ++ st_added s) -> indep pps -> samescr pps ->
    exists s', add_parts_to_stage scr eqs pg peqs pscr vg lvg s pps = Ok s' /\ sinv s' /\ st_added s' = pps ++ st_added s.
  Proof.
    intros vg lvg s pps (CI & (SL & SI)) N ID SS. destruct pps as [|p0 pr]; [exists s; split; [reflexivity|split; [split; [exact CI|split; assumption]|reflexivity]]|].
    set (pps := p0 :: pr) in *. cbn [add_parts_to_stage]. unfold add_parts_to_stage. fold pps. unfold pps at 1.
    assert (Np : ~ In p0 (st_added s)) by (cbn in N; inversion N; subst; intros X; apply H1; apply in_app_iff; auto).
    replace (mem p0 (st_added s)) with false by (symmetry; apply mem_false; exact Np).
    destruct (find_stage_ok vg lvg pps (pscr p0) (g_all (c_grp (st_clus s))) (st_scr s) (st_clus s) (st_added s) CI) as (o & c1 & E1 & CI1 & I1 & H1).
    { rewrite (ci_all _ _ _ CI). apply Forall_forall. intros x Hx. apply zseq_In in Hx. exact Hx. }
    rewrite E1. cbn [rbind fst snd].
    assert (X : exists id c' sc, match o with Some id => (id, c1, st_scr s) | None => let '(id, c') := c_new c1 in (id, c', st_scr s ++ [pscr p0]) end = (id, c', sc) /\
      cinv D c' (st_added s) /\ valid (c_items c') id /\ sainv sc (c_items c') /\ nth (Z.to_nat id) sc false = pscr p0 /\ (forall p a, In p pps -> In a (c_get (c_items c') id) -> ~ D p a /\ ~ D a p)).
    { destruct o as [id|].
      - exists id, c1, (st_scr s). rewrite I1. split; [reflexivity|]. split; [exact CI1|]. split; [apply H1|]. split; [split; assumption|]. split; apply H1.
      - destruct (cinv_new D c1 _ CI1) as (CN & Fn & Gn). destruct (c_new c1) as (id & c2). cbn [fst snd] in *. exists id, c2, (st_scr s ++ [pscr p0]).
        split; [reflexivity|]. split; [exact CN|]. rewrite I1 in *. split; [rewrite Gn, Fn; unfold valid; rewrite app_length; cbn; lia|].
        split; [split; [rewrite Gn, !app_length; cbn; lia|]|split].
        + intros j p Hj Hp. rewrite Gn, new_get in Hp. pose proof (get_range _ _ _ Hj Hp) as V. unfold valid in V. rewrite app_nth1 by lia. apply SI; assumption.
        + rewrite Fn, Nat2Z.id, <- SL, app_nth2, Nat.sub_diag by lia. reflexivity.
        + intros p a _ Ha. rewrite Gn, new_get in Ha. apply get_range in Ha; [|rewrite Fn; lia]. rewrite Fn in Ha. unfold valid in Ha. lia. }
    destruct X as (id & c' & sc & EX & CI' & V' & (SL' & SI') & SN & HD). rewrite EX. eexists. split; [reflexivity|]. cbn [st_clus st_scr st_added c_items c_grp].
    destruct (fold_ins pps id c' (st_added s) CI' V' N ID HD) as (C2 & L2 & H2). split; [|reflexivity]. split.
    - destruct C2 as [A B C P I]. constructor; try assumption. cbn in *. rewrite P. exact (nodup_rev (p0 :: pr) _ N).
    - split; [exact (eq_trans SL' (eq_sym L2))|]. intros j p Hj Hp. destruct (H2 j p Hj Hp) as [(-> & X)|X]; [refine (eq_trans _ (eq_sym SN)); apply SS; [exact X|left; reflexivity]|exact (SI' j p Hj X)].
  Qed.

  Lemma sinv0 : sinv stages0.
  Proof. split; [apply cinv0|]. split; [reflexivity|]. cbn. intros id p _ H. unfold c_get in H. destruct (Z.to_nat id); contradiction. Qed.
  Lemma NoDup_app_r' : forall (l m : list Z), NoDup (l ++ m) -> NoDup m.
  Proof. induction l as [|x l IH]; intros m H; [exact H|]. cbn in H. inversion H; subst. auto. Qed.
  Lemma level_ok : forall vg lvg ls s, sinv s -> NoDup (concat ls ++ st_added s) -> Forall indep ls -> Forall samescr ls ->
    exists s', rfold (add_parts_to_stage scr eqs pg peqs pscr vg lvg) ls s = Ok s' /\ sinv s' /\ Permutation (st_added s') (concat ls ++ st_added s).
  Proof.
    intros vg lvg. induction ls as [|l ls IH]; intros s SI N ID SS; cbn [rfold concat]; [exists s; auto|]. inversion ID; inversion SS; subst. cbn [concat] in N.
    destruct (add_stage_ok vg lvg s l SI) as (s1 & E1 & SI1 & A1); try assumption.
    { rewrite <- app_assoc in N. assert (P : Permutation (l ++ concat ls ++ st_added s) (concat ls ++ l ++ st_added s)) by apply Permutation_app_swap_app. apply (Permutation_NoDup P) in N. apply NoDup_app_r' in N. exact N. }
    rewrite E1. cbn [rbind]. destruct (IH s1 SI1) as (s' & E' & SI' & A'); try assumption.
    { rewrite A1. rewrite <- app_assoc in N. eapply Permutation_NoDup; [apply Permutation_app_swap_app|exact N]. }
    exists s'. split; [exact E'|]. split; [exact SI'|]. rewrite A', A1. rewrite <- app_assoc. apply Permutation_app_swap_app.
  Qed.
  Lemma rfold_map : forall A B St (f : St -> B -> res St) (h : A -> B) l s, rfold (fun s x => f s (h x)) l s = rfold f (map h l) s.
  Proof. induction l as [|x l IH]; intros s; cbn; [reflexivity|]. destruct (f s (h x)); cbn; auto. Qed.
  Lemma items_indep : forall s, sinv s -> forall ids, Forall (valid (c_items (st_clus s))) ids -> Forall indep (map (c_get (c_items (st_clus s))) ids) /\ Forall samescr (map (c_get (c_items (st_clus s))) ids).
  Proof.
    intros s (CI & SL & SI) ids V. split; apply Forall_forall; intros l Hl; apply in_map_iff in Hl as (id & <- & Hid); rewrite Forall_forall in V; specialize (V id Hid); destruct V as (V & _).
    - intros a b Ha Hb. apply (ci_ind _ _ _ CI id); assumption.
    - intros a b Ha Hb. rewrite (SI id a V Ha), (SI id b V Hb). reflexivity.
  Qed.

  Theorem make_stages_ok :
    match make_stages scr eqs pg peqs pscr with
    | Ok ss => let items := c_items (st_clus ss) in let g := c_grp (st_clus ss) in
        gwf g /\ d_done (g_deps g) = true /\ Permutation (g_all g) (zseq (Z.of_nat (length items))) /\
        (forall x y, edge (g_deps g) x y <-> cond pg items x y) /\
        Permutation (concat (map (c_get items) (g_all g))) (g_all pg) /\
        blocks_ordered E (map (c_get items) (g_all g)) /\
        (forall id p, In id (g_all g) -> In p (c_get items id) -> pscr p = nth (Z.to_nat id) (st_scr ss) false) /\
        d_done (g_scr g) = true /\ (forall x y, edge (g_scr g) x y <-> cond_s pg items x y)
    | Throw => exists blocks, Permutation (concat blocks) (g_all pg) /\ cyclic (cond pg blocks)
    | _ => False
    end.
  Proof.
    unfold make_stages. rewrite (rfold_map _ _ _ (add_parts_to_stage scr eqs pg peqs pscr true true) (fun p => [p])).
    assert (C1 : concat (map (fun p : Z => [p]) (g_all pg)) = g_all pg) by (induction (g_all pg) as [|x l IH]; cbn; [reflexivity|f_equal; exact IH]).
    destruct (level_ok true true (map (fun p => [p]) (g_all pg)) stages0 sinv0) as (s1 & E1 & S1 & A1).
    { cbn. rewrite app_nil_r, C1. apply (gw_nd _ Wpg). }
    { apply Forall_forall. intros l Hl. apply in_map_iff in Hl as (p & <- & _). intros a b [<-|[]] [<-|[]]. apply Dirr. }
    { apply Forall_forall. intros l Hl. apply in_map_iff in Hl as (p & <- & _). intros a b [<-|[]] [<-|[]]. reflexivity. }
    cbn in A1. rewrite app_nil_r, C1 in A1. rewrite E1. cbn [rbind].
    assert (V1 : Forall (valid (c_items (st_clus s1))) (g_all (c_grp (st_clus s1)))) by (rewrite (ci_all _ _ _ (proj1 S1)); apply Forall_forall; intros x Hx; apply zseq_In in Hx; exact Hx).
    destruct (items_indep s1 S1 _ V1) as (ID1 & SS1).
    assert (P1 : Permutation (concat (stage_parts s1)) (g_all pg)). { unfold stage_parts. rewrite (ci_all _ _ _ (proj1 S1)), map_get, (ci_perm _ _ _ (proj1 S1)). exact A1. }
    destruct (level_ok true false (stage_parts s1) stages0 sinv0) as (s2 & E2 & S2 & A2); [|exact ID1|exact SS1|].
    { cbn. rewrite app_nil_r. eapply Permutation_NoDup; [symmetry; exact P1|apply (gw_nd _ Wpg)]. }
    cbn in A2. rewrite app_nil_r, P1 in A2. rewrite E2. cbn [rbind].
    set (by_scr := fun b : bool => filter (fun id => Bool.eqb (nth (Z.to_nat id) (st_scr s2) false) b) (g_all (c_grp (st_clus s2)))).
    assert (PB : Permutation (by_scr false ++ by_scr true) (g_all (c_grp (st_clus s2)))).
    { unfold by_scr. clear. induction (g_all (c_grp (st_clus s2))) as [|x l IH]; [constructor|]. cbn [filter]. destruct (nth (Z.to_nat x) (st_scr s2) false); cbn [Bool.eqb]; [rewrite <- Permutation_middle|cbn [app]]; constructor; exact IH. }
    assert (V2 : Forall (valid (c_items (st_clus s2))) (by_scr false ++ by_scr true)).
    { apply Forall_forall. intros x Hx. apply (Permutation_in _ PB) in Hx. rewrite (ci_all _ _ _ (proj1 S2)) in Hx. apply zseq_In in Hx. exact Hx. }
    destruct (items_indep s2 S2 _ V2) as (ID2 & SS2).
    assert (P2 : Permutation (concat (map (c_get (c_items (st_clus s2))) (by_scr false ++ by_scr true))) (g_all pg)).
    { rewrite <- A2, <- (ci_perm _ _ _ (proj1 S2)). rewrite <- (map_get (c_items (st_clus s2))) at 2. apply concat_perm. apply Permutation_map. rewrite <- (ci_all _ _ _ (proj1 S2)). exact PB. }
    destruct (level_ok false false _ stages0 sinv0 ltac:(cbn; rewrite app_nil_r; eapply Permutation_NoDup; [symmetry; exact P2|apply (gw_nd _ Wpg)]) ID2 SS2) as (s3 & E3 & S3 & A3).
    cbn in A3. rewrite app_nil_r, P2 in A3. cbv zeta. match goal with |- context [rfold _ (map _ ?l) stages0] => change l with (by_scr false ++ by_scr true) end. rewrite E3. cbn [rbind]. destruct S3 as (CI & SL & SI).
    pose proof (finish_ok pg (st_clus s3) (st_added s3) Wpg CI) as F.
    assert (CY : cyclic (condensed (c_get (c_items (st_clus s3))) (c_grp (st_clus s3)) (g_deps pg)) -> exists blocks, Permutation (concat blocks) (g_all pg) /\ cyclic (cond pg blocks)).
    { intros C. exists (c_items (st_clus s3)). split; [rewrite (ci_perm _ _ _ CI); exact A3|]. rewrite (cyclic_iff _ _ (cond_condensed pg (st_clus s3) (ci_all _ _ _ CI))). exact C. }
    destruct (inherit_deps_from pg _ _) as [g1| | |]; cbn [rbind] in *; try contradiction; [|exact (CY F)].
    destruct (topo_sort g1) as [g| | |]; cbn [rbind] in *; try contradiction; [|exact (CY F)].
    destruct F as (W & Dn & P & Ed & PC & BO & Ds & Es'). cbn. split; [exact W|]. split; [exact Dn|]. split; [exact P|].
    split; [intros x y; rewrite Ed; symmetry; apply cond_condensed; apply (ci_all _ _ _ CI)|]. split; [rewrite PC; exact A3|]. split; [exact BO|].
    split; [|split; [exact Ds|intros x y; rewrite Es'; symmetry; apply cond_s_condensed; apply (ci_all _ _ _ CI)]].
    intros id p Hid Hp. apply (Permutation_in _ P), zseq_In in Hid. apply SI; [lia|exact Hp].
  Qed.
End StagesP.

Lemma blocks_mono : forall (D D' : Z -> Z -> Prop) bs, (forall x y, In x (concat bs) -> In y (concat bs) -> D' x y -> D x y) -> blocks_ordered D bs -> blocks_ordered D' bs.
Proof.
  intros D D' bs H B l1 b l2 x y E Hx Hy X. refine (B l1 b l2 x y E Hx Hy (H x y _ _ X)); rewrite E, concat_app; cbn; rewrite !in_app_iff in *; tauto.
Qed.

Definition part_blocks (ps : parts) : list (list Z) := map (c_get (c_items (ps_clus ps))) (g_all (c_grp (ps_clus ps))).
Definition stage_blocks (ps : parts) (ss : stages) : list (list Z) :=
  map (fun st => concat (map (c_get (c_items (ps_clus ps))) (c_get (c_items (st_clus ss)) st))) (g_all (c_grp (st_clus ss))).

Section BuildP.
  Variable scr : Z -> bool.
  Variables dims_same halo_same : Z -> Z -> bool.
  Variables bundle bundle_scratch : bool.
  Variable regex : Z -> bool.
  Variables (dir d : Z) (eqs : list eqn).
  Hypothesis Hdir : dir = 1 \/ dir = -1.
  Hypothesis Hd : d = 0 \/ d = dir.
  Hypothesis Hleg : Forall (fun e => legal_lhs scr dir e /\ (scr (p_var (e_lhs e)) = false -> dir = 1 -> forall r s, In r (e_rhs e) -> p_step r = Some s -> s <= 1)) eqs.
  Hypothesis Hdis : distinct_lhs eqs.

  Definition kept (i : Z) : bool := match nth_error eqs (Z.to_nat i) with Some e => scr (p_var (e_lhs e)) || regex (p_var (e_lhs e)) | None => false end.
  Lemma kept_ok : forall l, (forall i, In i l -> 0 <= i < Z.of_nat (length eqs)) -> filter (fun i => eq_scr scr eqs i || regex (eq_var eqs i)) l = filter kept l.
  Proof.
    intros l H. apply filter_ext_in. intros i Hi. specialize (H i Hi). unfold kept, eq_scr, eq_var, eq_at. rewrite (nth_error_nth' eqs eqn0) by lia. reflexivity.
  Qed.

  Lemma edge_depends : forall d' eg, analyze_eqs scr true d eqs = Ok (d', eg) -> gwf eg /\ g_all eg = zseq (Z.of_nat (length eqs)) /\
    (forall i j, In i (g_all eg) -> In j (g_all eg) -> (edge (g_deps eg) i j <-> depends scr eqs i j)) /\ ~ cyclic (needs scr eqs) /\
    (forall a b c, edge (g_deps eg) a b -> edge (g_deps eg) b c -> edge (g_deps eg) a c) /\ (forall a, ~ edge (g_deps eg) a a) /\ (g_all eg <> [] -> d_done (g_deps eg) = true).
  Proof.
    intros d' eg H. pose proof (analyze_spec scr dir eqs d Hdir Hd Hleg Hdis) as S. rewrite H in S. destruct S as (NC & A & W & Q).
    destruct (analyze_closed scr dir eqs d d' eg Hdir Hd Hleg Hdis H) as (T & I & Dn). split; [exact W|]. split; [exact A|]. split; [|auto].
    intros i j Hi Hj. destruct (Q i j Hi Hj) as (b & Eb & Hb). unfold depends. rewrite <- Hb. assert (DD : d_done (g_deps eg) = true) by (apply Dn; intros X; rewrite X in Hi; contradiction).
    unfold is_dep_on in Eb. rewrite DD in Eb. injection Eb as <-. rewrite mem_In. change (edge (g_deps eg) i j <-> dep (g_deps eg) i j). rewrite (proj2 (dw_done _ (gw_d _ W) DD)).
    split; [apply path_one|]. intros P. induction P as [x y K|x y z K P IH]; [exact K|]. eapply T; [exact K|]. apply IH; try assumption.
    - destruct (gw_in _ W _ _ K). assumption.
    - destruct (gw_in _ W _ _ K). destruct (Q y z ltac:(assumption) Hj) as (b' & Eb' & Hb'). unfold is_dep_on in Eb'. rewrite DD in Eb'. injection Eb' as <-. exact Hb'.
  Qed.

  Theorem parts_always : forall d' eg, analyze_eqs scr true d eqs = Ok (d', eg) ->
    exists ps, make_parts scr eqs eg dims_same halo_same bundle bundle_scratch regex = Ok ps /\
      Permutation (concat (part_blocks ps)) (filter kept (zseq (Z.of_nat (length eqs)))) /\
      blocks_ordered (depends scr eqs) (part_blocks ps).
  Proof.
    intros d' eg H. destruct (edge_depends d' eg H) as (W & A & ED & NC & T & I & Dn).
    destruct (make_parts_ok scr eqs eg dims_same halo_same bundle bundle_scratch regex W T I Dn) as (ps & Eps & Wp & Dp & Pp & Edp & PC & BO & ND & AI & AC & _).
    exists ps. split; [exact Eps|]. unfold part_blocks. rewrite A in PC. rewrite kept_ok in PC by (intros i Hi; apply zseq_In in Hi; exact Hi).
    split; [exact PC|]. eapply blocks_mono; [|exact BO]. intros x y Hx Hy K. apply ED; [| |exact K]; rewrite A; apply (Permutation_in _ PC) in Hx, Hy; apply filter_In in Hx, Hy; tauto.
  Qed.

  Theorem build_ok :
    match build scr dims_same halo_same bundle bundle_scratch regex d eqs with
    | Ok (eg, ps, ss) => ~ cyclic (needs scr eqs) /\
        Permutation (concat (stage_blocks ps ss)) (filter kept (zseq (Z.of_nat (length eqs)))) /\
        blocks_ordered (depends scr eqs) (stage_blocks ps ss) /\
        Permutation (concat (part_blocks ps)) (filter kept (zseq (Z.of_nat (length eqs)))) /\
        blocks_ordered (depends scr eqs) (part_blocks ps) /\
        Permutation (concat (map (c_get (c_items (st_clus ss))) (g_all (c_grp (st_clus ss))))) (g_all (c_grp (ps_clus ps))) /\
        (forall b x y, In b (part_blocks ps) -> In x b -> In y b -> eq_attr scr eqs x = eq_attr scr eqs y) /\
        (forall b x y, In b (stage_blocks ps ss) -> In x b -> In y b -> eq_scr scr eqs x = eq_scr scr eqs y)
    | Throw => True
    | _ => False
    end.
  Proof.
    unfold build. pose proof (analyze_spec scr dir eqs d Hdir Hd Hleg Hdis) as S. destruct (analyze_eqs scr true d eqs) as [(d' & eg)| | |] eqn:EA; cbn [rbind]; try contradiction; [clear S|exact Logic.I].
    destruct (edge_depends d' eg EA) as (W & A & ED & NC & T & I & Dn). cbn [snd].
    destruct (make_parts_ok scr eqs eg dims_same halo_same bundle bundle_scratch regex W T I Dn) as (ps & Eps & Wp & Dp & Pp & Edp & PC & BO & ND & (AL & AI) & AC & _).
    rewrite Eps. cbn [rbind].
    pose proof (make_stages_ok scr eqs (c_grp (ps_clus ps)) (c_get (c_items (ps_clus ps))) (fun p => a_scr (nth (Z.to_nat p) (ps_attr ps) attr0)) Wp Dp) as MS.
    destruct (make_stages _ _ _ _ _) as [ss| | |]; cbn [rbind]; try contradiction; [|exact Logic.I]. cbv zeta in MS. destruct MS as (Ws & Ds & Ps & Eds & PCs & BOs & SS & _).
    set (items := c_items (ps_clus ps)) in *. set (pg := c_grp (ps_clus ps)) in *. set (sitems := c_items (st_clus ss)) in *. set (sg := c_grp (st_clus ss)) in *.
    rewrite A in PC. rewrite kept_ok in PC by (intros i Hi; apply zseq_In in Hi; exact Hi).
    assert (INR : forall x, In x (concat (map (c_get items) (g_all pg))) -> In x (g_all eg)) by (intros x Hx; rewrite A; apply (Permutation_in _ PC) in Hx; apply filter_In in Hx; tauto).
    assert (CM : forall ids, concat (map (fun st => concat (map (c_get items) (c_get sitems st))) ids) = concat (map (c_get items) (concat (map (c_get sitems) ids)))).
    { induction ids as [|st ids IH]; [reflexivity|]. cbn [map concat]. rewrite map_app, concat_app, IH. reflexivity. }
    assert (PS : Permutation (concat (stage_blocks ps ss)) (concat (map (c_get items) (g_all pg)))).
    { unfold stage_blocks. fold items sitems sg. rewrite CM. apply concat_perm. apply Permutation_map. exact PCs. }
    split; [exact NC|]. split; [rewrite PS; exact PC|]. split; [|split; [exact PC|split; [|split; [exact PCs|split]]]].
    - apply (blocks_mono (edge (g_deps eg))).
      { intros x y Hx Hy K. apply ED; [| |exact K]; apply INR; (eapply Permutation_in; [exact PS|assumption]). }
      intros l1 b l2 x y E Hx Hy K. unfold stage_blocks in E. fold items sitems sg in E.
      apply map_eq_app in E as (g1' & g2' & E1 & <- & E3). apply map_eq_cons in E3 as (id & g2 & -> & <- & <-).
      assert (LK : forall ids z, In z (concat (map (fun st => concat (map (c_get items) (c_get sitems st))) ids)) -> exists q, In q (concat (map (c_get sitems) ids)) /\ In z (c_get items q)).
      { intros ids z Hz. rewrite CM in Hz. apply in_concat in Hz as (b & Hb & Hz). apply in_map_iff in Hb as (q & <- & Hq). exists q. auto. }
      destruct (LK [id] x) as (p & Hp & Hxp). { cbn. rewrite app_nil_r. exact Hx. }
      destruct (LK (id :: g2) y) as (q & Hq & Hyq). { exact Hy. }
      cbn in Hp, Hq. rewrite app_nil_r in Hp.
      assert (Vq : valid items q). { assert (X : In q (g_all pg)) by (apply (Permutation_in _ PCs); rewrite E1, map_app, concat_app; cbn; rewrite !in_app_iff in *; tauto). apply (Permutation_in _ Pp), zseq_In in X. exact X. }
      assert (Vp : valid items p). { assert (X : In p (g_all pg)) by (apply (Permutation_in _ PCs); rewrite E1, map_app, concat_app; cbn; rewrite !in_app_iff in *; tauto). apply (Permutation_in _ Pp), zseq_In in X. exact X. }
      assert (NPQ : p <> q).
      { intros ->. assert (X : In q (g_all pg)) by (apply (Permutation_in _ (Permutation_sym Pp)); apply zseq_In; exact Vq). apply in_split in X as (u & v & X). refine (BO (map (c_get items) u) (c_get items q) (map (c_get items) v) x y _ Hxp _ K); [rewrite X, map_app; reflexivity|apply in_app_iff; left; exact Hyq]. }
      refine (BOs (map (c_get sitems) g1') (c_get sitems id) (map (c_get sitems) g2) p q _ Hp Hq _); [rewrite E1, map_app; reflexivity|].
      apply Edp. split; [exact Vp|]. split; [exact Vq|]. split; [exact NPQ|]. exists x, y. split; [exact Hxp|]. split; [exact Hyq|]. split; [intros ->; exact (I _ K)|exact K].
    - eapply blocks_mono; [|exact BO]. intros x y Hx Hy K. apply ED; [| |exact K]; apply INR; assumption.
    - intros b x y Hb Hx Hy. unfold part_blocks in Hb. fold items pg in Hb. apply in_map_iff in Hb as (id & <- & Hid). apply (Permutation_in _ Pp), zseq_In in Hid. rewrite (AI id x) by (try lia; exact Hx). rewrite (AI id y) by (try lia; exact Hy). reflexivity.
    - intros b x y Hb Hx Hy. unfold stage_blocks in Hb. fold items sitems sg in Hb. apply in_map_iff in Hb as (id & <- & Hid).
      assert (K : forall z, In z (concat (map (c_get items) (c_get sitems id))) -> eq_scr scr eqs z = nth (Z.to_nat id) (st_scr ss) false).
      { intros z Hz. apply in_concat in Hz as (b & Hb & Hz). apply in_map_iff in Hb as (p & <- & Hp). rewrite <- (SS id p Hid Hp). assert (X : In p (g_all pg)) by (apply (Permutation_in _ PCs); apply in_concat; exists (c_get sitems id); split; [apply in_map; exact Hid|exact Hp]).
        apply (Permutation_in _ Pp), zseq_In in X. pose proof (AI p z ltac:(lia) Hz) as Y. rewrite <- Y. reflexivity. }
      rewrite (K x Hx), (K y Hy). reflexivity.
  Qed.
End BuildP.
