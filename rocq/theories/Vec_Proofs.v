From Coq Require Import String.
From Verif Require Import Base Idiv_Model Idiv_Proofs MixedRadix Visit_Spec ParFor_Model Tuple_Model
  Tuple_Proofs Vec_Model Vec_Spec VecCtor_Proofs.

(* ---- look-up ---- *)
Lemma lookup_list_In : forall l d v, NoDup (map fst l) -> (lookup_list l d = Some v <-> In (d, v) l).
Proof.
  induction l as [|[n x] l IH]; intros d v N; cbn in *; [split; [discriminate|tauto]|].
  inversion N as [|n' l' Nn Nl]; subst. destruct (String.eqb_spec n d) as [->|Ne].
  - split; [intros E; inversion E; auto|]. intros [E|E]; [inversion E; reflexivity|].
    exfalso. apply Nn. apply in_map_iff. exists (d, v). auto.
  - rewrite IH by assumption. split; [auto|]. intros [E|E]; [inversion E; congruence|assumption].
Qed.
Lemma lookup_list_None : forall l d, lookup_list l d = None <-> ~ In d (map fst l).
Proof.
  induction l as [|[n x] l IH]; intros d; cbn; [tauto|].
  destruct (String.eqb_spec n d) as [->|Ne]; [split; [discriminate|tauto]|]. rewrite IH. tauto.
Qed.
Lemma lookup_list_app_None : forall l d x, lookup_list l d = None ->
  lookup_list (l ++ [(d, x)]) d = Some x.
Proof.
  induction l as [|[n y] l IH]; intros d x H; cbn in *; [rewrite String.eqb_refl; reflexivity|].
  destruct (String.eqb n d); [discriminate|]. apply IH. assumption.
Qed.

Lemma fold_len_of : forall fold d, fold_ok fold -> fold_len fold d (len_of fold d) /\ 0 < len_of fold d.
Proof.
  intros fold d [N P]. unfold len_of, lookup. destruct (lookup_list (dims fold) d) as [l|] eqn:E.
  - apply lookup_list_In in E; [|assumption]. split; [constructor; assumption|].
    apply (proj1 (Forall_forall _ _) P). apply in_map_iff. exists (d, l). auto.
  - apply lookup_list_None in E. split; [|lia]. constructor 2. intros s C. apply E.
    apply in_map_iff. exists (d, s). auto.
Qed.
Lemma fold_len_fun : forall fold d s, fold_ok fold -> fold_len fold d s -> s = len_of fold d.
Proof.
  intros fold d s [N P] H. unfold len_of, lookup. destruct H as [s H|H].
  - apply lookup_list_In in H; [|assumption]. rewrite H. reflexivity.
  - replace (lookup_list (dims fold) d) with (@None Z); [reflexivity|].
    symmetry. apply lookup_list_None. intros C. apply in_map_iff in C. destruct C as ([d' s] & E & C).
    cbn in E. subst. apply (H s C).
Qed.

(* ---- lane positions ---- *)
Lemma lane_pos_digits : forall l e d, NoDup (map fst l) ->
  lane_pos l e d =
  match lookup_list (combine (map fst l) (mr_digits (map snd l) e)) d with Some o => o | None => 0 end.
Proof.
  induction l as [|[n s] l IH]; intros e d N; cbn; [reflexivity|].
  inversion N; subst. destruct (String.eqb n d); [reflexivity|]. apply IH. assumption.
Qed.
Lemma combine_fst_in : forall A B (a : list A) (b : list B), List.length a = List.length b ->
  map fst (combine a b) = a.
Proof. induction a; intros [|y b] E; cbn in *; try discriminate; [reflexivity|]. f_equal. auto. Qed.
Lemma combine_rev : forall A B (a : list A) (b : list B), List.length a = List.length b ->
  combine (rev a) (rev b) = rev (combine a b).
Proof.
  induction a as [|x a IH]; intros [|y b] E; cbn in *; try discriminate; [reflexivity|].
  rewrite <- IH by lia. assert (L : List.length (rev a) = List.length (rev b)) by (rewrite !rev_length; lia).
  revert L. generalize (rev a) (rev b). clear. induction l as [|u l IH]; intros [|v m] L; cbn in *; try discriminate; [reflexivity|].
  f_equal. apply IH. lia.
Qed.
Lemma lookup_list_rev : forall l d, NoDup (map fst l) -> lookup_list (rev l) d = lookup_list l d.
Proof.
  intros l d N.
  assert (N' : NoDup (map fst (rev l))) by (rewrite map_rev; apply NoDup_rev; assumption).
  destruct (lookup_list l d) as [v|] eqn:E.
  - apply lookup_list_In; [assumption|]. apply -> in_rev. apply lookup_list_In; assumption.
  - apply lookup_list_None. apply lookup_list_None in E. rewrite map_rev. rewrite <- in_rev. assumption.
Qed.

Lemma pos_in_lookup : forall fold e d, fold_ok fold ->
  pos_in fold e d =
  match lookup_list (combine (names fold) (point_of (first_inner fold) (vals fold) e)) d with
  | Some o => o | None => 0 end.
Proof.
  intros fold e d [N P]. unfold pos_in, point_of, names, vals, inner_first.
  destruct (first_inner fold).
  - apply lane_pos_digits. assumption.
  - rewrite lane_pos_digits by (rewrite map_rev; apply NoDup_rev; assumption).
    rewrite !map_rev.
    rewrite <- (rev_involutive (mr_digits (rev (map snd (dims fold))) e)) at 1.
    assert (L : List.length (map fst (dims fold)) = List.length (rev (mr_digits (rev (map snd (dims fold))) e))).
    { rewrite rev_length, mr_digits_length, rev_length, !map_length. reflexivity. }
    rewrite combine_rev by exact L. rewrite lookup_list_rev; [reflexivity|].
    rewrite combine_fst_in by exact L. assumption.
Qed.

(* The lane with given offsets in its dims. *)
Lemma pos_in_layout : forall fold (o : string -> Z) d, fold_ok fold ->
  (forall n s, In (n, s) (dims fold) -> 0 <= o n < s) ->
  let e := layout_vals (first_inner fold) (vals fold) (map o (names fold)) in
  0 <= e < lanes_of fold /\ (In d (names fold) -> pos_in fold e d = o d) /\
  (~ In d (names fold) -> pos_in fold e d = 0).
Proof.
  intros fold o d Hf Ho e. pose proof Hf as [N P].
  assert (I : in_sizes (vals fold) (map o (names fold))).
  { unfold vals, names. clear e N P Hf. induction (dims fold) as [|[n s] l IH]; cbn; [constructor|].
    constructor; [apply Ho; left; reflexivity|]. apply IH. intros; apply Ho; right; assumption. }
  split; [|].
  - apply layout_bound. assumption.
  - rewrite pos_in_lookup by assumption. unfold e. rewrite point_layout by assumption.
    assert (Q : forall l, NoDup l -> (In d l -> lookup_list (combine l (map o l)) d = Some (o d)) /\
                          (~ In d l -> lookup_list (combine l (map o l)) d = None)).
    { clear. induction l as [|n l IH]; intros Nl; cbn; [tauto|]. inversion Nl; subst.
      destruct (IH ltac:(assumption)) as [I1 I2]. destruct (String.eqb_spec n d) as [->|Ne].
      - split; [reflexivity|tauto].
      - split; [intros [C|C]; [congruence|auto]|auto]. }
    destruct (Q (names fold) N) as [Q1 Q2]. split; intros H; [rewrite Q1 by assumption; reflexivity|].
    rewrite Q2 by assumption. reflexivity.
Qed.

(* ---- fix_index_offset ---- *)
Lemma fix_spec : forall o len, 0 < len -> fix_index_offset 0 o len = Ok (o / len, o mod len).
Proof.
  intros o len Hl. unfold fix_index_offset. replace (len =? 0) with false by lia.
  replace (0 * len + o) with o by lia.
  pose proof (Z.quot_rem' o len) as Q. pose proof (Z.rem_bound_abs o len ltac:(lia)) as RB.
  pose proof (Z.div_mod o len ltac:(lia)) as D. pose proof (Z.mod_pos_bound o len Hl) as MB.
  cbn [fix_loop]. destruct (Z.ltb_spec (Z.rem o len) 0) as [Lt|Ge].
  - assert (E : Z.rem o len + len = o mod len) by (apply (Z.mod_unique_pos _ _ (Z.quot o len - 1)); lia).
    assert (E2 : Z.quot o len - 1 = o / len) by (apply (Z.div_unique_pos _ _ _ (Z.rem o len + len)); lia).
    rewrite E, E2. destruct (Z.to_nat (Z.abs o)); cbn [fix_loop];
      replace (o mod len <? 0) with false by lia; reflexivity.
  - assert (E : Z.rem o len = o mod len) by (apply (Z.mod_unique_pos _ _ (Z.quot o len)); lia).
    assert (E2 : Z.quot o len = o / len) by (apply (Z.div_unique_pos _ _ _ (Z.rem o len)); lia).
    rewrite E, E2. reflexivity.
Qed.

Lemma split_spec : forall fold l vo vl, fold_ok fold -> NoDup (map fst l) ->
  (forall d, In d (map fst l) -> lookup vo d = None /\ lookup vl d = None) ->
  split_offsets fold l vo vl =
  Ok (mkTuple (dims vo ++ map (fun e => (fst e, snd e mod len_of fold (fst e))) l) (first_inner vo),
      mkTuple (dims vl ++ map (fun e => (fst e, snd e / len_of fold (fst e) * len_of fold (fst e))) l) (first_inner vl)).
Proof.
  intros fold l. induction l as [|[d o] l IH]; intros vo vl Hf N H; cbn [split_offsets map].
  - rewrite !app_nil_r. destruct vo, vl; reflexivity.
  - cbn [map fst] in N. inversion N as [|d' l' Nd Nl]; subst.
    destruct (H d (or_introl eq_refl)) as [Ho Hl]. destruct (fold_len_of fold d Hf) as [_ Lp].
    rewrite fix_spec by assumption. cbn [rbind fst snd].
    unfold add_dim_back. rewrite Ho, Hl. rewrite IH; [|assumption|assumption|].
    + cbn [dims first_inner fst snd]. rewrite <- !app_assoc. reflexivity.
    + intros e He. unfold lookup. cbn [dims]. destruct (H e (or_intror He)) as [Eo El].
      unfold lookup in Eo, El. split.
      * apply lookup_list_None. rewrite map_app, in_app_iff. cbn.
        apply lookup_list_None in Eo. intros [C|[C|[]]]; [contradiction|subst; contradiction].
      * apply lookup_list_None. rewrite map_app, in_app_iff. cbn.
        apply lookup_list_None in El. intros [C|[C|[]]]; [contradiction|subst; contradiction].
Qed.

(* Setting all recorded offsets. *)
Fixpoint map_offs (f : string -> Z -> Z) (l : list (string * varg)) : list (string * varg) :=
  match l with
  | [] => []
  | (d, VOff o) :: r => (d, VOff (f d o)) :: map_offs f r
  | a :: r => a :: map_offs f r
  end.

Lemma set_off_skip : forall l1 l2 d o, ~ In d (map fst l1) ->
  set_off (l1 ++ l2) d o = (l1 ++ set_off l2 d o)%list.
Proof.
  induction l1 as [|[n a] l1 IH]; intros l2 d o H; cbn in *; [reflexivity|].
  destruct (String.eqb_spec n d) as [->|Ne]; [tauto|]. rewrite IH by tauto. reflexivity.
Qed.

Lemma offs_of_fst : forall l x, In x (map fst (offs_of l)) -> In x (map fst l).
Proof.
  induction l as [|[d [o|c]] l IH]; intros x H; cbn in *; [contradiction| |auto].
  destruct H as [H|H]; auto.
Qed.
Lemma offs_of_In : forall l d o, In (d, o) (offs_of l) <-> In (d, VOff o) l.
Proof.
  induction l as [|[n [x|c]] l IH]; intros d o; cbn; [tauto| |].
  - rewrite IH. split; intros [E|E]; auto; inversion E; auto.
  - rewrite IH. split; [auto|]. intros [E|E]; [inversion E|assumption].
Qed.
Lemma offs_of_NoDup : forall l, NoDup (map fst l) -> NoDup (map fst (offs_of l)).
Proof.
  induction l as [|[d [o|c]] l IH]; intros N; cbn in *; [constructor| |]; inversion N; subst; [|auto].
  constructor; [|auto]. intros C. apply offs_of_fst in C. contradiction.
Qed.

Lemma set_offsets_map_gen : forall f l1 l2, NoDup (map fst (l1 ++ l2)) ->
  fold_left (fun l e => set_off l (fst e) (snd e))
            (map (fun e => (fst e, f (fst e) (snd e))) (offs_of l2)) (l1 ++ l2)%list
  = (l1 ++ map_offs f l2)%list.
Proof.
  intros f l1 l2. revert l1. induction l2 as [|[d [o|c]] l2 IH]; intros l1 N; cbn [offs_of map fold_left map_offs fst snd].
  - reflexivity.
  - assert (Nd : ~ In d (map fst l1)).
    { rewrite map_app in N. cbn in N. apply NoDup_remove_2 in N. rewrite in_app_iff in N. tauto. }
    rewrite set_off_skip by exact Nd. cbn [set_off]. rewrite String.eqb_refl.
    change ((d, VOff (f d o)) :: l2) with ([(d, VOff (f d o))] ++ l2)%list.
    rewrite app_assoc. rewrite IH.
    + rewrite <- app_assoc. reflexivity.
    + rewrite <- app_assoc. cbn. rewrite map_app in *. cbn in *. exact N.
  - change ((d, VConst c) :: l2) with ([(d, VConst c)] ++ l2)%list. rewrite app_assoc.
    rewrite IH by (rewrite <- app_assoc; exact N). rewrite <- app_assoc. reflexivity.
Qed.
Lemma set_offsets_map : forall p f, NoDup (map fst (vp_args p)) ->
  set_arg_offsets p (mkTuple (map (fun e => (fst e, f (fst e) (snd e))) (offs_of (vp_args p))) true)
  = mkVP (vp_var p) (map_offs f (vp_args p)).
Proof.
  intros p f N. unfold set_arg_offsets. cbn [dims]. f_equal.
  exact (set_offsets_map_gen f [] (vp_args p) N).
Qed.

(* Every folded dim is among the offsets of a point that is fully vectorised. *)
Definition covers (fold : tuple) (p : vpoint) : Prop :=
  forall d s, In (d, s) (dims fold) -> 1 < s -> exists o, In (d, VOff o) (vp_args p).

Lemma filter_all : forall A (f : A -> bool) l, List.length (filter f l) = List.length l ->
  forall x, In x l -> f x = true.
Proof.
  induction l as [|a l IH]; intros H x Hx; [contradiction|]. cbn in H.
  destruct (f a) eqn:E.
  - destruct Hx as [->|Hx]; [assumption|]. apply IH; [cbn in H; lia|assumption].
  - exfalso. assert (List.length (filter f l) <= List.length l)%nat.
    { clear. induction l as [|b l IH]; cbn; [lia|]. destruct (f b); cbn; lia. }
    cbn in H. lia.
Qed.

Lemma full_covers : forall fold p, fold_ok fold -> NoDup (map fst (vp_args p)) ->
  vec_type fold p = VEC_FULL -> covers fold p.
Proof.
  intros fold p Hf N H d s Hd Hs. unfold vec_type in H.
  assert (G : In (d, s) (dims (fold_gt1 fold))).
  { unfold fold_gt1. cbn. apply filter_In. split; [assumption|]. cbn. lia. }
  destruct (Nat.eqb (List.length (dims (fold_gt1 fold))) 0) eqn:E0.
  - apply Nat.eqb_eq in E0. destruct (dims (fold_gt1 fold)); [contradiction|discriminate].
  - cbn [andb] in H. destruct (Nat.eqb (var_nfd fold p) 0); [discriminate|].
    match type of H with (if Nat.eqb ?a ?b then _ else _) = _ => destruct (Nat.eqb a b) eqn:E end.
    + apply Nat.eqb_eq in E. pose proof (filter_all _ _ _ E (d, s) G) as F. cbn in F.
      unfold has_dim, arg_offsets, lookup in F. cbn [dims] in F.
      destruct (lookup_list (offs_of (vp_args p)) d) as [o|] eqn:L; [|discriminate].
      apply lookup_list_In in L; [|apply offs_of_NoDup; assumption]. apply offs_of_In in L. exists o. assumption.
    + match type of H with (if ?c then _ else _) = _ => destruct c; discriminate end.
Qed.

Lemma Forall2_imp : forall A B (P Q : A -> B -> Prop), (forall a b, P a b -> Q a b) ->
  forall l m, Forall2 P l m -> Forall2 Q l m.
Proof. intros A B P Q H l m F. induction F; constructor; auto. Qed.

Section Read.
  Variable V : Type.
  Variable fold : tuple.
  Hypothesis Hf : fold_ok fold.
  Variable xv x : string -> Z.
  Hypothesis Hx : at_vector fold xv x.

  Lemma x_is : forall d, x d = xv d * len_of fold d.
  Proof. intros d. apply Hx. apply (fold_len_of fold d Hf). Qed.

  Definition total (e : Z) (d : string) (o : Z) : Z := o + pos_in fold e d.

  (* The aligned vector and the lane in it that hold lane [e] of [p]. *)
  Definition loc_pt (e : Z) (p : vpoint) : vpoint :=
    mkVP (vp_var p) (map_offs (fun d o => total e d o / len_of fold d * len_of fold d) (vp_args p)).

  Lemma find_elem_spec : forall p e, read_ok fold p -> covers fold p ->
    exists ve, find_elem fold p (point_of (first_inner fold) (vals fold) e) = Ok ve /\
      ve_vec ve = loc_pt e p /\ 0 <= ve_off ve < lanes_of fold /\
      (forall d o, In (d, VOff o) (vp_args p) -> pos_in fold (ve_off ve) d = total e d o mod len_of fold d).
  Proof.
    intros p e [N C] Cv. unfold find_elem.
    set (vp := mkTuple (combine (names fold) (point_of (first_inner fold) (vals fold) e)) (first_inner fold)).
    assert (A : dims (add_elements (arg_offsets p) vp) =
                map (fun q => (fst q, total e (fst q) (snd q))) (offs_of (vp_args p))).
    { unfold add_elements, arg_offsets. cbn [dims]. apply map_ext. intros [d o]. cbn [fst snd].
      f_equal. unfold total. rewrite pos_in_lookup by assumption. unfold lookup, vp. cbn [dims].
      destruct (lookup_list _ d); lia. }
    rewrite A. rewrite split_spec.
    - cbn [rbind fst snd dims app first_inner]. eexists. split; [reflexivity|]. cbn [ve_vec ve_off].
      rewrite !map_map. cbn [fst snd]. split; [|].
      + apply (set_offsets_map p (fun d o => total e d o / len_of fold d * len_of fold d) N).
      + set (os := map (fun q => (fst q, total e (fst q) (snd q) mod len_of fold (fst q))) (offs_of (vp_args p))).
        set (o := fun d => match lookup_list os d with Some v => v | None => 0 end).
        assert (Nos : NoDup (map fst os)).
        { unfold os. rewrite map_map. cbn. apply offs_of_NoDup. assumption. }
        assert (Ho : forall d a, In (d, VOff a) (vp_args p) -> o d = total e d a mod len_of fold d).
        { intros d a Ha. unfold o. replace (lookup_list os d) with (Some (total e d a mod len_of fold d)); [reflexivity|].
          symmetry. apply lookup_list_In; [assumption|]. unfold os. apply in_map_iff. exists (d, a).
          split; [reflexivity|]. apply offs_of_In. assumption. }
        assert (Hr : forall n s, In (n, s) (dims fold) -> 0 <= o n < s).
        { intros n s Hs. pose proof (fold_len_fun fold n s Hf (fl_in _ _ _ Hs)) as L.
          destruct (lookup_list os n) as [v|] eqn:E.
          - pose proof E as E'. apply lookup_list_In in E'; [|assumption]. unfold os in E'.
            apply in_map_iff in E'. destruct E' as ([d a] & E' & Ha). cbn in E'. inversion E'; subst n.
            unfold o. rewrite E. rewrite L. pose proof (fold_len_of fold d Hf) as [_ ?]. subst v.
            apply Z.mod_pos_bound. assumption.
          - unfold o. rewrite E. destruct (Z_lt_ge_dec 1 s) as [G|G].
            + exfalso. destruct (Cv n s Hs G) as (a & Ha). apply lookup_list_None in E. apply E.
              unfold os. rewrite map_map. cbn. apply in_map_iff. exists (n, a). split; [reflexivity|].
              apply offs_of_In. assumption.
            + destruct Hf as [_ P]. pose proof (proj1 (Forall_forall _ _) P s) as Ps.
              assert (In s (map snd (dims fold))) by (apply in_map_iff; exists (n, s); auto).
              specialize (Ps H). cbn beta in Ps. lia. }
        assert (LO : layout_nonstrict fold (mkTuple os true) =
                     layout_vals (first_inner fold) (vals fold) (map o (names fold))).
        { unfold layout_nonstrict. f_equal. }
        rewrite LO. split; [apply (pos_in_layout fold o EmptyString Hf Hr)|].
        intros d a Ha. destruct (pos_in_layout fold o d Hf Hr) as (_ & I1 & I2).
        destruct (in_dec string_dec d (names fold)) as [Hi|Hi].
        * rewrite I1 by assumption. apply Ho. assumption.
        * rewrite I2 by assumption.
          replace (len_of fold d) with 1; [rewrite Z.mod_1_r; reflexivity|].
          apply (fold_len_fun fold d 1 Hf). constructor 2. intros s Hs. apply Hi.
          unfold names. apply in_map_iff. exists (d, s). auto.
    - assumption.
    - rewrite map_map. cbn. apply offs_of_NoDup. assumption.
    - intros d _. split; reflexivity.
  Qed.

  (* Normalised offsets of aligned points. *)
  Lemma norm_multiple : forall d q, norm_arg fold xv d (VOff (q * len_of fold d)) = xv d + q.
  Proof.
    intros d q. destruct (fold_len_of fold d Hf) as [FL Lp]. cbn [norm_arg].
    remember (len_of fold d) as len eqn:El.
    destruct (Z.eqb_spec (q * len) 0) as [E|E]; [nia|].
    destruct (has_dim (fold_gt1 fold) d) eqn:G.
    - unfold norm_ofs. replace (q * len =? 0) with false by lia.
      destruct (Z.ltb_spec 0 (q * len)).
      + rewrite Z.quot_mul by lia. lia.
      + replace (- (q * len)) with ((- q) * len) by lia. rewrite Z.quot_mul by lia. lia.
    - assert (L1 : len = 1); [|rewrite L1; lia].
      destruct FL as [s Hs|_]; [|reflexivity].
      destruct (Z_lt_ge_dec 1 s) as [G'|G']; [|lia].
      exfalso. unfold has_dim, lookup in G. destruct (lookup_list (dims (fold_gt1 fold)) d) eqn:L; [discriminate|].
      apply lookup_list_None in L. apply L. apply in_map_iff. exists (d, s). split; [reflexivity|].
      unfold fold_gt1. cbn. apply filter_In. split; [assumption|]. cbn. lia.
  Qed.

  Variable vst : string -> list Z -> Z -> V.
  Variable est : string -> list Z -> V.

  Lemma out_pos : forall e d, (forall s, ~ In (d, s) (dims fold)) -> pos_in fold e d = 0.
  Proof.
    intros e d H. rewrite pos_in_lookup by assumption.
    replace (lookup_list _ d) with (@None Z); [reflexivity|]. symmetry. apply lookup_list_None.
    intros C. apply in_map_iff in C. destruct C as ([d' v] & E & C). cbn in E. subst d'.
    apply in_combine_l in C. unfold names in C. apply in_map_iff in C. destruct C as ([d' s] & E & C).
    cbn in E. subst d'. apply (H s C).
  Qed.
  Lemma out_len : forall d, (forall s, ~ In (d, s) (dims fold)) -> len_of fold d = 1.
  Proof. intros d H. symmetry. apply (fold_len_fun fold d 1 Hf). constructor 2. assumption. Qed.

  (* The indices an aligned read uses, lane by lane. *)
  Lemma aligned_gen : forall (q : string -> Z -> Z) e' (t : string -> Z -> Z) args idx,
    (forall d c, In (d, VConst c) args -> forall s, ~ In (d, s) (dims fold)) ->
    (forall d o, In (d, VOff o) args -> q d o * len_of fold d + pos_in fold e' d = t d o) ->
    Forall2 (fun a i => match snd a with
                        | VConst c => i = c
                        | VOff o => i = x (fst a) + t (fst a) o end) args idx ->
    Forall2 (fun dv i => exists s, fold_len fold (fst dv) s /\ i = snd dv * s + pos_in fold e' (fst dv))
      (combine (map fst args)
         (map (fun a => norm_arg fold xv (fst a) (snd a)) (map_offs (fun d o => q d o * len_of fold d) args))) idx.
  Proof.
    intros q e' t. induction args as [|[d a] args IH]; intros idx HC HO H; inversion H as [|u i l l' E Hr]; subst; cbn [map combine map_offs].
    - constructor.
    - assert (IH' := IH l' (fun d' c' H' => HC d' c' (or_intror H')) (fun d' o' H' => HO d' o' (or_intror H')) Hr).
      destruct a as [o|c]; cbn [map combine fst snd] in *; (constructor; [|exact IH']); cbn [fst snd].
      + exists (len_of fold d). split; [apply (fold_len_of fold d Hf)|].
        rewrite norm_multiple. rewrite E, x_is. rewrite <- (HO d o (or_introl eq_refl)). lia.
      + exists 1. assert (Ho := HC d c (or_introl eq_refl)). split; [constructor 2; exact Ho|].
        cbn [norm_arg]. rewrite out_pos by exact Ho. lia.
  Qed.

  Lemma map_offs_fst : forall f l, map fst (map_offs f l) = map fst l.
  Proof. induction l as [|[d [o|c]] l IH]; cbn; [reflexivity| |]; f_equal; exact IH. Qed.
  Lemma map_offs_length : forall f l, List.length (map_offs f l) = List.length l.
  Proof. intros. rewrite <- (map_length fst), map_offs_fst, map_length. reflexivity. Qed.

  (* Lane [ve_off] of the aligned vector is the wanted element. *)
  Lemma elem_right : forall p e ve mem idx, read_ok fold p -> covers fold p ->
    folds fold (map fst (vp_args p)) (vst (vp_var p)) mem ->
    find_elem fold p (point_of (first_inner fold) (vals fold) e) = Ok ve ->
    denotes fold x p e idx ->
    aligned_read V fold xv vst (ve_vec ve) (ve_off ve) = mem idx.
  Proof.
    intros p e ve mem idx R Cv Fo E D.
    destruct (find_elem_spec p e R Cv) as (ve' & E' & Ev & Eo & Ep). rewrite E in E'. inversion E'; subst ve'.
    unfold aligned_read. rewrite Ev. cbn [loc_pt vp_var vp_args].
    apply Fo; [rewrite !map_length, map_offs_length; reflexivity|assumption|].
    apply (aligned_gen (fun d o => total e d o / len_of fold d) (ve_off ve) (fun d o => total e d o)).
    - destruct R as [_ C]. exact C.
    - intros d o Ho. rewrite (Ep d o Ho). pose proof (fold_len_of fold d Hf) as [_ L].
      pose proof (Z.div_mod (total e d o) (len_of fold d)). lia.
    - unfold denotes in D. revert D. apply Forall2_imp. intros [d a] i. cbn. destruct a; [|auto].
      unfold total. lia.
  Qed.

  (* A point all of whose offsets are multiples of the fold lengths is read directly. *)
  Definition aligned_pt (p : vpoint) : Prop :=
    forall d o, In (d, VOff o) (vp_args p) -> o mod len_of fold d = 0.

  Lemma aligned_right : forall p e mem idx, read_ok fold p -> aligned_pt p ->
    folds fold (map fst (vp_args p)) (vst (vp_var p)) mem ->
    0 <= e < lanes_of fold -> denotes fold x p e idx ->
    aligned_read V fold xv vst p e = mem idx.
  Proof.
    intros p e mem idx R A Fo He D. unfold aligned_read.
    assert (M : vp_args p = map_offs (fun d o => o / len_of fold d * len_of fold d) (vp_args p)).
    { unfold aligned_pt in A. revert A. clear. induction (vp_args p) as [|[d [o|c]] l IH]; intros A; cbn; [reflexivity| |].
      - f_equal; [|apply IH; intros; apply A; right; assumption].
        do 2 f_equal. pose proof (A d o (or_introl eq_refl)).
        destruct (Z.eq_dec (len_of fold d) 0) as [Z0|Z0]; [|pose proof (Z.div_mod o (len_of fold d)); lia].
        rewrite Z0 in *. rewrite Zmod_0_r in H. lia.
      - f_equal. apply IH. intros; apply A; right; assumption. }
    rewrite M. apply Fo; [rewrite !map_length, map_offs_length; reflexivity|assumption|].
    apply (aligned_gen (fun d o => o / len_of fold d) e (fun d o => o + pos_in fold e d)).
    - destruct R as [_ C]. exact C.
    - intros d o Ho. pose proof (A d o Ho). pose proof (fold_len_of fold d Hf) as [_ L].
      pose proof (Z.div_mod o (len_of fold d)). lia.
    - unfold denotes in D. revert D. apply Forall2_imp. intros [d a] i. cbn. destruct a; [lia|auto].
  Qed.

  (* ---- the list of elements ---- *)
  Lemma run_elems : forall p l acc,
    (forall pt i, In (pt, i) l -> exists ve, find_elem fold p pt = Ok ve) ->
    exists es, fst (run_visitor (res (list velem))
         (fun st pt _ => (rbind st (fun l => rbind (find_elem fold p pt) (fun e => Ok (l ++ [e])%list)), true))
         l (Ok acc)) = Ok (acc ++ es)%list /\
      Forall2 (fun pi ve => find_elem fold p (fst pi) = Ok ve) l es.
  Proof.
    intros p. induction l as [|[pt i] l IH]; intros acc H; cbn [run_visitor fst].
    - exists []. rewrite app_nil_r. split; [reflexivity|constructor].
    - destruct (H pt i (or_introl eq_refl)) as (ve & E). rewrite E. cbn [rbind].
      destruct (IH (acc ++ [ve])%list) as (es & E1 & E2).
      { intros pt' i' H'. apply (H pt' i'). right. assumption. }
      exists (ve :: es). split; [rewrite E1, <- app_assoc; reflexivity|]. constructor; [exact E|exact E2].
  Qed.

  Lemma elem_list_spec : forall p, read_ok fold p -> covers fold p ->
    exists es, elem_list fold p = Ok es /\ Z.of_nat (List.length es) = lanes_of fold /\
      forall e, 0 <= e < lanes_of fold -> exists ve, nth_error es (Z.to_nat e) = Some ve /\
        find_elem fold p (point_of (first_inner fold) (vals fold) e) = Ok ve.
  Proof.
    intros p R Cv. unfold elem_list. rewrite tuple_visit_run by (destruct Hf; assumption).
    destruct (run_elems p (numbered_points (first_inner fold) (vals fold)) []) as (es & E & F).
    { intros pt i H. unfold numbered_points in H. apply in_map_iff in H. destruct H as (j & E & _).
      inversion E; subst. destruct (find_elem_spec p i R Cv) as (ve & Ev & _). exists ve. assumption. }
    exists es. split; [exact E|].
    assert (L : List.length es = Z.to_nat (lanes_of fold)).
    { apply Forall2_length' in F. rewrite <- F. unfold numbered_points. rewrite map_length, zseq_length. reflexivity. }
    split.
    - rewrite L. apply Z2Nat.id. unfold lanes_of. pose proof (zprod_pos _ (proj2 Hf)). lia.
    - intros e He. destruct (nth_error es (Z.to_nat e)) as [ve|] eqn:En.
      + exists ve. split; [reflexivity|].
        assert (G : forall A B (P : A -> B -> Prop) l m k b, Forall2 P l m -> nth_error m k = Some b ->
                   exists a, nth_error l k = Some a /\ P a b).
        { clear. intros A B P l m k b H. revert k. induction H as [|a0 b0 l m Hab H IH]; intros k E; [destruct k; discriminate|].
          destruct k as [|k]; cbn in *; [inversion E; subst; exists a0; auto|apply IH; assumption]. }
        destruct (G _ _ _ _ _ _ _ F En) as ([pt i] & Ep & Fp). cbn in Fp.
        unfold numbered_points in Ep. rewrite nth_error_map in Ep.
        assert (Z0 : nth_error (zseq (zprod (vals fold))) (Z.to_nat e) = Some e).
        { unfold zseq. rewrite nth_error_map.
          rewrite (nth_error_nth' _ 0%nat) by (rewrite seq_length; unfold lanes_of, vals in *; lia).
          rewrite seq_nth by (unfold lanes_of, vals in *; lia). cbn. f_equal. lia. }
        rewrite Z0 in Ep. cbn in Ep. inversion Ep; subst. exact Fp.
      + apply nth_error_None in En. rewrite L in En. lia.
  Qed.

  (* Members of the aligned set are aligned. *)
  Lemma aligned_members : forall ps al, aligned_vecs fold ps = Ok al ->
    (forall p, In p ps -> read_ok fold p) -> forall v, In v al -> aligned_pt v.
  Proof.
    induction ps as [|p ps IH]; intros al E R v Hv; cbn in E.
    - inversion E; subst. contradiction.
    - destruct (aligned_vecs fold ps) as [l| | |] eqn:El; try discriminate. cbn in E.
      assert (IHl : forall v, In v l -> aligned_pt v).
      { apply (IH l eq_refl). intros; apply R; right; assumption. }
      destruct (vec_type fold p) eqn:Ty; try (inversion E; subst; apply IHl; assumption).
      assert (Rp : read_ok fold p) by (apply R; left; reflexivity).
      assert (Cv : covers fold p) by (apply full_covers; [assumption|destruct Rp; assumption|assumption]).
      destruct (elem_list_spec p Rp Cv) as (es & Ee & Le & Ne). rewrite Ee in E. cbn in E. inversion E; subst.
      apply in_app_iff in Hv. destruct Hv as [Hv|Hv]; [|apply IHl; assumption].
      apply in_map_iff in Hv. destruct Hv as (ve & <- & Hv).
      apply In_nth_error in Hv. destruct Hv as (k & Hk).
      assert (B : (k < List.length es)%nat) by (apply nth_error_Some; congruence).
      destruct (Ne (Z.of_nat k)) as (ve' & Hk' & Fe); [lia|]. rewrite Nat2Z.id in Hk'. rewrite Hk in Hk'.
      inversion Hk'; subst ve'.
      destruct (find_elem_spec p (Z.of_nat k) Rp Cv) as (ve' & Fe' & Lo & _). rewrite Fe in Fe'. inversion Fe'; subst ve'.
      rewrite Lo. unfold aligned_pt, loc_pt. cbn [vp_args]. intros d o Ho.
      assert (G : forall f l, In (d, VOff o) (map_offs f l) -> exists o', o = f d o').
      { clear. intros f l. induction l as [|[n [a|c]] l IH]; cbn; [contradiction| |]; intros [C|C]; auto;
          inversion C; subst; eauto. }
      apply G in Ho. destruct Ho as (o' & ->). apply Z.mod_mul. pose proof (fold_len_of fold d Hf). lia.
  Qed.

  (* ---- reads that are not fully vectorised ---- *)
  Lemma partial_right : forall p e idx, read_ok fold p -> 0 <= e < lanes_of fold ->
    denotes fold x p e idx ->
    partial_read V fold xv est p e = est (vp_var p) idx.
  Proof.
    intros p e idx R He D. unfold partial_read. rewrite tuple_visit_run by (destruct Hf; assumption).
    set (vis := fun (st : lanes V) (pt : list Z) (pelem : Z) => _).
    assert (G : forall l (st : lanes V), (forall pt i, In (pt, i) l -> pt = point_of (first_inner fold) (vals fold) i) ->
       (In e (map snd l) -> fst (run_visitor _ vis l st) e = est (vp_var p) idx) /\
       (~ In e (map snd l) -> fst (run_visitor _ vis l st) e = st e)).
    { induction l as [|[pt i] l IH]; intros st Hl; cbn [map snd run_visitor]; [split; [intros []|reflexivity]|].
      unfold vis at 1 3. cbv zeta.
      match goal with |- context [run_visitor _ vis l ?s] => set (st1 := s) end.
      destruct (IH st1) as [I1 I2]; [intros; apply Hl; right; assumption|].
      pose proof (Hl pt i (or_introl eq_refl)) as Ept.
      split.
      - intros Hi. destruct (in_dec Z.eq_dec e (map snd l)) as [Hin|Hin]; [auto|].
        rewrite I2 by assumption. destruct Hi as [->|Hi]; [|contradiction].
        unfold st1. rewrite Z.eqb_refl. unfold scalar_read. f_equal.
        unfold denotes in D. clear -D Hf Ept Hx.
        induction D as [|[d a] j l l' Ej D IH]; cbn [map]; [reflexivity|]. f_equal; [|exact IH].
        cbn [fst snd] in *. destruct a as [o|c]; [|congruence].
        rewrite Ej, x_is. rewrite pos_in_lookup by assumption. unfold elem_map, lookup. cbn [dims].
        rewrite Ept. destruct (lookup_list _ d); lia.
      - intros Hi. rewrite I2 by (intros C; apply Hi; right; exact C). unfold st1. replace (e =? i) with false; [reflexivity|].
        symmetry. apply Z.eqb_neq. intros ->. apply Hi. left. reflexivity. }
    apply G.
    - intros pt i H. unfold numbered_points in H. apply in_map_iff in H. destruct H as (j & E & _). inversion E; reflexivity.
    - unfold numbered_points. rewrite map_map. cbn. rewrite map_id. apply zseq_In. exact He.
  Qed.

  Lemma none_right : forall p e idx, read_ok fold p -> vec_type fold p = VEC_NONE ->
    0 <= e < lanes_of fold -> denotes fold x p e idx ->
    scalar_read V est p (elem_map fold xv) = est (vp_var p) idx.
  Proof.
    intros p e idx [N C] Ty He D. unfold scalar_read. f_equal.
    assert (Z0 : forall d o, In (d, VOff o) (vp_args p) -> pos_in fold e d = 0).
    { intros d o Ho. destruct (in_dec string_dec d (names fold)) as [Hi|Hi].
      2:{ apply out_pos. intros s Hs. apply Hi. unfold names. apply in_map_iff. exists (d, s). auto. }
      unfold names in Hi. apply in_map_iff in Hi. destruct Hi as ([d' s] & E & Hs). cbn in E. subst d'.
      destruct (Z_lt_ge_dec 1 s) as [G|G].
      - exfalso. assert (Gi : In (d, s) (dims (fold_gt1 fold))).
        { unfold fold_gt1. cbn. apply filter_In. split; [assumption|]. cbn. lia. }
        assert (Hd : has_dim (arg_offsets p) d = true).
        { unfold has_dim, arg_offsets, lookup. cbn [dims].
          replace (lookup_list (offs_of (vp_args p)) d) with (Some o); [reflexivity|]. symmetry.
          apply lookup_list_In; [apply offs_of_NoDup; assumption|apply offs_of_In; assumption]. }
        assert (Hg : has_dim (fold_gt1 fold) d = true).
        { unfold has_dim, lookup. destruct (lookup_list (dims (fold_gt1 fold)) d) eqn:L; [reflexivity|].
          exfalso. apply lookup_list_None in L. apply L. apply in_map_iff. exists (d, s). auto. }
        unfold vec_type in Ty.
        destruct (Nat.eqb (List.length (dims (fold_gt1 fold))) 0) eqn:E0.
        { apply Nat.eqb_eq in E0. destruct (dims (fold_gt1 fold)); [contradiction|discriminate]. }
        cbn [andb] in Ty. destruct (Nat.eqb (var_nfd fold p) 0) eqn:E1.
        { apply Nat.eqb_eq in E1. unfold var_nfd in E1.
          assert (In (d, VOff o) (filter (fun a => has_dim (fold_gt1 fold) (fst a)) (vp_args p))).
          { apply filter_In. split; [assumption|exact Hg]. }
          destruct (filter _ (vp_args p)); [contradiction|discriminate]. }
        match type of Ty with (if ?c then _ else _) = _ => destruct c; [discriminate|] end.
        match type of Ty with (if Nat.ltb 0 ?c then _ else _) = _ => assert (0 < c)%nat end.
        { assert (In (d, s) (filter (fun f => has_dim (arg_offsets p) (fst f)) (dims (fold_gt1 fold)))).
          { apply filter_In. split; assumption. }
          destruct (filter _ (dims (fold_gt1 fold))); [contradiction|cbn; lia]. }
        match type of Ty with (if ?c then _ else _) = _ => replace c with true in Ty; [discriminate|] end.
        symmetry. apply Nat.ltb_lt. assumption.
      - rewrite pos_in_lookup by assumption.
        destruct (lookup_list _ d) as [v|] eqn:L; [|reflexivity].
        assert (Bv : 0 <= v < s); [|lia].
        pose proof (point_of_in (first_inner fold) (vals fold) e (proj2 Hf)) as PI.
        pose proof (proj1 Hf) as Nf.
        assert (Q : forall l pts, NoDup (map fst l) -> in_sizes (map snd l) pts ->
                    lookup_list (combine (map fst l) pts) d = Some v -> In (d, s) l -> 0 <= v < s).
        { clear. induction l as [|[n w] l IH]; intros pts N I L H; [contradiction|]. cbn in *.
          inversion I as [|w' o' ws os Bo I']; subst. inversion N as [|n' l' Nn Nl]; subst. cbn in L.
          destruct (String.eqb_spec n d) as [->|Ne].
          - inversion L; subst. destruct H as [H|H]; [inversion H; subst; assumption|].
            exfalso. apply Nn. apply in_map_iff. exists (d, s). auto.
          - destruct H as [H|H]; [inversion H; congruence|]. apply (IH os); assumption. }
        exact (Q (dims fold) _ Nf PI L Hs). }
    clear C N Ty. unfold denotes in D. revert Z0. induction D as [|[d a] i l l' E D IH]; intros Z0; cbn [map]; [reflexivity|].
    f_equal; [|apply IH; intros; eapply Z0; right; eassumption].
    cbn [fst snd] in *. destruct a as [o|c]; [|congruence].
    rewrite E, x_is, (Z0 d o (or_introl eq_refl)). unfold elem_map. lia.
  Qed.

  Theorem read_right : forall sel_bit idx_mask k align sty ps al avs defd pv0 p mem,
    0 <= k -> sel_bit = 2 ^ k -> idx_mask = 2 ^ k - 1 -> lanes_of fold <= 2 ^ k ->
    (align = align_lanes V (lanes_of fold) \/
     (align = align_lanes_avx2 V (lanes_of fold) /\ (lanes_of fold) mod 2 = 0)) ->
    aligned_vecs fold ps = Ok al -> (forall q, In q ps -> read_ok fold q) -> read_ok fold p ->
    folds fold (map fst (vp_args p)) (vst (vp_var p)) mem ->
    (forall idx, est (vp_var p) idx = mem idx) ->
    exists ls, read_from_point V (lanes_of fold) sel_bit idx_mask align fold xv vst est sty al avs defd pv0 p = Ok ls /\
      forall e idx, 0 <= e < lanes_of fold -> denotes fold x p e idx -> ls e = mem idx.
  Proof.
    intros sel_bit idx_mask k align sty ps al avs defd pv0 p mem Hk Hs Hm Hfit Hal Eal Rps R Fo Es.
    unfold read_from_point. destruct (vec_type fold p) eqn:Ty.
    - assert (Cv : covers fold p) by (apply full_covers; [assumption|destruct R; assumption|assumption]).
      destruct (existsb (vpoint_eqb p) al) eqn:Ex.
      + eexists. split; [reflexivity|]. intros e idx He D. apply existsb_exists in Ex.
        destruct Ex as (v & Hv & Eq). apply vpoint_eqb_eq in Eq. subst v.
        apply aligned_right; try assumption. apply (aligned_members ps al Eal Rps p Hv).
      + destruct (elem_list_spec p R Cv) as (es & Ee & Le & Ne). rewrite Ee. cbn [rbind].
        eexists. split; [reflexivity|]. intros e idx He D.
        destruct (Ne e He) as (ve & Hve & Fe).
        rewrite <- Le in Hal |- *.
        rewrite (vec_ctor_right V sel_bit idx_mask align (aligned_read V fold xv vst) es k Hk Hs Hm
                   ltac:(lia)) with (ve := ve).
        * apply (elem_right p e ve mem idx); assumption.
        * intros v Hv. apply In_nth_error in Hv. destruct Hv as (j & Hj).
          assert (B : (j < List.length es)%nat) by (apply nth_error_Some; congruence).
          destruct (Ne (Z.of_nat j)) as (v' & Hj' & Fj); [lia|]. rewrite Nat2Z.id in Hj'. rewrite Hj in Hj'.
          inversion Hj'; subst v'.
          destruct (find_elem_spec p (Z.of_nat j) R Cv) as (v' & Fj' & _ & Bo & _). rewrite Fj in Fj'.
          inversion Fj'; subst v'. lia.
        * intros c a b i Hc Hi. destruct Hal as [->|[-> Ev]]; [reflexivity|].
          apply align_avx2_same; assumption.
        * lia.
        * exact Hve.
    - eexists. split; [reflexivity|]. intros e idx He D. rewrite (partial_right p e idx) by assumption. apply Es.
    - eexists. split; [reflexivity|]. intros e idx He D. rewrite (none_right p e idx) by assumption. apply Es.
  Qed.
End Read.

(* ---- unaligned loads ---- *)
Section Load.
  Variable V : Type.
  Variable fold : tuple.
  Hypothesis Hf : fold_ok fold.
  Variable f : string.
  Variable s : Z.
  Hypothesis Hin : In (f, s) (dims fold).
  Hypothesis Hone : forall d l, In (d, l) (dims fold) -> d <> f -> l = 1.
  Variable vpos : (string -> Z) -> Z.
  Hypothesis Hu : unit_stride vpos f.

  Lemma load_len : forall d, len_of fold d = if String.eqb d f then s else 1.
  Proof.
    intros d. symmetry. apply (fold_len_fun fold _ _ Hf). destruct (String.eqb_spec d f) as [->|Ne].
    - constructor. assumption.
    - destruct (fold_len_of fold d Hf) as [FL _]. destruct FL as [l Hl|Hl].
      + rewrite <- (Hone d l Hl Ne). constructor. assumption.
      + constructor 2. assumption.
  Qed.

  Lemma s_pos : 0 < s.
  Proof.
    destruct (fold_len_of fold f Hf) as [_ L]. rewrite load_len, String.eqb_refl in L. assumption.
  Qed.

  Lemma zprod_single : forall l, NoDup (map fst l) -> In (f, s) l ->
    (forall d n, In (d, n) l -> d <> f -> n = 1) -> zprod (map snd l) = s.
  Proof.
    induction l as [|[d n] l IH]; intros N H O; [contradiction|]. cbn in *. inversion N as [|d' l' Nd Nl]; subst.
    assert (Z1 : forall m, ~ In f (map fst m) -> (forall d n, In (d, n) m -> d <> f -> n = 1) -> zprod (map snd m) = 1).
    { clear. induction m as [|[d n] m IH]; intros Nf O; [reflexivity|]. cbn in *. rewrite (O d n); [|auto|tauto].
      rewrite IH; [reflexivity|tauto|]. intros; apply (O d0); auto. }
    destruct H as [H|H].
    - inversion H; subst. rewrite Z1; [lia|assumption|]. intros; apply (O d); auto.
    - rewrite IH; [|assumption|assumption|intros; apply (O d0); auto].
      destruct (string_dec d f) as [->|Ne].
      + exfalso. apply Nd. apply in_map_iff. exists (f, s). auto.
      + rewrite (O d n); [lia|auto|assumption].
  Qed.
  Lemma lanes_single : lanes_of fold = s.
  Proof. unfold lanes_of. apply zprod_single; [apply Hf|assumption|assumption]. Qed.

  (* Lane e is at position e along f. *)
  Lemma mr_single : forall l (o : string -> Z), NoDup (map fst l) ->
    (forall d n, In (d, n) l -> d <> f -> o d = 0 /\ n = 1) ->
    mr_pos (map snd l) (map o (map fst l)) = if in_dec string_dec f (map fst l) then o f else 0.
  Proof.
    induction l as [|[d n] l IH]; intros o N O; cbn [map mr_pos fst snd]; [reflexivity|].
    cbn in N. inversion N as [|d' l' Nd Nl]; subst.
    rewrite IH; [|assumption|intros; apply O; [right|]; assumption].
    destruct (string_dec d f) as [->|Ne].
    - destruct (in_dec string_dec f (map fst l)) as [C|C]; [contradiction|].
      destruct (in_dec string_dec f (f :: map fst l)) as [C'|C']; [lia|exfalso; apply C'; left; reflexivity].
    - destruct (O d n (or_introl eq_refl) Ne) as [E0 E1]. rewrite E0, E1.
      destruct (in_dec string_dec f (map fst l)) as [C|C];
        destruct (in_dec string_dec f (d :: map fst l)) as [C'|C']; try lia.
      + exfalso. apply C'. right. assumption.
      + destruct C' as [C'|C']; [congruence|contradiction].
  Qed.

  Lemma lane_single : forall (o : string -> Z), (forall d, d <> f -> In d (names fold) -> o d = 0) ->
    layout_vals (first_inner fold) (vals fold) (map o (names fold)) = o f.
  Proof.
    intros o Ho. rewrite layout_vals_pos.
    assert (I : In f (map fst (dims fold))) by (apply in_map_iff; exists (f, s); auto).
    destruct Hf as [N P].
    assert (G : forall l, NoDup (map fst l) -> (forall d n, In (d, n) l -> In (d, n) (dims fold)) ->
              In f (map fst l) -> mr_pos (map snd l) (map o (map fst l)) = o f).
    { intros l Nl Sub If. rewrite mr_single; [|assumption|].
      - destruct (in_dec string_dec f (map fst l)); [reflexivity|contradiction].
      - intros d n Hd Ne. split; [apply Ho; [assumption|]|apply (Hone d); [apply Sub|]; assumption].
        unfold names. apply in_map_iff. exists (d, n). split; [reflexivity|]. apply Sub. assumption. }
    unfold inner_first, vals, names. destruct (first_inner fold).
    - apply G; auto.
    - rewrite <- !map_rev. apply G.
      + rewrite map_rev. apply NoDup_rev. assumption.
      + intros d n H. apply in_rev. assumption.
      + rewrite map_rev. apply in_rev. rewrite rev_involutive. assumption.
  Qed.

  Lemma pos_single : forall e d, 0 <= e < s -> pos_in fold e d = if String.eqb d f then e else 0.
  Proof.
    intros e d He. set (o := fun d : string => if String.eqb d f then e else 0).
    assert (Hr : forall n l, In (n, l) (dims fold) -> 0 <= o n < l).
    { intros n l Hl. unfold o. destruct (String.eqb_spec n f) as [->|Ne].
      - pose proof (fold_len_fun fold f l Hf (fl_in _ _ _ Hl)) as E1.
        pose proof (fold_len_fun fold f s Hf (fl_in _ _ _ Hin)) as E2. lia.
      - rewrite (Hone n l Hl Ne). lia. }
    destruct (pos_in_layout fold o d Hf Hr) as (_ & I1 & I2).
    assert (EL : layout_vals (first_inner fold) (vals fold) (map o (names fold)) = e).
    { rewrite lane_single; [unfold o; rewrite String.eqb_refl; reflexivity|].
      intros n Ne _. unfold o. replace (String.eqb n f) with false; [reflexivity|].
      symmetry. apply String.eqb_neq. assumption. }
    rewrite EL in I1, I2. destruct (in_dec string_dec d (names fold)) as [H|H]; [apply I1; assumption|].
    rewrite I2 by assumption. replace (String.eqb d f) with false; [reflexivity|].
    symmetry. apply String.eqb_neq. intros ->. apply H. unfold names. apply in_map_iff. exists (f, s). auto.
  Qed.

  Lemma load_right : forall (flat : Z -> V) mem idx e, flat_folds fold vpos flat mem ->
    0 <= e < lanes_of fold ->
    unaligned_load fold vpos flat idx e = mem (fun d => idx d + pos_in fold e d).
  Proof.
    intros flat mem idx e Hff He. rewrite lanes_single in He. pose proof s_pos as Sp.
    unfold unaligned_load, elem_addr. rewrite product_zprod. fold (lanes_of fold).
    rewrite lane_single.
    2:{ intros d Ne _. rewrite load_len. replace (String.eqb d f) with false by (symmetry; apply String.eqb_neq; assumption).
        rewrite imod_flr_spec by lia. apply Z.mod_1_r. }
    rewrite load_len, String.eqb_refl, imod_flr_spec by lia.
    set (v := fun d => idiv_flr (idx d) (len_of fold d)).
    pose proof (Z.div_mod (idx f) s ltac:(lia)) as DM. pose proof (Z.mod_pos_bound (idx f) s Sp) as MB.
    assert (Hv : forall d, v d = idx d / (if String.eqb d f then s else 1)).
    { intros d. unfold v. rewrite load_len. destruct (String.eqb d f); apply idiv_flr_spec; lia. }
    change (zprod (vals fold)) with (lanes_of fold).
    destruct (Z_lt_ge_dec (idx f mod s + e) s) as [Lt|Ge].
    - rewrite <- Z.add_assoc.
      apply Hff; [rewrite lanes_single; lia|].
      intros d l Hl. apply (fold_len_fun fold d l Hf) in Hl. rewrite load_len in Hl.
      rewrite !pos_single by lia. rewrite Hv. rewrite Hl. destruct (String.eqb_spec d f) as [->|Ne]; [lia|].
      rewrite Z.div_1_r. lia.
    - set (w := fun d => if String.eqb d f then v f + 1 else v d).
      assert (EW : vpos w = vpos v + 1).
      { apply Hu.
        - intros d Ne. unfold w. replace (String.eqb d f) with false by (symmetry; apply String.eqb_neq; assumption). reflexivity.
        - unfold w. rewrite String.eqb_refl. reflexivity. }
      replace (vpos v * lanes_of fold + idx f mod s + e) with (vpos w * lanes_of fold + (idx f mod s + e - s)).
      2:{ rewrite EW, lanes_single. lia. }
      apply Hff; [rewrite lanes_single; lia|].
      intros d l Hl. apply (fold_len_fun fold d l Hf) in Hl. rewrite load_len in Hl.
      rewrite !pos_single by lia. rewrite Hl. unfold w. rewrite !Hv.
      destruct (String.eqb_spec d f) as [->|Ne]; [rewrite String.eqb_refl; lia|].
      rewrite Z.div_1_r. lia.
  Qed.
End Load.
