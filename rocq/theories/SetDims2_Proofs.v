From Coq Require Import String ZifyBool.
From Verif Require Import Base Tuple_Model Factors_Model Factors_Spec Factors_Proofs SetDims_Model SetDims_Spec SetDims_Proofs.
Open Scope string_scope.
Open Scope list_scope.
Open Scope Z_scope.

Lemma zprod_rev_map : forall (g : string -> Z) l, zprod (map g (rev l)) = zprod (map g l).
Proof.
  intros g. induction l as [|x l IH]; [reflexivity|]. cbn. rewrite map_app, zprod_app, IH. cbn. lia.
Qed.

Definition others (il : string) (dd : list string) : list string := filter (fun d => negb (String.eqb d il)) dd.

Lemma others_In : forall il dd d, In d (others il dd) <-> In d dd /\ d <> il.
Proof.
  intros il dd d. unfold others. rewrite filter_In. rewrite negb_true_iff, String.eqb_neq. reflexivity.
Qed.

Lemma others_app : forall il a b, others il (a ++ b) = others il a ++ others il b.
Proof. intros. apply filter_app. Qed.

Lemma others_NoDup : forall il dd, NoDup dd -> NoDup (others il dd).
Proof. intros. apply NoDup_filter. assumption. Qed.

Lemma others_notin : forall il dd, ~ In il dd -> others il dd = dd.
Proof.
  induction dd as [|x dd IH]; intros N; [reflexivity|]. cbn. destruct (String.eqb x il) eqn:E.
  - apply String.eqb_eq in E. subst. exfalso. apply N. left. reflexivity.
  - cbn. f_equal. apply IH. intros I. apply N. right. assumption.
Qed.

Lemma zprod_others : forall (g : string -> Z) il dd, NoDup dd -> In il dd ->
  zprod (map g dd) = g il * zprod (map g (others il dd)).
Proof.
  intros g il. induction dd as [|x dd IH]; intros ND I; [destruct I|]. inversion ND as [|? ? N ND']; subst. cbn.
  destruct (String.eqb x il) eqn:E; cbn.
  - apply String.eqb_eq in E. subst. fold (others il dd). rewrite (others_notin il dd) by assumption. reflexivity.
  - apply String.eqb_neq in E. destruct I as [->|I]; [congruence|]. fold (others il dd). rewrite IH by assumption. lia.
Qed.

Lemma others_ne : forall il dd, NoDup dd -> (2 <= List.length dd)%nat -> others il dd <> [].
Proof.
  intros il [|a [|b dd]] ND L; cbn in L; try lia. intros E.
  assert (D : a <> b) by (inversion ND as [|? ? N]; subst; intros ->; apply N; left; reflexivity).
  assert (H : forall d, In d (a :: b :: dd) -> d = il).
  { intros d I. destruct (string_dec d il) as [|X]; [assumption|]. exfalso.
    assert (J : In d (others il (a :: b :: dd))) by (apply others_In; auto). rewrite E in J. destruct J. }
  apply D. rewrite (H a), (H b); [reflexivity|right; left; reflexivity|left; reflexivity].
Qed.

Lemma fold_left_ext : forall A B (f g : A -> B -> A) l a, (forall x y, f x y = g x y) -> fold_left f l a = fold_left g l a.
Proof. intros A B f g l. induction l as [|y l IH]; intros a H; [reflexivity|]. cbn. rewrite H. apply IH. assumption. Qed.

Lemma inner_hints_spec : forall dd cs il, NoDup dd ->
  inner_hints dd (mkTuple (tup (filter (askedb cs) dd) (asked cs)) true) il =
  mkTuple (tup (rev (others il dd)) (asked cs)) true.
Proof.
  intros dd cs il ND. unfold inner_hints.
  set (fo := mkTuple (tup (filter (askedb cs) dd) (asked cs)) true).
  assert (LK : forall d, In d dd -> (match lookup fo d with Some p => p | None => 0 end) = asked cs d).
  { intros d I. unfold lookup, fo. cbn [dims]. rewrite lookup_tup. destruct (name_in _ d) eqn:E; [reflexivity|].
    apply name_in_not in E. rewrite filter_In in E. pose proof (asked_nonneg cs d). unfold askedb in E.
    destruct (1 <=? asked cs d) eqn:Q; [exfalso; apply E; auto|lia]. }
  set (step := fun (t : tuple) d => _).
  assert (H : forall l pre, NoDup (pre ++ l) -> (forall d, In d l -> In d dd) ->
    fold_left step l (mkTuple (tup (rev (others il pre)) (asked cs)) true) =
    mkTuple (tup (rev (others il (pre ++ l))) (asked cs)) true).
  { induction l as [|x l IH]; intros pre NP IN; cbn [fold_left]; [rewrite app_nil_r; reflexivity|].
    assert (NP' : NoDup ((pre ++ [x]) ++ l)) by (rewrite <- app_assoc; exact NP).
    assert (Np : ~ In x pre) by (apply NoDup_remove_2 in NP; rewrite in_app_iff in NP; tauto).
    assert (SX : step (mkTuple (tup (rev (others il pre)) (asked cs)) true) x = mkTuple (tup (rev (others il (pre ++ [x]))) (asked cs)) true).
    { unfold step. rewrite others_app.
      replace (others il [x]) with (if String.eqb x il then [] else [x]) by (cbn; destruct (String.eqb x il); reflexivity).
      destruct (String.eqb x il) eqn:E; cbn [negb]; [rewrite app_nil_r; reflexivity|].
      rewrite rev_app_distr. rewrite LK by (apply IN; left; reflexivity).
      unfold add_dim_front, lookup. cbn [dims first_inner]. rewrite lookup_tup.
      replace (name_in (rev (others il pre)) x) with false; [reflexivity|]. symmetry. apply name_in_not.
      rewrite <- in_rev, others_In. tauto. }
    rewrite SX. rewrite (IH (pre ++ [x])); [rewrite <- app_assoc; reflexivity|assumption|]. intros d I. apply IN. right. assumption. }
  change (mkTuple [] true) with (mkTuple (tup (rev (others il [])) (asked cs)) true). rewrite (H dd []) by auto. reflexivity.
Qed.

Lemma map_fst_combine : forall (a : list string) (b : list Z), (List.length a <= List.length b)%nat -> map fst (combine a b) = a.
Proof.
  induction a as [|x a IH]; intros [|y b] L; cbn in *; try reflexivity; try lia. f_equal. apply IH. lia.
Qed.

Lemma lookup_self : forall l : list (string * Z), NoDup (map fst l) ->
  l = tup (map fst l) (fun d => match lookup_list l d with Some v => v | None => 1 end).
Proof.
  induction l as [|(x & v) l IH]; intros ND; [reflexivity|]. cbn. inversion ND as [|? ? N ND']; subst.
  rewrite String.eqb_refl. f_equal. rewrite (IH ND') at 1. apply tup_ext. intros d I.
  destruct (String.eqb x d) eqn:E; [|reflexivity]. apply String.eqb_eq in E. subst. contradiction.
Qed.

Lemma zprod_nonneg : forall l, Forall (fun x => 0 <= x) l -> 0 <= zprod l.
Proof. induction 1; cbn; nia. Qed.

Lemma pos_of_prod : forall l, Forall (fun x => 0 <= x) l -> 1 <= zprod l -> Forall (fun x => 1 <= x) l.
Proof.
  induction 1 as [|x l H F IH]; intros P; [constructor|]. cbn in P. pose proof (zprod_nonneg l F).
  constructor; [nia|]. apply IH. nia.
Qed.

(* the factors found, by name *)
Lemma compact_tup : forall N oth cs, 2 <= N -> NoDup oth -> oth <> [] ->
  let r := get_compact_factors N (mkTuple (tup oth (asked cs)) true) in
  exists h, dims r = tup oth h /\ factorisation N (List.length oth) (map h oth) /\
    let P f := factorisation N (List.length oth) f /\ keeps (map (asked cs) oth) f in
    ((exists f, P f) -> most_compact P (map h oth)).
Proof.
  intros N oth cs HN ND NE. cbv zeta. set (t := mkTuple (tup oth (asked cs)) true).
  assert (VT : vals t = map (asked cs) oth) by apply vals_tup.
  assert (NT : names t = oth) by apply names_tup.
  assert (VN : vals t <> []) by (rewrite VT; destruct oth; [congruence|discriminate]).
  assert (F : Forall (fun d => 0 <= d) (vals t)).
  { rewrite VT. apply Forall_forall. intros x I. apply in_map_iff in I as (d & <- & _). apply asked_nonneg. }
  pose proof (compact_factors N t ltac:(lia) VN F) as CF. cbv zeta in CF.
  set (r := get_compact_factors N t) in *.
  assert (LEN : List.length (vals t) = List.length oth) by (rewrite VT; apply map_length).
  rewrite LEN in CF. rewrite VT in CF. destruct CF as (CF1 & CF2).
  assert (FR : factorisation N (List.length oth) (vals r)).
  { destruct (in_dec (list_eq_dec Z.eq_dec) (vals r) []) as [[]|_].
    (* keepable or not: decide by the shape of the result *)
    destruct (zprod (vals t) =? N) eqn:E0.
    - assert (r = t) as ->. { unfold r, get_compact_factors. destruct (vals t) eqn:Et; [congruence|]. rewrite <- Et in *.
        replace (N =? 0) with false by lia. rewrite product_zprod, E0. reflexivity. }
      assert (Pos : Forall (fun x => 1 <= x) (vals t)).
      { apply pos_of_prod; [assumption|]. lia. }
      split; [assumption|]. split; [assumption|lia].
    - pose proof (try_spec true N t [] ltac:(lia) VN F (or_introl eq_refl)) as (H1 & H2).
      unfold r, get_compact_factors. destruct (vals t) eqn:Et; [congruence|]. rewrite <- Et in *.
      replace (N =? 0) with false by lia. rewrite product_zprod, E0.
      set (b1 := try_factors true N t []) in *. destruct (zprod b1 =? N) eqn:E1.
      + destruct H1 as [H1|((L1 & P1) & _)]; [rewrite H1 in E1; change (zprod []) with 1 in E1; lia|].
        rewrite vals_ret by assumption. split; [congruence|]. exact P1.
      + assert (NK : ~ (exists f, factorisation N (List.length oth) f /\ keeps (map (asked cs) oth) f)).
        { intros (f & Pf & Kf). destruct (H2 f) as (NB & _).
          - split; [rewrite LEN; assumption|intros _; rewrite VT; assumption].
          - destruct H1 as [H1|((_ & _ & Z1) & _)]; [congruence|lia]. }
        destruct (CF2 NK ltac:(lia)) as (G & _).
        unfold r, get_compact_factors in G. rewrite Et in G.
        replace (N =? 0) with false in G by lia. rewrite product_zprod, E0 in G. fold b1 in G. rewrite E1 in G. exact G. }
  assert (NR : names r = oth).
  { destruct FR as (L & _). rewrite <- NT. unfold r, get_compact_factors in *.
    destruct (vals t) eqn:Et; [congruence|]. rewrite <- Et in *. replace (N =? 0) with false in * by lia.
    destruct (product t =? N); [reflexivity|].
    assert (G : forall vs, List.length (vals (mkTuple (combine (names t) vs) true)) = List.length oth ->
        names (mkTuple (combine (names t) vs) true) = names t).
    { intros vs E. unfold names at 1. cbn [dims]. apply map_fst_combine. unfold vals in E. cbn [dims] in E.
      rewrite map_length, combine_length in E. rewrite NT in *. lia. }
    destruct (zprod (try_factors true N t []) =? N); apply G; assumption. }
  exists (fun d => match lookup_list (dims r) d with Some v => v | None => 1 end).
  assert (DR : dims r = tup oth (fun d => match lookup_list (dims r) d with Some v => v | None => 1 end)).
  { pose proof (lookup_self (dims r)) as X. unfold names in NR. rewrite NR in X. apply X. assumption. }
  split; [exact DR|].
  assert (VR : vals r = map (fun d => match lookup_list (dims r) d with Some v => v | None => 1 end) oth).
  { unfold vals. rewrite DR at 1. unfold tup. rewrite map_map. reflexivity. }
  rewrite <- VR. split; [exact FR|]. exact CF1.
Qed.

(* ---- choosing the fold ---- *)

Definition in1 (l : list string) : Prop := List.length l = 1%nat.

Lemma set_all : forall dd g h fi, NoDup dd ->
  fold_left (fun t d => set_val t d (h d)) dd (mkTuple (tup dd g) fi) = mkTuple (tup dd h) fi.
Proof.
  intros dd g h fi ND.
  etransitivity; [exact (set_some dd (fun d => Some (h d)) dd g fi ND ND (fun _ I => I))|]. f_equal. apply tup_ext. intros d I.
  apply name_in_In in I. rewrite I. reflexivity.
Qed.

Definition isz (vlen : Z) (cs : csettings) (dd : list string) (il : string) : Z :=
  inner_size vlen (mkTuple (tup (filter (askedb cs) dd) (asked cs)) true) il.

Lemma asked_size_want : forall cs dd, asked_size cs dd = zprod (map (want cs) dd).
Proof. reflexivity. Qed.

Lemma zprod_ge1 : forall l, Forall (fun x => 1 <= x) l -> 1 <= zprod l.
Proof. induction 1; cbn; nia. Qed.

Lemma isz_spec : forall vlen cs dd il, NoDup dd -> In il dd -> 1 < vlen ->
  1 <= isz vlen cs dd il < vlen /\ (isz vlen cs dd il | vlen) /\
  (asked_size cs dd < vlen -> (want cs il | vlen) -> isz vlen cs dd il = want cs il) /\
  (isz vlen cs dd il = 1 \/ isz vlen cs dd il = want cs il).
Proof.
  intros vlen cs dd il ND I HV. unfold isz, inner_size. rewrite product_tup, zprod_filter_asked.
  change (zprod (map (want cs) dd)) with (asked_size cs dd). unfold lookup. cbn [dims]. rewrite lookup_tup.
  assert (D1 : (1 | vlen)) by (exists vlen; lia).
  destruct (asked_size cs dd <? vlen) eqn:E; [|repeat split; try lia; auto].
  destruct (name_in (filter (askedb cs) dd) il) eqn:E2.
  - apply name_in_In in E2. apply filter_In in E2 as (_ & A). unfold askedb in A.
    assert (W : want cs il = asked cs il) by (unfold want; lia).
    destruct (Z.rem vlen (asked cs il) =? 0) eqn:E3.
    + assert (DV : (asked cs il | vlen)) by (apply Z.rem_divide; lia).
      assert (asked cs il <= asked_size cs dd).
      { unfold asked_size. fold (want cs). change (fun d => Z.max 1 (asked cs d)) with (want cs). rewrite (zprod_others (want cs) il) by assumption.
        pose proof (zprod_ge1 _ (want_pos cs (others il dd))). rewrite W. nia. }
      split; [lia|]. split; [assumption|]. split; [intros; lia|right; lia].
    + split; [lia|]. split; [assumption|]. split; [|left; reflexivity]. intros _ DV. exfalso. rewrite W in DV.
      apply Z.rem_divide in DV; lia.
  - apply name_in_not in E2. rewrite filter_In in E2. unfold askedb in E2. pose proof (asked_nonneg cs il).
    assert (asked cs il = 0) as A0. { destruct (1 <=? asked cs il) eqn:Q; [exfalso; apply E2; auto|lia]. }
    assert (want cs il = 1) by (unfold want; lia). repeat split; try lia; auto.
Qed.

Lemma near_spec : forall dd, (2 <= List.length dd)%nat -> In (near_inner_dim dd) dd /\
  exists a b, dd = a ++ [near_inner_dim dd; b].
Proof.
  intros dd L. unfold near_inner_dim. replace (Nat.leb 2 (List.length dd)) with true by (symmetry; apply Nat.leb_le; assumption).
  split; [apply nth_In; lia|].
  destruct dd as [|z dd _] using rev_ind; [cbn in L; lia|]. destruct dd as [|y dd _] using rev_ind; [cbn in L; lia|].
  exists dd, z.
  assert (E : nth (List.length ((dd ++ [y]) ++ [z]) - 2) ((dd ++ [y]) ++ [z]) "" = y).
  { rewrite <- app_assoc. cbn [app]. rewrite app_length. cbn [List.length].
    replace (List.length dd + 2 - 2)%nat with (List.length dd) by lia. rewrite app_nth2 by lia. rewrite Nat.sub_diag. reflexivity. }
  rewrite E. rewrite <- app_assoc. reflexivity.
Qed.

Lemma next_to_last_near : forall dd d, (2 <= List.length dd)%nat -> next_to_last dd d <-> d = near_inner_dim dd.
Proof.
  intros dd d L. destruct (near_spec dd L) as (_ & a & b & E). split.
  - intros [(a' & b' & E')| ->]; [|cbn in L; lia]. rewrite E in E'.
    change [near_inner_dim dd; b] with ([near_inner_dim dd] ++ [b]) in E'. change [d; b'] with ([d] ++ [b']) in E'.
    rewrite !app_assoc in E'. apply app_inj_tail in E' as (E' & _). apply app_inj_tail in E' as (_ & E'). congruence.
  - intros ->. left. exists a, b. exact E.
Qed.

Lemma choose_as_asked : forall dd il cs vlen eff, NoDup dd -> vlen <= 1 \/ asked_size cs dd = vlen ->
  choose_fold dd il cs vlen eff = Ok (mkTuple (tup dd (want cs)) true).
Proof.
  intros dd il cs vlen eff ND H. unfold choose_fold. rewrite requested_spec by assumption. rewrite product_tup.
  change (zprod (map (want cs) dd)) with (asked_size cs dd). destruct H as [H|H].
  - replace (1 <? vlen) with false by lia. reflexivity.
  - replace (asked_size cs dd =? vlen) with true by lia. rewrite andb_false_r. reflexivity.
Qed.

Lemma choose_adjust : forall dd il cs vlen eff, NoDup dd -> 1 < vlen -> asked_size cs dd <> vlen ->
  choose_fold dd il cs vlen eff =
  adjust_fold dd il vlen eff (mkTuple (tup dd (want cs)) true) (mkTuple (tup (filter (askedb cs) dd) (asked cs)) true).
Proof.
  intros dd il cs vlen eff ND HV H. unfold choose_fold. rewrite requested_spec by assumption. rewrite product_tup.
  change (zprod (map (want cs) dd)) with (asked_size cs dd).
  replace (1 <? vlen) with true by lia. replace (asked_size cs dd =? vlen) with false by lia. reflexivity.
Qed.

Lemma choose_one_dim : forall d il cs vlen eff, 1 < vlen -> asked_size cs [d] <> vlen ->
  choose_fold [d] il cs vlen eff = Ok (mkTuple (tup [d] (fun _ => vlen)) true).
Proof.
  intros d il cs vlen eff HV H. rewrite choose_adjust; [|repeat constructor; auto|assumption|assumption].
  unfold adjust_fold. cbn [List.length Nat.eqb Nat.sub nth]. unfold set_val. cbn [dims first_inner tup map update_list].
  rewrite String.eqb_refl. cbn [dims]. rewrite product_zprod. unfold vals. cbn [dims map snd zprod].
  replace (vlen * 1 =? vlen) with true by lia. reflexivity.
Qed.

(* several dims: the loop that puts the sizes into the fold *)
Lemma adjust_several : forall dd il vlen eff cs, NoDup dd -> (2 <= List.length dd)%nat ->
  let fo := mkTuple (tup (filter (askedb cs) dd) (asked cs)) true in
  let r := if negb eff then add_dim_back (mkTuple [] true) (near_inner_dim dd) (Z.quot vlen (isz vlen cs dd il))
           else get_compact_factors (Z.quot vlen (isz vlen cs dd il)) (mkTuple (tup (rev (others il dd)) (asked cs)) true) in
  let g d := if String.eqb d il then isz vlen cs dd il
             else match lookup r d with Some v => v | None => 1 end in
  adjust_fold dd il vlen eff (mkTuple (tup dd (want cs)) true) fo =
  if zprod (map g dd) =? vlen then Ok (mkTuple (tup dd g) true) else Throw.
Proof.
  intros dd il vlen eff cs ND L. cbv zeta. unfold adjust_fold.
  replace (Nat.eqb (List.length dd) 1) with false by (symmetry; apply Nat.eqb_neq; lia).
  rewrite inner_hints_spec by assumption. fold (isz vlen cs dd il). set (r := if negb eff then _ else _).
  set (g := fun d : string => if String.eqb d il then isz vlen cs dd il else match lookup r d with Some v => v | None => 1 end).
  rewrite (fold_left_ext _ _ _ (fun t d => set_val t d (g d))).
  - rewrite set_all by assumption. rewrite product_tup. reflexivity.
  - intros t d. unfold g. destruct (String.eqb d il); [reflexivity|]. destruct (lookup r d); reflexivity.
Qed.

Lemma quot_upper : forall vlen s, 1 <= s < vlen -> (s | vlen) -> 2 <= Z.quot vlen s /\ s * Z.quot vlen s = vlen.
Proof.
  intros vlen s H (q & ->). assert (Q : Z.quot (q * s) s = q) by (apply Z.quot_mul; lia). rewrite Q. nia.
Qed.

Lemma choose_plain : forall dd il cs vlen, NoDup dd -> In il dd -> (2 <= List.length dd)%nat -> 1 < vlen ->
  asked_size cs dd <> vlen ->
  let s := isz vlen cs dd il in
  let g d := if String.eqb d il then s else if String.eqb d (near_inner_dim dd) then Z.quot vlen s else 1 in
  (near_inner_dim dd <> il -> choose_fold dd il cs vlen false = Ok (mkTuple (tup dd g) true) /\ zprod (map g dd) = vlen) /\
  (near_inner_dim dd = il -> choose_fold dd il cs vlen false = Throw).
Proof.
  intros dd il cs vlen ND I L HV NA. cbv zeta. rewrite choose_adjust by assumption. rewrite adjust_several by assumption.
  cbn [negb]. destruct (isz_spec vlen cs dd il ND I HV) as (S1 & S2 & _). set (s := isz vlen cs dd il) in *.
  destruct (quot_upper vlen s S1 S2) as (Q1 & Q2). destruct (near_spec dd L) as (IN & _). set (nr := near_inner_dim dd) in *.
  set (g1 := fun d => if String.eqb d il then s else match _ with Some v => v | None => 1 end).
  set (g2 := fun d => if String.eqb d il then s else if String.eqb d nr then Z.quot vlen s else 1).
  assert (G : forall d, g1 d = g2 d).
  { intros d. unfold g1, g2. destruct (String.eqb d il); [reflexivity|]. unfold lookup, add_dim_back. cbn.
    rewrite (String.eqb_sym nr d). destruct (String.eqb d nr); reflexivity. }
  assert (ZG : zprod (map g1 dd) = zprod (map g2 dd)) by (f_equal; apply map_ext; exact G).
  rewrite ZG. rewrite (tup_ext dd g1 g2) by (intros; apply G).
  assert (O1 : forall l, (forall d, In d l -> d <> il /\ d <> nr) -> zprod (map g2 l) = 1).
  { induction l as [|x l IH]; intros H; [reflexivity|]. cbn. rewrite IH by (intros; apply H; right; assumption).
    destruct (H x (or_introl eq_refl)) as (A & B). unfold g2. apply String.eqb_neq in A, B. rewrite A, B. reflexivity. }
  assert (GI : g2 il = s) by (unfold g2; rewrite String.eqb_refl; reflexivity).
  split.
  - intros D. assert (P : zprod (map g2 dd) = vlen).
    { rewrite (zprod_others g2 il dd ND I). rewrite (zprod_others g2 nr (others il dd)).
      - rewrite O1. + rewrite GI. unfold g2. apply String.eqb_neq in D. rewrite D, String.eqb_refl. lia.
        + intros d J. apply others_In in J as (J & A). apply others_In in J as (_ & B). auto.
      - apply others_NoDup. assumption.
      - apply others_In. auto. }
    rewrite P, Z.eqb_refl. auto.
  - intros D. assert (P : zprod (map g2 dd) = s).
    { rewrite (zprod_others g2 il dd ND I). rewrite O1; [rewrite GI; lia|]. intros d J. apply others_In in J as (_ & B). subst il. auto. }
    rewrite P. replace (s =? vlen) with false by lia. reflexivity.
Qed.

Lemma choose_efficient : forall dd il cs vlen, NoDup dd -> In il dd -> (2 <= List.length dd)%nat -> 1 < vlen ->
  asked_size cs dd <> vlen ->
  let s := isz vlen cs dd il in
  exists g, choose_fold dd il cs vlen true = Ok (mkTuple (tup dd g) true) /\ zprod (map g dd) = vlen /\
    (forall d, In d dd -> 1 <= g d) /\ g il = s /\
    ((exists h : string -> Z, (forall d, In d dd -> d <> il -> 1 <= h d /\ (0 < asked cs d -> h d = asked cs d)) /\
         s * zprod (map h (others il dd)) = vlen) ->
     (forall d, In d dd -> d <> il -> 0 < asked cs d -> g d = asked cs d) /\
     (forall (h : string -> Z) m, (forall d, In d dd -> d <> il -> 1 <= h d /\ (0 < asked cs d -> h d = asked cs d) /\ h d <= m) ->
         s * zprod (map h (others il dd)) = vlen -> forall d, In d dd -> d <> il -> g d <= m)).
Proof.
  intros dd il cs vlen ND I L HV NA. cbv zeta. rewrite choose_adjust by assumption. rewrite adjust_several by assumption.
  cbn [negb]. destruct (isz_spec vlen cs dd il ND I HV) as (S1 & S2 & _). set (s := isz vlen cs dd il) in *.
  destruct (quot_upper vlen s S1 S2) as (Q1 & Q2). set (oth := others il dd).
  assert (NDO : NoDup (rev oth)) by (apply NoDup_rev; apply others_NoDup; assumption).
  assert (NEO : rev oth <> []).
  { intros E. apply (others_ne il dd ND L). fold oth. rewrite <- (rev_involutive oth), E. reflexivity. }
  destruct (compact_tup (Z.quot vlen s) (rev oth) cs Q1 NDO NEO) as (k & DK & (_ & KP & KZ) & KM).
  set (r := get_compact_factors (Z.quot vlen s) (mkTuple (tup (rev oth) (asked cs)) true)) in *.
  set (g := fun d => if String.eqb d il then s else match lookup r d with Some v => v | None => 1 end).
  assert (GO : forall d, In d dd -> d <> il -> g d = k d).
  { intros d J D. unfold g. pose proof D as D'. apply String.eqb_neq in D. rewrite D. unfold lookup. rewrite DK, lookup_tup.
    replace (name_in (rev oth) d) with true; [reflexivity|]. symmetry. apply name_in_In. rewrite <- in_rev. apply others_In. auto. }
  assert (GI : g il = s) by (unfold g; rewrite String.eqb_refl; reflexivity).
  assert (ZO : zprod (map g oth) = Z.quot vlen s).
  { rewrite <- KZ, zprod_rev_map. f_equal. apply map_ext_in. intros d J. apply others_In in J as (J & D). apply GO; assumption. }
  assert (ZG : zprod (map g dd) = vlen) by (rewrite (zprod_others g il dd ND I); fold oth; rewrite ZO, GI; exact Q2).
  exists g. rewrite ZG, Z.eqb_refl. split; [reflexivity|]. split; [reflexivity|]. split; [|split; [exact GI|]].
  - intros d J. destruct (string_dec d il) as [->|D]; [lia|]. rewrite GO by assumption.
    rewrite Forall_forall in KP. apply KP. apply in_map. rewrite <- in_rev. apply others_In. auto.
  - assert (FK : forall h : string -> Z, (forall d, In d dd -> d <> il -> 1 <= h d /\ (0 < asked cs d -> h d = asked cs d)) ->
         s * zprod (map h oth) = vlen ->
         factorisation (Z.quot vlen s) (List.length (rev oth)) (map h (rev oth)) /\ keeps (map (asked cs) (rev oth)) (map h (rev oth))).
    { intros h H Z. split; [split; [apply map_length|split]|].
      - apply Forall_forall. intros x J. apply in_map_iff in J as (d & <- & J). rewrite <- in_rev in J. apply others_In in J as (J & D).
        apply H; assumption.
      - rewrite zprod_rev_map. nia.
      - unfold keeps. assert (HH : forall d, In d (rev oth) -> 0 < asked cs d -> h d = asked cs d).
        { intros d J. rewrite <- in_rev in J. apply others_In in J as (J & D). apply H; assumption. }
        clear - HH. induction (rev oth) as [|x l IH]; cbn; constructor.
        + apply HH. left. reflexivity.
        + apply IH. intros d J. apply HH. right. assumption. }
    intros (h0 & H0 & Z0). destruct (KM (ex_intro _ _ (FK h0 H0 Z0))) as ((_ & KK) & KL). split.
    + intros d J D A. rewrite GO by assumption. unfold keeps in KK.
      assert (JO : In d (rev oth)) by (rewrite <- in_rev; apply others_In; auto).
      clear - KK JO A. induction (rev oth) as [|x l IH]; [destruct JO|]. cbn in KK. inversion KK; subst.
      destruct JO as [->|JO]; [auto|apply IH; assumption].
    + intros h m H Z d J D. rewrite GO by assumption.
      assert (AL : all_le (map k (rev oth)) m).
      { apply (KL (map h (rev oth)) m).
        - apply FK; [|assumption]. intros x X Y. destruct (H x X Y) as (A & B & _). auto.
        - apply Forall_forall. intros x X. apply in_map_iff in X as (y & <- & Y). rewrite <- in_rev in Y. apply others_In in Y as (Y & Y').
          apply H; assumption. }
      unfold all_le in AL. rewrite Forall_forall in AL. apply AL. apply in_map. rewrite <- in_rev. apply others_In. auto.
Qed.
