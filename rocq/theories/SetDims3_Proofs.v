From Coq Require Import String ZifyBool.
From Verif Require Import Base Tuple_Model Factors_Model Factors_Spec Factors_Proofs SetDims_Model SetDims_Spec SetDims_Proofs SetDims2_Proofs.
Open Scope string_scope.
Open Scope list_scope.
Open Scope Z_scope.

(* ---- the order in memory ---- *)

Lemma insert_misc_back : forall misc i lay, NoDup (lay ++ misc) -> insert_misc true i misc lay = lay ++ misc.
Proof.
  induction misc as [|m misc IH]; intros i lay ND; cbn; [rewrite app_nil_r; reflexivity|].
  rewrite names_back_new.
  - rewrite IH; rewrite <- app_assoc; [reflexivity|exact ND].
  - apply NoDup_remove_2 in ND. rewrite in_app_iff in ND. tauto.
Qed.

Lemma insert_misc_front : forall misc pre rest, NoDup (pre ++ misc ++ rest) ->
  insert_misc false (List.length pre) misc (pre ++ rest) = pre ++ misc ++ rest.
Proof.
  induction misc as [|m misc IH]; intros pre rest ND; cbn; [reflexivity|].
  assert (N : ~ In m (pre ++ rest)).
  { cbn in ND. apply NoDup_remove_2 in ND. rewrite !in_app_iff in *. tauto. }
  unfold names_at. apply name_in_not in N. rewrite N.
  rewrite firstn_app, skipn_app, firstn_all, skipn_all, Nat.sub_diag. cbn [firstn skipn]. rewrite app_nil_r. cbn [app].
  replace (pre ++ m :: rest) with ((pre ++ [m]) ++ rest) by (rewrite <- app_assoc; reflexivity).
  replace (S (List.length pre)) with (List.length (pre ++ [m])) by (rewrite app_length; cbn; lia).
  rewrite IH; rewrite <- app_assoc; [reflexivity|exact ND].
Qed.

Lemma names_remove_at : forall a d b, ~ In d a -> names_remove (a ++ d :: b) d = a ++ b.
Proof.
  intros a d b N. unfold names_remove.
  assert (P : posn_of (a ++ d :: b) d = Some (List.length a)).
  { induction a as [|x a IH]; cbn; [rewrite String.eqb_refl; reflexivity|]. destruct (String.eqb x d) eqn:E.
    - apply String.eqb_eq in E. subst. exfalso. apply N. left. reflexivity.
    - rewrite IH; [reflexivity|]. intros I. apply N. right. assumption. }
  rewrite P. rewrite firstn_app, firstn_all, Nat.sub_diag. cbn [firstn]. rewrite app_nil_r.
  change (S (List.length a)) with (1 + List.length a)%nat.
  replace (a ++ d :: b) with ((a ++ [d]) ++ b) by (rewrite <- app_assoc; reflexivity).
  replace (1 + List.length a)%nat with (List.length (a ++ [d])) by (rewrite app_length; cbn; lia).
  rewrite skipn_app, skipn_all, Nat.sub_diag. reflexivity.
Qed.

Lemma nodup_app_l : forall (a b : list string), NoDup (a ++ b) -> NoDup a.
Proof.
  induction a as [|x a IH]; intros b ND; [constructor|]. inversion ND as [|? ? N ND']; subst. constructor.
  - intros I. apply N. rewrite in_app_iff. left. assumption.
  - exact (IH b ND').
Qed.

Lemma before_insert : forall (l x r : list string) a b, before (l ++ r) a b -> before (l ++ x ++ r) a b.
Proof.
  intros l x r. revert r. induction l as [|y l IH]; intros r a b B; cbn [app] in *.
  - apply before_app_r. assumption.
  - destruct B as (l1 & l2 & l3 & E). destruct l1 as [|z l1]; cbn in E; injection E as -> E.
    + assert (I : In b (l ++ x ++ r)).
      { assert (J : In b (l ++ r)) by (rewrite E, in_app_iff; right; left; reflexivity). rewrite !in_app_iff in *. tauto. }
      apply in_split in I as (k1 & k2 & ->). exists [], k1, k2. reflexivity.
    + apply (before_app_r [z]). apply IH. exists l1, l2, l3. assumption.
Qed.

Lemma good_shape : forall step misc (im : bool) (F M L : list string) (outer small : bool),
  NoDup (F ++ M ++ L) ->
  (outer = true -> (exists o, F = [o]) \/ F = [] /\ M = [] /\ small = true) -> (outer = false -> F = []) ->
  (small = true -> exists x, L = [x]) -> (small = false -> L = []) ->
  let A := if im then [step] else misc ++ [step] in let B := if im then misc else ([] : list string) in
  good_layout step (F ++ M ++ L) misc im outer small (F ++ A ++ M ++ B ++ L).
Proof.
  intros step misc im F M L outer small ND HO HO' HS HS' A B. unfold good_layout.
  assert (SA : In step A) by (unfold A; destruct im; [left; reflexivity|rewrite in_app_iff; right; left; reflexivity]).
  assert (FO : forall d, In d F -> outer = true /\ is_first (F ++ M ++ L) d).
  { intros d I. destruct outer; [|rewrite HO' in I by reflexivity; destruct I]. split; [reflexivity|].
    destruct (HO eq_refl) as [(o & ->)|(-> & _)]; [|destruct I]. destruct I as [->|[]]. exists (M ++ L). reflexivity. }
  assert (LS : forall d, In d L -> small = true /\ is_last (F ++ M ++ L) d).
  { intros d I. destruct small; [|rewrite HS' in I by reflexivity; destruct I]. split; [reflexivity|].
    destruct (HS eq_refl) as (x & ->). destruct I as [->|[]]. exists (F ++ M). rewrite <- app_assoc. reflexivity. }
  split; [|split; [|split; [|split; [|split; [|split; [|split]]]]]].
  - transitivity ((F ++ M ++ L) ++ A ++ B).
    + rewrite <- !app_assoc. apply Permutation_app_head. transitivity (M ++ A ++ B ++ L).
      * rewrite (app_assoc A M). rewrite (app_assoc M A). apply Permutation_app_tail. apply Permutation_app_comm.
      * apply Permutation_app_head. rewrite app_assoc. rewrite (app_assoc L A B). rewrite <- (app_assoc L A B). apply Permutation_app_comm.
    + unfold A, B. destruct im; cbn [app].
      * symmetry. apply Permutation_middle.
      * rewrite app_nil_r. rewrite app_assoc. symmetry. apply Permutation_cons_append.
  - intros a b H. apply before_insert. rewrite (app_assoc F M). apply before_insert. rewrite <- app_assoc. exact H.
  - intros a b H. unfold A, B. destruct im.
    + apply before_app_r, before_app_r, before_app_r, before_app_l. assumption.
    + apply before_app_r, before_app_l, before_app_l. assumption.
  - intros d (p & E) S. destruct (HS S) as (x & ->). rewrite !app_assoc in E. apply app_inj_tail in E as (_ & <-).
    exists (F ++ A ++ M ++ B). rewrite <- !app_assoc. reflexivity.
  - intros d (p & E) O NL. destruct (HO O) as [(o & ->)|(-> & -> & S)].
    + cbn in E. injection E as -> _. exists (A ++ M ++ B ++ L). reflexivity.
    + exfalso. apply (NL S). destruct (HS S) as (x & ->). cbn in *. injection E as -> _. exists []. reflexivity.
  - intros d I NF. apply before_app_r. apply before_cross; [assumption|]. rewrite !in_app_iff in I. destruct I as [I|[I|I]].
    + destruct (FO d I) as (O & IF). exfalso. exact (NF O IF).
    + rewrite !in_app_iff. tauto.
    + rewrite !in_app_iff. tauto.
  - intros m I. unfold A, B. destruct im.
    + apply before_app_r. apply before_cross; [left; reflexivity|]. rewrite !in_app_iff. tauto.
    + apply before_app_r, before_app_l. apply before_cross; [assumption|left; reflexivity].
  - intros m d Im Id. unfold A, B. destruct im.
    + intros NL. rewrite !in_app_iff in Id. destruct Id as [I|[I|I]].
      * apply before_cross; [assumption|]. rewrite !in_app_iff. tauto.
      * apply before_app_r, before_app_r. apply before_cross; [assumption|]. rewrite !in_app_iff. tauto.
      * destruct (LS d I) as (S & IL). exfalso. exact (NL S IL).
    + intros NF. apply before_app_r. apply before_cross; [rewrite in_app_iff; tauto|]. rewrite !in_app_iff in Id. destruct Id as [I|[I|I]].
      * destruct (FO d I) as (O & IF). exfalso. exact (NF O IF).
      * rewrite !in_app_iff. tauto.
      * rewrite !in_app_iff. tauto.
Qed.

Lemma nth_last_app : forall (a : list string) x, nth (List.length (a ++ [x]) - 1) (a ++ [x]) "" = x.
Proof.
  intros a x. rewrite app_length. cbn [List.length]. replace (List.length a + 1 - 1)%nat with (List.length a) by lia.
  rewrite app_nth2 by lia. rewrite Nat.sub_diag. reflexivity.
Qed.

Local Ltac shape :=
  solve [assumption | intros; discriminate | intros _; left; eexists; reflexivity | intros _; right; auto
        | intros _; eexists; reflexivity | intros _; reflexivity | rewrite ?app_nil_r; assumption].

Lemma layout_good : forall dd step misc cs fold, dd <> [] -> NoDup (step :: dd ++ misc) ->
  good_layout step dd misc (cs_inner_misc cs) (cs_outer_domain cs) (product fold <=? 1) (layout_order dd step misc cs fold).
Proof.
  intros dd step misc cs fold NE ND. unfold layout_order. set (small := product fold <=? 1). set (im := cs_inner_misc cs).
  inversion ND as [|? ? NS ND']; subst. rewrite in_app_iff in NS.
  assert (NDD : NoDup dd) by (exact (nodup_app_l dd misc ND')).
  rewrite (names_front_new dd step) by (intros X; apply NS; left; exact X).
  set (A := if im then [step] else misc ++ [step]). set (B := if im then misc else []).
  assert (CORE : insert_misc im 0 misc (step :: dd) = A ++ dd ++ B).
  { unfold A, B. destruct im.
    - rewrite insert_misc_back; [reflexivity|]. exact ND.
    - etransitivity; [apply (insert_misc_front misc [] (step :: dd))|].
      2:{ cbn [app]. rewrite app_nil_r. rewrite <- app_assoc. reflexivity. }
      cbn [app]. apply (Permutation_NoDup (l := (step :: dd) ++ misc)); [apply Permutation_app_comm|exact ND]. }
  rewrite CORE.
  assert (DA : forall d, In d dd -> ~ In d A).
  { intros d I. unfold A. assert (d <> step) by (intros ->; tauto).
    assert (~ In d misc).
    { intros J. apply in_split in I as (p & q & ->). rewrite <- app_assoc in ND'. apply NoDup_remove_2 in ND'. apply ND'.
      rewrite !in_app_iff. tauto. }
    destruct im; [intros [->|[]]; congruence|]. rewrite in_app_iff. intros [|[->|[]]]; [contradiction|congruence]. }
  assert (DB : forall d, In d dd -> ~ In d B).
  { intros d I. unfold B. destruct im; [|intros []]. intros J. apply in_split in I as (p & q & ->). rewrite <- app_assoc in ND'.
    apply NoDup_remove_2 in ND'. apply ND'. rewrite !in_app_iff. tauto. }
  destruct (nth_last dd NE) as (_ & IL). set (inner := nth (List.length dd - 1) dd "") in *. clearbody inner.
  destruct dd as [|o rest]; [congruence|]. cbn [nth].
  inversion NDD as [|? ? No NDR]; subst.
  assert (OUT : names_at 0 (names_remove (A ++ (o :: rest) ++ B) o) o = o :: A ++ rest ++ B).
  { cbn [app]. rewrite names_remove_at by (apply DA; left; reflexivity). apply names_front_new. rewrite !in_app_iff.
    specialize (DA o (or_introl eq_refl)). specialize (DB o (or_introl eq_refl)). tauto. }
  destruct (cs_outer_domain cs) eqn:EO; destruct small eqn:ES.
  - rewrite OUT. destruct rest as [|x rest _] using rev_ind.
    + assert (inner = o) as -> by (apply (is_last_unique [o]); [assumption|exists []; reflexivity]). cbn [app]. change (o :: A ++ B) with ([] ++ o :: (A ++ B)). rewrite names_remove_at by (intros []). cbn [app].
      rewrite names_back_new.
      * pose proof (good_shape step misc im [] [] [o] true true) as G. cbn [app] in G. rewrite <- app_assoc. apply G; shape.
      * rewrite in_app_iff. specialize (DA o (or_introl eq_refl)). specialize (DB o (or_introl eq_refl)). tauto.
    + assert (inner = x) as -> by (apply (is_last_unique (o :: rest ++ [x])); [assumption|exists (o :: rest); reflexivity]).
      assert (Ix : In x (o :: rest ++ [x])) by (right; rewrite in_app_iff; right; left; reflexivity).
      assert (Nx : ~ In x (o :: rest)).
      { change (o :: rest ++ [x]) with ((o :: rest) ++ [x]) in NDD. apply NoDup_remove_2 in NDD. rewrite app_nil_r in NDD. exact NDD. }
      replace (o :: A ++ (rest ++ [x]) ++ B) with ((o :: A ++ rest) ++ x :: B) by (cbn; rewrite <- !app_assoc; reflexivity).
      rewrite names_remove_at.
      * rewrite names_back_new.
        -- pose proof (good_shape step misc im [o] rest [x] true true) as G. cbn [app] in G. cbn [app].
           rewrite <- !app_assoc. apply G; shape.
        -- rewrite in_app_iff. cbn [In app]. rewrite in_app_iff. specialize (DA x Ix). specialize (DB x Ix). cbn [In] in Nx. tauto.
      * cbn [In app]. rewrite in_app_iff. specialize (DA x Ix). cbn [In] in Nx. tauto.
  - rewrite OUT. pose proof (good_shape step misc im [o] rest [] true false) as G. cbn [app] in G. rewrite !app_nil_r in G. apply G; shape.
  - destruct (exists_last NE) as (M & x & E). rewrite E in *.
    assert (inner = x) as -> by (apply (is_last_unique (M ++ [x])); [assumption|exists M; reflexivity]).
    assert (Ix : In x (M ++ [x])) by (rewrite in_app_iff; right; left; reflexivity).
    assert (Nx : ~ In x M). { apply NoDup_remove_2 in NDD. rewrite app_nil_r in NDD. exact NDD. }
    replace (A ++ (M ++ [x]) ++ B) with ((A ++ M) ++ x :: B) by (rewrite <- !app_assoc; reflexivity).
    rewrite names_remove_at.
    + rewrite names_back_new.
      * pose proof (good_shape step misc im [] M [x] false true) as G. cbn [app] in G. rewrite <- !app_assoc. apply G; shape.
      * rewrite !in_app_iff. specialize (DA x Ix). specialize (DB x Ix). tauto.
    + rewrite in_app_iff. specialize (DA x Ix). tauto.
  - pose proof (good_shape step misc im [] (o :: rest) [] false false) as G. cbn [app] in G. rewrite !app_nil_r in G. apply G; shape.
Qed.

(* ---- the whole ---- *)

Lemma set_dims_ok : forall vars cs vlen eff o, set_dims vars cs vlen eff = Ok o ->
  exists f fold, scan_vars vars cs = Ok f /\ f_step f <> "" /\ f_domain f <> [] /\
    choose_fold (f_domain f) (fst (inner_loop_dim (f_domain f) (cs_inner cs))) cs vlen eff = Ok fold /\
    o = mkDims (f_step f) (f_domain f) (f_stencil f) (f_misc f) (fst (inner_loop_dim (f_domain f) (cs_inner cs)))
          (snd (inner_loop_dim (f_domain f) (cs_inner cs)))
          (mkTuple (dims fold) (cs_first_inner cs)) (mkTuple (dims (fold_gt1 fold)) (cs_first_inner cs))
          (layout_order (f_domain f) (f_step f) (f_misc f) cs fold) /\
    (cs_unaligned cs = true -> (List.length (dims (fold_gt1 fold)) <= 1)%nat).
Proof.
  intros vars cs vlen eff o E. unfold set_dims in E. destruct (scan_vars vars cs) as [f| | |]; try discriminate. cbn [rbind] in E.
  destruct (String.eqb (f_step f) "") eqn:E1; [discriminate|]. apply String.eqb_neq in E1.
  destruct (Nat.eqb (List.length (f_domain f)) 0) eqn:E2; [discriminate|]. apply Nat.eqb_neq in E2.
  destruct (inner_loop_dim (f_domain f) (cs_inner cs)) as (il & num) eqn:EI. cbn [fst snd].
  destruct (choose_fold (f_domain f) il cs vlen eff) as [fold| | |] eqn:EF; try discriminate. cbn [rbind] in E.
  destruct (cs_unaligned cs && Nat.ltb 1 (List.length (dims (fold_gt1 fold)))) eqn:EU; [discriminate|].
  exists f, fold. split; [reflexivity|]. split; [assumption|]. split; [intros X; rewrite X in E2; cbn in E2; congruence|].
  rewrite EI. cbn [fst snd]. split; [assumption|]. split; [congruence|]. intros U. rewrite U in EU. cbn [andb] in EU. apply Nat.ltb_ge in EU. assumption.
Qed.

Lemma nth_one_in : forall (dd : list string) n d, nth_error dd n = Some d -> In d dd.
Proof. intros. eapply nth_error_In. eassumption. Qed.

(* the fold as a function of the dim, in all accepting cases *)
Lemma choose_ok : forall dd il cs vlen eff fold, NoDup dd -> In il dd -> choose_fold dd il cs vlen eff = Ok fold ->
  exists g, fold = mkTuple (tup dd g) true /\ (forall d, In d dd -> 1 <= g d) /\
    (1 < vlen -> zprod (map g dd) = vlen) /\
    (vlen <= 1 \/ asked_size cs dd = vlen -> forall d, In d dd -> g d = want cs d).
Proof.
  intros dd il cs vlen eff fold ND I E.
  assert (CA : (vlen <= 1 \/ asked_size cs dd = vlen) \/ 1 < vlen /\ asked_size cs dd <> vlen) by lia.
  destruct CA as [C|(C1 & C2)].
  - rewrite choose_as_asked in E by assumption. injection E as <-. exists (want cs). split; [reflexivity|].
    split; [intros; unfold want; lia|]. split; [|auto]. intros H. change (zprod (map (want cs) dd)) with (asked_size cs dd). lia.
  - destruct (le_lt_dec 2 (List.length dd)) as [L|L].
    + destruct eff.
      * destruct (choose_efficient dd il cs vlen ND I L C1 C2) as (g & G1 & G2 & G3 & _). rewrite G1 in E. injection E as <-.
        exists g. split; [reflexivity|]. split; [assumption|]. split; [auto|]. intros; lia.
      * destruct (choose_plain dd il cs vlen ND I L C1 C2) as (P1 & P2).
        destruct (string_dec (near_inner_dim dd) il) as [D|D]; [rewrite P2 in E by assumption; discriminate|].
        destruct (P1 D) as (P3 & P4). rewrite P3 in E. injection E as <-. eexists. split; [reflexivity|]. split; [|split; [auto|intros; lia]].
        intros d _. destruct (isz_spec vlen cs dd il ND I C1) as (S1 & S2 & _). destruct (quot_upper vlen _ S1 S2) as (Q & _).
        cbv beta. destruct (String.eqb d il); [lia|]. destruct (String.eqb d (near_inner_dim dd)); lia.
    + destruct dd as [|d [|d' dd]]; cbn in L; try lia; [destruct I|]. rewrite choose_one_dim in E by assumption. injection E as <-.
      exists (fun _ => vlen). split; [reflexivity|]. split; [intros; lia|]. split; [intros; cbn; lia|intros; lia].
Qed.

Lemma in_first_nodup : forall m l, in_first_order m l -> NoDup l.
Proof. intros m l (H & _). exact H. Qed.

Theorem dims_found : forall vars cs vlen eff o, named vars cs -> set_dims vars cs vlen eff = Ok o ->
  legal vars cs /\ step_name vars cs (d_step o) /\
  in_first_order (mentions vars cs) (d_domain o) /\
  NoDup (d_misc o) /\ (forall d, In d (d_misc o) <-> misc_name vars d) /\
  (one_kind vars cs -> d_stencil o = d_step o :: d_domain o).
Proof.
  intros vars cs vlen eff o NM E. apply set_dims_ok in E as (f & fold & E1 & E2 & E3 & _ & -> & _). cbn.
  pose proof (scan_result vars cs NM) as SR. rewrite E1 in SR. destruct SR as (A & B & C & D & F & G & H).
  split; [|split; [apply C; assumption|split; [assumption|split; [assumption|split; [assumption|]]]]].
  - split; [|split].
    + exists (f_step f). split; [apply C; assumption|]. intros t T. apply B. assumption.
    + destruct (f_domain f) as [|d dd] eqn:Q; [congruence|]. exists d. apply mentions_domain. apply D. left. reflexivity.
    + exact A.
  - intros (K & _). apply H; assumption.
Qed.

Theorem accepted_iff : forall vars cs vlen eff dd il, named vars cs -> cs_unaligned cs = false ->
  in_first_order (mentions vars cs) dd -> inner_choice dd (cs_inner cs) il ->
  (exists o, set_dims vars cs vlen eff = Ok o) <->
  legal vars cs /\
  ~ (eff = false /\ 1 < vlen /\ asked_size cs dd <> vlen /\ (2 <= List.length dd)%nat /\ next_to_last dd il).
Proof.
  intros vars cs vlen eff dd il NM UA FO IC. split.
  - intros (o & E). split; [exact (proj1 (dims_found vars cs vlen eff o NM E))|].
    apply set_dims_ok in E as (f & fold & E1 & E2 & E3 & E4 & _). intros (-> & HV & HA & HL & NL).
    pose proof (scan_result vars cs NM) as SR. rewrite E1 in SR. destruct SR as (_ & _ & _ & D & _).
    rewrite <- (first_order_unique _ _ _ FO D) in *.
    destruct (inner_loop_spec dd (cs_inner cs) (in_first_nodup _ _ FO) E3) as (_ & I2 & I3). cbv zeta in I2, I3.
    rewrite <- (inner_choice_unique _ _ _ _ IC I3) in *.
    apply next_to_last_near in NL; [|assumption].
    destruct (choose_plain dd il cs vlen (in_first_nodup _ _ FO) (nth_one_in _ _ _ I2) HL HV HA) as (_ & P2).
    rewrite P2 in E4 by congruence. discriminate.
  - intros (LG & NS). pose proof (scan_result vars cs NM) as SR. unfold set_dims.
    destruct (scan_vars vars cs) as [f| | |]; [|exfalso; exact (SR LG)|destruct SR|destruct SR]. cbn [rbind].
    destruct SR as (A & B & C & D & _). destruct LG as ((t & T & U) & (d & DN) & _).
    assert (TN : t <> "").
    { destruct T as [(T & _)|T]; [assumption|]. apply (proj1 NM KStep). assumption. }
    rewrite <- (B t T). apply String.eqb_neq in TN. rewrite TN.
    rewrite <- (first_order_unique _ _ _ FO D) in *.
    assert (NE : dd <> []). { intros ->. destruct FO as (_ & FO & _). apply mentions_domain in DN. apply FO in DN. destruct DN. }
    replace (Nat.eqb (List.length dd) 0) with false by (symmetry; apply Nat.eqb_neq; destruct dd; [congruence|cbn; lia]).
    destruct (inner_loop_spec dd (cs_inner cs) (in_first_nodup _ _ FO) NE) as (_ & I2 & I3). cbv zeta in I2, I3.
    destruct (inner_loop_dim dd (cs_inner cs)) as (il' & num). cbn [fst snd] in I2, I3.
    rewrite <- (inner_choice_unique _ _ _ _ IC I3) in *. rewrite UA. cbn [andb].
    assert (CF : exists fold, choose_fold dd il cs vlen eff = Ok fold).
    { pose proof (in_first_nodup _ _ FO) as ND. pose proof (nth_one_in _ _ _ I2) as I.
      assert (CA : (vlen <= 1 \/ asked_size cs dd = vlen) \/ 1 < vlen /\ asked_size cs dd <> vlen) by lia.
      destruct CA as [Ca|(C1 & C2)]; [rewrite choose_as_asked by assumption; eauto|].
      destruct (le_lt_dec 2 (List.length dd)) as [L|L].
      - destruct eff.
        + destruct (choose_efficient dd il cs vlen ND I L C1 C2) as (g & G1 & _). eauto.
        + destruct (choose_plain dd il cs vlen ND I L C1 C2) as (P1 & _).
          destruct (string_dec (near_inner_dim dd) il) as [X|X].
          * exfalso. apply NS. repeat split; try assumption. apply next_to_last_near; [assumption|congruence].
          * destruct (P1 X) as (P3 & _). eauto.
      - destruct dd as [|a [|b dd]]; cbn in L; try lia; [congruence|]. rewrite choose_one_dim by assumption. eauto. }
    destruct CF as (fold & CF). rewrite CF. cbn [rbind]. eauto.
Qed.

Theorem inner_loop : forall vars cs vlen eff o, named vars cs -> set_dims vars cs vlen eff = Ok o ->
  inner_choice (d_domain o) (cs_inner cs) (d_inner o) /\
  1 <= d_inner_num o <= Z.of_nat (List.length (d_domain o)) /\
  nth_error (d_domain o) (Z.to_nat (d_inner_num o - 1)) = Some (d_inner o) /\
  (one_kind vars cs -> nth_error (d_stencil o) (Z.to_nat (d_inner_num o)) = Some (d_inner o)).
Proof.
  intros vars cs vlen eff o NM E. destruct (dims_found vars cs vlen eff o NM E) as (_ & _ & FO & _ & _ & ST).
  apply set_dims_ok in E as (f & fold & E1 & E2 & E3 & _ & -> & _). cbn in *.
  destruct (inner_loop_spec (f_domain f) (cs_inner cs) (in_first_nodup _ _ FO) E3) as (I1 & I2 & I3). cbv zeta in *.
  split; [assumption|]. split; [assumption|]. split; [assumption|]. intros K. rewrite (ST K).
  replace (Z.to_nat (snd (inner_loop_dim (f_domain f) (cs_inner cs)))) with (S (Z.to_nat (snd (inner_loop_dim (f_domain f) (cs_inner cs)) - 1))) by lia.
  exact I2.
Qed.

Lemma gt1_spec : forall dd g fi, NoDup dd ->
  dims (fold_gt1 (mkTuple (tup dd g) fi)) = filter (fun i => 1 <? snd i) (tup dd g).
Proof.
  intros dd g fi ND. unfold fold_gt1. cbn [dims].
  assert (H : forall l pre, NoDup (pre ++ l) ->
    dims (fold_left (fun t i => if 1 <? snd i then add_dim_back t (fst i) (snd i) else t) (tup l g)
      (mkTuple (filter (fun i => 1 <? snd i) (tup pre g)) true)) = filter (fun i => 1 <? snd i) (tup (pre ++ l) g)).
  { induction l as [|x l IH]; intros pre NP; [rewrite app_nil_r; reflexivity|].
    assert (NP' : NoDup ((pre ++ [x]) ++ l)) by (rewrite <- app_assoc; exact NP).
    cbn [tup map fold_left fst snd].
    assert (EQ : filter (fun i => 1 <? snd i) (tup (pre ++ [x]) g) =
                 filter (fun i => 1 <? snd i) (tup pre g) ++ (if 1 <? g x then [(x, g x)] else [])).
    { unfold tup. rewrite map_app, filter_app. reflexivity. }
    replace (pre ++ x :: l) with ((pre ++ [x]) ++ l) by (rewrite <- app_assoc; reflexivity).
    rewrite <- (IH (pre ++ [x]) NP'). rewrite EQ. destruct (1 <? g x) eqn:E; [|rewrite app_nil_r; reflexivity].
    unfold add_dim_back, lookup. cbn [dims first_inner].
    replace (lookup_list (filter (fun i => 1 <? snd i) (tup pre g)) x) with (@None Z); [reflexivity|].
    assert (N : ~ In x pre) by (apply NoDup_remove_2 in NP; rewrite in_app_iff in NP; tauto). clear - N.
    induction pre as [|y pre IHp]; [reflexivity|]. cbn. assert (y <> x) by (intros ->; apply N; left; reflexivity).
    specialize (IHp (fun I => N (or_intror I))). destruct (1 <? g y); [|exact IHp]. cbn. apply String.eqb_neq in H. rewrite H. exact IHp. }
  exact (H dd [] ND).
Qed.

Theorem fold_sizes : forall vars cs vlen eff o, named vars cs -> set_dims vars cs vlen eff = Ok o ->
  names (d_fold o) = d_domain o /\ first_inner (d_fold o) = cs_first_inner cs /\
  Forall (fun n => 1 <= n) (vals (d_fold o)) /\
  (1 < vlen -> zprod (vals (d_fold o)) = vlen) /\
  (vlen <= 1 \/ asked_size cs (d_domain o) = vlen -> vals (d_fold o) = map (fun d => Z.max 1 (asked cs d)) (d_domain o)) /\
  dims (d_fold_gt1 o) = filter (fun i => 1 <? snd i) (dims (d_fold o)) /\
  first_inner (d_fold_gt1 o) = cs_first_inner cs /\
  (cs_unaligned cs = true -> (List.length (dims (d_fold_gt1 o)) <= 1)%nat).
Proof.
  intros vars cs vlen eff o NM E. destruct (dims_found vars cs vlen eff o NM E) as (_ & _ & FO & _).
  destruct (inner_loop vars cs vlen eff o NM E) as (_ & _ & IN & _).
  apply set_dims_ok in E as (f & fold & E1 & E2 & E3 & E4 & -> & UA). cbn [d_step d_domain d_stencil d_misc d_inner d_inner_num d_fold d_fold_gt1 d_layout] in *.
  pose proof (in_first_nodup _ _ FO) as ND.
  destruct (choose_ok _ _ cs vlen eff fold ND (nth_one_in _ _ _ IN) E4) as (g & -> & G1 & G2 & G3). cbn [dims] in *.
  rewrite names_tup, vals_tup. split; [reflexivity|]. split; [reflexivity|]. split.
  { apply Forall_forall. intros x I. apply in_map_iff in I as (d & <- & I). auto. }
  split; [assumption|]. split; [intros C; apply map_ext_in; intros d I; apply G3; assumption|].
  split; [apply gt1_spec; assumption|]. split; [reflexivity|assumption].
Qed.

(* sizes as a function of the dim *)
Lemma as_function : forall (dd : list string) (f : list Z), NoDup dd -> List.length f = List.length dd ->
  exists h : string -> Z, f = map h dd.
Proof.
  induction dd as [|d dd IH]; intros [|x f] ND L; cbn in L; try discriminate; [exists (fun _ => 0); reflexivity|].
  inversion ND as [|? ? N ND']; subst. destruct (IH f ND' ltac:(congruence)) as (h & ->).
  exists (fun y => if String.eqb y d then x else h y). cbn. rewrite String.eqb_refl. f_equal. apply map_ext_in. intros y I.
  destruct (String.eqb y d) eqn:E; [|reflexivity]. apply String.eqb_eq in E. subst. contradiction.
Qed.

Lemma size_in_map : forall dd (h : string -> Z) d n, size_in dd (map h dd) d n <-> In d dd /\ n = h d.
Proof.
  intros dd h d n. split.
  - intros (i & A & B). split; [apply nth_one_in in A; assumption|]. rewrite nth_error_map, A in B. cbn in B. congruence.
  - intros (I & ->). apply In_nth_error in I as (i & E). exists i. split; [assumption|]. rewrite nth_error_map, E. reflexivity.
Qed.

Lemma completes_map : forall cs dd vlen (h : string -> Z), completes cs dd vlen (map h dd) <->
  (forall d, In d dd -> 1 <= h d) /\ zprod (map h dd) = vlen /\ (forall d, In d dd -> 0 < asked cs d -> h d = asked cs d).
Proof.
  intros cs dd vlen h. unfold completes, factorisation, keeps. rewrite map_length, Forall_forall. split.
  - intros ((_ & A & B) & C). split; [intros d I; apply A; apply in_map; assumption|]. split; [assumption|].
    clear A B. induction dd as [|x dd IH]; intros d I; [destruct I|]. cbn in C. inversion C; subst. destruct I as [->|I]; [assumption|].
    apply IH; assumption.
  - intros (A & B & C). split; [split; [reflexivity|split; [|assumption]]|].
    + intros x I. apply in_map_iff in I as (d & <- & I). auto.
    + clear A B. induction dd as [|x dd IH]; cbn; constructor; [apply C; left; reflexivity|]. apply IH. intros d I. apply C. right. assumption.
Qed.

Lemma zprod_le : forall (g h : string -> Z) l, (forall d, In d l -> 1 <= g d <= h d) -> 1 <= zprod (map g l) <= zprod (map h l).
Proof.
  intros g h. induction l as [|x l IH]; intros H; cbn; [lia|].
  specialize (H x (or_introl eq_refl)) as Hx. assert (1 <= zprod (map g l) <= zprod (map h l)) by (apply IH; intros; apply H; right; assumption). nia.
Qed.

Lemma request_completed : forall dd il cs vlen eff fold g, NoDup dd -> In il dd -> 1 < vlen ->
  choose_fold dd il cs vlen eff = Ok fold -> fold = mkTuple (tup dd g) true ->
  eff = true /\ (2 <= List.length dd)%nat \/ asked_size cs dd = vlen ->
  (exists f, completes cs dd vlen f /\ size_in dd f il (want cs il)) ->
  completes cs dd vlen (map g dd) /\ g il = want cs il /\
  forall f m, completes cs dd vlen f -> size_in dd f il (want cs il) -> others_le dd il f m -> others_le dd il (map g dd) m.
Proof.
  intros dd il cs vlen eff fold g ND I HV E EF C (f0 & CF0 & SF0).
  assert (GE : forall (g' : string -> Z), choose_fold dd il cs vlen eff = Ok (mkTuple (tup dd g') true) -> forall d, In d dd -> g d = g' d).
  { intros g' E'. rewrite EF in E. rewrite E in E'. injection E' as E'. clear - E'. induction dd as [|x dd IH]; intros d J; [destruct J|].
    cbn in E'. injection E' as E1 E2. destruct J as [->|J]; [assumption|]. apply IH; assumption. }
  assert (GM : forall (g' : string -> Z), (forall d, In d dd -> g d = g' d) -> map g dd = map g' dd) by (intros; apply map_ext_in; assumption).
  assert (HF : forall f, completes cs dd vlen f -> exists h, f = map h dd).
  { intros f ((L & _) & _). apply as_function; assumption. }
  assert (WL : forall h : string -> Z, (forall d, In d dd -> 1 <= h d) -> (forall d, In d dd -> 0 < asked cs d -> h d = asked cs d) ->
             forall d, In d dd -> 1 <= want cs d <= h d).
  { intros h H1 H2 d J. unfold want. specialize (H1 d J). specialize (H2 d J). pose proof (asked_nonneg cs d). lia. }
  destruct (Z.eq_dec (asked_size cs dd) vlen) as [A|A].
  - assert (GW : forall d, In d dd -> g d = want cs d) by (apply GE; apply choose_as_asked; auto).
    split; [|split; [apply GW; assumption|]].
    + apply completes_map. split; [intros d J; rewrite GW by assumption; unfold want; lia|]. split.
      * rewrite (GM _ GW). exact A.
      * intros d J P. rewrite GW by assumption. unfold want. lia.
    + intros f m CF SF OL. destruct (HF f CF) as (h & ->). apply completes_map in CF as (H1 & H2 & H3).
      intros d n S D. apply size_in_map in S as (J & ->). rewrite GW by assumption.
      assert (h d <= m) by (apply (OL d); [apply size_in_map; auto|assumption]). specialize (WL h H1 H3 d J). lia.
  - destruct C as [(-> & L)|C]; [|contradiction].
    destruct (choose_efficient dd il cs vlen ND I L HV A) as (k & K1 & K2 & K3 & K4 & K5). cbv zeta in *.
    assert (GK : forall d, In d dd -> g d = k d) by (apply GE; assumption).
    destruct (HF f0 CF0) as (h0 & ->). apply completes_map in CF0 as (H1 & H2 & H3). apply size_in_map in SF0 as (_ & S0).
    assert (AL : asked_size cs dd < vlen).
    { pose proof (zprod_le (want cs) h0 dd (WL h0 H1 H3)) as Z. change (zprod (map (want cs) dd)) with (asked_size cs dd) in Z. lia. }
    assert (SW : isz vlen cs dd il = want cs il).
    { apply (isz_spec vlen cs dd il ND I HV); [assumption|]. rewrite (zprod_others h0 il dd ND I) in H2. rewrite S0.
      exists (zprod (map h0 (others il dd))). lia. }
    rewrite SW in *.
    destruct K5 as (K6 & K7).
    { exists h0. split; [intros d J _; auto|]. rewrite (zprod_others h0 il dd ND I) in H2. rewrite S0. exact H2. }
    split; [|split; [rewrite GK by assumption; exact K4|]].
    + apply completes_map. split; [intros d J; rewrite GK by assumption; auto|]. split; [rewrite (GM _ GK); assumption|].
      intros d J P. rewrite GK by assumption. destruct (string_dec d il) as [->|D]; [|apply K6; assumption].
      rewrite K4. unfold want. lia.
    + intros f m CF SF OL. destruct (HF f CF) as (h & ->). apply completes_map in CF as (F1 & F2 & F3). apply size_in_map in SF as (_ & S).
      intros d n SI D. apply size_in_map in SI as (J & ->). rewrite GK by assumption. apply (K7 h m); try assumption.
      * intros x X Y. split; [auto|]. split; [auto|]. apply (OL x); [apply size_in_map; auto|assumption].
      * rewrite (zprod_others h il dd ND I) in F2. rewrite S. exact F2.
Qed.

Theorem request_kept : forall vars cs vlen eff o, named vars cs -> set_dims vars cs vlen eff = Ok o -> 1 < vlen ->
  let dd := d_domain o in let il := d_inner o in let r := vals (d_fold o) in
  let P f := completes cs dd vlen f /\ size_in dd f il (Z.max 1 (asked cs il)) in
  eff = true /\ (2 <= List.length dd)%nat \/ asked_size cs dd = vlen ->
  (exists f, P f) ->
  P r /\ forall f m, P f -> others_le dd il f m -> others_le dd il r m.
Proof.
  intros vars cs vlen eff o NM E HV. cbv zeta. intros C X. destruct (dims_found vars cs vlen eff o NM E) as (_ & _ & FO & _).
  destruct (inner_loop vars cs vlen eff o NM E) as (_ & _ & IN & _). apply nth_one_in in IN.
  apply set_dims_ok in E as (f & fold & E1 & E2 & E3 & E4 & -> & UA). cbn [d_step d_domain d_stencil d_misc d_inner d_inner_num d_fold d_fold_gt1 d_layout] in *.
  pose proof (in_first_nodup _ _ FO) as ND.
  destruct (choose_ok _ _ cs vlen eff fold ND IN E4) as (g & EG & G1 & G2 & G3).
  destruct (request_completed _ _ cs vlen eff fold g ND IN HV E4 EG C X) as (R1 & R2 & R3). rewrite EG. cbn [dims]. rewrite vals_tup.
  split; [split; [assumption|apply size_in_map; auto]|]. intros k m (K1 & K2) OL. apply (R3 k m); assumption.
Qed.

Theorem plain_fold : forall vars cs vlen o d n, named vars cs -> set_dims vars cs vlen false = Ok o -> 1 < vlen ->
  asked_size cs (d_domain o) <> vlen ->
  size_in (d_domain o) (vals (d_fold o)) d n ->
  (n <> 1 -> d = d_inner o \/ next_to_last (d_domain o) d) /\
  (d = d_inner o -> (2 <= List.length (d_domain o))%nat -> n < vlen /\ (n = 1 \/ n = asked cs d)).
Proof.
  intros vars cs vlen o d n NM E HV NA. destruct (dims_found vars cs vlen false o NM E) as (_ & _ & FO & _).
  destruct (inner_loop vars cs vlen false o NM E) as (_ & _ & IN & _). apply nth_one_in in IN.
  apply set_dims_ok in E as (f & fold & E1 & E2 & E3 & E4 & -> & UA). cbn [d_step d_domain d_stencil d_misc d_inner d_inner_num d_fold d_fold_gt1 d_layout] in *. set (dd := f_domain f) in *.
  pose proof (in_first_nodup _ _ FO) as ND. set (il := fst (inner_loop_dim dd (cs_inner cs))) in *.
  destruct (le_lt_dec 2 (List.length dd)) as [L|L].
  - destruct (choose_plain dd il cs vlen ND IN L HV NA) as (P1 & P2).
    destruct (string_dec (near_inner_dim dd) il) as [D|D]; [rewrite P2 in E4 by assumption; discriminate|].
    destruct (P1 D) as (P3 & _). rewrite P3 in E4. injection E4 as <-. cbn [dims]. rewrite vals_tup. intros S.
    apply size_in_map in S as (J & ->). destruct (isz_spec vlen cs dd il ND IN HV) as (S1 & _ & _ & S4).
    destruct (String.eqb d il) eqn:Q.
    + apply String.eqb_eq in Q. subst d. split; [left; reflexivity|]. intros _ _. split; [lia|].
      destruct S4 as [S4|S4]; [left; assumption|]. unfold want in S4. destruct (Z.eq_dec (isz vlen cs dd il) 1); [left; assumption|right; lia].
    + apply String.eqb_neq in Q. split; [|intros; congruence]. intros N1. right. apply next_to_last_near; [assumption|].
      destruct (String.eqb d (near_inner_dim dd)) eqn:Q2; [apply String.eqb_eq; assumption|congruence].
  - destruct dd as [|a [|b dd']]; cbn in L; try lia; [destruct IN|]. intros S. split; [|cbn; lia]. intros _. left.
    destruct S as (i & S & _). apply nth_one_in in S. destruct S as [<-|[]]. destruct IN as [<-|[]]. reflexivity.
Qed.

Theorem layout_dims : forall vars cs vlen eff o, named vars cs -> set_dims vars cs vlen eff = Ok o -> one_kind vars cs ->
  NoDup (d_layout o) /\
  good_layout (d_step o) (d_domain o) (d_misc o) (cs_inner_misc cs) (cs_outer_domain cs) (zprod (vals (d_fold o)) <=? 1) (d_layout o).
Proof.
  intros vars cs vlen eff o NM E (K1 & K2 & K3). destruct (dims_found vars cs vlen eff o NM E) as (_ & SN & FO & NDM & MI & _).
  assert (ND : NoDup (d_step o :: d_domain o ++ d_misc o)).
  { assert (DI : forall d, In d (d_domain o) -> domain_name vars cs d).
    { intros d I. apply mentions_domain. apply FO. assumption. }
    constructor.
    - rewrite in_app_iff. intros [I|I]; [exact (K1 _ SN (DI _ I))|]. apply MI in I. exact (K2 _ SN I).
    - pose proof (in_first_nodup _ _ FO) as NDD. revert NDD DI. generalize (d_domain o) as dd. induction dd as [|x dd IH]; intros NDD DI; [assumption|].
      inversion NDD; subst. cbn. constructor.
      + rewrite in_app_iff. intros [I|I]; [contradiction|]. apply MI in I. apply (K3 x); [apply DI; left; reflexivity|assumption].
      + apply IH; [assumption|]. intros d I. apply DI. right. assumption. }
  assert (G : good_layout (d_step o) (d_domain o) (d_misc o) (cs_inner_misc cs) (cs_outer_domain cs) (zprod (vals (d_fold o)) <=? 1) (d_layout o)).
  { apply set_dims_ok in E as (f & fold & E1 & E2 & E3 & E4 & -> & UA). cbn [d_step d_domain d_stencil d_misc d_inner d_inner_num d_fold d_fold_gt1 d_layout] in *.
    change (vals (mkTuple (dims fold) (cs_first_inner cs))) with (vals fold). rewrite <- product_zprod. apply layout_good; assumption. }
  split; [|assumption]. destruct G as (P & _). apply (Permutation_NoDup (Permutation_sym P)). assumption.
Qed.

Theorem foldable_iff : forall vars cs vlen eff o v, named vars cs -> set_dims vars cs vlen eff = Ok o ->
  NoDup (map fst (dv_dims v)) ->
  is_foldable o v = true <->
  (exists d, In (d, KDomain) (dv_dims v)) /\
  (forall d n, size_in (d_domain o) (vals (d_fold o)) d n -> 1 < n -> In (d, KDomain) (dv_dims v)).
Proof.
  intros vars cs vlen eff o v NM E NV. destruct (dims_found vars cs vlen eff o NM E) as (_ & _ & FO & _).
  destruct (inner_loop vars cs vlen eff o NM E) as (_ & _ & IN & _). apply nth_one_in in IN.
  apply set_dims_ok in E as (f & fold & E1 & E2 & E3 & E4 & -> & UA). cbn [d_step d_domain d_stencil d_misc d_inner d_inner_num d_fold d_fold_gt1 d_layout] in *.
  pose proof (in_first_nodup _ _ FO) as ND. set (dd := f_domain f) in *.
  destruct (choose_ok _ _ cs vlen eff fold ND IN E4) as (g & EG & G1 & G2 & G3). rewrite EG in *. cbn [dims] in *. rewrite vals_tup.
  unfold is_foldable. cbn [d_fold_gt1 dims]. rewrite gt1_spec by assumption.
  set (G := filter (fun i => 1 <? snd i) (tup dd g)).
  set (gn := filter (fun d => 1 <? g d) dd).
  assert (GN : map fst G = gn).
  { unfold G, gn, tup. clear. induction dd as [|x dd IH]; [reflexivity|]. cbn. destruct (1 <? g x); cbn; rewrite IH; reflexivity. }
  assert (GL : forall d, (match lookup (mkTuple G (cs_first_inner cs)) d with Some _ => true | None => false end) = name_in gn d).
  { intros d. unfold lookup. cbn [dims]. rewrite <- GN. clear. induction G as [|(x & n) l IH]; [reflexivity|]. cbn.
    rewrite (String.eqb_sym d x). destruct (String.eqb x d); [reflexivity|exact IH]. }
  set (nf := filter (fun i : string * ikind => match snd i with KDomain => match lookup (mkTuple G (cs_first_inner cs)) (fst i) with
               | Some _ => true | None => false end | _ => false end) (dv_dims v)).
  assert (NFI : forall d, In d (map fst nf) <-> In (d, KDomain) (dv_dims v) /\ In d gn).
  { intros d. unfold nf. rewrite in_map_iff. split.
    - intros ((x & k) & Ex & I). cbn in Ex. subst x. apply filter_In in I as (I & Q). cbn [fst snd] in Q. destruct k; try discriminate.
      rewrite GL in Q. apply name_in_In in Q. auto.
    - intros (I & J). exists (d, KDomain). split; [reflexivity|]. apply filter_In. split; [assumption|]. cbn [fst snd]. rewrite GL. apply name_in_In. assumption. }
  assert (NNF : NoDup (map fst nf)).
  { unfold nf. clear - NV. induction (dv_dims v) as [|x l IH]; cbn; [constructor|]. cbn in NV. inversion NV; subst.
    match goal with |- NoDup (map fst (if ?b then _ else _)) => destruct b end; [|apply IH; assumption]. cbn. constructor; [|apply IH; assumption].
    intros I. apply H1. apply in_map_iff in I as (y & <- & I). apply filter_In in I as (I & _). apply in_map. assumption. }
  assert (NGN : NoDup gn) by (apply NoDup_filter; assumption).
  replace (List.length nf) with (List.length (map fst nf)) by apply map_length.
  replace (List.length G) with (List.length gn) by (rewrite <- GN; apply map_length).
  set (nd := filter (fun i : string * ikind => match snd i with KDomain => true | _ => false end) (dv_dims v)).
  assert (HD : Nat.eqb (List.length nd) 0 = false <-> exists d, In (d, KDomain) (dv_dims v)).
  { rewrite Nat.eqb_neq. split.
    - intros N. destruct nd as [|(d & k) r] eqn:Q; [cbn in N; congruence|]. assert (I : In (d, k) nd) by (rewrite Q; left; reflexivity).
      unfold nd in I. apply filter_In in I as (I & K). cbn in K. destruct k; try discriminate. exists d. assumption.
    - intros (d & I) Z. apply length_zero_iff_nil in Z. assert (J : In (d, KDomain) nd) by (apply filter_In; auto). rewrite Z in J. destruct J. }
  assert (HA : Nat.eqb (List.length (map fst nf)) (List.length gn) = true <-> forall d, In d gn -> In (d, KDomain) (dv_dims v)).
  { rewrite Nat.eqb_eq. split.
    - intros L d I. assert (IC : incl gn (map fst nf)).
      { apply NoDup_length_incl; [assumption|lia|]. intros x X. apply NFI in X as (_ & X). assumption. }
      apply IC in I. apply NFI in I as (I & _). assumption.
    - intros H. apply Nat.le_antisymm; apply NoDup_incl_length; try assumption.
      + intros x X. apply NFI in X as (_ & X). assumption.
      + intros x X. apply NFI. auto. }
  destruct (Nat.eqb (List.length nd) 0) eqn:Q.
  - split; [discriminate|]. intros (H & _). apply HD in H. discriminate.
  - rewrite HA. split.
    + intros H. split; [apply HD; reflexivity|]. intros d n S N. apply size_in_map in S as (I & ->). apply H. apply filter_In. split; [assumption|]. lia.
    + intros (_ & H) d I. apply filter_In in I as (I & N). apply (H d (g d)); [apply size_in_map; auto|lia].
Qed.
