From Coq Require Import String QArith Qabs Lqa.
From Verif Require Import Base MixedRadix Idiv_Model Layout_Model ParFor_Model Tuple_Model Tuple_Proofs Var_Model Var_Spec Var_Proofs
  Compare_Model Compare_Spec.
Local Open Scope Z_scope.
Local Open Scope list_scope.

(* ---- tolerance ---- *)
Definition fp_eqv (a b : fp) : Prop := fp_le a b /\ fp_le b a.

Lemma fp_le_trans : forall a b c, fp_le a b -> fp_le b c -> fp_le a c.
Proof.
  intros [x|[|]|] [y|[|]|] [z|[|]|]; cbn; auto; try contradiction. intros; lra.
Qed.
Lemma fp_lt_le : forall a b, fp_lt a b = true -> ~ fp_le b a.
Proof.
  intros [x|[|]|] [y|[|]|]; cbn; try discriminate; auto.
  intros E L. apply negb_true_iff in E. apply Qle_bool_iff in L. congruence.
Qed.
Lemma fp_not_le : forall a b, fp_le a a -> fp_le b b -> ~ fp_le b a -> fp_lt a b = true.
Proof.
  intros [x|[|]|] [y|[|]|]; cbn; try contradiction; auto; try tauto.
  intros _ _ N. apply negb_true_iff. apply not_true_iff_false. intros E. apply N. apply Qle_bool_iff. assumption.
Qed.
Lemma fp_neg_le : forall a b, fp_le a b -> fp_le (fp_neg b) (fp_neg a).
Proof. intros [x|[|]|] [y|[|]|]; cbn; auto; try contradiction. intros; lra. Qed.

Section Tol.
  Variable rep : Q -> Prop.
  Variable rnd : Q -> fp.
  Hypothesis R : rounding rep rnd.

  Lemma rnd_le : forall x y, (x <= y)%Q -> fp_le (rnd x) (rnd y).
  Proof using R. apply R. Qed.
  Lemma rnd_refl : forall x, fp_le (rnd x) (rnd x).
  Proof using R. intros. apply rnd_le. lra. Qed.
  Lemma rnd_ext : forall x y, (x == y)%Q -> fp_eqv (rnd x) (rnd y).
  Proof using R. intros x y E. split; apply rnd_le; lra. Qed.
  Lemma rnd_zero : fp_eqv (rnd 0%Q) (Fin 0%Q).
  Proof using R.
    destruct R as (_ & _ & S). destruct (S 0%Q) as (A & B).
    pose proof (rnd_ext (-0)%Q 0%Q) as (C & D); [lra|].
    pose proof (fp_le_trans _ _ _ D A) as P. pose proof (fp_le_trans _ _ _ B C) as P'. unfold fp_eqv.
    destruct (rnd 0%Q) as [z|[|]|]; cbn in *; try contradiction. split; lra.
  Qed.
  Lemma abs_rnd : forall x, fp_eqv (fp_abs (rnd x)) (rnd (Qabs x)).
  Proof using R.
    intros x. destruct rnd_zero as (Z1 & Z2). destruct (Qlt_le_dec x 0) as [L|L].
    - destruct (rnd_ext (Qabs x) (- x)%Q) as (A & B); [rewrite Qabs_neg by lra; reflexivity|].
      destruct R as (_ & _ & S). destruct (S x) as (C & D).
      pose proof (rnd_le x 0%Q ltac:(lra)) as N. pose proof (fp_le_trans _ _ _ N Z1) as N'.
      assert (K : fp_eqv (fp_abs (rnd x)) (fp_neg (rnd x))).
      { unfold fp_eqv. destruct (rnd x) as [z|[|]|]; cbn in *; try contradiction; auto.
        rewrite Qabs_neg by assumption. split; lra. }
      destruct K as (K1 & K2). split; eauto using fp_le_trans.
    - destruct (rnd_ext (Qabs x) x) as (A & B); [rewrite Qabs_pos by lra; reflexivity|].
      pose proof (rnd_le 0%Q x ltac:(lra)) as N. pose proof (fp_le_trans _ _ _ Z2 N) as N'.
      assert (K : fp_eqv (fp_abs (rnd x)) (rnd x)).
      { unfold fp_eqv. destruct (rnd x) as [z|[|]|]; cbn in *; try contradiction; auto.
        rewrite Qabs_pos by assumption. split; lra. }
      destruct K as (K1 & K2). split; eauto using fp_le_trans.
  Qed.
  Lemma rnd_lt : forall x y, fp_lt (fp_abs (rnd x)) (fp_abs (rnd y)) = true -> (Qabs x < Qabs y)%Q.
  Proof using R.
    intros x y E. destruct (Qlt_le_dec (Qabs x) (Qabs y)) as [L|L]; [assumption|exfalso].
    apply fp_lt_le in E. apply E. destruct (abs_rnd x) as (A & B), (abs_rnd y) as (C & D).
    pose proof (rnd_le _ _ L). eauto using fp_le_trans.
  Qed.

  Variable eps : Q.
  Hypothesis Hrep : rep eps.
  Hypothesis Hpos : (0 < eps)%Q.

  Lemma fin_eps : fp_eqv (Fin eps) (fp_abs (rnd eps)).
  Proof using All.
    destruct R as (I1 & _ & _). destruct (I1 eps Hrep) as (A & B). unfold fp_eqv.
    destruct (rnd eps) as [z|[|]|]; cbn in *; try contradiction. rewrite Qabs_pos by lra. split; lra.
  Qed.

  Lemma big_ref : forall y, fp_lt (Fin 1) (fp_abs (Fin y)) = true <-> (1 < Qabs y)%Q.
  Proof using.
    intros y. cbn. rewrite negb_true_iff, <- not_true_iff_false. rewrite Qle_bool_iff. split; intros; lra.
  Qed.

  Lemma within_sound : forall a b, within_tolerance rnd (Fin eps) a b = true ->
    fp_eq a b = true \/
    exists x y, a = Fin x /\ b = Fin y /\
      ((Qabs (x - y) < eps)%Q \/ (1 < Qabs y)%Q /\ (Qabs (x - y) < Qabs y * eps)%Q).
  Proof using All.
    intros a b. unfold within_tolerance. destruct (fp_eq a b); [auto|]. intros E. right.
    destruct b as [y|s|].
    - destruct (fp_lt (Fin 1) (fp_abs (Fin y))) eqn:G.
      + apply big_ref in G. destruct a as [x|t|].
        * exists x, y. split; [reflexivity|]. split; [reflexivity|]. right. split; [assumption|].
          cbn [fp_sub fp_mul] in E. apply rnd_lt in E. rewrite Qabs_Qmult in E.
          rewrite (Qabs_pos eps) in E by lra. assumption.
        * exfalso. cbn in E. destruct (fp_abs (rnd (y * eps)%Q)) as [z|[|]|]; discriminate.
        * exfalso. cbn in E. destruct (fp_abs (rnd (y * eps)%Q)) as [z|[|]|]; discriminate.
      + destruct a as [x|t|].
        * exists x, y. split; [reflexivity|]. split; [reflexivity|]. left. cbn [fp_sub] in E.
          assert (E' : fp_lt (fp_abs (rnd (x - y)%Q)) (fp_abs (rnd eps)) = true).
          { apply fp_lt_le in E. destruct fin_eps as (A & B). destruct (abs_rnd (x - y)%Q) as (C & D).
            pose proof (fp_le_trans _ _ _ C D). apply fp_not_le; eauto using fp_le_trans. }
          apply rnd_lt in E'. rewrite (Qabs_pos eps) in E' by lra. assumption.
        * cbn in E. discriminate.
        * cbn in E. discriminate.
    - exfalso. cbn [fp_abs] in E. destruct (fp_lt (Fin 1) (Inf false)) eqn:G; [|discriminate].
      destruct a as [x|t|]; cbn in E.
      + destruct (Qeq_bool eps 0); discriminate.
      + destruct (Bool.eqb t s); cbn in E; [discriminate|destruct (Qeq_bool eps 0); discriminate].
      + discriminate.
    - exfalso. destruct a as [x|t|]; cbn in E; discriminate.
  Qed.

  Lemma eq_same : forall a b, fp_eq a b = true -> fp_same a b.
  Proof using.
    intros [x|s|] [y|t|] E; cbn in E; try discriminate.
    - constructor. apply Qeq_bool_iff. assumption.
    - apply Bool.eqb_prop in E. subst. constructor.
  Qed.
  Lemma same_eq : forall a b, fp_same a b -> within_tolerance rnd (Fin eps) a b = true.
  Proof using.
    intros a b H. unfold within_tolerance. replace (fp_eq a b) with true; [reflexivity|symmetry].
    destruct H; cbn; [apply Qeq_bool_iff; assumption|destruct s; reflexivity].
  Qed.
  Lemma within_sound' : forall a b, within_tolerance rnd (Fin eps) a b = true ->
    fp_same a b \/
    exists x y, a = Fin x /\ b = Fin y /\
      ((Qabs (x - y) < eps)%Q \/ (1 < Qabs y)%Q /\ (Qabs (x - y) < Qabs y * eps)%Q).
  Proof using All.
    intros a b E. destruct (within_sound a b E) as [H|H]; [left; apply eq_same; assumption|right; assumption].
  Qed.

  Lemma within_complete : forall x y q1 q2, rep q1 -> rep q2 ->
    (Qabs (x - y) <= q1)%Q -> (q1 < q2)%Q ->
    (q2 <= eps)%Q /\ (Qabs y <= 1)%Q \/ (q2 <= Qabs y * eps)%Q /\ (1 < Qabs y)%Q ->
    within_tolerance rnd (Fin eps) (Fin x) (Fin y) = true.
  Proof using All.
    intros x y q1 q2 R1 R2 L1 L2 L3. unfold within_tolerance. destruct (fp_eq (Fin x) (Fin y)); [reflexivity|].
    destruct R as (I1 & _). destruct (I1 q1 R1) as (A1 & B1). destruct (I1 q2 R2) as (A2 & B2).
    destruct (abs_rnd (x - y)%Q) as (C & D). pose proof (rnd_le _ _ L1) as M1.
    assert (U : fp_le (fp_abs (rnd (x - y)%Q)) (Fin q1)) by eauto using fp_le_trans.
    assert (X : forall e, fp_le (Fin q2) e -> fp_lt (fp_abs (rnd (x - y)%Q)) e = true).
    { intros e He. apply fp_not_le.
      - destruct (fp_abs (rnd (x - y)%Q)) as [z|[|]|]; cbn in *; auto; lra.
      - destruct e as [z|[|]|]; cbn in *; auto; lra.
      - intros N. pose proof (fp_le_trans _ _ _ He (fp_le_trans _ _ _ N U)) as Q. cbn in Q. lra. }
    cbn [fp_sub].
    destruct L3 as [(L3 & L4)|(L3 & L4)].
    - replace (fp_lt (Fin 1) (fp_abs (Fin y))) with false.
      + apply X. cbn. assumption.
      + symmetry. apply not_true_iff_false. intros G. apply big_ref in G. lra.
    - replace (fp_lt (Fin 1) (fp_abs (Fin y))) with true by (symmetry; apply big_ref; assumption).
      cbn [fp_mul]. apply X. destruct (abs_rnd (y * eps)%Q) as (F & G).
      assert (L5 : (q2 <= Qabs (y * eps))%Q) by (rewrite Qabs_Qmult, (Qabs_pos eps) by lra; assumption).
      pose proof (rnd_le _ _ L5). eauto using fp_le_trans.
  Qed.

  Lemma close_accepted : forall a b,
    fp_same a b \/
    (exists x y q1 q2, a = Fin x /\ b = Fin y /\ rep q1 /\ rep q2 /\
      (Qabs (x - y) <= q1)%Q /\ (q1 < q2)%Q /\
      ((q2 <= eps)%Q /\ (Qabs y <= 1)%Q \/ (q2 <= Qabs y * eps)%Q /\ (1 < Qabs y)%Q)) ->
    within_tolerance rnd (Fin eps) a b = true.
  Proof using All.
    intros a b [H|(x & y & q1 & q2 & -> & -> & R1 & R2 & L1 & L2 & L3)]; [apply same_eq; assumption|].
    apply (within_complete x y q1 q2); assumption.
  Qed.
End Tol.

(* ---- compare ---- *)
Section Cmp.
  Variable V : Type.
  Variable tol : V -> V -> bool.

  Definition okpt (ds : list vdim) (p : list Z) : bool := forallb (fun b => b) (map2 index_compared ds p).

  Lemma api_in : forall ds pt, Forall wf_dim ds ->
    Forall (fun d => 1 <= d_dom d /\ (d_domain d = true -> d_lofs d = 0)) ds ->
    in_sizes (map d_alloc ds) pt ->
    (okpt ds (map2 api_index ds pt) = true <-> Forall2 result_index ds (map2 api_index ds pt)).
  Proof using.
    intros ds pt Hw Hd Hin. unfold okpt. revert pt Hin.
    induction Hw as [|d ds Wd Hw IH]; intros pt Hin; inversion Hin as [|? x ? pt' Hx Hin']; subst.
    - cbn. split; [constructor|reflexivity].
    - inversion Hd as [|? ? (Hd1 & Hl) Hd']; subst. rewrite !map2_cons. cbn [forallb].
      rewrite andb_true_iff. specialize (IH Hd' _ Hin'). rewrite IH.
      assert (K : index_compared d (api_index d x) = true <-> result_index d (api_index d x)).
      { destruct Wd as (W1 & W2 & W3 & W4 & W5 & W6 & W7). unfold index_compared, result_index, api_index, d_alloc in *.
        destruct (d_step d) eqn:Es.
        - destruct (W6 eq_refl) as (Ed & _ & _). rewrite Ed in *. split; [lia|reflexivity].
        - destruct (d_domain d) eqn:Ed; [rewrite Hl by reflexivity; lia|]. split; [lia|reflexivity]. }
      rewrite K. split; [intros [A B]; constructor; assumption|intros A; inversion A; auto].
  Qed.

  Lemma api_inj : forall ds a b, List.length a = List.length ds -> List.length b = List.length ds ->
    map2 api_index ds a = map2 api_index ds b -> a = b.
  Proof using.
    induction ds as [|d ds IH]; intros [|x a] [|y b] L1 L2 E; cbn in L1, L2; try discriminate; [reflexivity|].
    rewrite !map2_cons in E. injection E as E1 E2. f_equal; [unfold api_index in E1; destruct (d_step d); lia|].
    apply IH; try lia. assumption.
  Qed.

  Lemma api_onto : forall ds p, Forall wf_dim ds -> 
    Forall (fun d => 1 <= d_dom d /\ (d_domain d = true -> d_lofs d = 0)) ds ->
    Forall2 result_index ds p ->
    exists pt, in_sizes (map d_alloc ds) pt /\ map2 api_index ds pt = p.
  Proof using.
    intros ds p Hw Hd H. induction H as [|d x ds p Hx H IH]; [exists []; split; [constructor|reflexivity]|].
    inversion Hw as [|? ? Wd Hw']; inversion Hd as [|? ? (Hd1 & Hl) Hd']; subst.
    destruct (IH Hw' Hd') as (pt & Hin & E).
    exists ((if d_step d then x else x - (d_rofs d + d_lofs d)) :: pt). split.
    - cbn [map]. constructor; [|assumption].
      destruct Wd as (W1 & W2 & W3 & W4 & W5 & W6 & W7). unfold result_index, d_alloc in *.
      destruct (d_step d) eqn:Es; [destruct (W6 eq_refl) as (Ed & _ & _); rewrite Ed; lia|].
      destruct (d_domain d) eqn:Ed; [rewrite Hl by reflexivity; lia|lia].
    - rewrite map2_cons, E. f_equal. unfold api_index. destruct (d_step d); lia.
  Qed.

  Lemma result_valid : forall ds p, Forall wf_dim ds -> 
    Forall (fun d => 1 <= d_dom d /\ (d_domain d = true -> d_lofs d = 0)) ds ->
    Forall2 result_index ds p -> Forall2 (valid_index true) ds p.
  Proof using.
    intros ds p Hw Hd H. induction H as [|d x ds p Hx H IH]; [constructor|].
    inversion Hw as [|? ? Wd Hw']; inversion Hd as [|? ? (Hd1 & Hl) Hd']; subst.
    constructor; [|auto]. destruct Wd as (W1 & W2 & W3 & W4 & W5 & W6 & W7). unfold result_index, valid_index in *.
    destruct (d_step d) eqn:Es; [auto|]. right. destruct (d_domain d) eqn:Ed; [rewrite Hl by reflexivity; lia|lia].
  Qed.

  Lemma same_result : forall ds es p, Forall2 same_place ds es -> Forall2 result_index ds p -> Forall2 result_index es p.
  Proof using.
    intros ds es p H. revert p. induction H as [|d e ds es (A & B & C & D & F) H IH]; intros p Hp; inversion Hp; subst; constructor; auto.
    unfold result_index in *. rewrite <- A, <- B, <- C, <- D. destruct (d_step d); [assumption|]. rewrite <- F by reflexivity. assumption.
  Qed.
  Lemma same_sound : forall ds es, Forall wf_dim ds -> Forall2 same_place ds es ->
    Forall (fun d => 1 <= d_dom d /\ (d_domain d = true -> d_lofs d = 0)) ds ->
    Forall (fun d => 1 <= d_dom d /\ (d_domain d = true -> d_lofs d = 0)) es.
  Proof using.
    intros ds es Hw H. induction H as [|d e ds es (A & B & C & D & F) H IH]; intros Hd; [constructor|].
    inversion Hd as [|? ? (G1 & G2) Hd']; inversion Hw as [|? ? Wd Hw']; subst. constructor; [|auto].
    split; [lia|]. intros E. rewrite <- F; [apply G2; congruence|].
    destruct (d_step d) eqn:Es; [|reflexivity]. destruct Wd as (_ & _ & _ & _ & _ & W6 & _). destruct (W6 Es). congruence.
  Qed.

  Lemma read_is_get : forall s idxs, wf_var (st_var s) -> valid_indices true (st_var s) idxs ->
    (exists m, st_mem s = Some m) ->
    exists a, read_elem V s idxs = Ok a /\ get_element true s idxs = Ok a.
  Proof using.
    intros [y m] idxs Hw Hv (m' & E). cbn [st_var st_mem] in *. subst m. exists (m' (get_elem_ptr y idxs)).
    rewrite get_element_ok by assumption. unfold read_elem. cbn [st_mem st_var].
    rewrite (in_storage_valid true) by assumption. auto.
  Qed.

  Lemma compare_fold : forall (v r : cvar V) pts e, comparable (c_st v) (c_st r) ->
    Forall (in_sizes (map d_alloc (v_dims (st_var (c_st v))))) pts ->
    exists n, 
      rfold (compare_point V tol v r) pts e = Ok (e + n) /\
      mismatches tol (c_st v) (c_st r)
        (filter (okpt (v_dims (st_var (c_st v)))) (map (map2 api_index (v_dims (st_var (c_st v)))) pts)) n.
  Proof using.
    intros v r pts e (Wv & Wr & Hd & Hs & Mv & Mr) Hp. revert e.
    destruct Wv as (Wd & Wv'). destruct Wr as (We & Wr').
    set (ds := v_dims (st_var (c_st v))) in *.
    induction Hp as [|pt pts Hpt Hp IH]; intros e.
    - exists 0. split; [cbn; f_equal; lia|constructor].
    - cbn [rfold map filter]. unfold compare_point at 1. fold ds. fold (okpt ds (map2 api_index ds pt)).
      destruct (okpt ds (map2 api_index ds pt)) eqn:E.
      + cbn [negb]. apply api_in in E; try assumption.
        destruct (read_is_get (c_st v) (map2 api_index ds pt)) as (a & Ra & Ga);
          [split; assumption|apply result_valid; assumption|assumption|].
        destruct (read_is_get (c_st r) (map2 api_index ds pt)) as (b & Rb & Gb);
          [split; assumption| |assumption|].
        { apply result_valid; [assumption|apply (same_sound ds); assumption|apply (same_result ds); assumption]. }
        rewrite Ra, Rb. cbn [rbind]. destruct (tol a b) eqn:T; cbn [negb].
        * destruct (IH e) as (n & F & M). exists n. split; [assumption|]. eapply mis_same; eassumption.
        * destruct (IH (e + 1)) as (n & F & M). exists (n + 1). split; [rewrite F; f_equal; lia|].
          eapply mis_other; eassumption.
      + cbn [negb rbind]. apply IH.
  Qed.

  Lemma mis_nonneg : forall v r l n, mismatches tol v r l n -> 0 <= n.
  Proof using. induction 1; lia. Qed.
  Lemma mis_zero : forall v r l n, mismatches tol v r l n ->
    (n = 0 <-> forall p a b, In p l -> get_element true v p = Ok a -> get_element true r p = Ok b -> tol a b = true).
  Proof using.
    intros v r l n H. induction H as [|p l n a b H IH Ga Gb T|p l n a b H IH Ga Gb T].
    - split; [intros _ p a b []|reflexivity].
    - rewrite IH. split; intros K q x y; [|intros; eapply K; eauto; right; assumption].
      intros [->|Hq] Gx Gy; [congruence|eauto].
    - pose proof (mis_nonneg _ _ _ _ H). split; [lia|]. intros K. rewrite (K p a b) in T; auto; [discriminate|left; reflexivity].
  Qed.

  Lemma vals_allocs : forall fi (v : cvar V), List.length (c_names v) = List.length (v_dims (st_var (c_st v))) ->
    vals (get_allocs V fi v) = map d_alloc (v_dims (st_var (c_st v))).
  Proof using.
    intros fi v HL. unfold vals, get_allocs. cbn [dims]. rewrite <- (map_length d_alloc) in HL.
    revert HL. generalize (map d_alloc (v_dims (st_var (c_st v)))). induction (c_names v) as [|n ns IH]; intros [|a l] HL;
      cbn in *; try discriminate; [reflexivity|]. f_equal. apply IH. lia.
  Qed.
  Lemma allocs_pos : forall ds, Forall wf_dim ds ->
    Forall (fun d => 1 <= d_dom d /\ (d_domain d = true -> d_lofs d = 0)) ds ->
    Forall (fun s => 0 < s) (map d_alloc ds).
  Proof using.
    intros ds Hw Hd. rewrite Forall_map. rewrite !Forall_forall in *. intros d Hi. specialize (Hw d Hi). specialize (Hd d Hi).
    destruct Hw as (W1 & W2 & _). unfold d_alloc. destruct (d_domain d); lia.
  Qed.

  Lemma compare_counts : forall c fi (v r : cvar V), 1 <= omp_num_threads c ->
    List.length (c_names v) = List.length (v_dims (st_var (c_st v))) ->
    comparable (c_st v) (c_st r) -> are_dims_and_sizes_same V fi v r = true ->
    exists pts n, NoDup pts /\ (forall p, In p pts <-> Forall2 result_index (v_dims (st_var (c_st v))) p) /\
      mismatches tol (c_st v) (c_st r) pts n /\ compare V tol c fi v (Some r) = Ok n.
  Proof using.
    intros c fi v r Hc HL HC HS. pose proof HC as ((Wd & _) & _ & Hd & _).
    set (ds := v_dims (st_var (c_st v))) in *.
    destruct (tuple_visit_complete (get_allocs V fi v)) as (vis & _ & Hpar & Hnd & Hin & _).
    { rewrite vals_allocs by assumption. apply allocs_pos; assumption. }
    rewrite vals_allocs in Hin by assumption. fold ds in Hin.
    destruct (compare_fold v r (map fst vis) 0 HC) as (n & F & M).
    { apply Forall_forall. intros p Hp. apply Hin. assumption. }
    fold ds in M.
    exists (filter (okpt ds) (map (map2 api_index ds) (map fst vis))), n. split; [|split; [|split]].
    - apply NoDup_filter. clear -Hnd Hin. revert Hnd Hin. generalize (map fst vis) as l.
      intros l Hnd Hin. assert (Hin' : forall p, In p l -> in_sizes (map d_alloc ds) p) by (intros; apply Hin; assumption).
      clear Hin. induction l as [|p l IH]; [constructor|]. inversion Hnd; subst. cbn [map]. constructor.
      + intros N. apply in_map_iff in N. destruct N as (q & E & Hq). apply api_inj in E.
        * subst. contradiction.
        * pose proof (Forall2_length' _ _ _ _ _ (Hin' q (or_intror Hq))) as L. rewrite map_length in L. lia.
        * pose proof (Forall2_length' _ _ _ _ _ (Hin' p (or_introl eq_refl))) as L. rewrite map_length in L. lia.
      + apply IH; [assumption|]. intros; apply Hin'; right; assumption.
    - intros p. rewrite filter_In, in_map_iff. split.
      + intros ((pt & <- & Hpt) & E). apply api_in in E; auto. apply Hin. assumption.
      + intros Hp. destruct (api_onto ds p Wd Hd Hp) as (pt & Hpt & E). split.
        * exists pt. split; [assumption|]. apply Hin. assumption.
        * rewrite <- E in *. apply api_in; assumption.
    - assumption.
    - unfold compare. rewrite HS. cbn [negb]. rewrite (Hpar c Hc). cbn [rbind]. rewrite F. f_equal.
  Qed.

  (* an element at any step is the element of one of the slots *)
  Definition slot_of (d : vdim) (x : Z) : Z := if d_step d then wrap_step x (d_dom d) else x.

  Lemma slot_same : forall ds p, Forall wf_dim ds -> List.length p = List.length ds ->
    same_elem ds p (map2 slot_of ds p).
  Proof using.
    induction ds as [|d ds IH]; intros [|x p] Hw HL; cbn in HL; try discriminate; [exact I|].
    inversion Hw as [|? ? Wd Hw']; subst. rewrite map2_cons. cbn [same_elem]. split; [|apply IH; [assumption|lia]].
    unfold same_in_dim, slot_of. destruct (d_step d) eqn:Es; [|reflexivity].
    destruct Wd as (_ & _ & _ & _ & _ & W6 & _). destruct (W6 Es) as (_ & W & _).
    apply wrap_eq; [assumption|]. unfold wrap_step. rewrite !Idiv_Proofs.imod_flr_spec by lia.
    symmetry. apply Z.mod_mod. lia.
  Qed.
  Lemma slot_valid : forall ds p, Forall2 (valid_index true) ds p -> Forall2 (valid_index true) ds (map2 slot_of ds p).
  Proof using.
    induction 1 as [|d x ds p Hx H IH]; [constructor|]. rewrite map2_cons. constructor; [|assumption].
    unfold slot_of. destruct (d_step d) eqn:Es; [left; auto|assumption].
  Qed.
  Lemma slot_result : forall ds p, Forall wf_dim ds ->
    Forall (fun d => 1 <= d_dom d /\ (d_domain d = true -> d_lofs d = 0)) ds ->
    Forall2 (valid_index true) ds p ->
    Forall2 (fun d x => d_domain d = true -> d_rofs d <= x < d_rofs d + d_dom d) ds p ->
    Forall2 result_index ds (map2 slot_of ds p).
  Proof using.
    intros ds p Hw Hd H. induction H as [|d x ds p Hx H IH]; intros Hr; [constructor|].
    inversion Hw as [|? ? Wd Hw']; inversion Hd as [|? ? (Hd1 & Hl) Hd']; inversion Hr as [|? ? ? ? Hr1 Hr']; subst.
    rewrite map2_cons. constructor; [|auto]. destruct Wd as (W1 & W2 & W3 & W4 & W5 & W6 & W7).
    unfold result_index, slot_of, valid_index in *. destruct (d_step d) eqn:Es; [apply wrap_range; lia|].
    destruct (d_domain d) eqn:Ed; [auto|]. destruct (W5 eq_refl) as (P1 & P2 & _). destruct Hx as [[_ K]|K]; [discriminate|lia].
  Qed.
  Lemma map2_place : forall ds es p, Forall2 same_place ds es -> map2 slot_of ds p = map2 slot_of es p.
  Proof using.
    intros ds es p H. revert p. induction H as [|d e ds es (A & B & C & D & F) H IH]; intros [|x p]; try reflexivity.
    rewrite !map2_cons, IH. unfold slot_of. rewrite <- A, <- C. reflexivity.
  Qed.
  Lemma get_valid : forall (s : vstate V) p a, get_element true s p = Ok a -> valid_indices true (st_var s) p.
  Proof using.
    intros [y m] p a E. cbn [st_var].
    unfold get_element in E. cbn [st_mem st_var] in E. destruct m as [m|]; [|discriminate].
    destruct (Nat.eq_dec (List.length p) (List.length (v_dims y))) as [L|L].
    - destruct (check_indices_spec y true true true p L) as (c & [(K & _)|(K & E')]); [assumption|].
      rewrite E' in E. discriminate.
    - unfold check_indices in E. replace (Nat.eqb (List.length p) (List.length (v_dims y))) with false in E
        by (symmetry; apply Nat.eqb_neq; assumption). discriminate.
  Qed.
  Lemma get_slot : forall (s : vstate V) p, wf_var (st_var s) -> (exists m, st_mem s = Some m) ->
    valid_indices true (st_var s) p ->
    get_element true s (map2 slot_of (v_dims (st_var s)) p) = get_element true s p.
  Proof using.
    intros [y m] p Hw (m' & E) Hv. cbn [st_var st_mem] in *. subst m.
    assert (Hv' : valid_indices true y (map2 slot_of (v_dims y) p)) by (apply slot_valid; assumption).
    rewrite !get_element_ok by assumption. f_equal. f_equal. symmetry.
    apply (proj2 (var_storage y p Hw Hv)); [assumption|]. apply slot_same; [apply Hw|apply (valid_len _ _ _ Hv)].
  Qed.

  Lemma compare_zero : forall c fi (v r : cvar V), 1 <= omp_num_threads c ->
    List.length (c_names v) = List.length (v_dims (st_var (c_st v))) ->
    comparable (c_st v) (c_st r) -> are_dims_and_sizes_same V fi v r = true ->
    exists n, compare V tol c fi v (Some r) = Ok n /\ 0 <= n /\ (n = 0 <-> all_accepted tol (c_st v) (c_st r)).
  Proof using.
    intros c fi v r Hc HL HC HS. destruct (compare_counts c fi v r Hc HL HC HS) as (pts & n & _ & Hin & M & E).
    exists n. split; [assumption|]. split; [eapply mis_nonneg; eassumption|].
    rewrite (mis_zero _ _ _ _ M). destruct HC as (Wv & Wr & Hd & Hs & Mv & Mr). split.
    - intros K p a b Hp Ga Gb.
      pose proof (get_valid _ _ _ Ga) as Vv. pose proof (get_valid _ _ _ Gb) as Vr.
      apply (K (map2 slot_of (v_dims (st_var (c_st v))) p)).
      + apply Hin. apply slot_result; try assumption. apply Wv.
      + rewrite get_slot; assumption.
      + rewrite (map2_place _ _ p Hs). rewrite get_slot; assumption.
    - intros K p a b Hp. apply K. apply Hin in Hp. destruct Wv as (Wd & _). clear -Hp Wd.
      induction Hp as [|d x ds p Hx H IH]; [constructor|]. inversion Wd as [|? ? W Wd']; subst. constructor; [|auto].
      intros Ed. unfold result_index in Hx. rewrite Ed in Hx. destruct (d_step d) eqn:Es; [|assumption].
      destruct W as (_ & _ & _ & _ & _ & W6 & _). destruct (W6 Es). congruence.
  Qed.

  Lemma product_pos : forall t, Forall (fun s => 0 < s) (vals t) -> 0 < product t.
  Proof using.
    intros t H. unfold product. destruct H as [|a l Ha H]; [lia|].
    revert a Ha. induction H as [|b l Hb H IH]; intros a Ha; cbn [fold_left]; [assumption|]. apply IH. nia.
  Qed.

  Lemma combine_eq : forall (a b : list (string * Z)), List.length a = List.length b ->
    forallb (fun p => String.eqb (fst p) (snd p)) (combine (map fst a) (map fst b)) = true ->
    forallb (fun p => fst p =? snd p) (combine (map snd a) (map snd b)) = true -> a = b.
  Proof using.
    induction a as [|[n x] a IH]; intros [|[k y] b] L E1 E2; cbn in *; try discriminate; [reflexivity|].
    apply andb_true_iff in E1. destruct E1 as (A1 & B1). apply andb_true_iff in E2. destruct E2 as (A2 & B2).
    apply String.eqb_eq in A1. apply Z.eqb_eq in A2. subst. f_equal. apply IH; auto.
  Qed.
  Lemma tuple_eq_dims : forall a b, tuple_eq a b = true <-> dims a = dims b.
  Proof using.
    intros a b. unfold tuple_eq, are_dims_same, names, vals. split.
    - intros E. apply andb_true_iff in E. destruct E as (E1 & E2).
      destruct (Nat.eqb (List.length (dims a)) (List.length (dims b))) eqn:L; [|discriminate].
      apply Nat.eqb_eq in L. cbn [negb] in E1. apply combine_eq; assumption.
    - intros <-. rewrite Nat.eqb_refl. cbn [negb].
      assert (X : forall l : list string, forallb (fun p => String.eqb (fst p) (snd p)) (combine l l) = true)
        by (induction l; cbn; [reflexivity|rewrite String.eqb_refl; assumption]).
      assert (Y : forall l : list Z, forallb (fun p => fst p =? snd p) (combine l l) = true)
        by (induction l; cbn; [reflexivity|rewrite Z.eqb_refl; assumption]).
      rewrite X, Y. reflexivity.
  Qed.
  Lemma combine_inj : forall (a b : list string) (x y : list Z), List.length a = List.length x ->
    List.length b = List.length y -> combine a x = combine b y -> a = b /\ x = y.
  Proof using.
    induction a as [|n a IH]; intros [|k b] [|u x] [|w y] L1 L2 E; cbn in *; try discriminate; [auto|].
    injection E as -> -> E. destruct (IH b x y) as (-> & ->); auto.
  Qed.

  Lemma layout_same : forall fi (v r : cvar V), same_layout v r -> are_dims_and_sizes_same V fi v r = true.
  Proof using.
    intros fi [nv [y m]] [nr [z w]] (E1 & E2 & E3 & H). unfold are_dims_and_sizes_same, get_dim_tuple. cbn [c_names c_st st_var] in *.
    assert (A : map d_alloc (v_dims y) = map d_alloc (v_dims z) /\ map d_vec_alloc (v_dims y) = map d_vec_alloc (v_dims z) /\
                map d_vlen (v_dims y) = map d_vlen (v_dims z)).
    { clear -H. induction H as [|d e ds es (A & B & C & D & F) H (I1 & I2 & I3)]; [auto|]. cbn [map].
      assert (G : d_alloc d = d_alloc e) by (unfold d_alloc; rewrite A, B, C, D; reflexivity).
      unfold d_vec_alloc in *. rewrite F, G, I1, I2, I3. auto. }
    destruct A as (A1 & A2 & A3).
    assert (S1 : storage_size y = storage_size z).
    { unfold storage_size, VLEN, fold_lens. rewrite E2, E3, A1, A2, A3. reflexivity. }
    rewrite S1, Z.eqb_refl. cbn [andb]. apply tuple_eq_dims. cbn [dims]. rewrite E1, E2.
    destruct (v_vec z); rewrite ?A1, ?A2; reflexivity.
  Qed.

  Lemma compare_incompatible : forall c fi (v r : cvar V),
    List.length (c_names v) = List.length (v_dims (st_var (c_st v))) ->
    List.length (c_names r) = List.length (v_dims (st_var (c_st r))) ->
    wf_var (st_var (c_st v)) ->
    Forall (fun d => 1 <= d_dom d) (v_dims (st_var (c_st v))) ->
    c_names v <> c_names r \/
    v_vec (st_var (c_st v)) = v_vec (st_var (c_st r)) /\
    map (if v_vec (st_var (c_st v)) then d_vec_alloc else d_alloc) (v_dims (st_var (c_st v))) <>
    map (if v_vec (st_var (c_st v)) then d_vec_alloc else d_alloc) (v_dims (st_var (c_st r))) ->
    exists n, 0 < n /\ compare V tol c fi v (Some r) = Ok n /\ compare V tol c fi v None = Ok n.
  Proof using.
    intros c fi v r L1 L2 (Hw & _) Hd N. exists (product (get_allocs V fi v)). split; [|split; [|reflexivity]].
    - apply product_pos. rewrite vals_allocs by assumption. rewrite Forall_map. rewrite !Forall_forall in *.
      intros d Hi. specialize (Hw d Hi). specialize (Hd d Hi). destruct Hw as (W1 & W2 & _).
      unfold d_alloc. destruct (d_domain d); lia.
    - unfold compare. destruct (are_dims_and_sizes_same V fi v r) eqn:E; [exfalso|reflexivity].
      unfold are_dims_and_sizes_same in E. apply andb_true_iff in E. destruct E as (_ & E).
      apply tuple_eq_dims in E. unfold get_dim_tuple in E. cbn [dims] in E.
      apply combine_inj in E; [|rewrite map_length; assumption|rewrite map_length; assumption].
      destruct E as (E1 & E2). destruct N as [N|(N1 & N2)]; [contradiction|]. rewrite <- N1 in E2. contradiction.
  Qed.

  Lemma data_fold : forall c fi vs rs e, 1 <= omp_num_threads c ->
    Forall2 (fun v r => List.length (c_names v) = List.length (v_dims (st_var (c_st v))) /\
                        comparable (c_st v) (c_st r) /\ same_layout v r) vs rs ->
    exists n, rfold (fun errs p => rbind (compare V tol c fi (fst p) (Some (snd p))) (fun n => Ok (errs + n)))
                (combine vs rs) e = Ok (e + n) /\ 0 <= n /\
      (n = 0 <-> Forall2 (fun v r => all_accepted tol (c_st v) (c_st r)) vs rs).
  Proof using.
    intros c fi vs rs e Hc H. revert e. induction H as [|v r vs rs (A & B & C) H IH]; intros e.
    - exists 0. cbn. split; [f_equal; lia|]. split; [lia|]. split; [constructor|reflexivity].
    - destruct (compare_zero c fi v r Hc A B (layout_same fi v r C)) as (n & E & P & Z0).
      destruct (IH (e + n)) as (k & F & Q0 & K). exists (n + k). cbn [combine rfold fst snd].
      rewrite E. cbn [rbind]. rewrite F. split; [f_equal; lia|]. split; [lia|]. split.
      + intros Hz. constructor; [apply Z0; lia|apply K; lia].
      + intros HF. inversion HF; subst. apply Z0 in H3. apply K in H5. lia.
  Qed.

  Lemma passed_spec : forall c fi vs rs, 1 <= omp_num_threads c ->
    Forall2 (fun v r => List.length (c_names v) = List.length (v_dims (st_var (c_st v))) /\
                        comparable (c_st v) (c_st r) /\ same_layout v r) vs rs ->
    exists b, test_passed V tol c fi vs rs = Ok b /\
      (b = true <-> Forall2 (fun v r => all_accepted tol (c_st v) (c_st r)) vs rs).
  Proof using.
    intros c fi vs rs Hc H. destruct (data_fold c fi vs rs 0 Hc H) as (n & E & P & K).
    exists (n =? 0). unfold test_passed, compare_data.
    rewrite (Forall2_length' _ _ _ _ _ H), Nat.eqb_refl. cbn [negb]. rewrite E. cbn [rbind].
    split; [reflexivity|]. rewrite Z.eqb_eq. exact K.
  Qed.

  Lemma other_number : forall c fi (vs rs : list (cvar V)), List.length vs <> List.length rs ->
    test_passed V tol c fi vs rs = Ok false.
  Proof using.
    intros c fi vs rs N. unfold test_passed, compare_data.
    replace (Nat.eqb (List.length vs) (List.length rs)) with false by (symmetry; apply Nat.eqb_neq; assumption).
    reflexivity.
  Qed.
End Cmp.
