From Coq Require Import QArith Qcanon.
From Verif Require Import Base MixedRadix ParFor_Model Tuple_Model Tuple_Proofs Layout_Model Layout_Proofs
  Var_Model Var_Spec Var_Proofs Slice_Model Slice_Spec Slice_Proofs.
Open Scope Z_scope.

(* ---- non-strict slices ---- *)

(* corners of the part of the slice inside the allocation *)
Definition clip_first (d : vdim) (x : Z) : Z := Z.max x (get_first_local_index d).
Definition clip_last (d : vdim) (x : Z) : Z := Z.min x (get_last_local_index d).

Lemma check_index_first : forall d x, x <= get_last_local_index d -> get_first_local_index d <= get_last_local_index d ->
  snd (check_index false true d x) = clip_first d x.
Proof.
  intros d x H H'. unfold check_index, clip_first. cbn [negb orb]. rewrite andb_false_r.
  destruct ((get_first_local_index d <=? x) && (x <=? get_last_local_index d)) eqn:E; cbn.
  - lia.
  - replace (get_last_local_index d <? x) with false by lia. destruct (x <? get_first_local_index d) eqn:E1; lia.
Qed.

Lemma check_index_last : forall d x, get_first_local_index d <= x -> get_first_local_index d <= get_last_local_index d ->
  snd (check_index false true d x) = clip_last d x.
Proof.
  intros d x H H'. unfold check_index, clip_last. cbn [negb orb]. rewrite andb_false_r.
  destruct ((get_first_local_index d <=? x) && (x <=? get_last_local_index d)) eqn:E; cbn.
  - lia.
  - replace (x <? get_first_local_index d) with false by lia. destruct (get_last_local_index d <? x) eqn:E1; lia.
Qed.

Lemma check_clip : forall v (f : vdim -> Z -> Z) idxs, length idxs = length (v_dims v) ->
  Forall2 (fun d x => snd (check_index false true d x) = f d x) (v_dims v) idxs ->
  exists b, check_indices v false false true idxs = Ok (b, map2 f (v_dims v) idxs).
Proof.
  intros v f idxs HL H. unfold check_indices.
  replace (Nat.eqb (length idxs) (length (v_dims v))) with true by (symmetry; apply Nat.eqb_eq; assumption).
  cbn [negb andb]. eexists. do 2 f_equal. clear HL.
  induction H as [|d x ds xs Hd H IH]; [reflexivity|]. rewrite !map2_cons. cbn [map]. rewrite Hd, IH. reflexivity.
Qed.


Lemma clip_slice : forall ds first last p, length first = length ds -> length last = length ds ->
  in_slice (map2 clip_first ds first) (map2 clip_last ds last) p <->
  in_slice first last p /\ Forall2 (valid_index false) ds p.
Proof.
  induction ds as [|d ds IH]; intros [|f first] [|l last] p H1 H2; cbn in H1, H2; try discriminate.
  - destruct p; cbn; split; intros H; try tauto; try exact I. split; [exact I|constructor].
  - rewrite !map2_cons. destruct p as [|x p]; cbn [in_slice]; [tauto|].
    rewrite IH by lia. unfold clip_first, clip_last, get_first_local_index, get_last_local_index.
    split.
    + intros (A & B & C). split; [split; [lia|assumption]|]. constructor; [right; lia|assumption].
    + intros ((A & B) & C). inversion C as [|? ? ? ? C1 C2]; subst.
      destruct C1 as [(C1 & _)|C1]; [discriminate|]. split; [lia|]. auto.
Qed.

Lemma clip_valid : forall v (f : vdim -> Z -> Z) idxs,
  Forall2 (fun d x => get_first_local_index d <= f d x <= get_last_local_index d) (v_dims v) idxs ->
  valid_indices false v (map2 f (v_dims v) idxs).
Proof.
  intros v f idxs H. unfold valid_indices. induction H as [|d x ds xs Hd H IH]; [constructor|].
  rewrite map2_cons. constructor; [|assumption]. right.
  unfold get_first_local_index, get_last_local_index in Hd. lia.
Qed.

Lemma Forall2_combine : forall A B C (P : A -> B * C -> Prop) ds f l,
  Forall2 P ds (combine f l) -> length f = length ds -> length l = length ds ->
  Forall2 (fun d x => exists y, P d (x, y)) ds f /\ Forall2 (fun d y => exists x, P d (x, y)) ds l.
Proof.
  induction ds as [|d ds IH]; intros [|x f] [|y l] H H1 H2; cbn in *; try discriminate.
  - split; constructor.
  - inversion H; subst. destruct (IH f l) as (H3 & H4); auto. split; constructor; eauto.
Qed.

Lemma Forall2_impl_in : forall A B (P Q : A -> B -> Prop) l1 l2,
  (forall a b, In a l1 -> P a b -> Q a b) -> Forall2 P l1 l2 -> Forall2 Q l1 l2.
Proof.
  intros A B P Q l1 l2 H F. induction F; constructor; [apply H; [left; reflexivity|assumption]|].
  apply IHF. intros; apply H; [right; assumption|assumption].
Qed.

Lemma set_dirty_in_window : forall v first last,
  length first = length (v_dims v) -> length last = length (v_dims v) ->
  step_in_window v first -> step_in_window v last ->
  set_dirty_in_slice v first last = v.
Proof.
  intros v first last H1 H2 Hf Hl. unfold set_dirty_in_slice, step_in_window in *.
  destruct (v_dims v) as [|d ds] eqn:Ed; [reflexivity|].
  destruct (d_step d) eqn:Es; [|reflexivity].
  destruct first as [|f first]; [discriminate|]. destruct last as [|l last]; [discriminate|]. cbn [nth].
  specialize (Hf eq_refl). specialize (Hl eq_refl).
  assert (K : fold_left update_valid_step (zrange f (l + 1)) d = d).
  { assert (A : forall t, In t (zrange f (l + 1)) -> update_valid_step d t = d).
    { intros t Ht. apply zrange_In in Ht. unfold update_valid_step.
      destruct (t <? get_first_local_index d) eqn:E1; [lia|].
      destruct (get_last_local_index d <? t) eqn:E2; [lia|reflexivity]. }
    induction (zrange f (l + 1)) as [|t r IH]; [reflexivity|]. cbn [fold_left].
    rewrite A by (left; reflexivity). apply IH. intros; apply A; right; assumption. }
  rewrite K. unfold with_head_dim. rewrite Ed. destruct v; cbn in *. subst. reflexivity.
Qed.

Lemma visit_clipped : forall c v first last, omp_cfg_ok c ->
  Forall nonempty_dim (v_dims v) ->
  length first = length (v_dims v) -> length last = length (v_dims v) ->
  Forall2 meets_alloc (v_dims v) (combine first last) ->
  let f' := map2 clip_first (v_dims v) first in
  let l' := map2 clip_last (v_dims v) last in
  valid_indices false v f' /\ valid_indices false v l' /\
  exists vis, visit_elements_in_slice c v false false None first last = Ok (vis, slice_size f' l') /\
    (0 < slice_size f' l' -> visits_ok f' l' vis) /\
    (slice_size f' l' = 0 -> vis = []).
Proof.
  intros c v first last Hc Hn L1 L2 Hm. cbn zeta.
  rewrite Forall_forall in Hn.
  destruct (Forall2_combine _ _ _ _ _ _ _ Hm L1 L2) as (M1 & M2).
  assert (V1 : valid_indices false v (map2 clip_first (v_dims v) first)).
  { apply clip_valid. eapply Forall2_impl_in; [|exact M1]. intros d x Hd (y & Hy). specialize (Hn d Hd).
    unfold nonempty_dim, meets_alloc, clip_first in *. cbn in Hy. lia. }
  assert (V2 : valid_indices false v (map2 clip_last (v_dims v) last)).
  { apply clip_valid. eapply Forall2_impl_in; [|exact M2]. intros d x Hd (y & Hy). specialize (Hn d Hd).
    unfold nonempty_dim, meets_alloc, clip_last in *. cbn in Hy. lia. }
  split; [exact V1|]. split; [exact V2|].
  destruct (check_clip v clip_first first L1) as (b1 & E1).
  { eapply Forall2_impl_in; [|exact M1]. intros d x Hd (y & Hy). apply check_index_first; [apply Hy|apply Hn; assumption]. }
  destruct (check_clip v clip_last last L2) as (b2 & E2).
  { eapply Forall2_impl_in; [|exact M2]. intros d x Hd (y & Hy). apply check_index_last; [apply Hy|apply Hn; assumption]. }
  destruct (visit_valid c v false false None _ _ Hc V1 V2 I) as (vis & Ev & R).
  exists vis. split; [|exact R].
  unfold visit_elements_in_slice in *. rewrite !check_valid in Ev by assumption. rewrite E1, E2. exact Ev.
Qed.

Lemma set_same_vis : forall V v (m : Z -> V) (x : V) f' l' vis,
  wf_var v -> valid_indices false v f' -> valid_indices false v l' ->
  (0 < slice_size f' l' -> visits_ok f' l' vis) -> (slice_size f' l' = 0 -> vis = []) ->
  exists m', do_set_same v x vis m = Ok m' /\
   (forall p, in_slice f' l' p -> get_element false (mkState v (Some m')) p = Ok x) /\
   (forall b, (forall p, in_slice f' l' p -> ~ same_elem (v_dims v) p b) ->
     get_element false (mkState v (Some m')) b = get_element false (mkState v (Some m)) b).
Proof.
  intros V v m x f' l' vis Hw Hf Hl Hv He.
  pose proof (slice_size_nonneg f' l').
  destruct (Z.eq_dec (slice_size f' l') 0) as [Z0|Z0].
  - rewrite (He Z0). cbn [do_set_same]. exists m. split; [reflexivity|]. split; [|reflexivity].
    intros p Hp. apply in_slice_size in Hp. lia.
  - specialize (Hv ltac:(lia)). pose proof Hv as (V1 & V2 & V3).
    destruct (do_set_same_spec V v x vis m) as (m' & E & R1 & R2).
    + intros p k Hi. apply (elem_at_valid false); [assumption|]. apply V3 in Hi. destruct Hi.
      eapply in_slice_valid; [exact Hf|exact Hl|assumption].
    + exists m'. split; [exact E|]. split.
      * intros p Hp. rewrite get_element_ok; [|assumption|eapply in_slice_valid; [exact Hf|exact Hl|assumption]].
        f_equal. eapply R1. apply V3. split; [eassumption|reflexivity].
      * intros b Hb. unfold get_element. cbn [st_mem st_var].
        destruct (Nat.eq_dec (length b) (length (v_dims v))) as [L|L].
        -- destruct (check_indices_spec v false true true b L) as (cl & [(Y & ->)|(_ & ->)]); [|reflexivity].
           cbn [rbind]. destruct (in_storage v (get_elem_ptr v b)); [|reflexivity].
           f_equal. apply R2. intros Hi. apply in_map_ptr in Hi. destruct Hi as (p & k & Hi & Ea).
           apply V3 in Hi. destruct Hi as (Hp & _). apply (Hb p Hp).
           apply (var_storage v p Hw); [| |congruence].
           ++ apply valid_weaken with (b := false). eapply in_slice_valid; [exact Hf|exact Hl|assumption].
           ++ apply valid_weaken with (b := false). exact Y.
        -- unfold check_indices. replace (Nat.eqb (length b) (length (v_dims v))) with false
             by (symmetry; apply Nat.eqb_neq; assumption). reflexivity.
Qed.

Lemma nonstrict_set_same : forall V c v (m : Z -> V) x first last,
  omp_cfg_ok c -> wf_var v -> Forall nonempty_dim (v_dims v) ->
  length first = length (v_dims v) -> length last = length (v_dims v) ->
  Forall2 meets_alloc (v_dims v) (combine first last) ->
  step_in_window v first -> step_in_window v last ->
  let s := mkState v (Some m) in
  exists s' n f' l', set_elements_in_slice_same c false s x first last false = Ok (s', n) /\
    n = slice_size f' l' /\
    (forall p, in_slice f' l' p <-> in_slice first last p /\ valid_indices false v p) /\
    st_var s' = v /\
    (forall p, in_slice first last p -> valid_indices false v p -> get_element false s' p = Ok x) /\
    (forall b, valid_indices false v b -> ~ in_slice first last b -> get_element false s' b = get_element false s b).
Proof.
  intros V c v m x first last Hc Hw Hn L1 L2 Hm S1 S2. cbn zeta.
  destruct (visit_clipped c v first last Hc Hn L1 L2 Hm) as (V1 & V2 & vis & Ev & Hv & He).
  destruct (set_same_vis V v m x _ _ vis Hw V1 V2 Hv He) as (m' & E & R1 & R2).
  exists (mkState v (Some m')), (slice_size (map2 clip_first (v_dims v) first) (map2 clip_last (v_dims v) last)), (map2 clip_first (v_dims v) first), (map2 clip_last (v_dims v) last).
  assert (IS : forall p, in_slice (map2 clip_first (v_dims v) first) (map2 clip_last (v_dims v) last) p <->
               in_slice first last p /\ valid_indices false v p).
  { intros p. apply clip_slice; assumption. }
  split.
  { unfold set_elements_in_slice_same. cbn [st_mem st_var]. rewrite Ev. cbn [rbind fst snd].
    rewrite E. cbn [rbind]. rewrite set_dirty_in_window by assumption. reflexivity. }
  split; [reflexivity|]. split; [exact IS|]. split; [reflexivity|]. split.
  - intros p Hp Hvp. apply R1. apply IS. auto.
  - intros b Hb Hnb. apply R2. intros p Hp Hse. apply Hnb.
    apply IS in Hp. destruct Hp as (Hp & Hvp).
    replace b with p; [assumption|].
    destruct Hw as (Hw & _).
    apply (in_slice_same v (map get_first_local_index (v_dims v)) (map get_last_local_index (v_dims v)) p b Hw);
      try assumption.
    + clear -Hn. unfold valid_indices. induction Hn; cbn; constructor; [|assumption].
      right. unfold nonempty_dim, get_first_local_index, get_last_local_index in *. lia.
    + clear -Hn. unfold valid_indices. induction Hn; cbn; constructor; [|assumption].
      right. unfold nonempty_dim, get_first_local_index, get_last_local_index in *. lia.
    + clear -Hvp. unfold valid_indices in Hvp. induction Hvp; cbn; [exact I|]. split; [|assumption].
      destruct H as [(D & _)|H]; [discriminate|]. unfold get_first_local_index, get_last_local_index. lia.
    + clear -Hb. unfold valid_indices in Hb. induction Hb; cbn; [exact I|]. split; [|assumption].
      destruct H as [(D & _)|H]; [discriminate|]. unfold get_first_local_index, get_last_local_index. lia.
Qed.

(* ---- reductions ---- *)

Lemma qsum_cons : forall a l, qsum (a :: l) = (a + qsum l)%Qc.
Proof. reflexivity. Qed.
Lemma qsum_app : forall a b, qsum (a ++ b) = (qsum a + qsum b)%Qc.
Proof. induction a; intros; cbn [app]; [change (qsum []) with 0%Qc; ring|]. rewrite !qsum_cons, IHa. ring. Qed.
Lemma qprod_cons : forall a l, qprod (a :: l) = (a * qprod l)%Qc.
Proof. reflexivity. Qed.
Lemma qprod_app : forall a b, qprod (a ++ b) = (qprod a * qprod b)%Qc.
Proof. induction a; intros; cbn [app]; [change (qprod []) with 1%Qc; ring|]. rewrite !qprod_cons, IHa. ring. Qed.
Lemma qsum_perm : forall a b, Permutation a b -> qsum a = qsum b.
Proof. induction 1; rewrite ?qsum_cons; [reflexivity|congruence|ring|congruence]. Qed.
Lemma qprod_perm : forall a b, Permutation a b -> qprod a = qprod b.
Proof. induction 1; rewrite ?qprod_cons; [reflexivity|congruence|ring|congruence]. Qed.

Lemma partition_perm : forall A (g : A -> Z) n l, (forall x, In x l -> 0 <= g x < n) ->
  Permutation (concat (map (fun i => filter (fun x => g x =? i) l) (zseq n))) l.
Proof.
  intros A g n. induction l as [|x l IH]; intros H.
  - replace (concat (map (fun i => filter (fun x : A => g x =? i) []) (zseq n))) with (@nil A); [constructor|].
    induction (zseq n); [reflexivity|assumption].
  - assert (Hx : 0 <= g x < n) by (apply H; left; reflexivity).
    assert (IH' : Permutation (concat (map (fun i => filter (fun y => g y =? i) l) (zseq n))) l).
    { apply IH. intros; apply H; right; assumption. }
    replace (zseq n) with (zrange 0 n) in * by (unfold zrange; rewrite Z.sub_0_r; rewrite <- map_id; apply map_ext; intros; lia).
    rewrite (zrange_app 0 (g x) n) in * by lia. rewrite (zrange_cons (g x) n) in * by lia.
    rewrite map_app, concat_app in *. cbn [map concat] in *.
    cbn [filter]. rewrite Z.eqb_refl.
    assert (E : forall r, ~ In (g x) r ->
      map (fun i => if g x =? i then x :: filter (fun y => g y =? i) l else filter (fun y => g y =? i) l) r =
      map (fun i => filter (fun y => g y =? i) l) r).
    { intros r Hr. apply map_ext_in. intros i Hi. destruct (g x =? i) eqn:Ei; [|reflexivity].
      apply Z.eqb_eq in Ei. subst. tauto. }
    rewrite !E by (rewrite zrange_In; lia).
    eapply Permutation_trans; [|apply perm_skip; exact IH']. cbn [app].
    symmetry. apply Permutation_middle.
Qed.

Lemma qltb_spec : forall a b, qltb a b = true <-> (a < b)%Qc.
Proof.
  intros. unfold qltb. rewrite Qclt_alt. destruct (a ?= b)%Qc; split; congruence.
Qed.
Lemma qltb_false : forall a b, qltb a b = false <-> (b <= a)%Qc.
Proof.
  intros. split; intros H.
  - apply Qcnot_lt_le. intros C. apply qltb_spec in C. congruence.
  - destruct (qltb a b) eqn:E; [|reflexivity]. apply qltb_spec in E. exfalso. eapply Qcle_not_lt; eassumption.
Qed.

Lemma qmax_cases : forall a b, (qmax a b = a /\ (b <= a)%Qc) \/ (qmax a b = b /\ (a <= b)%Qc).
Proof.
  intros. unfold qmax. destruct (qltb a b) eqn:E.
  - right. split; [reflexivity|]. apply Qclt_le_weak, qltb_spec. assumption.
  - left. split; [reflexivity|]. apply qltb_false. assumption.
Qed.
Lemma qmin_cases : forall a b, (qmin a b = a /\ (a <= b)%Qc) \/ (qmin a b = b /\ (b <= a)%Qc).
Proof.
  intros. unfold qmin. destruct (qltb b a) eqn:E.
  - right. split; [reflexivity|]. apply Qclt_le_weak, qltb_spec. assumption.
  - left. split; [reflexivity|]. apply qltb_false. assumption.
Qed.

Lemma fold_qmax : forall l a, let r := fold_left qmax l a in
  (r = a \/ In r l) /\ (a <= r)%Qc /\ (forall y, In y l -> (y <= r)%Qc).
Proof.
  induction l as [|x l IH]; intros a; cbn.
  - split; [auto|]. split; [apply Qcle_refl|tauto].
  - destruct (IH (qmax a x)) as (A & B & C).
    destruct (qmax_cases a x) as [(E & L)|(E & L)]; rewrite E in *.
    + split; [tauto|]. split; [assumption|]. intros y [<-|Hy]; [|auto]. eapply Qcle_trans; eassumption.
    + split; [destruct A as [->|A]; auto|]. split; [eapply Qcle_trans; eassumption|].
      intros y [<-|Hy]; auto.
Qed.
Lemma fold_qmin : forall l a, let r := fold_left qmin l a in
  (r = a \/ In r l) /\ (r <= a)%Qc /\ (forall y, In y l -> (r <= y)%Qc).
Proof.
  induction l as [|x l IH]; intros a; cbn.
  - split; [auto|]. split; [apply Qcle_refl|tauto].
  - destruct (IH (qmin a x)) as (A & B & C).
    destruct (qmin_cases a x) as [(E & L)|(E & L)]; rewrite E in *.
    + split; [tauto|]. split; [assumption|]. intros y [<-|Hy]; [|auto]. eapply Qcle_trans; eassumption.
    + split; [destruct A as [->|A]; auto|]. split; [eapply Qcle_trans; eassumption|].
      intros y [<-|Hy]; auto.
Qed.

Lemma red_visit_fold : forall l r,
  let r' := fold_left red_visit l r in
  r_mask r' = r_mask r /\ r_nred r' = r_nred r /\
  (in_mask (r_mask r) yk_sum_reduction = true -> r_sum r' = (r_sum r + qsum l)%Qc) /\
  (in_mask (r_mask r) yk_product_reduction = true -> r_prod r' = (r_prod r * qprod l)%Qc) /\
  (in_mask (r_mask r) yk_max_reduction = true -> r_max r' = fold_left qmax l (r_max r)) /\
  (in_mask (r_mask r) yk_min_reduction = true -> r_min r' = fold_left qmin l (r_min r)).
Proof.
  induction l as [|x l IH]; intros r; cbn zeta.
  - cbn [fold_left]. repeat split; intros; try reflexivity; change (qsum []) with 0%Qc; change (qprod []) with 1%Qc; ring.
  - cbn [fold_left]. destruct (IH (red_visit r x)) as (A & B & C & D & E & F).
    cbn [red_visit r_mask r_nred r_sum r_prod r_max r_min] in *.
    repeat split; auto.
    + intros H. rewrite C by assumption. rewrite H, qsum_cons. ring.
    + intros H. rewrite D by assumption. rewrite H, qprod_cons. ring.
    + intros H. rewrite E by assumption. rewrite H. reflexivity.
    + intros H. rewrite F by assumption. rewrite H. reflexivity.
Qed.

Lemma red_join_fold : forall l p,
  let r' := fold_left red_join l p in
  r_mask r' = r_mask p /\ r_nred r' = r_nred p /\
  r_sum r' = (r_sum p + qsum (map r_sum l))%Qc /\
  r_prod r' = (r_prod p * qprod (map r_prod l))%Qc /\
  r_max r' = fold_left qmax (map r_max l) (r_max p) /\
  r_min r' = fold_left qmin (map r_min l) (r_min p).
Proof.
  induction l as [|x l IH]; intros p; cbn zeta.
  - cbn [fold_left map]. repeat split; change (qsum []) with 0%Qc; change (qprod []) with 1%Qc; ring.
  - cbn [fold_left map]. destruct (IH (red_join p x)) as (A & B & C & D & E & F).
    cbn [red_join r_mask r_nred r_sum r_prod r_max r_min] in *.
    repeat split; auto.
    + rewrite C, qsum_cons. ring.
    + rewrite D, qprod_cons. ring.
Qed.

Lemma slice_values_spec : forall v m vis,
  (forall p k, In (p, k) vis -> elem_at v p = Ok (get_elem_ptr v p)) ->
  slice_values v m vis = Ok (map (fun pk => (snd pk, m (get_elem_ptr v (fst pk)))) vis).
Proof.
  intros v m. induction vis as [|[p k] vis IH]; intros H; [reflexivity|].
  cbn [slice_values]. rewrite (H p k) by (left; reflexivity). cbn [rbind].
  rewrite IH by (intros; eapply H; right; eassumption). reflexivity.
Qed.


Lemma map_concat : forall A B (f : A -> B) ls, map f (concat ls) = concat (map (map f) ls).
Proof. intros. apply concat_map. Qed.

Lemma qsum_concat : forall ls, qsum (concat ls) = qsum (map qsum ls).
Proof. induction ls; cbn [concat map]; [reflexivity|]. rewrite qsum_app, IHls. reflexivity. Qed.
Lemma qprod_concat : forall ls, qprod (concat ls) = qprod (map qprod ls).
Proof. induction ls; cbn [concat map]; [reflexivity|]. rewrite qprod_app, IHls. reflexivity. Qed.

Lemma reduce_spec : forall c thr sw v m mask first last strict xs,
  omp_cfg_ok c -> wf_var v -> valid_indices sw v first -> valid_indices sw v last ->
  (forall k, 0 <= thr k < yask_get_num_threads c) ->
  let s := mkState v (Some m) in
  slice_contents sw s first last xs ->
  exists r, reduce_elements_in_slice c thr sw s mask first last strict = Ok r /\
    r_mask r = mask /\ r_nred r = slice_size first last /\
    (in_mask mask yk_sum_reduction = true -> get_sum r = Ok (qsum xs)) /\
    (in_mask mask yk_product_reduction = true -> get_product r = Ok (qprod xs)) /\
    (in_mask mask yk_max_reduction = true -> exists y, get_max r = Ok y /\
       (y = DBL_MIN \/ In y xs) /\ (DBL_MIN <= y)%Qc /\ (forall x, In x xs -> (x <= y)%Qc)) /\
    (in_mask mask yk_min_reduction = true -> exists y, r_min r = y /\
       (y = DBL_MAX \/ In y xs) /\ (y <= DBL_MAX)%Qc /\ (forall x, In x xs -> (y <= x)%Qc)).
Proof.
  intros c thr sw v m mask first last strict xs Hc Hw Hf Hl Hthr. cbn zeta. intros Hxs.
  destruct (visit_valid c v sw strict None first last Hc Hf Hl I) as (vis & Ev & Hv & He).
  unfold reduce_elements_in_slice. cbn [st_mem st_var]. rewrite Ev. cbn [rbind fst snd].
  (* values in visiting order are a permutation of xs *)
  assert (Hin : forall p k, In (p, k) vis -> in_slice first last p).
  { intros p k Hi. pose proof (slice_size_nonneg first last).
    destruct (Z.eq_dec (slice_size first last) 0) as [Z0|Z0]; [rewrite (He Z0) in Hi; contradiction|].
    apply (Hv ltac:(lia)) in Hi. tauto. }
  assert (Hval : forall p, in_slice first last p -> valid_indices sw v p).
  { intros p Hp. eapply in_slice_valid; [exact Hf|exact Hl|assumption]. }
  rewrite slice_values_spec.
  2:{ intros p k Hi. apply (elem_at_valid sw); [assumption|]. apply Hval. eapply Hin; eassumption. }
  cbn [rbind].
  set (vals := map (fun pk : list Z * Z => (snd pk, m (get_elem_ptr v (fst pk)))) vis).
  assert (HP : Permutation (map snd vals) xs).
  { destruct Hxs as (pts & Nd & Hpts & F).
    assert (Exs : xs = map (fun p => m (get_elem_ptr v p)) pts).
    { assert (Hall : forall p, In p pts -> in_slice first last p) by (intros; apply Hpts; assumption).
      clear Hpts Nd. induction F as [|p x pts xs Hp F IH]; [reflexivity|]. cbn. f_equal.
      - rewrite get_element_ok in Hp; [congruence|assumption|]. apply Hval, Hall. left. reflexivity.
      - apply IH. intros; apply Hall; right; assumption. }
    rewrite Exs. subst vals. rewrite map_map. cbn [snd].
    rewrite <- (map_map fst (fun p => m (get_elem_ptr v p))). apply Permutation_map.
    pose proof (slice_size_nonneg first last).
    destruct (Z.eq_dec (slice_size first last) 0) as [Z0|Z0].
    - rewrite (He Z0). destruct pts as [|p pts]; [constructor|].
      exfalso. assert (in_slice first last p) by (apply Hpts; left; reflexivity).
      apply in_slice_size in H0. lia.
    - specialize (Hv ltac:(lia)). destruct Hv as (V1 & V2 & V3).
      apply NoDup_Permutation; [assumption..|]. intros p. rewrite Hpts. split.
      + intros Hi. apply in_map_iff in Hi. destruct Hi as ([q k] & E & Hi). cbn in E. subst. eapply Hin; eassumption.
      + intros Hp. change p with (fst (p, row_major first last p)). apply in_map. apply V3. auto. }
  set (n := yask_get_num_threads c) in *.
  set (parts := map (fun i => map snd (filter (fun bx : Z * Qc => thr (fst bx) =? i) vals)) (zseq n)).
  assert (HC : Permutation (concat parts) xs).
  { rewrite <- HP. subst parts.
    rewrite <- (map_map (fun i => filter (fun bx : Z * Qc => thr (fst bx) =? i) vals) (map snd)), <- concat_map.
    apply Permutation_map. apply (partition_perm _ (fun bx : Z * Qc => thr (fst bx))). intros; apply Hthr. }
  replace (map (fun i => fold_left red_visit (map snd (filter (fun bx => thr (fst bx) =? i) vals)) (red_init mask 0)) (zseq n))
    with (map (fun l => fold_left red_visit l (red_init mask 0)) parts)
    by (subst parts; rewrite map_map; reflexivity).
  eexists. split; [reflexivity|].
  set (rrv := map (fun l => fold_left red_visit l (red_init mask 0)) parts).
  destruct (red_join_fold rrv (red_init mask (slice_size first last))) as (A & B & C & D & E & F).
  cbn [red_init r_mask r_nred r_sum r_prod r_max r_min] in *.
  split; [exact A|]. split; [exact B|].
  assert (In1 : forall y, In y xs <-> exists l, In l parts /\ In y l).
  { intros y. rewrite <- HC. rewrite in_concat. split; intros (l & H1 & H2); eauto. }
  split; [|split; [|split]].
  - intros Hm. unfold get_sum. rewrite A, Hm, C. f_equal.
    rewrite <- (qsum_perm _ _ HC), qsum_concat. subst rrv. rewrite map_map.
    rewrite (map_ext _ qsum); [ring|]. intros l.
    destruct (red_visit_fold l (red_init mask 0)) as (_ & _ & S & _). cbn [red_init r_mask r_sum r_prod r_max r_min] in S. rewrite S by exact Hm. ring.
  - intros Hm. unfold get_product. rewrite A, Hm, D. f_equal.
    rewrite <- (qprod_perm _ _ HC), qprod_concat. subst rrv. rewrite map_map.
    rewrite (map_ext _ qprod); [ring|]. intros l.
    destruct (red_visit_fold l (red_init mask 0)) as (_ & _ & _ & S & _). cbn [red_init r_mask r_sum r_prod r_max r_min] in S. rewrite S by exact Hm. ring.
  - intros Hm. unfold get_max. rewrite A, Hm, E. eexists. split; [reflexivity|].
    assert (M : map r_max rrv = map (fun l => fold_left qmax l DBL_MIN) parts).
    { subst rrv. rewrite map_map. apply map_ext. intros l.
      destruct (red_visit_fold l (red_init mask 0)) as (_ & _ & _ & _ & S & _). cbn [red_init r_mask r_sum r_prod r_max r_min] in S. rewrite S by exact Hm. reflexivity. }
    rewrite M. destruct (fold_qmax (map (fun l => fold_left qmax l DBL_MIN) parts) DBL_MIN) as (X1 & X2 & X3).
    split; [|split; [exact X2|]].
    + destruct X1 as [X1|X1]; [auto|]. apply in_map_iff in X1. destruct X1 as (l & El & Hl').
      destruct (fold_qmax l DBL_MIN) as (Y1 & _ & _). rewrite El in Y1. destruct Y1 as [Y1|Y1]; [auto|].
      right. apply In1. eauto.
    + intros x Hx. apply In1 in Hx. destruct Hx as (l & Hl' & Hx).
      eapply Qcle_trans; [|apply X3; apply in_map; exact Hl'].
      apply fold_qmax. assumption.
  - intros Hm. rewrite F. eexists. split; [reflexivity|].
    assert (M : map r_min rrv = map (fun l => fold_left qmin l DBL_MAX) parts).
    { subst rrv. rewrite map_map. apply map_ext. intros l.
      destruct (red_visit_fold l (red_init mask 0)) as (_ & _ & _ & _ & _ & S). cbn [red_init r_mask r_sum r_prod r_max r_min] in S. rewrite S by exact Hm. reflexivity. }
    rewrite M. destruct (fold_qmin (map (fun l => fold_left qmin l DBL_MAX) parts) DBL_MAX) as (X1 & X2 & X3).
    split; [|split; [exact X2|]].
    + destruct X1 as [X1|X1]; [auto|]. apply in_map_iff in X1. destruct X1 as (l & El & Hl').
      destruct (fold_qmin l DBL_MAX) as (Y1 & _ & _). rewrite El in Y1. destruct Y1 as [Y1|Y1]; [auto|].
      right. apply In1. eauto.
    + intros x Hx. apply In1 in Hx. destruct Hx as (l & Hl' & Hx).
      eapply Qcle_trans; [apply X3; apply in_map; exact Hl'|].
      apply fold_qmin. assumption.
Qed.

Lemma nonstrict_reduce : forall c thr v m mask first last,
  omp_cfg_ok c -> Forall nonempty_dim (v_dims v) ->
  length first = length (v_dims v) -> length last = length (v_dims v) ->
  Forall2 meets_alloc (v_dims v) (combine first last) ->
  let s := mkState v (Some m) in
  exists f' l', valid_indices false v f' /\ valid_indices false v l' /\
    (forall p, in_slice f' l' p <-> in_slice first last p /\ valid_indices false v p) /\
    reduce_elements_in_slice c thr false s mask first last false =
    reduce_elements_in_slice c thr false s mask f' l' true.
Proof.
  intros c thr v m mask first last Hc Hn L1 L2 Hm. cbn zeta.
  exists (map2 clip_first (v_dims v) first), (map2 clip_last (v_dims v) last).
  rewrite Forall_forall in Hn.
  destruct (Forall2_combine _ _ _ _ _ _ _ Hm L1 L2) as (M1 & M2).
  assert (V1 : valid_indices false v (map2 clip_first (v_dims v) first)).
  { apply clip_valid. eapply Forall2_impl_in; [|exact M1]. intros d x Hd (y & Hy). specialize (Hn d Hd).
    unfold nonempty_dim, meets_alloc, clip_first in *. cbn in Hy. lia. }
  assert (V2 : valid_indices false v (map2 clip_last (v_dims v) last)).
  { apply clip_valid. eapply Forall2_impl_in; [|exact M2]. intros d x Hd (y & Hy). specialize (Hn d Hd).
    unfold nonempty_dim, meets_alloc, clip_last in *. cbn in Hy. lia. }
  split; [exact V1|]. split; [exact V2|]. split; [intros p; apply clip_slice; assumption|].
  destruct (check_clip v clip_first first L1) as (b1 & E1).
  { eapply Forall2_impl_in; [|exact M1]. intros d x Hd (y & Hy). apply check_index_first; [apply Hy|apply Hn; assumption]. }
  destruct (check_clip v clip_last last L2) as (b2 & E2).
  { eapply Forall2_impl_in; [|exact M2]. intros d x Hd (y & Hy). apply check_index_last; [apply Hy|apply Hn; assumption]. }
  unfold reduce_elements_in_slice, visit_elements_in_slice. cbn [st_mem st_var].
  rewrite E1, E2, (check_valid _ _ _ _ V1), (check_valid _ _ _ _ V2). reflexivity.
Qed.
