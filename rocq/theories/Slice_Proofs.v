From Coq Require Import QArith Qcanon.
From Verif Require Import Base MixedRadix ParFor_Model Tuple_Model Tuple_Proofs Layout_Model Layout_Proofs
  Var_Model Var_Spec Var_Proofs Slice_Model Slice_Spec.
Open Scope Z_scope.

Lemma map2_app : forall A B C (f : A -> B -> C) a1 b1 a2 b2, length a1 = length b1 ->
  map2 f (a1 ++ a2) (b1 ++ b2) = map2 f a1 b1 ++ map2 f a2 b2.
Proof.
  induction a1 as [|x a1 IH]; intros [|y b1] a2 b2 H; cbn in H; try discriminate; [reflexivity|].
  cbn [app]. rewrite !map2_cons, IH by lia. reflexivity.
Qed.

Lemma map2_one : forall A B C (f : A -> B -> C) a b, map2 f [a] [b] = [f a b].
Proof. reflexivity. Qed.

Lemma set_nth_app : forall l x y r, set_nth (length l) y (l ++ x :: r) = l ++ y :: r.
Proof. induction l; intros; cbn; [reflexivity|]. rewrite IHl. reflexivity. Qed.

Lemma set_last_app : forall l x y, set_last y (l ++ [x]) = l ++ [y].
Proof.
  intros. unfold set_last. rewrite app_length. cbn [length].
  replace (length l + 1 - 1)%nat with (length l) by lia. apply set_nth_app.
Qed.

Lemma nth_last_app : forall (l : list Z) x d, nth (length (l ++ [x]) - 1) (l ++ [x]) d = x.
Proof.
  intros. rewrite app_length. cbn [length]. replace (length l + 1 - 1)%nat with (length l) by lia.
  rewrite app_nth2 by lia. rewrite Nat.sub_diag. reflexivity.
Qed.

Lemma zseq_mul : forall b a, 0 <= b -> 0 <= a ->
  zseq (a * b) = concat (map (fun q => map (fun i => q * b + i) (zseq b)) (zseq a)).
Proof.
  intros b a Hb Ha. revert a Ha. refine (natlike_ind _ _ _).
  - reflexivity.
  - intros a Ha IH. unfold Z.succ in *.
    rewrite zseq_succ, map_app, concat_app by assumption. rewrite <- IH.
    replace ((a + 1) * b) with (a * b + b) by lia.
    rewrite zseq_app by lia. f_equal. cbn. rewrite app_nil_r. reflexivity.
Qed.

(* ---- row-major digits ---- *)

Lemma point_snoc : forall ss n q i, 0 < n -> 0 <= i < n ->
  point_of false (ss ++ [n]) (q * n + i) = point_of false ss q ++ [i].
Proof.
  intros. unfold point_of, inner_first. rewrite rev_app_distr. cbn.
  replace ((q * n + i) mod n) with i by (rewrite Z.add_comm, Z.mod_add, Z.mod_small; lia).
  replace ((q * n + i) / n) with q by (rewrite Z.add_comm, Z.div_add, Z.div_small; lia).
  reflexivity.
Qed.

Lemma mr_digits_snoc : forall l s t k, Forall (fun x => 0 < x) l -> 0 <= t < s -> 0 <= k < zprod l ->
  mr_digits (l ++ [s]) (t * zprod l + k) = mr_digits l k ++ [t].
Proof.
  induction l as [|x l IH]; intros s t k Hl Ht Hk.
  - cbn in *. replace (t * 1 + k) with t by lia. rewrite Z.mod_small by lia. reflexivity.
  - inversion Hl as [|? ? Hx Hl']; subst. cbn [app mr_digits zprod].
    cbn [zprod] in Hk. pose proof (zprod_pos l Hl').
    replace (t * (x * zprod l) + k) with (k + (t * zprod l) * x) by ring.
    rewrite Z.mod_add, Z.div_add by lia.
    replace (k / x + t * zprod l) with (t * zprod l + k / x) by ring.
    rewrite IH; [reflexivity|assumption|assumption|].
    split; [apply Z.div_pos; lia|]. apply Z.div_lt_upper_bound; lia.
Qed.

Lemma point_cons : forall s ss t k, Forall (fun x => 0 < x) ss -> 0 <= t < s -> 0 <= k < zprod ss ->
  point_of false (s :: ss) (t * zprod ss + k) = t :: point_of false ss k.
Proof.
  intros. unfold point_of, inner_first. cbn [rev].
  rewrite <- (zprod_rev ss) in *. rewrite mr_digits_snoc by (auto using Forall_rev').
  rewrite rev_app_distr. reflexivity.
Qed.

Lemma point_length : forall fi ss k, length (point_of fi ss k) = length ss.
Proof.
  intros. unfold point_of, inner_first. destruct fi; [apply mr_digits_length|].
  rewrite rev_length, mr_digits_length, rev_length. reflexivity.
Qed.

(* ---- the visits ---- *)

Lemma concat_map_map : forall A B C (f : A -> list B) (g : B -> C) l,
  concat (map (fun x => map g (f x)) l) = map g (concat (map f l)).
Proof. intros. rewrite concat_map, map_map. reflexivity. Qed.

Lemma snoc_cases : forall (l : list Z), l <> [] -> exists l' x, l = l' ++ [x].
Proof.
  intros l H. destruct (exists_last H) as (l' & x & ->). eauto.
Qed.

Lemma inner_unit : forall start ndl tofs B, allpos B -> length start = length B ->
  (ndl <> 0 -> B <> []) ->
  concat (map (slice_inner start ndl 1 tofs) (numbered_points false B)) =
  map (fun k => (map2 Z.add start (point_of false B k), tofs + k)) (zseq (zprod B)).
Proof.
  intros start ndl tofs B HB HL Hne. unfold numbered_points. rewrite map_map.
  induction (zseq (zprod B)) as [|k l IH]; [reflexivity|].
  cbn [map concat]. rewrite IH. unfold slice_inner at 1. change (zseq 1) with [0]. cbn [map app fst snd].
  f_equal. f_equal; [|lia].
  destruct (ndl =? 0) eqn:E; [reflexivity|].
  assert (L : length (map2 Z.add start (point_of false B k)) = length B).
  { rewrite map2_length by (rewrite point_length; assumption). assumption. }
  destruct (snoc_cases (map2 Z.add start (point_of false B k))) as (l' & x & Ex).
  { intros E0. rewrite E0 in L. destruct B; [apply Hne; [lia|reflexivity]|discriminate]. }
  rewrite Ex, nth_last_app, set_last_app. do 2 f_equal. lia.
Qed.

Lemma inner_row : forall start ndl tofs B n, allpos B -> 0 < n -> length start = S (length B) ->
  ndl <> 0 ->
  concat (map (slice_inner start ndl n tofs) (numbered_points false (B ++ [1]))) =
  map (fun k => (map2 Z.add start (point_of false (B ++ [n]) k), tofs + k)) (zseq (zprod (B ++ [n]))).
Proof.
  intros start ndl tofs B n HB Hn HL Hd.
  unfold numbered_points. rewrite map_map, !zprod_app. cbn [zprod].
  replace (zprod B * (1 * 1)) with (zprod B) by lia.
  replace (zprod B * (n * 1)) with (zprod B * n) by lia.
  pose proof (zprod_pos B HB).
  rewrite zseq_mul by lia. rewrite <- concat_map_map. f_equal.
  apply map_ext_in. intros q Hq. apply zseq_In in Hq.
  unfold slice_inner. cbn [fst snd]. rewrite map_map. apply map_ext_in. intros i Hi. apply zseq_In in Hi.
  destruct (ndl =? 0) eqn:E; [lia|]. f_equal; [|lia].
  destruct (snoc_cases start) as (st & x & ->); [destruct start; discriminate|].
  rewrite app_length in HL. cbn in HL.
  assert (E1 : point_of false (B ++ [1]) q = point_of false B q ++ [0]).
  { replace q with (q * 1 + 0) at 1 by lia. apply point_snoc; lia. }
  rewrite E1, point_snoc by lia.
  rewrite !map2_app by (rewrite point_length; lia). rewrite !map2_one.
  rewrite nth_last_app, set_last_app. do 2 f_equal. lia.
Qed.

Lemma rconcat_map_ok : forall A B (g : A -> res (list B)) (f : A -> list B) l,
  (forall x, In x l -> g x = Ok (f x)) -> rconcat (map g l) = Ok (concat (map f l)).
Proof.
  induction l as [|a l IH]; intros H; [reflexivity|].
  cbn. rewrite (H a) by (left; reflexivity). cbn. rewrite IH; [reflexivity|].
  intros; apply H; right; assumption.
Qed.

Definition only_first_step (v : yvar) : Prop := Forall (fun d => d_step d = false) (tl (v_dims v)).

Lemma get_slice_range_length : forall f l, length f = length l -> length (get_slice_range f l) = length f.
Proof. intros. unfold get_slice_range. apply map2_length. assumption. Qed.

Lemma slice_visits_list : forall c v first last, omp_cfg_ok c ->
  length first = length (v_dims v) -> length last = length (v_dims v) ->
  allpos (get_slice_range first last) ->
  slice_visits c v first last =
  Ok (map (fun k => (map2 Z.add first (point_of false (get_slice_range first last) k), k))
          (zseq (zprod (get_slice_range first last)))).
Proof.
  intros c v first last Hc Lf Ll Hpos.
  pose proof (zprod_pos _ Hpos) as Hne.
  pose proof (get_slice_range_length first last ltac:(congruence)) as LR.
  unfold slice_visits.
  replace (zprod (get_slice_range first last) <=? 0) with false by lia.
  set (R := get_slice_range first last) in *.
  (* one step with base range B *)
  assert (Step : forall B start ndl tofs, allpos B -> length start = length B ->
    length B = length (v_dims v) -> (ndl <> 0 -> B <> []) ->
    let ip := (length (v_dims v) - 1)%nat in
    let inner := negb (ndl =? 0) && (yask_get_num_threads c <=? Z.quot (zprod B) (nth ip B 0)) in
    let ni := if inner then nth ip B 0 else 1 in
    let range := if inner then set_last 1 B else B in
    rbind (indices_visit_in_parallel c false range) (fun vis =>
        Ok (concat (map (slice_inner start ndl ni tofs) vis))) =
    Ok (map (fun k => (map2 Z.add start (point_of false B k), tofs + k)) (zseq (zprod B)))).
  { intros B start ndl tofs HB HL HLB Hne0. cbn zeta.
    destruct (negb (ndl =? 0) && (yask_get_num_threads c <=? Z.quot (zprod B) (nth (length (v_dims v) - 1) B 0))) eqn:E.
    - destruct (ndl =? 0) eqn:E0; [discriminate|].
      destruct (snoc_cases B) as (B' & n & EB); [apply Hne0; lia|].
      rewrite <- HLB. subst B. rewrite nth_last_app, set_last_app.
      apply Forall_app in HB. destruct HB as (HB' & Hn). inversion Hn; subst.
      rewrite indices_parallel_visit; [|assumption|apply Forall_app; split; [assumption|repeat constructor]].
      cbn [rbind]. f_equal. apply inner_row; try assumption; try lia.
      rewrite app_length in HL. cbn in HL. lia.
    - rewrite indices_parallel_visit by assumption. cbn [rbind]. f_equal. apply inner_unit; assumption. }
  destruct (has_step v) eqn:Hs.
  - unfold has_step in Hs. destruct (v_dims v) as [|d ds] eqn:Ed; [discriminate|].
    destruct first as [|f first]; [discriminate|]. destruct last as [|l last]; [discriminate|].
    subst R. unfold get_slice_range in *. rewrite map2_cons in *.
    set (R := map2 (fun f l => Z.max 0 (l + 1 - f)) first last) in *.
    inversion Hpos as [|? ? Hr0 HR]; subst.
    cbn [nth set_head set_nth]. unfold set_head. cbn [set_nth].
    set (ndl := Z.of_nat (length (d :: ds)) - 1).
    rewrite (rconcat_map_ok _ _ _ (fun t =>
       map (fun k => (map2 Z.add (t :: first) (point_of false (1 :: R) k), (t - f) * zprod (1 :: R) + k))
           (zseq (zprod (1 :: R))))).
    2:{ intros t Ht. apply Step.
        - constructor; [lia|assumption].
        - cbn in *. lia.
        - cbn in *. lia.
        - discriminate. }
    f_equal. cbn [zprod]. replace (1 * zprod R) with (zprod R) by lia.
    pose proof (zprod_pos R HR). rewrite zseq_mul by lia.
    rewrite <- concat_map_map. f_equal.
    unfold zrange. replace (Z.max 0 (l + 1 - f)) with (l + 1 - f) by lia. rewrite map_map.
    apply map_ext_in. intros t Ht. apply zseq_In in Ht.
    rewrite map_map. apply map_ext_in. intros k Hk. apply zseq_In in Hk.
    f_equal; [|lia].
    replace k with (0 * zprod R + k) at 1 by lia.
    rewrite !point_cons by (assumption || lia). rewrite !map2_cons. f_equal. lia.
  - change (zrange 0 (0 + 1)) with [0 + 0]. cbn [map].
    rewrite (Step R first (Z.of_nat (length (v_dims v))) ((0 + 0 - 0) * zprod R)); try assumption; try congruence.
    + cbn [rconcat rbind]. rewrite app_nil_r. reflexivity.
    + intros Hn E. rewrite E in LR. cbn in LR. lia.
Qed.

Lemma slice_size_prod : forall first last, length first = length last ->
  slice_size first last = zprod (get_slice_range first last).
Proof.
  induction first as [|f fs IH]; intros [|l ls] H; cbn in H; try discriminate; [reflexivity|].
  unfold get_slice_range in *. rewrite map2_cons. cbn [slice_size zprod]. rewrite IH by lia. f_equal. lia.
Qed.

Lemma mr_pos_snoc : forall l s o x, length l = length o ->
  mr_pos (l ++ [s]) (o ++ [x]) = mr_pos l o + zprod l * x.
Proof.
  induction l as [|a l IH]; intros s [|y o] x H; cbn in H; try discriminate.
  - cbn. lia.
  - cbn [app mr_pos zprod]. rewrite IH by lia. ring.
Qed.

Lemma row_major_pos : forall first last ofs, length first = length last -> length ofs = length first ->
  row_major first last (map2 Z.add first ofs) =
  mr_pos (rev (get_slice_range first last)) (rev ofs).
Proof.
  induction first as [|f fs IH]; intros [|l ls] [|o ofs] H1 H2; cbn in H1, H2; try discriminate; [reflexivity|].
  unfold get_slice_range in *. rewrite !map2_cons. cbn [row_major rev].
  rewrite mr_pos_snoc by (rewrite !rev_length, map2_length; lia).
  rewrite IH by lia. rewrite zprod_rev. rewrite slice_size_prod by lia. unfold get_slice_range. ring.
Qed.

Lemma in_slice_ofs : forall first last p, length first = length last ->
  (in_slice first last p <-> exists ofs, in_sizes (get_slice_range first last) ofs /\ p = map2 Z.add first ofs).
Proof.
  induction first as [|f fs IH]; intros [|l ls] p H; cbn in H; try discriminate.
  - destruct p; cbn; split; auto.
    + intros _. exists []. split; [constructor|reflexivity].
    + intros []. 
    + intros (ofs & Ho & E). inversion Ho; subst. discriminate.
  - unfold get_slice_range in *. rewrite map2_cons. destruct p as [|x p]; cbn [in_slice].
    + split; [intros []|]. intros (ofs & Ho & E). inversion Ho; subst. discriminate.
    + rewrite (IH ls) by lia. split.
      * intros (Hx & ofs & Ho & ->). exists (x - f :: ofs). rewrite map2_cons. split; [constructor; [lia|assumption]|].
        f_equal. lia.
      * intros (ofs & Ho & E). inversion Ho as [|? o ? ofs' Ho1 Ho2]; subst. rewrite map2_cons in E.
        inversion E; subst. split; [lia|]. eauto.
Qed.

Lemma map2_add_inj : forall first a b, length a = length first -> length b = length first ->
  map2 Z.add first a = map2 Z.add first b -> a = b.
Proof.
  induction first as [|f fs IH]; intros [|x a] [|y b] H1 H2 E; cbn in H1, H2; try discriminate; [reflexivity|].
  rewrite !map2_cons in E. inversion E. f_equal; [lia|]. apply IH; auto.
Qed.

Lemma slice_nonempty : forall first last, length first = length last -> 0 < slice_size first last ->
  allpos (get_slice_range first last).
Proof.
  induction first as [|f fs IH]; intros [|l ls] H Hs; cbn in H; try discriminate; [constructor|].
  cbn [slice_size] in Hs. unfold get_slice_range in *. rewrite map2_cons.
  assert (0 <= slice_size fs ls).
  { clear. revert ls. induction fs; intros [|? ?]; cbn [slice_size]; try lia. specialize (IHfs l). nia. }
  constructor; [nia|]. apply IH; [lia|nia].
Qed.

Lemma slice_size_nonneg : forall fs ls, 0 <= slice_size fs ls.
Proof. induction fs; intros [|? ?]; cbn [slice_size]; try lia. specialize (IHfs l). nia. Qed.

Lemma in_slice_size : forall first last p, in_slice first last p -> 0 < slice_size first last.
Proof.
  induction first as [|f fs IH]; intros [|l ls] [|x p] H; cbn in *; try lia; try tauto.
  destruct H as (H1 & H2). specialize (IH _ _ H2). nia.
Qed.

(* Specification of the visits. *)
Definition visits_ok (first last : list Z) (vis : list (list Z * Z)) : Prop :=
  NoDup (map fst vis) /\ map snd vis = zseq (slice_size first last) /\
  forall p k, In (p, k) vis <-> in_slice first last p /\ k = row_major first last p.

Lemma slice_visits_spec : forall c v first last, omp_cfg_ok c ->
  length first = length (v_dims v) -> length last = length (v_dims v) ->
  0 < slice_size first last ->
  exists vis, slice_visits c v first last = Ok vis /\ visits_ok first last vis.
Proof.
  intros c v first last Hc Lf Ll Hs.
  assert (HL : length first = length last) by congruence.
  pose proof (slice_nonempty first last HL Hs) as HR.
  eexists. split; [apply slice_visits_list; assumption|].
  set (R := get_slice_range first last) in *.
  assert (LR : length R = length first) by (apply get_slice_range_length; assumption).
  destruct (numbered_spec false R HR) as (N1 & N2 & N3 & N4).
  unfold visits_ok. rewrite !map_map. cbn [fst snd].
  split; [|split].
  - apply NoDup_map_on; [|apply zseq_NoDup]. intros x y Hx Hy E. apply zseq_In in Hx, Hy.
    apply map2_add_inj in E; [|rewrite point_length; assumption..].
    rewrite <- (layout_point false R x HR Hx), <- (layout_point false R y HR Hy), E. reflexivity.
  - rewrite map_id. rewrite slice_size_prod by assumption. reflexivity.
  - intros p k. rewrite in_map_iff. split.
    + intros (k' & E & Hk'). apply zseq_In in Hk'.
      assert (k' = k) by congruence. subst k'. replace p with (map2 Z.add first (point_of false R k)) by congruence.
      split.
      * apply in_slice_ofs; [assumption|]. eexists. split; [|reflexivity]. apply (point_of_in false R). assumption.
      * rewrite row_major_pos by (rewrite ?point_length; auto).
        rewrite <- (layout_point false R k HR Hk') at 1. rewrite layout_vals_pos. reflexivity.
    + intros (Hp & ->). apply in_slice_ofs in Hp; [|assumption]. destruct Hp as (ofs & Ho & ->).
      fold R in Ho. rewrite row_major_pos by (rewrite <- ?(in_sizes_length _ _ Ho); auto).
      assert (E : mr_pos (rev R) (rev ofs) = layout_vals false R ofs) by (rewrite layout_vals_pos; reflexivity).
      exists (layout_vals false R ofs). fold R. rewrite E. split.
      * rewrite point_layout by assumption. reflexivity.
      * apply zseq_In. apply layout_bound. assumption.
Qed.

(* ---- validity ---- *)

Lemma in_slice_length : forall first last p, in_slice first last p ->
  length p = length first /\ length last = length first.
Proof.
  induction first as [|f fs IH]; intros [|l ls] [|x p] H; cbn in *; try tauto.
  destruct H as (_ & H). destruct (IH _ _ H). lia.
Qed.

Lemma in_slice_valid : forall sw v first last p, valid_indices sw v first -> valid_indices sw v last ->
  in_slice first last p -> valid_indices sw v p.
Proof.
  intros sw v first last p. unfold valid_indices. generalize (v_dims v) as ds. intros ds H. revert last p.
  induction H as [|d f ds fs Hd H IH]; intros last p Hl Hp; inversion Hl as [|? l ? ls Hl1 Hl2]; subst;
    destruct p as [|x p]; cbn in Hp; try tauto.
  destruct Hp. apply Forall2_cons; [|eapply IH; eassumption].
  unfold valid_index in *. lia.
Qed.

(* in the window, two points of the slice never share storage *)
Lemma in_slice_same : forall v first last p q, Forall wf_dim (v_dims v) ->
  valid_indices false v first -> valid_indices false v last ->
  in_slice first last p -> in_slice first last q -> same_elem (v_dims v) p q -> p = q.
Proof.
  intros v first last p q. unfold valid_indices. generalize (v_dims v) as ds. intros ds Hw H. revert last p q.
  induction H as [|d f ds fs Hd H IH]; intros last p q Hl Hp Hq Hs; inversion Hl as [|? l ? ls Hl1 Hl2]; subst;
    destruct p as [|x p], q as [|y q]; cbn in Hp, Hq, Hs; try tauto.
  inversion Hw as [|? ? W1 W2]; subst. destruct Hp as (Hp1 & Hp2), Hq as (Hq1 & Hq2), Hs as (Hs1 & Hs2).
  f_equal; [|eapply IH; eassumption].
  unfold same_in_dim in Hs1. destruct (d_step d) eqn:Es; [|assumption].
  destruct Hs1 as (k & ->). destruct W1 as (_ & _ & _ & _ & W5 & W6 & _).
  destruct (W6 Es) as (W & Wn & _). destruct (W5 W) as (W3 & W4 & _).
  unfold valid_index in *. assert (k = 0) by nia. subst. lia.
Qed.

Lemma elem_at_valid : forall sw v p, wf_var v -> valid_indices sw v p -> elem_at v p = Ok (get_elem_ptr v p).
Proof. intros. unfold elem_at. rewrite (in_storage_valid sw) by assumption. reflexivity. Qed.

Lemma check_valid : forall sw strict v p, valid_indices sw v p -> check_indices v sw strict true p = Ok (true, p).
Proof.
  intros sw strict v p H. destruct (check_indices_spec v sw strict true p (valid_len _ _ _ H)) as (c & [(_ & E)|(N & _)]);
    [assumption|]. exfalso. apply N. exact H.
Qed.

Lemma check_invalid : forall sw v p, ~ valid_indices sw v p -> check_indices v sw true true p = Throw.
Proof.
  intros sw v p H. destruct (Nat.eq_dec (length p) (length (v_dims v))) as [L|L].
  - destruct (check_indices_spec v sw true true p L) as (c & [(Y & _)|(_ & E)]); [|assumption].
    exfalso. apply H. exact Y.
  - unfold check_indices. replace (Nat.eqb (length p) (length (v_dims v))) with false
      by (symmetry; apply Nat.eqb_neq; assumption). reflexivity.
Qed.

(* ---- effects of the visits ---- *)

Lemma mem_upd_eq : forall V (m : Z -> V) a x, mem_upd m a x a = x.
Proof. intros. unfold mem_upd. rewrite Z.eqb_refl. reflexivity. Qed.
Lemma mem_upd_ne : forall V (m : Z -> V) a x b, b <> a -> mem_upd m a x b = m b.
Proof. intros. unfold mem_upd. destruct (b =? a) eqn:E; [lia|reflexivity]. Qed.

Lemma do_get_spec : forall V v (m : Z -> V) n vis buf,
  (forall p k, In (p, k) vis -> elem_at v p = Ok (get_elem_ptr v p) /\ 0 <= k < n) ->
  NoDup (map snd vis) ->
  exists buf', do_get v m n vis buf = Ok buf' /\
    (forall p k, In (p, k) vis -> buf' k = m (get_elem_ptr v p)) /\
    (forall k, ~ In k (map snd vis) -> buf' k = buf k).
Proof.
  intros V v m n. induction vis as [|[p k] vis IH]; intros buf Hin Hnd.
  - exists buf. cbn. intuition.
  - cbn [map snd] in Hnd. inversion Hnd as [|? ? Hk Hnd']; subst.
    destruct (Hin p k (or_introl eq_refl)) as (Ha & Hb).
    cbn [do_get]. rewrite Ha. cbn [rbind].
    replace ((0 <=? k) && (k <? n)) with true by lia.
    destruct (IH (mem_upd buf k (m (get_elem_ptr v p)))) as (buf' & E & R1 & R2);
      [intros; apply Hin; right; assumption|assumption|].
    exists buf'. split; [exact E|]. split.
    + intros p0 k0 [E0|H0]; [|apply R1; assumption]. inversion E0; subst.
      rewrite R2 by assumption. apply mem_upd_eq.
    + intros k0 Hk0. cbn [map snd] in Hk0. cbn in Hk0. rewrite R2 by tauto. apply mem_upd_ne. intuition.
Qed.

Lemma do_set_spec : forall V v (buf : Z -> V) n vis m,
  (forall p k, In (p, k) vis -> elem_at v p = Ok (get_elem_ptr v p) /\ 0 <= k < n) ->
  NoDup (map (fun pk => get_elem_ptr v (fst pk)) vis) ->
  exists m', do_set v buf n vis m = Ok m' /\
    (forall p k, In (p, k) vis -> m' (get_elem_ptr v p) = buf k) /\
    (forall a, ~ In a (map (fun pk => get_elem_ptr v (fst pk)) vis) -> m' a = m a).
Proof.
  intros V v buf n. induction vis as [|[p k] vis IH]; intros m Hin Hnd.
  - exists m. cbn. intuition.
  - cbn [map fst] in Hnd. inversion Hnd as [|? ? Hk Hnd']; subst.
    destruct (Hin p k (or_introl eq_refl)) as (Ha & Hb).
    cbn [do_set]. replace ((0 <=? k) && (k <? n)) with true by lia. rewrite Ha. cbn [rbind].
    destruct (IH (mem_upd m (get_elem_ptr v p) (buf k))) as (m' & E & R1 & R2);
      [intros; apply Hin; right; assumption|assumption|].
    exists m'. split; [exact E|]. split.
    + intros p0 k0 [E0|H0]; [|apply R1; assumption]. inversion E0; subst.
      rewrite R2 by assumption. apply mem_upd_eq.
    + intros a Ha'. cbn [map fst] in Ha'. cbn in Ha'. rewrite R2 by tauto. apply mem_upd_ne. intuition.
Qed.

Lemma do_set_same_spec : forall V v (x : V) vis m,
  (forall p k, In (p, k) vis -> elem_at v p = Ok (get_elem_ptr v p)) ->
  exists m', do_set_same v x vis m = Ok m' /\
    (forall p k, In (p, k) vis -> m' (get_elem_ptr v p) = x) /\
    (forall a, ~ In a (map (fun pk => get_elem_ptr v (fst pk)) vis) -> m' a = m a).
Proof.
  intros V v x. induction vis as [|[p k] vis IH]; intros m Hin.
  - exists m. cbn. intuition.
  - pose proof (Hin p k (or_introl eq_refl)) as Ha.
    cbn [do_set_same]. rewrite Ha. cbn [rbind].
    destruct (IH (mem_upd m (get_elem_ptr v p) x)) as (m' & E & R1 & R2);
      [intros; eapply Hin; right; eassumption|].
    exists m'. split; [exact E|]. split.
    + intros p0 k0 [E0|H0]; [|eapply R1; eassumption]. inversion E0; subst.
      destruct (in_dec Z.eq_dec (get_elem_ptr v p0) (map (fun pk => get_elem_ptr v (fst pk)) vis)) as [I|I].
      * apply in_map_iff in I. destruct I as ([q kq] & Eq & Iq). cbn in Eq. rewrite <- Eq. eapply R1; eassumption.
      * rewrite R2 by assumption. apply mem_upd_eq.
    + intros a Ha'. cbn [map fst] in Ha'. cbn in Ha'. rewrite R2 by tauto. apply mem_upd_ne. intuition.
Qed.

(* window unchanged when the steps are valid *)
Lemma set_dirty_valid : forall v first last, valid_indices false v first -> valid_indices false v last ->
  set_dirty_in_slice v first last = v.
Proof.
  intros v first last Hf Hl. unfold set_dirty_in_slice, valid_indices in *.
  destruct (v_dims v) as [|d ds] eqn:Ed; [reflexivity|].
  destruct (d_step d) eqn:Es; [|reflexivity].
  inversion Hf as [|? f ? fs Hd1 _]; subst. inversion Hl as [|? l ? ls Hd2 _]; subst. cbn [nth].
  assert (K : fold_left update_valid_step (zrange f (l + 1)) d = d).
  { assert (A : forall t, In t (zrange f (l + 1)) -> update_valid_step d t = d).
    { intros t Ht. apply zrange_In in Ht. unfold update_valid_step, valid_index, get_first_local_index, get_last_local_index in *.
      destruct (t <? d_rofs d + d_lofs d - d_lpad d) eqn:E1; [lia|].
      destruct (d_rofs d + d_lofs d + d_dom d + d_rpad d - 1 <? t) eqn:E2; [lia|reflexivity]. }
    induction (zrange f (l + 1)) as [|t r IH]; [reflexivity|]. cbn [fold_left].
    rewrite A by (left; reflexivity). apply IH. intros; apply A; right; assumption. }
  rewrite K. unfold with_head_dim. rewrite Ed. destruct v; cbn in *. subst. reflexivity.
Qed.

(* ---- slice API ---- *)

Lemma in_map_ptr : forall v vis a, In a (map (fun pk : list Z * Z => get_elem_ptr v (fst pk)) vis) ->
  exists p k, In (p, k) vis /\ a = get_elem_ptr v p.
Proof.
  intros v vis a H. apply in_map_iff in H. destruct H as ([p k] & E & I). eauto.
Qed.

Lemma valid_mono : forall sw v p, valid_indices false v p -> valid_indices sw v p.
Proof.
  intros sw v p. unfold valid_indices. generalize (v_dims v) as ds. intros ds H.
  induction H; constructor; auto. unfold valid_index in *. destruct sw; intuition.
Qed.

Lemma visit_valid : forall c v sw strict bs first last, omp_cfg_ok c ->
  valid_indices sw v first -> valid_indices sw v last ->
  (match bs with Some n => slice_size first last <= n | None => True end) ->
  exists vis, visit_elements_in_slice c v sw strict bs first last = Ok (vis, slice_size first last) /\
    (0 < slice_size first last -> visits_ok first last vis) /\
    (slice_size first last = 0 -> vis = []).
Proof.
  intros c v sw strict bs first last Hc Hf Hl Hb. unfold visit_elements_in_slice.
  rewrite !check_valid by assumption. cbn [rbind snd].
  pose proof (valid_len _ _ _ Hf) as L1. pose proof (valid_len _ _ _ Hl) as L2.
  rewrite <- slice_size_prod by congruence.
  pose proof (slice_size_nonneg first last).
  destruct (slice_size first last <=? 0) eqn:E.
  - exists []. split; [do 2 f_equal; lia|]. split; [lia|reflexivity].
  - destruct (slice_visits_spec c v first last Hc L1 L2) as (vis & Ev & Hv); [lia|].
    exists vis. split; [|split; [auto|lia]].
    replace (match bs with Some n => n <? slice_size first last | None => false end) with false
      by (destruct bs; [lia|reflexivity]).
    rewrite Ev. reflexivity.
Qed.

Lemma visits_nodup_snd : forall first last vis, visits_ok first last vis -> NoDup (map snd vis).
Proof. intros first last vis (_ & E & _). rewrite E. apply zseq_NoDup. Qed.

Lemma row_major_bound : forall first last vis p k, visits_ok first last vis -> In (p, k) vis ->
  0 <= k < slice_size first last.
Proof.
  intros first last vis p k (_ & E & _) H. apply zseq_In. rewrite <- E.
  change k with (snd (p, k)). apply in_map. assumption.
Qed.

Lemma visits_each : forall first last vis k, visits_ok first last vis -> 0 <= k < slice_size first last ->
  exists p, In (p, k) vis.
Proof.
  intros first last vis k (_ & E & _) H. apply zseq_In in H. rewrite <- E in H.
  apply in_map_iff in H. destruct H as ([p k'] & Ek & Hi). cbn in Ek. subst. eauto.
Qed.

Lemma slice_get : forall V c sw v (m : Z -> V) buf n first last,
  omp_cfg_ok c -> wf_var v -> valid_indices sw v first -> valid_indices sw v last ->
  slice_size first last <= n ->
  let s := mkState v (Some m) in
  exists buf', get_elements_in_slice c sw s buf n first last = Ok (buf', slice_size first last) /\
    (forall p, in_slice first last p -> get_element sw s p = Ok (buf' (row_major first last p))) /\
    (forall k, ~ (0 <= k < slice_size first last) -> buf' k = buf k).
Proof.
  intros V c sw v m buf n first last Hc Hw Hf Hl Hn. cbn zeta.
  destruct (visit_valid c v sw true (Some n) first last Hc Hf Hl Hn) as (vis & Ev & Hv & He).
  unfold get_elements_in_slice. cbn [st_mem st_var]. rewrite Ev. cbn [rbind fst snd].
  pose proof (slice_size_nonneg first last).
  destruct (Z.eq_dec (slice_size first last) 0) as [Z0|Z0].
  - rewrite (He Z0). cbn [do_get do_set rbind]. exists buf. split; [reflexivity|]. split; [|reflexivity].
    intros p Hp. apply in_slice_size in Hp. lia.
  - specialize (Hv ltac:(lia)). pose proof Hv as (V1 & V2 & V3).
    destruct (do_get_spec V v m n vis buf) as (buf' & E & R1 & R2).
    + intros p k Hi. pose proof (row_major_bound _ _ _ _ _ Hv Hi). split; [|lia].
      apply (elem_at_valid sw); [assumption|]. apply V3 in Hi. destruct Hi.
      eapply in_slice_valid; [exact Hf|exact Hl|assumption].
    + eapply visits_nodup_snd; eassumption.
    + exists buf'. rewrite E. cbn [rbind st_var]. split; [reflexivity|]. split.
      * intros p Hp. rewrite get_element_ok; [|assumption|eapply in_slice_valid; [exact Hf|exact Hl|assumption]].
        f_equal. symmetry. apply R1. apply V3. auto.
      * intros k Hk. apply R2. rewrite V2, zseq_In. assumption.
Qed.

Lemma slice_set : forall V c sw v (m : Z -> V) buf n first last,
  omp_cfg_ok c -> wf_var v -> valid_indices false v first -> valid_indices false v last ->
  slice_size first last <= n ->
  let s := mkState v (Some m) in
  exists s', set_elements_in_slice c sw s buf n first last = Ok (s', slice_size first last) /\
    st_var s' = v /\
    (forall p, in_slice first last p -> get_element sw s' p = Ok (buf (row_major first last p))) /\
    (forall b, (forall p, in_slice first last p -> ~ same_elem (v_dims v) p b) ->
       get_element sw s' b = get_element sw s b).
Proof.
  intros V c sw v m buf n first last Hc Hw Hf0 Hl0 Hn. cbn zeta.
  pose proof (valid_mono sw _ _ Hf0) as Hf. pose proof (valid_mono sw _ _ Hl0) as Hl.
  destruct (visit_valid c v sw true (Some n) first last Hc Hf Hl Hn) as (vis & Ev & Hv & He).
  unfold set_elements_in_slice. cbn [st_mem st_var]. rewrite Ev. cbn [rbind fst snd].
  rewrite set_dirty_valid by assumption.
  pose proof (slice_size_nonneg first last).
  destruct (Z.eq_dec (slice_size first last) 0) as [Z0|Z0].
  - rewrite (He Z0). cbn [do_get do_set rbind]. eexists. split; [reflexivity|]. split; [reflexivity|]. split; [|reflexivity].
    intros p Hp. apply in_slice_size in Hp. lia.
  - specialize (Hv ltac:(lia)). pose proof Hv as (V1 & V2 & V3).
    destruct (do_set_spec V v buf n vis m) as (m' & E & R1 & R2).
    + intros p k Hi. pose proof (row_major_bound _ _ _ _ _ Hv Hi). split; [|lia].
      apply (elem_at_valid sw); [assumption|]. apply V3 in Hi. destruct Hi.
      eapply in_slice_valid; [exact Hf|exact Hl|assumption].
    + rewrite <- (map_map fst (get_elem_ptr v)). apply NoDup_map_on; [|assumption].
      intros p q Hp Hq Epq. apply in_map_iff in Hp, Hq.
      destruct Hp as ([p' kp] & Ep & Hp), Hq as ([q' kq] & Eq & Hq). cbn in Ep, Eq. subst p' q'.
      apply V3 in Hp, Hq. destruct Hp as (Hp & _), Hq as (Hq & _).
      eapply in_slice_same; [apply Hw|exact Hf0|exact Hl0|exact Hp|exact Hq|].
      apply (var_storage v p Hw); [| |exact Epq].
      * apply valid_weaken with (b := sw). eapply in_slice_valid; [exact Hf|exact Hl|exact Hp].
      * apply valid_weaken with (b := sw). eapply in_slice_valid; [exact Hf|exact Hl|exact Hq].
    + exists (mkState v (Some m')). rewrite E. cbn [rbind st_var]. split; [reflexivity|]. split; [reflexivity|]. split.
      * intros p Hp. rewrite get_element_ok; [|assumption|eapply in_slice_valid; [exact Hf|exact Hl|assumption]].
        f_equal. apply R1. apply V3. auto.
      * intros b Hb. unfold get_element. cbn [st_mem st_var].
        destruct (Nat.eq_dec (length b) (length (v_dims v))) as [L|L].
        -- destruct (check_indices_spec v sw true true b L) as (cl & [(Y & ->)|(_ & ->)]); [|reflexivity].
           cbn [rbind]. destruct (in_storage v (get_elem_ptr v b)); [|reflexivity].
           f_equal. apply R2. intros Hi. apply in_map_ptr in Hi. destruct Hi as (p & k & Hi & Ea).
           apply V3 in Hi. destruct Hi as (Hp & _). apply (Hb p Hp).
           apply (var_storage v p Hw); [| |congruence].
           ++ apply valid_weaken with (b := sw). eapply in_slice_valid; [exact Hf|exact Hl|assumption].
           ++ apply valid_weaken with (b := negb true || sw). exact Y.
        -- unfold check_indices. replace (Nat.eqb (length b) (length (v_dims v))) with false
             by (symmetry; apply Nat.eqb_neq; assumption). reflexivity.
Qed.

Lemma slice_errors : forall V c sw v (m : Z -> V) buf n first last,
  ((~ valid_indices sw v first \/ ~ valid_indices sw v last) ->
     get_elements_in_slice c sw (mkState v (Some m)) buf n first last = Throw /\
     set_elements_in_slice c sw (mkState v (Some m)) buf n first last = Throw) /\
  (valid_indices sw v first -> valid_indices sw v last -> 0 <= n < slice_size first last ->
     get_elements_in_slice c sw (mkState v (Some m)) buf n first last = Throw /\
     set_elements_in_slice c sw (mkState v (Some m)) buf n first last = Throw) /\
  get_elements_in_slice c sw (mkState v None) buf n first last = Throw /\
  set_elements_in_slice c sw (mkState v None) buf n first last = Throw.
Proof.
  intros V c sw v m buf n first last. split; [|split; [|split; reflexivity]].
  - intros H.
    assert (K : forall bs, visit_elements_in_slice c v sw true bs first last = Throw).
    { intros bs. unfold visit_elements_in_slice. destruct H as [H|H].
      - rewrite check_invalid by assumption. reflexivity.
      - destruct (check_indices v sw true true first) eqn:E; cbn [rbind]; try reflexivity.
        + rewrite check_invalid by assumption. reflexivity.
        + unfold check_indices in E. destruct (negb _); [discriminate|]. destruct (true && negb _); discriminate.
        + unfold check_indices in E. destruct (negb _); [discriminate|]. destruct (true && negb _); discriminate. }
    unfold get_elements_in_slice, set_elements_in_slice. cbn [st_mem st_var]. rewrite !K. auto.
  - intros Hf Hl Hn.
    assert (K : visit_elements_in_slice c v sw true (Some n) first last = Throw).
    { unfold visit_elements_in_slice. rewrite !check_valid by assumption. cbn [rbind snd].
      pose proof (valid_len _ _ _ Hf). pose proof (valid_len _ _ _ Hl).
      rewrite <- slice_size_prod by congruence.
      destruct (slice_size first last <=? 0) eqn:E; [lia|].
      replace (n <? slice_size first last) with true by lia. reflexivity. }
    unfold get_elements_in_slice, set_elements_in_slice. cbn [st_mem st_var]. rewrite !K. auto.
Qed.

Lemma slice_round_trip : forall V c c' sw v (m : Z -> V) buf n first last,
  omp_cfg_ok c -> omp_cfg_ok c' -> wf_var v -> valid_indices false v first -> valid_indices false v last ->
  slice_size first last <= n ->
  exists s', set_elements_in_slice c sw (mkState v (Some m)) buf n first last = Ok (s', slice_size first last) /\
  forall buf0 n', slice_size first last <= n' ->
  exists buf', get_elements_in_slice c' sw s' buf0 n' first last = Ok (buf', slice_size first last) /\
    forall k, 0 <= k < slice_size first last -> buf' k = buf k.
Proof.
  intros V c c' sw v m buf n first last Hc Hc' Hw Hf Hl Hn.
  destruct (slice_set V c sw v m buf n first last Hc Hw Hf Hl Hn) as (s' & E & Ev & R1 & _).
  exists s'. split; [exact E|]. intros buf0 n' Hn'.
  destruct s' as [v' [m'|]]; cbn in Ev; subst v'.
  2:{ unfold set_elements_in_slice in E. cbn [st_mem st_var] in E.
      destruct (visit_elements_in_slice c v sw true (Some n) first last) as [r| | |]; cbn in E; try discriminate.
      destruct (do_set v buf n (fst r) m); cbn in E; discriminate. }
  destruct (slice_get V c' sw v m' buf0 n' first last Hc' Hw (valid_mono sw _ _ Hf) (valid_mono sw _ _ Hl) Hn')
    as (buf' & E' & R2 & _).
  exists buf'. split; [exact E'|]. intros k Hk.
  destruct (slice_visits_spec c v first last Hc (valid_len _ _ _ Hf) (valid_len _ _ _ Hl)) as (vis & _ & Hv); [lia|].
  destruct (visits_each _ _ _ _ Hv Hk) as (p & Hp). apply Hv in Hp. destruct Hp as (Hp & ->).
  specialize (R1 p Hp). specialize (R2 p Hp). congruence.
Qed.
