From Coq Require Import String.
From Verif Require Import Base Idiv_Model Idiv_Proofs MixedRadix Cover_Spec Cover_Proofs
  Visit_Spec ParFor_Model ParFor_Proofs Tuple_Model.

Notation allpos := (Forall (fun s => 0 < s)).

Lemma layout_loop_pos : forall ss os idx p,
  layout_loop ss os idx p = idx + p * mr_pos ss os.
Proof.
  induction ss as [|s ss IH]; intros [|o os] idx p; cbn; try lia.
  rewrite IH. lia.
Qed.

Lemma layout_vals_pos : forall fi ss os,
  layout_vals fi ss os = mr_pos (inner_first fi ss) (inner_first fi os).
Proof. intros. unfold layout_vals. rewrite layout_loop_pos. lia. Qed.

Lemma unlayout_loop_digits : forall ss i p, allpos ss -> 0 < p -> 0 <= i ->
  unlayout_loop ss i p = Ok (mr_digits ss (i / p)).
Proof.
  induction ss as [|s ss IH]; intros i p Hs Hp Hi; cbn; [reflexivity|].
  inversion Hs; subst.
  replace (s =? 0) with false by lia. replace (p =? 0) with false by lia. cbn.
  rewrite IH by (auto; nia). cbn.
  rewrite Z.quot_div_nonneg by lia.
  assert (0 <= i / p) by (apply Z.div_pos; lia).
  rewrite Z.rem_mod_nonneg by lia.
  rewrite Z.div_div by lia. reflexivity.
Qed.

Lemma inner_first_inv : forall A fi (l : list A), inner_first fi (inner_first fi l) = l.
Proof. destruct fi; intros; cbn; [reflexivity|apply rev_involutive]. Qed.

Lemma inner_first_allpos : forall fi ss, allpos ss -> allpos (inner_first fi ss).
Proof. destruct fi; intros; cbn; [assumption|apply Forall_rev'; assumption]. Qed.

Lemma inner_first_zprod : forall fi ss, zprod (inner_first fi ss) = zprod ss.
Proof. destruct fi; intros; cbn; [reflexivity|apply zprod_rev]. Qed.

Lemma inner_first_in : forall fi ss os, in_sizes ss os ->
  in_sizes (inner_first fi ss) (inner_first fi os).
Proof. destruct fi; intros; cbn; [assumption|apply in_sizes_rev; assumption]. Qed.

(* The point with number i, dims in declared order. *)
Definition point_of (fi : bool) (ss : list Z) (i : Z) : list Z :=
  inner_first fi (mr_digits (inner_first fi ss) i).

Lemma unlayout_vals_point : forall fi ss i, allpos ss -> 0 <= i ->
  unlayout_vals fi ss i = Ok (point_of fi ss i).
Proof.
  intros. unfold unlayout_vals. rewrite unlayout_loop_digits by (auto using inner_first_allpos; lia).
  cbn. rewrite Z.div_1_r. reflexivity.
Qed.

Lemma point_of_in : forall fi ss i, allpos ss -> in_sizes ss (point_of fi ss i).
Proof.
  intros. rewrite <- (inner_first_inv _ fi ss) at 1. apply inner_first_in, mr_digits_in.
  apply inner_first_allpos; assumption.
Qed.

Lemma layout_point : forall fi ss i, allpos ss -> 0 <= i < zprod ss ->
  layout_vals fi ss (point_of fi ss i) = i.
Proof.
  intros. rewrite layout_vals_pos. unfold point_of. rewrite inner_first_inv.
  apply mr_pos_digits; [apply inner_first_allpos; assumption|].
  rewrite inner_first_zprod. assumption.
Qed.

Lemma point_layout : forall fi ss os, in_sizes ss os ->
  point_of fi ss (layout_vals fi ss os) = os.
Proof.
  intros. rewrite layout_vals_pos. unfold point_of.
  rewrite mr_digits_pos by (apply inner_first_in; assumption). apply inner_first_inv.
Qed.

Lemma layout_bound : forall fi ss os, in_sizes ss os -> 0 <= layout_vals fi ss os < zprod ss.
Proof.
  intros. rewrite layout_vals_pos, <- (inner_first_zprod fi ss).
  apply mr_pos_bound, inner_first_in. assumption.
Qed.

(* ---- next_index ---- *)
Lemma next_wrap_succ : forall ss os s o, Forall2 (fun s o => 0 <= o < s) (s :: ss) (o :: os) ->
  next_wrap (s :: ss) ((o + 1) :: os) = mr_succ (s :: ss) (o :: os).
Proof.
  induction ss as [|s2 ss IH]; intros os s o H; inversion H as [|? ? ? ? Ho H2]; subst.
  - inversion H2; subst. cbn. destruct (s <=? o + 1) eqn:E; destruct (o + 1 <? s) eqn:E2;
      try reflexivity; lia.
  - inversion H2 as [|? o2 ? os2 Ho2 H3]; subst.
    change (next_wrap (s :: s2 :: ss) ((o + 1) :: o2 :: os2)) with
      (if s <=? o + 1 then 0 :: next_wrap (s2 :: ss) ((o2 + 1) :: os2) else (o + 1) :: o2 :: os2).
    rewrite IH by assumption.
    change (mr_succ (s :: s2 :: ss) (o :: o2 :: os2)) with
      (if o + 1 <? s then (o + 1) :: o2 :: os2 else 0 :: mr_succ (s2 :: ss) (o2 :: os2)).
    destruct (s <=? o + 1) eqn:E; destruct (o + 1 <? s) eqn:E2; try reflexivity; lia.
Qed.

Lemma next_index_point : forall fi ss i, allpos ss -> 0 <= i ->
  next_index fi ss (point_of fi ss i) = point_of fi ss (i + 1).
Proof.
  intros fi ss i Hs Hi. unfold next_index, point_of.
  rewrite inner_first_inv.
  pose proof (inner_first_allpos fi ss Hs) as Hs'.
  rewrite <- (mr_succ_digits (inner_first fi ss) i) by assumption.
  pose proof (mr_digits_in (inner_first fi ss) i Hs') as Hin.
  destruct (inner_first fi ss) as [|s r] eqn:Es.
  - reflexivity.
  - destruct (mr_digits (s :: r) i) as [|d ds] eqn:Ed; [discriminate|].
    rewrite next_wrap_succ by exact Hin.
    destruct (s <=? d + 1) eqn:E; [reflexivity|].
    cbn. replace (d + 1 <? s) with true by lia. reflexivity.
Qed.

(* ---- visiting ---- *)
Section Visit.
  Variable St : Type.
  Variable visitor : St -> list Z -> Z -> St * bool.

  Lemma visit_loop_run : forall fi ss n i st, allpos ss -> 0 <= i ->
    visit_loop St visitor fi ss n i (point_of fi ss i) st =
    run_visitor St visitor (map (fun j => (point_of fi ss j, j)) (zrange i (i + Z.of_nat n))) st.
  Proof.
    induction n as [|n IH]; intros i st Hs Hi.
    - rewrite zrange_nil by lia. reflexivity.
    - rewrite zrange_cons by lia. cbn.
      destruct (visitor st (point_of fi ss i) i) as [st' ok]. destruct ok; [|reflexivity].
      rewrite next_index_point by assumption. rewrite IH by (auto; lia).
      do 2 f_equal. f_equal. lia.
  Qed.
End Visit.

Lemma zero_point : forall fi ss, allpos ss -> map (fun _ => 0) ss = point_of fi ss 0.
Proof.
  intros. unfold point_of. rewrite mr_digits_zero by (apply inner_first_allpos; assumption).
  destruct fi; cbn; [reflexivity|]. rewrite map_rev, rev_involutive. reflexivity.
Qed.

Lemma zrange_0 : forall n, zrange 0 n = zseq n.
Proof.
  intros. unfold zrange. replace (n - 0) with n by lia.
  rewrite <- map_id. apply map_ext. intros; lia.
Qed.

(* The numbered points of a box in visiting order. *)
Definition numbered_points (fi : bool) (ss : list Z) : list (list Z * Z) :=
  map (fun i => (point_of fi ss i, i)) (zseq (zprod ss)).

Lemma run_visitor_recorder : forall l acc, run_visitor _ recorder l acc = (acc ++ l, true).
Proof.
  induction l as [|[p i] l IH]; intros; cbn; [rewrite app_nil_r; reflexivity|].
  rewrite IH, <- app_assoc. reflexivity.
Qed.

Lemma indices_visit_run : forall St visitor fi ss st, allpos ss ->
  indices_visit_all_points St visitor fi ss st = run_visitor St visitor (numbered_points fi ss) st.
Proof.
  intros St visitor fi ss st Hs. unfold indices_visit_all_points, numbered_points.
  pose proof (zprod_pos ss Hs).
  replace (zprod ss <? 1) with false by lia.
  rewrite (zero_point fi ss Hs).
  destruct (zprod ss =? 1) eqn:E.
  - apply Z.eqb_eq in E. rewrite E. change (zseq 1) with [0]. cbn.
    destruct (visitor st (point_of fi ss 0) 0) as [st' []]; reflexivity.
  - rewrite visit_loop_run by (auto; lia). rewrite Z2Nat.id by lia.
    rewrite Z.add_0_l, zrange_0. reflexivity.
Qed.

Lemma fold_mul : forall l v, fold_left Z.mul l v = v * zprod l.
Proof. induction l; intros; cbn; [lia|]. rewrite IHl. lia. Qed.

Lemma product_zprod : forall t, product t = zprod (vals t).
Proof.
  intros. unfold product. destruct (vals t); [reflexivity|]. rewrite fold_mul. reflexivity.
Qed.

Lemma tuple_visit_run : forall St visitor t st, allpos (vals t) ->
  tuple_visit_all_points St visitor t st =
  run_visitor St visitor (numbered_points (first_inner t) (vals t)) st.
Proof.
  intros St visitor t st Hs. unfold tuple_visit_all_points, numbered_points.
  pose proof (zprod_pos _ Hs). rewrite product_zprod.
  rewrite (zero_point (first_inner t) _ Hs).
  destruct (zprod (vals t) <=? 1) eqn:E.
  - replace (zprod (vals t)) with 1 by lia. change (zseq 1) with [0]. cbn.
    destruct (visitor st (point_of (first_inner t) (vals t) 0) 0) as [st' []]; reflexivity.
  - rewrite visit_loop_run by (auto; lia). rewrite Z2Nat.id by lia.
    rewrite Z.add_0_l, zrange_0. reflexivity.
Qed.

Lemma numbered_spec : forall fi ss, allpos ss ->
  NoDup (map fst (numbered_points fi ss)) /\
  (forall p, In p (map fst (numbered_points fi ss)) <-> in_sizes ss p) /\
  (forall p i, In (p, i) (numbered_points fi ss) -> layout_vals fi ss p = i) /\
  map snd (numbered_points fi ss) = zseq (zprod ss).
Proof.
  intros fi ss Hs. unfold numbered_points. repeat rewrite map_map. cbn.
  split; [|split; [|split]].
  - apply NoDup_map_on; [|apply zseq_NoDup]. intros x y Hx Hy E. apply zseq_In in Hx, Hy.
    rewrite <- (layout_point fi ss x Hs Hx), <- (layout_point fi ss y Hs Hy), E. reflexivity.
  - intros p. rewrite in_map_iff. split.
    + intros (i & <- & Hi). apply point_of_in. assumption.
    + intros Hp. exists (layout_vals fi ss p). split; [apply point_layout; assumption|].
      apply zseq_In. apply layout_bound. assumption.
  - intros p i. rewrite in_map_iff. intros (j & E & Hj). inversion E; subst.
    apply layout_point; [assumption|]. apply zseq_In. assumption.
  - rewrite map_id. reflexivity.
Qed.

(* ---- parallel visiting ---- *)
Lemma visit_share_spec : forall fi ss b e, allpos ss -> 0 <= b <= e ->
  visit_share fi ss b e = Ok (map (fun j => (point_of fi ss j, j)) (zrange b e)).
Proof.
  intros fi ss b e Hs Hbe. unfold visit_share.
  destruct (e <=? b) eqn:E.
  - rewrite zrange_nil by lia. reflexivity.
  - rewrite unlayout_vals_point by (auto; lia). cbn.
    rewrite visit_loop_run by (auto; lia). rewrite run_visitor_recorder. cbn.
    do 3 f_equal. lia.
Qed.

Lemma rconcat_ok : forall A B (f : A -> list B) (l : list A),
  rconcat (map (fun x => Ok (f x)) l) = Ok (concat (map f l)).
Proof. induction l; cbn; [reflexivity|]. rewrite IHl. reflexivity. Qed.

Lemma rconcat_ext : forall A B (f g : A -> res (list B)) l,
  (forall x, In x l -> f x = g x) -> rconcat (map f l) = rconcat (map g l).
Proof.
  induction l as [|a l IH]; intros H; cbn; [reflexivity|].
  rewrite (H a) by (left; reflexivity). rewrite IH; [reflexivity|]. intros; apply H; right; assumption.
Qed.

(* Concatenating the pieces of a chain of cuts. *)
Lemma concat_cuts : forall A (g : Z -> A) (c : Z -> Z) n, 0 <= n ->
  (forall k, 0 <= k < n -> c (k - 1) <= c k) ->
  concat (map (fun k => map g (zrange (c (k - 1)) (c k))) (zseq n))
  = map g (zrange (c (-1)) (c (n - 1))).
Proof.
  intros A g c n Hn. revert n Hn. refine (natlike_ind _ _ _).
  - intros _. cbn. rewrite zrange_nil by (change (0 - 1) with (-1); lia). reflexivity.
  - intros n Hn IH Hc. unfold Z.succ in *. rewrite zseq_succ by lia.
    rewrite map_app, concat_app, IH by (intros; apply Hc; lia).
    cbn. rewrite app_nil_r, <- map_app. f_equal.
    replace (n + 1 - 1) with n by lia.
    symmetry. apply zrange_app.
    split; [|apply Hc; lia].
    clear IH.
    assert (forall m, 0 <= m -> m <= n -> c (-1) <= c (m - 1)) as M.
    { refine (natlike_ind _ _ _).
      - intros. change (0 - 1) with (-1). lia.
      - intros m Hm IHm Hle. unfold Z.succ in *. replace (m + 1 - 1) with m by lia.
        etransitivity; [apply IHm; lia|]. apply Hc. lia. }
    apply M; lia.
Qed.

Lemma loop_unit : forall b e, b <= e -> loop b e 1 = Ok (map (fun i => (i, i + 1)) (zrange b e)).
Proof.
  intros b e H. unfold loop.
  remember (Z.to_nat (e - b)) as n eqn:En. revert b H En.
  induction n as [|n IH]; intros b H En.
  - cbn. replace (b <? e) with false by lia. rewrite zrange_nil by lia. reflexivity.
  - cbn. replace (b <? e) with true by lia. rewrite IH by lia. cbn.
    rewrite (zrange_cons b e) by lia. cbn. do 3 f_equal. lia.
Qed.

Lemma parallel_for_unit : forall c n, 0 <= n ->
  yask_parallel_for c 0 n 1 = Ok (map (fun i => (i, i + 1)) (zseq n)).
Proof.
  intros c n Hn. unfold yask_parallel_for.
  destruct (n <=? 0) eqn:E0; [rewrite zseq_nil by lia; reflexivity|].
  assert (HC : CEIL_DIV (n - 0) 1 = n) by (unfold CEIL_DIV; rewrite Z.quot_1_r; lia).
  rewrite HC. clear HC.
  destruct (n =? 1) eqn:E1; [replace n with 1 by lia; reflexivity|].
  rewrite loop_unit by lia. rewrite zrange_0.
  destruct (negb (has_openmp c)); [reflexivity|].
  destruct (1 <? omp_num_threads c); [reflexivity|].
  destruct (max_active_levels c <? 2); [reflexivity|].
  destruct (ynt0 c <=? 0) eqn:E2; [reflexivity|].
  destruct (ynt1 c <=? 1); [reflexivity|].
  destruct (n <=? ynt0 c) eqn:E3; [reflexivity|]. cbn [orb].
  set (cut := fun k => div_equally_cumu_size_n n (ynt0 c) k).
  destruct (div_equally_complete n (ynt0 c)) as (Hw & Hx & _ & _ & Hs & _); [lia|lia|].
  assert (Hmono : forall k, 0 <= k < ynt0 c -> cut (k - 1) <= cut k).
  { intros k Hk. destruct (Hs k Hk) as (Hd & _). cbn in Hd. fold (cut (k-1)) (cut k) in Hd.
    unfold div_equally_size_n in Hd.
    assert (0 <= Z.quot n (ynt0 c)) by (apply Z.quot_pos; lia).
    destruct (k <? Z.rem n (ynt0 c)); lia. }
  assert (Hneg : cut (-1) = 0) by reflexivity.
  assert (Hlast : cut (ynt0 c - 1) = n).
  { unfold cut, div_equally_cumu_size_n. replace (ynt0 c - 1 <? 0) with false by lia.
    pose proof (Z.quot_rem n (ynt0 c) ltac:(lia)).
    pose proof (Z.rem_bound_pos n (ynt0 c) ltac:(lia) ltac:(lia)).
    destruct (ynt0 c - 1 <? Z.rem n (ynt0 c)) eqn:EE; nia. }
  assert (Hge : forall k, 0 <= k <= ynt0 c -> 0 <= cut (k - 1) <= n).
  { intros k Hk. split.
    - destruct (Z.eq_dec k 0) as [->|]; [change (0-1) with (-1); lia|].
      unfold cut, div_equally_cumu_size_n. replace (k - 1 <? 0) with false by lia.
      assert (0 <= Z.quot n (ynt0 c)) by (apply Z.quot_pos; lia).
      pose proof (Z.rem_bound_pos n (ynt0 c) ltac:(lia) ltac:(lia)).
      destruct (k - 1 <? Z.rem n (ynt0 c)); nia.
    - destruct (Z.eq_dec k 0) as [->|]; [change (0-1) with (-1); lia|].
      unfold cut, div_equally_cumu_size_n. replace (k - 1 <? 0) with false by lia.
      assert (0 <= Z.quot n (ynt0 c)) by (apply Z.quot_pos; lia).
      pose proof (Z.quot_rem n (ynt0 c) ltac:(lia)).
      pose proof (Z.rem_bound_pos n (ynt0 c) ltac:(lia) ltac:(lia)).
      destruct (k - 1 <? Z.rem n (ynt0 c)) eqn:EE; nia. }
  rewrite (rconcat_ext _ _ _ (fun k => Ok (map (fun i => (i, i + 1)) (zrange (cut (k - 1)) (cut k))))).
  - rewrite rconcat_ok. rewrite concat_cuts by (auto; lia).
    rewrite Hneg, Hlast, zrange_0. reflexivity.
  - intros k Hk. apply zseq_In in Hk. unfold nested_thread.
    fold (cut (k - 1)) (cut k). rewrite !Z.mul_1_r.
    assert (H1 := Hmono k Hk).
    assert (H2 := Hge (k + 1) ltac:(lia)). replace (k + 1 - 1) with k in H2 by lia.
    rewrite Z.min_l by lia.
    destruct (cut k <=? cut (k - 1)) eqn:E4; [rewrite zrange_nil by lia; reflexivity|].
    destruct (cut k - cut (k - 1) <=? 1) eqn:E5.
    + replace (cut k) with (cut (k - 1) + 1) by lia. rewrite zrange_one. reflexivity.
    + apply loop_unit. lia.
Qed.

Definition omp_cfg_ok (c : omp_cfg) : Prop := 1 <= omp_num_threads c.

Lemma num_threads_pos : forall c, omp_cfg_ok c -> 1 <= yask_get_num_threads c.
Proof.
  intros c H. unfold omp_cfg_ok, yask_get_num_threads in *.
  destruct ((1 <? max_active_levels c) && (0 <? ynt0 c) && (1 <? ynt1 c)) eqn:E; [nia|].
  destruct (0 <? ynt0 c) eqn:E2; lia.
Qed.

Lemma cumu_cuts : forall N P, 0 <= N -> 1 <= P ->
  div_equally_cumu_size_n N P (-1) = 0 /\ div_equally_cumu_size_n N P (P - 1) = N /\
  (forall k, 0 <= k < P -> 0 <= div_equally_cumu_size_n N P (k - 1) <= div_equally_cumu_size_n N P k).
Proof.
  intros N P HN HP. split; [reflexivity|].
  pose proof (Z.quot_rem N P ltac:(lia)).
  pose proof (Z.rem_bound_pos N P ltac:(lia) ltac:(lia)).
  assert (0 <= Z.quot N P) by (apply Z.quot_pos; lia).
  split.
  - unfold div_equally_cumu_size_n. replace (P - 1 <? 0) with false by lia.
    destruct (P - 1 <? Z.rem N P) eqn:EE; nia.
  - intros k Hk. unfold div_equally_cumu_size_n. replace (k <? 0) with false by lia.
    destruct (k - 1 <? 0) eqn:E1; destruct (k - 1 <? Z.rem N P) eqn:E2;
      destruct (k <? Z.rem N P) eqn:E3; nia.
Qed.

Lemma indices_parallel_visit : forall c fi ss, omp_cfg_ok c -> allpos ss ->
  indices_visit_in_parallel c fi ss = Ok (numbered_points fi ss).
Proof.
  intros c fi ss Hc Hs. unfold indices_visit_in_parallel.
  pose proof (zprod_pos ss Hs) as Hp.
  replace (zprod ss <? 1) with false by lia.
  destruct (zprod ss =? 1) eqn:E.
  - unfold numbered_points. replace (zprod ss) with 1 by lia. change (zseq 1) with [0]. cbn.
    rewrite <- zero_point by assumption. reflexivity.
  - destruct (negb (has_openmp c)).
    + rewrite indices_visit_run by assumption. rewrite run_visitor_recorder. reflexivity.
    + pose proof (num_threads_pos c Hc) as Hn.
      rewrite parallel_for_unit by lia. cbn. rewrite map_map.
      destruct (cumu_cuts (zprod ss) (yask_get_num_threads c)) as (C1 & C2 & C3); [lia|lia|].
      rewrite (rconcat_ext _ _ _ (fun k => Ok (map (fun j => (point_of fi ss j, j))
         (zrange (div_equally_cumu_size_n (zprod ss) (yask_get_num_threads c) (k - 1))
                 (div_equally_cumu_size_n (zprod ss) (yask_get_num_threads c) k))))).
      * rewrite rconcat_ok, concat_cuts; [|lia|intros; apply C3; lia].
        rewrite C1, C2, zrange_0. reflexivity.
      * intros k Hk. apply zseq_In in Hk. cbn. apply visit_share_spec; [assumption|].
        apply C3. assumption.
Qed.

Lemma tuple_parallel_visit : forall c t, omp_cfg_ok c -> allpos (vals t) ->
  tuple_visit_in_parallel c t = Ok (numbered_points (first_inner t) (vals t)).
Proof.
  intros c t Hc Hs. unfold tuple_visit_in_parallel. rewrite product_zprod.
  pose proof (zprod_pos _ Hs).
  destruct (zprod (vals t) <=? 1) eqn:E.
  - unfold numbered_points. replace (zprod (vals t)) with 1 by lia. change (zseq 1) with [0]. cbn.
    rewrite <- zero_point by assumption. reflexivity.
  - apply indices_parallel_visit; assumption.
Qed.

(* Empty boxes with the Indices version. *)
Lemma indices_visit_empty : forall St visitor fi ss st, zprod ss <= 0 ->
  indices_visit_all_points St visitor fi ss st = (st, true).
Proof.
  intros. unfold indices_visit_all_points. replace (zprod ss <? 1) with true by lia. reflexivity.
Qed.

Lemma indices_parallel_empty : forall c fi ss, zprod ss <= 0 ->
  indices_visit_in_parallel c fi ss = Ok [].
Proof.
  intros. unfold indices_visit_in_parallel. replace (zprod ss <? 1) with true by lia. reflexivity.
Qed.

(* ---- packaged statements ---- *)
Lemma layout_bijection : forall fi ss, allpos ss ->
  (forall os, in_sizes ss os ->
     let inner l := if fi : bool then l else rev l in
     layout_vals fi ss os = mr_pos (inner ss) (inner os) /\
     0 <= layout_vals fi ss os < zprod ss /\
     unlayout_vals fi ss (layout_vals fi ss os) = Ok os) /\
  (forall i, 0 <= i < zprod ss ->
     exists os, unlayout_vals fi ss i = Ok os /\ in_sizes ss os /\ layout_vals fi ss os = i).
Proof.
  intros fi ss Hs. split.
  - intros os Ho. cbn zeta. split; [apply layout_vals_pos|].
    pose proof (layout_bound fi ss os Ho). split; [assumption|].
    rewrite unlayout_vals_point by (auto; lia). f_equal. apply point_layout. assumption.
  - intros i Hi. exists (point_of fi ss i). split; [apply unlayout_vals_point; [assumption|lia]|].
    split; [apply point_of_in; assumption|apply layout_point; assumption].
Qed.

(* What it means for [l] to be the numbered points of the box in increasing order. *)
Lemma numbered_enum : forall fi ss, allpos ss ->
  let inner l := if fi : bool then l else rev l in
  NoDup (map fst (numbered_points fi ss)) /\
  (forall p, In p (map fst (numbered_points fi ss)) <-> in_sizes ss p) /\
  (forall p i, In (p, i) (numbered_points fi ss) -> i = mr_pos (inner ss) (inner p)) /\
  map snd (numbered_points fi ss) = zseq (zprod ss).
Proof.
  intros fi ss Hs. cbn zeta. destruct (numbered_spec fi ss Hs) as (A & B & C & D).
  repeat split; auto; try (apply B).
  intros p i H. rewrite <- (C p i H). apply layout_vals_pos.
Qed.

Lemma nonneg_cases : forall ss, Forall (fun s => 0 <= s) ss -> allpos ss \/ (zprod ss = 0 /\ forall p, ~ in_sizes ss p).
Proof.
  induction 1 as [|s ss Hs H IH]; [left; constructor|].
  destruct (Z.eq_dec s 0) as [->|].
  - right. split; [cbn; lia|]. intros p Hp. inversion Hp; subst. lia.
  - destruct IH as [IH|[IH1 IH2]].
    + left. constructor; [lia|assumption].
    + right. split; [cbn; rewrite IH1; lia|]. intros p Hp. inversion Hp; subst. eapply IH2; eassumption.
Qed.

Lemma tuple_visit_complete : forall t, allpos (vals t) ->
  let inner l := if first_inner t then l else rev l in
  exists visits : list (list Z * Z),
    (forall St visitor st,
       tuple_visit_all_points St visitor t st = run_visitor St visitor visits st) /\
    (forall c, 1 <= omp_num_threads c -> tuple_visit_in_parallel c t = Ok visits) /\
    NoDup (map fst visits) /\
    (forall p, In p (map fst visits) <-> in_sizes (vals t) p) /\
    (forall p i, In (p, i) visits -> i = mr_pos (inner (vals t)) (inner p)) /\
    map snd visits = zseq (zprod (vals t)).
Proof.
  intros t Hs. cbn zeta. exists (numbered_points (first_inner t) (vals t)).
  split; [intros; apply tuple_visit_run; assumption|].
  split; [intros; apply tuple_parallel_visit; assumption|].
  apply numbered_enum. assumption.
Qed.

Lemma indices_visit_complete : forall fi ss, Forall (fun s => 0 <= s) ss ->
  let inner l := if fi : bool then l else rev l in
  exists visits : list (list Z * Z),
    (forall St visitor st,
       indices_visit_all_points St visitor fi ss st = run_visitor St visitor visits st) /\
    (forall c, 1 <= omp_num_threads c -> indices_visit_in_parallel c fi ss = Ok visits) /\
    NoDup (map fst visits) /\
    (forall p, In p (map fst visits) <-> in_sizes ss p) /\
    (forall p i, In (p, i) visits -> i = mr_pos (inner ss) (inner p)) /\
    map snd visits = zseq (zprod ss).
Proof.
  intros fi ss Hn. cbn zeta. destruct (nonneg_cases ss Hn) as [Hs|[Hz Hp]].
  - exists (numbered_points fi ss).
    split; [intros; apply indices_visit_run; assumption|].
    split; [intros; apply indices_parallel_visit; assumption|].
    apply numbered_enum. assumption.
  - exists []. split; [intros; apply indices_visit_empty; lia|].
    split; [intros; apply indices_parallel_empty; lia|].
    split; [constructor|]. split; [intros p; split; [intros []|intros H; exfalso; eapply Hp; eassumption]|].
    split; [intros p i []|]. rewrite Hz. reflexivity.
Qed.

(* ---- comparison ---- *)
Lemma fdv_none : forall a b, List.length a = List.length b -> first_diff_vals a b = None <-> a = b.
Proof.
  induction a as [|x a IH]; intros [|y b] H; cbn in *; try discriminate; [tauto|].
  destruct (x <? y) eqn:E1; [split; [discriminate|intros Q; inversion Q; lia]|].
  destruct (y <? x) eqn:E2; [split; [discriminate|intros Q; inversion Q; lia]|].
  rewrite IH by lia. split; [intros ->; f_equal; lia|intros Q; inversion Q; reflexivity].
Qed.

Lemma fdv_swap : forall a b, first_diff_vals b a = option_map negb (first_diff_vals a b).
Proof.
  induction a as [|x a IH]; intros [|y b]; cbn; try reflexivity.
  destruct (x <? y) eqn:E1, (y <? x) eqn:E2; try reflexivity; [lia|apply IH].
Qed.

Lemma fdv_trans : forall a b c, List.length a = List.length b -> List.length b = List.length c ->
  first_diff_vals a b = Some true -> first_diff_vals b c = Some true ->
  first_diff_vals a c = Some true.
Proof.
  induction a as [|x a IH]; intros [|y b] [|z c] H1 H2; cbn in *; try discriminate.
  destruct (x <? y) eqn:E1.
  - intros _. destruct (y <? z) eqn:E2; [intros; replace (x <? z) with true by lia; reflexivity|].
    destruct (z <? y) eqn:E3; [discriminate|]. intros; replace (x <? z) with true by lia; reflexivity.
  - destruct (y <? x) eqn:E4; [discriminate|]. intros Ha.
    destruct (y <? z) eqn:E2; [intros; replace (x <? z) with true by lia; reflexivity|].
    destruct (z <? y) eqn:E3; [discriminate|]. intros Hb.
    replace (x <? z) with false by lia. replace (z <? x) with false by lia.
    apply (IH b c); auto; lia.
Qed.

Lemma ascii_compare_trans : forall a b c r, Ascii.compare a b = r -> Ascii.compare b c = r ->
  Ascii.compare a c = r.
Proof.
  unfold Ascii.compare. intros a b c r H1 H2.
  destruct r.
  - apply N.compare_eq_iff in H1, H2. apply N.compare_eq_iff. congruence.
  - apply N.compare_lt_iff in H1, H2. apply N.compare_lt_iff. eapply N.lt_trans; eassumption.
  - apply N.compare_gt_iff in H1, H2. apply N.compare_gt_iff. eapply N.lt_trans; eassumption.
Qed.

Lemma string_compare_lt_trans : forall a b c,
  String.compare a b = Lt -> String.compare b c = Lt -> String.compare a c = Lt.
Proof.
  induction a as [|x a IH]; intros [|y b] [|z c]; cbn; try discriminate; try reflexivity.
  destruct (Ascii.compare x y) eqn:E1; try discriminate.
  - apply Ascii.compare_eq_iff in E1. subst y.
    destruct (Ascii.compare x z); try discriminate; try reflexivity. apply IH.
  - intros _. destruct (Ascii.compare y z) eqn:E2; try discriminate.
    + apply Ascii.compare_eq_iff in E2. subst z. rewrite E1. reflexivity.
    + rewrite (ascii_compare_trans _ _ _ _ E1 E2). reflexivity.
Qed.

Lemma string_compare_refl : forall s, String.compare s s = Eq.
Proof.
  induction s as [|x s IH]; cbn; [reflexivity|].
  unfold Ascii.compare. rewrite N.compare_refl. assumption.
Qed.

Lemma fdn_none : forall a b, List.length a = List.length b -> first_diff_names a b = None <-> a = b.
Proof.
  induction a as [|x a IH]; intros [|y b] H; cbn in *; try discriminate; [tauto|].
  destruct (String.compare x y) eqn:E.
  - apply String.compare_eq_iff in E. subst y. rewrite IH by lia.
    split; [intros ->; reflexivity|intros Q; inversion Q; reflexivity].
  - split; [discriminate|]. intros Q; inversion Q; subst.
    pose proof (string_compare_refl y). congruence.
  - split; [discriminate|]. intros Q; inversion Q; subst.
    pose proof (string_compare_refl y). congruence.
Qed.

Lemma fdn_swap : forall a b, first_diff_names b a = option_map negb (first_diff_names a b).
Proof.
  induction a as [|x a IH]; intros [|y b]; cbn; try reflexivity.
  rewrite (String.compare_antisym x y). destruct (String.compare y x) eqn:E; cbn; try reflexivity. apply IH.
Qed.

Lemma fdn_trans : forall a b c, List.length a = List.length b -> List.length b = List.length c ->
  first_diff_names a b = Some true -> first_diff_names b c = Some true ->
  first_diff_names a c = Some true.
Proof.
  induction a as [|x a IH]; intros [|y b] [|z c] H1 H2; cbn in *; try discriminate.
  destruct (String.compare x y) eqn:E1; try discriminate.
  - apply String.compare_eq_iff in E1. subst y.
    destruct (String.compare x z); try discriminate; try reflexivity. intros. apply (IH b c); auto; lia.
  - intros _. destruct (String.compare y z) eqn:E2; try discriminate.
    + apply String.compare_eq_iff in E2. subst z. rewrite E1. reflexivity.
    + rewrite (string_compare_lt_trans _ _ _ E1 E2). reflexivity.
Qed.

Lemma vals_len : forall t, List.length (vals t) = List.length (dims t).
Proof. intros. apply map_length. Qed.
Lemma names_len : forall t, List.length (names t) = List.length (dims t).
Proof. intros. apply map_length. Qed.

Lemma dims_eq_iff : forall a b, dims a = dims b <-> vals a = vals b /\ names a = names b.
Proof.
  intros a b. unfold vals, names. split; [intros ->; auto|].
  generalize (dims a) (dims b). clear. induction l as [|[n v] l IH]; intros [|[m w] r] [Hv Hn]; cbn in *;
    try discriminate; [reflexivity|].
  inversion Hv; inversion Hn; subst. f_equal. apply IH. auto.
Qed.

Lemma forallb_combine_eq : forall A (eqb : A -> A -> bool), (forall x y, eqb x y = true <-> x = y) ->
  forall l r, List.length l = List.length r ->
  forallb (fun p => eqb (fst p) (snd p)) (combine l r) = true <-> l = r.
Proof.
  intros A eqb H. induction l as [|x l IH]; intros [|y r] Hl; cbn in *; try discriminate; [tauto|].
  rewrite andb_true_iff, H, IH by lia. split; [intros [-> ->]; reflexivity|intros Q; inversion Q; auto].
Qed.

Lemma tuple_eq_iff : forall a b, tuple_eq a b = true <-> dims a = dims b.
Proof.
  intros a b. unfold tuple_eq, are_dims_same.
  destruct (Nat.eqb (List.length (dims a)) (List.length (dims b))) eqn:E; cbn.
  - apply Nat.eqb_eq in E. rewrite andb_true_iff.
    rewrite (forallb_combine_eq _ String.eqb String.eqb_eq) by (rewrite !names_len; assumption).
    rewrite (forallb_combine_eq _ Z.eqb Z.eqb_eq) by (rewrite !vals_len; assumption).
    rewrite dims_eq_iff. tauto.
  - split; [discriminate|]. intros H. rewrite H in E. rewrite Nat.eqb_refl in E. discriminate.
Qed.

Lemma tuple_lt_spec : forall a b, tuple_lt a b = true <->
  (List.length (dims a) < List.length (dims b))%nat \/
  (List.length (dims a) = List.length (dims b) /\
   (first_diff_vals (vals a) (vals b) = Some true \/
    (vals a = vals b /\ first_diff_names (names a) (names b) = Some true))).
Proof.
  intros a b. unfold tuple_lt.
  destruct (Nat.ltb_spec (List.length (dims a)) (List.length (dims b))); [split; [auto|reflexivity]|].
  destruct (Nat.ltb_spec (List.length (dims b)) (List.length (dims a))).
  - split; [discriminate|]. lia.
  - assert (L : List.length (dims a) = List.length (dims b)) by lia.
    assert (LV : List.length (vals a) = List.length (vals b)) by (rewrite !vals_len; assumption).
    pose proof (fdv_none _ _ LV) as HN.
    destruct (first_diff_vals (vals a) (vals b)) as [[|]|] eqn:Ev.
    + split; [intros _; right; auto|reflexivity].
    + split; [discriminate|]. intros [?|[_ [?|[Ev2 _]]]]; try lia; try discriminate.
      apply HN in Ev2. discriminate.
    + destruct (first_diff_names (names a) (names b)) as [[|]|] eqn:En.
      * split; [intros _; right; split; [assumption|right; split; [apply HN|]; reflexivity]|reflexivity].
      * split; [discriminate|]. intros [?|[_ [?|[_ ?]]]]; try lia; discriminate.
      * split; [discriminate|]. intros [?|[_ [?|[_ ?]]]]; try lia; discriminate.
Qed.

Lemma tuple_lt_irrefl : forall a, tuple_lt a a = false.
Proof.
  intros a. destruct (tuple_lt a a) eqn:E; [|reflexivity]. apply tuple_lt_spec in E.
  destruct E as [E|[_ [E|[_ E]]]]; [lia| |].
  - assert (first_diff_vals (vals a) (vals a) = None) by (apply fdv_none; reflexivity). congruence.
  - assert (first_diff_names (names a) (names a) = None) by (apply fdn_none; reflexivity). congruence.
Qed.

Lemma tuple_lt_trans : forall a b c, tuple_lt a b = true -> tuple_lt b c = true -> tuple_lt a c = true.
Proof.
  intros a b c. rewrite !tuple_lt_spec.
  intros [H1|[L1 H1]] [H2|[L2 H2]]; [left; lia|left; lia|left; lia|].
  right. split; [lia|].
  assert (LV1 : List.length (vals a) = List.length (vals b)) by (rewrite !vals_len; assumption).
  assert (LV2 : List.length (vals b) = List.length (vals c)) by (rewrite !vals_len; assumption).
  assert (LN1 : List.length (names a) = List.length (names b)) by (rewrite !names_len; assumption).
  assert (LN2 : List.length (names b) = List.length (names c)) by (rewrite !names_len; assumption).
  destruct H1 as [H1|[E1 H1]], H2 as [H2|[E2 H2]].
  - left. eapply fdv_trans; [| |exact H1|exact H2]; assumption.
  - left. rewrite <- E2. assumption.
  - left. rewrite E1. assumption.
  - right. split; [congruence|]. eapply fdn_trans; [| |exact H1|exact H2]; assumption.
Qed.

Lemma tuple_lt_total : forall a b, tuple_lt a b = false -> tuple_lt b a = false -> dims a = dims b.
Proof.
  intros a b H1 H2.
  assert (N1 : ~ tuple_lt a b = true) by congruence.
  assert (N2 : ~ tuple_lt b a = true) by congruence.
  rewrite tuple_lt_spec in N1, N2.
  assert (L : List.length (dims a) = List.length (dims b)) by lia.
  assert (LV : List.length (vals a) = List.length (vals b)) by (rewrite !vals_len; assumption).
  assert (LN : List.length (names a) = List.length (names b)) by (rewrite !names_len; assumption).
  rewrite fdv_swap, fdn_swap in N2.
  apply dims_eq_iff.
  destruct (first_diff_vals (vals a) (vals b)) as [[|]|] eqn:Ev.
  - exfalso. apply N1. right. auto.
  - exfalso. apply N2. right. split; [auto|]. left. reflexivity.
  - apply fdv_none in Ev; [|assumption]. split; [assumption|].
    destruct (first_diff_names (names a) (names b)) as [[|]|] eqn:En.
    + exfalso. apply N1. right. auto.
    + exfalso. apply N2. right. split; [auto|]. right. split; [auto|reflexivity].
    + apply fdn_none in En; assumption.
Qed.

Lemma tuple_order : 
  (forall a, tuple_lt a a = false) /\
  (forall a b c, tuple_lt a b = true -> tuple_lt b c = true -> tuple_lt a c = true) /\
  (forall a b, tuple_eq a b = true <-> dims a = dims b) /\
  (forall a b, (tuple_lt a b = true /\ tuple_lt b a = false /\ tuple_eq a b = false) \/
               (tuple_lt a b = false /\ tuple_lt b a = true /\ tuple_eq a b = false) \/
               (tuple_lt a b = false /\ tuple_lt b a = false /\ tuple_eq a b = true)) /\
  (forall a b, tuple_le a b = negb (tuple_lt b a)) /\
  (forall a b, tuple_gt a b = tuple_lt b a) /\
  (forall a b, tuple_ge a b = tuple_le b a).
Proof.
  assert (T : forall a b, (tuple_lt a b = true /\ tuple_lt b a = false /\ tuple_eq a b = false) \/
               (tuple_lt a b = false /\ tuple_lt b a = true /\ tuple_eq a b = false) \/
               (tuple_lt a b = false /\ tuple_lt b a = false /\ tuple_eq a b = true)).
  { intros a b.
    assert (Q : tuple_lt a b = true -> tuple_lt b a = true -> False).
    { intros A B. pose proof (tuple_lt_trans _ _ _ A B) as C. rewrite tuple_lt_irrefl in C. discriminate. }
    assert (E1 : dims a = dims b -> tuple_lt a b = false).
    { intros E. destruct (tuple_lt a b) eqn:X; [|reflexivity]. apply tuple_lt_spec in X.
      apply dims_eq_iff in E as EE. destruct EE as [EV EN].
      destruct X as [X|[_ [X|[_ X]]]]; [rewrite E in X; lia| |].
      - assert (first_diff_vals (vals a) (vals b) = None) by (apply fdv_none; congruence). congruence.
      - assert (first_diff_names (names a) (names b) = None) by (apply fdn_none; congruence). congruence. }
    assert (E2 : dims a = dims b -> tuple_lt b a = false).
    { intros E. destruct (tuple_lt b a) eqn:X; [|reflexivity]. apply tuple_lt_spec in X.
      apply dims_eq_iff in E as EE. destruct EE as [EV EN].
      destruct X as [X|[_ [X|[_ X]]]]; [rewrite E in X; lia| |].
      - assert (first_diff_vals (vals b) (vals a) = None) by (apply fdv_none; congruence). congruence.
      - assert (first_diff_names (names b) (names a) = None) by (apply fdn_none; congruence). congruence. }
    destruct (tuple_eq a b) eqn:E.
    - apply tuple_eq_iff in E. right; right. auto.
    - destruct (tuple_lt a b) eqn:A, (tuple_lt b a) eqn:B; auto.
      + exfalso; auto.
      + pose proof (tuple_lt_total a b A B) as D. apply tuple_eq_iff in D. congruence. }
  split; [apply tuple_lt_irrefl|]. split; [apply tuple_lt_trans|]. split; [apply tuple_eq_iff|].
  split; [exact T|].
  assert (LE : forall a b, tuple_le a b = negb (tuple_lt b a)).
  { intros a b. unfold tuple_le. destruct (T a b) as [(->&->&->)|[(->&->&->)|(->&->&->)]]; reflexivity. }
  split; [exact LE|]. split.
  - intros a b. unfold tuple_gt. rewrite LE, negb_involutive. reflexivity.
  - intros a b. unfold tuple_ge. rewrite LE. reflexivity.
Qed.
