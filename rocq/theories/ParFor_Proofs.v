From Verif Require Import Base Cover_Spec Cover_Proofs Idiv_Model Idiv_Proofs ParFor_Model.

(* ---- division of work ---- *)

Lemma cumu_nonneg : forall N P n, 0 <= N -> 0 < P -> 0 <= n ->
  div_equally_cumu_size_n N P n =
  (N / P) * (n + 1) + Z.min (n + 1) (N mod P).
Proof.
  intros N P n HN HP Hn. unfold div_equally_cumu_size_n.
  destruct (n <? 0) eqn:E; [apply Z.ltb_lt in E; lia|].
  rewrite Z.quot_div_nonneg, Z.rem_mod_nonneg by lia.
  destruct (n <? N mod P) eqn:E2; lia.
Qed.

Lemma cumu_neg1 : forall N P, div_equally_cumu_size_n N P (-1) = 0.
Proof. reflexivity. Qed.

Lemma cumu_step : forall N P n, 0 <= N -> 0 < P -> 0 <= n ->
  div_equally_cumu_size_n N P n =
  div_equally_cumu_size_n N P (n - 1) + div_equally_size_n N P n.
Proof.
  intros N P n HN HP Hn.
  assert (Hm: 0 <= N mod P) by (apply Z.mod_pos_bound; lia).
  unfold div_equally_size_n. rewrite Z.quot_div_nonneg, Z.rem_mod_nonneg by lia.
  rewrite (cumu_nonneg N P n) by lia.
  destruct (Z.eq_dec n 0) as [->|Hnz].
  - change (0 - 1) with (-1). rewrite cumu_neg1. destruct (0 <? N mod P) eqn:E; lia.
  - rewrite (cumu_nonneg N P (n - 1)) by lia. destruct (n <? N mod P) eqn:E; lia.
Qed.

Lemma size_nonneg : forall N P n, 0 <= N -> 0 < P -> 0 <= div_equally_size_n N P n.
Proof.
  intros N P n HN HP. unfold div_equally_size_n.
  rewrite Z.quot_div_nonneg by lia. pose proof (Z.div_pos N P HN HP).
  destruct (n <? Z.rem N P); lia.
Qed.

Lemma cumu_last : forall N P, 0 <= N -> 0 < P -> div_equally_cumu_size_n N P (P - 1) = N.
Proof.
  intros N P HN HP. rewrite cumu_nonneg by lia.
  pose proof (Z.mod_pos_bound N P HP). pose proof (Z.div_mod N P ltac:(lia)).
  replace (P - 1 + 1) with P by lia. rewrite Z.min_r by lia. lia.
Qed.

Lemma shares_wchain : forall N P, 0 <= N -> 0 < P ->
  wchain 0 N (map (fun n => (div_equally_cumu_size_n N P (n - 1),
                             div_equally_cumu_size_n N P n)) (zseq P)).
Proof.
  intros N P HN HP.
  pose (f := fun i => div_equally_cumu_size_n N P (i - 1)).
  assert (H : wchain (f 0) (f P) (map (fun i => (f i, f (i + 1))) (zseq P))).
  { apply wchain_cuts; [lia|]. intros i Hi. unfold f.
    replace (i + 1 - 1) with i by lia.
    rewrite (cumu_step N P i) by lia. pose proof (size_nonneg N P i HN HP). lia. }
  unfold f in H at 1 2. change (0 - 1) with (-1) in H. rewrite cumu_neg1, cumu_last in H by lia.
  erewrite map_ext; [exact H|]. intros i. unfold f. do 2 f_equal. lia.
Qed.

Lemma all_sizes_nth : forall N P n, 0 <= N -> 0 <= n < P ->
  znth n (div_equally_all_sizes N P) = div_equally_size_n N P n.
Proof.
  intros N P n HN Hn. unfold znth, div_equally_all_sizes, div_equally_size_n.
  rewrite nth_map_zseq by lia. reflexivity.
Qed.

Lemma all_sizes_length : forall N P, length (div_equally_all_sizes N P) = Z.to_nat P.
Proof. intros. unfold div_equally_all_sizes. rewrite map_length, zseq_length. reflexivity. Qed.

Lemma size_balance : forall N P i j, 0 <= i -> i <= j ->
  0 <= div_equally_size_n N P i - div_equally_size_n N P j <= 1.
Proof.
  intros. unfold div_equally_size_n.
  destruct (i <? Z.rem N P) eqn:E1, (j <? Z.rem N P) eqn:E2; lia.
Qed.

(* ---- loops ---- *)

Lemma for_loop_chain : forall fuel i e stride, 1 <= stride -> i <= e ->
  (Z.to_nat (e - i) <= fuel)%nat ->
  exists l, for_loop fuel i e stride = Ok l /\ chain i e l /\
            Forall (fun c => snd c - fst c <= stride) l /\
            Forall (fun c => (fst c - i) mod stride = 0) l.
Proof.
  induction fuel as [|fuel IH]; intros i e stride Hs Hie Hf; cbn [for_loop].
  - assert (i = e) by lia. subst. rewrite Z.ltb_irrefl. exists []. cbn. auto.
  - destruct (i <? e) eqn:E.
    + apply Z.ltb_lt in E. destruct (Z_le_gt_dec (i + stride) e) as [Hle|Hgt].
      * destruct (IH (i + stride) e stride Hs Hle ltac:(lia)) as (l & -> & Hc & Hl & Hm).
        exists ((i, Z.min (i + stride) e) :: l). cbn. rewrite Z.min_l by lia.
        repeat split; try lia; try assumption.
        -- constructor; cbn; [lia|assumption].
        -- constructor; cbn; [rewrite Z.sub_diag; apply Z.mod_0_l; lia|].
           eapply Forall_impl; [|exact Hm]. intros c Hc'. cbn in Hc'.
           replace (fst c - i) with ((fst c - (i + stride)) + 1 * stride) by lia.
           rewrite Z.mod_add by lia. assumption.
      * destruct fuel as [|fuel']; cbn [for_loop].
        all: replace (i + stride <? e) with false by (symmetry; apply Z.ltb_ge; lia).
        all: exists [(i, Z.min (i + stride) e)]; cbn; rewrite Z.min_r by lia.
        all: repeat split; try lia; repeat constructor; cbn; try lia.
        all: rewrite Z.sub_diag; apply Z.mod_0_l; lia.
    + apply Z.ltb_ge in E. exists []. cbn. repeat split; auto. lia.
Qed.

Lemma loop_chain : forall b e stride, 1 <= stride -> b <= e ->
  exists l, loop b e stride = Ok l /\ chain b e l /\
            Forall (fun c => snd c - fst c <= stride) l /\
            Forall (fun c => (fst c - b) mod stride = 0) l.
Proof. intros. unfold loop. apply for_loop_chain; lia. Qed.

(* The nested branch covers [0, e), whatever 'begin' was. *)
Lemma nested_wchain : forall niter P stride e m, 1 <= stride -> 0 < P -> 0 <= m <= P ->
  1 <= niter -> (niter - 1) * stride < e <= niter * stride ->
  exists l, rconcat (map (nested_thread niter P stride e) (zseq m)) = Ok l /\
            chain 0 (Z.min (div_equally_cumu_size_n niter P (m - 1) * stride) e) l /\
            Forall (fun c => snd c - fst c <= stride) l.
Proof.
  intros niter P stride e m Hs HP Hm Hni He.
  assert (He0 : 0 < e) by nia.
  destruct Hm as (Hm0 & HmP). revert m Hm0 HmP.
  refine (natlike_ind _ _ _).
  - intros _. exists []. cbn. repeat split; auto. rewrite cumu_neg1. lia.
  - intros m Hm0 IH HmP. unfold Z.succ in *.
    destruct (IH ltac:(lia)) as (l & El & Hc & Hl). clear IH.
    rewrite zseq_succ by lia. rewrite map_app.
    assert (Eapp : forall (x y : list (res (list (Z * Z)))) a,
               rconcat x = Ok a -> rconcat (x ++ y) = rbind (rconcat y) (fun b => Ok (a ++ b))).
    { clear. induction x as [|r x IH]; intros y a H; cbn in *.
      - injection H as <-. destruct (rconcat y); reflexivity.
      - destruct r as [a0| | |]; cbn in *; try discriminate.
        destruct (rconcat x) as [a1| | |] eqn:E; cbn in *; try discriminate.
        injection H as <-. rewrite (IH y a1 eq_refl).
        destruct (rconcat y); cbn; try reflexivity. rewrite app_assoc. reflexivity. }
    rewrite (Eapp _ _ l El). cbn [map rconcat].
    pose proof (cumu_step niter P m ltac:(lia) HP Hm0) as Hst.
    pose proof (size_nonneg niter P m ltac:(lia) HP) as Hsz.
    assert (Hmono: div_equally_cumu_size_n niter P m <= niter).
    { rewrite <- (cumu_last niter P) at 2 by lia.
      rewrite !cumu_nonneg by lia.
      assert (0 <= niter / P) by (apply Z.div_pos; lia). nia. }
    replace (m + 1 - 1) with m by lia.
    set (c0 := div_equally_cumu_size_n niter P (m - 1)) in *.
    set (c1 := div_equally_cumu_size_n niter P m) in *.
    unfold nested_thread. fold c0. fold c1.
    destruct (Z.min (c1 * stride) e <=? c0 * stride) eqn:E1.
    + apply Z.leb_le in E1. cbn. exists (l ++ []). rewrite app_nil_r.
      split; [reflexivity|]. split; [|assumption].
      assert (Hcc : c1 = c0 \/ (c0 < c1)) by lia. destruct Hcc as [->|Hlt]; [assumption|].
      assert (c0 * stride < e) by nia. nia.
    + apply Z.leb_gt in E1.
      assert (Hc0e : c0 * stride < e) by lia.
      rewrite Z.min_l in Hc by lia.
      destruct (Z.min (c1 * stride) e - c0 * stride <=? stride) eqn:E2.
      * apply Z.leb_le in E2. cbn. exists (l ++ [(c0 * stride, Z.min (c1 * stride) e)]).
        split; [reflexivity|]. split.
        -- eapply chain_app; [exact Hc|]. cbn. lia.
        -- apply Forall_app. split; [assumption|]. repeat constructor. cbn. lia.
      * destruct (loop_chain (c0 * stride) (Z.min (c1 * stride) e) stride Hs ltac:(lia))
          as (l2 & -> & Hc2 & Hl2 & _).
        cbn. exists (l ++ l2). rewrite app_nil_r. split; [reflexivity|]. split.
        -- eapply chain_app; eauto.
        -- apply Forall_app; auto.
Qed.

Definition takes_nested_path (c : omp_cfg) (niter : Z) : bool :=
  has_openmp c && (omp_num_threads c <=? 1) && (2 <=? max_active_levels c)
  && (0 <? ynt0 c) && (1 <? ynt1 c) && (ynt0 c <? niter).

Lemma parallel_for_chain : forall c b e stride, 1 <= stride -> b <= e ->
  b = 0 \/ takes_nested_path c (CEIL_DIV (e - b) stride) = false ->
  exists l, yask_parallel_for c b e stride = Ok l /\ chain b e l /\
            Forall (fun x => snd x - fst x <= stride) l.
Proof.
  intros c b e stride Hs Hbe Hor. unfold yask_parallel_for.
  destruct (e <=? b) eqn:E0.
  { apply Z.leb_le in E0. exists []. cbn. repeat split; auto. lia. }
  apply Z.leb_gt in E0.
  pose proof (CEIL_DIV_bounds (e - b) stride ltac:(lia) ltac:(lia)) as [HC HC0].
  set (niter := CEIL_DIV (e - b) stride) in *.
  assert (Hloop : exists l, loop b e stride = Ok l /\ chain b e l /\
            Forall (fun x => snd x - fst x <= stride) l).
  { destruct (loop_chain b e stride Hs Hbe) as (l & ? & ? & ? & _). eauto. }
  destruct (niter =? 1) eqn:E1.
  { apply Z.eqb_eq in E1. exists [(b, e)]. cbn. repeat split; try lia. repeat constructor. cbn. lia. }
  apply Z.eqb_neq in E1.
  unfold takes_nested_path in Hor.
  destruct (has_openmp c); cbn [negb andb] in *; [|exact Hloop].
  destruct (1 <? omp_num_threads c) eqn:E2; [exact Hloop|].
  destruct ((max_active_levels c <? 2) || (ynt0 c <=? 0) || (ynt1 c <=? 1) || (niter <=? ynt0 c)) eqn:E3;
    [exact Hloop|].
  apply Z.ltb_ge in E2.
  rewrite !orb_false_iff in E3. destruct E3 as (((E3 & E4) & E5) & E6).
  destruct Hor as [->|Hor].
  - assert (Hn1 : 1 <= niter) by nia.
    destruct (nested_wchain niter (ynt0 c) stride e (ynt0 c) Hs ltac:(lia) ltac:(lia) Hn1 ltac:(lia))
      as (l & -> & Hc & Hl).
    rewrite cumu_last in Hc by lia. rewrite Z.min_r in Hc by lia. eauto.
  - exfalso. rewrite !andb_false_iff in Hor. lia.
Qed.

Lemma yask_for_chain : forall b e stride, 1 <= stride -> b <= e ->
  exists l, yask_for b e stride = Ok l /\ chain b e l /\
            Forall (fun x => snd x - fst x <= stride) l.
Proof.
  intros b e stride Hs Hbe. unfold yask_for. destruct (e <=? b) eqn:E.
  - apply Z.leb_le in E. exists []. cbn. repeat split; auto. lia.
  - destruct (loop_chain b e stride Hs Hbe) as (l & ? & ? & ? & _). eauto.
Qed.

Lemma chain_bounds : forall l b e, chain b e l ->
  Forall (fun r => b <= fst r < snd r /\ snd r <= e) l.
Proof.
  induction l as [|[s t] l IH]; intros b e H; cbn in H; constructor.
  - destruct H as (-> & Hlt & Hc). apply chain_le in Hc. cbn. lia.
  - destruct H as (-> & Hlt & Hc). apply IH in Hc. eapply Forall_impl; [|exact Hc].
    cbn. intros; lia.
Qed.

Lemma chain_bounds2 : forall l b e stride, chain b e l ->
  Forall (fun x => snd x - fst x <= stride) l ->
  Forall (fun r => b <= fst r < snd r /\ snd r <= e /\ snd r - fst r <= stride) l.
Proof.
  intros l b e stride H1 H2. apply chain_bounds in H1.
  rewrite Forall_forall in *. intros x Hx. specialize (H1 x Hx). specialize (H2 x Hx). lia.
Qed.

Lemma parallel_for_cover : forall (c : omp_cfg) (b e stride : Z),
  1 <= stride -> b <= e ->
  b = 0 \/ has_openmp c = false \/ 1 < omp_num_threads c \/ max_active_levels c < 2 \/
    ynt0 c <= 0 \/ ynt1 c <= 1 \/ e - b <= ynt0 c * stride ->
  exists calls, yask_parallel_for c b e stride = Ok calls /\
    exact_cover in_iv calls (in_iv (b, e)) /\
    Forall (fun r => b <= fst r < snd r /\ snd r <= e /\ snd r - fst r <= stride) calls.
Proof.
  intros c b e stride Hs Hbe Hor.
  destruct (parallel_for_chain c b e stride Hs Hbe) as (l & E & Hc & Hl).
  - destruct Hor as [H|H]; [left; exact H|right].
    pose proof (CEIL_DIV_bounds (e - b) stride ltac:(lia) ltac:(lia)) as [HC HC0].
    unfold takes_nested_path. rewrite !andb_false_iff.
    destruct (has_openmp c); [|tauto].
    destruct H as [H|[H|[H|[H|[H|H]]]]]; try discriminate; try lia.
    right. apply Z.ltb_ge. nia.
  - exists l. split; [exact E|]. split; [apply chain_exact_cover; assumption|].
    apply chain_bounds2; assumption.
Qed.

Lemma parallel_for_nested_wrong : exists (c : omp_cfg) (b e stride : Z),
  1 <= stride /\ b <= e /\
  exists calls, yask_parallel_for c b e stride = Ok calls /\
    hits in_iv calls b = 0%nat /\ in_iv (b, e) b = true /\
    hits in_iv calls 0 = 1%nat /\ in_iv (b, e) 0 = false.
Proof.
  exists {| has_openmp := true; omp_num_threads := 1; max_active_levels := 2; ynt0 := 2; ynt1 := 2 |},
    100, 108, 1.
  split; [lia|]. split; [lia|].
  exists [(0,1);(1,2);(2,3);(3,4);(4,5);(5,6);(6,7);(7,8)].
  repeat split; vm_compute; reflexivity.
Qed.

Lemma yask_for_cover : forall (b e stride : Z), 1 <= stride -> b <= e ->
  exists calls, yask_for b e stride = Ok calls /\
    exact_cover in_iv calls (in_iv (b, e)) /\
    Forall (fun r => b <= fst r < snd r /\ snd r <= e /\ snd r - fst r <= stride) calls.
Proof.
  intros b e stride Hs Hbe.
  destruct (yask_for_chain b e stride Hs Hbe) as (l & E & Hc & Hl).
  exists l. split; [exact E|]. split; [apply chain_exact_cover; assumption|].
  apply chain_bounds2; assumption.
Qed.

Lemma div_equally_complete : forall N P : Z, 0 <= N -> 1 <= P ->
  let share n := (div_equally_cumu_size_n N P (n - 1), div_equally_cumu_size_n N P n) in
  wchain 0 N (map share (zseq P)) /\
  exact_cover in_iv (map share (zseq P)) (in_iv (0, N)) /\
  length (div_equally_all_sizes N P) = Z.to_nat P /\
  zsum (div_equally_all_sizes N P) = N /\
  (forall n, 0 <= n < P ->
     snd (share n) - fst (share n) = div_equally_size_n N P n /\
     div_equally_size_n N P n = znth n (div_equally_all_sizes N P)) /\
  (forall i j, 0 <= i -> i <= j -> j < P ->
     0 <= div_equally_size_n N P i - div_equally_size_n N P j <= 1).
Proof.
  intros N P HN HP share.
  assert (W := shares_wchain N P HN ltac:(lia)).
  split; [exact W|]. split; [apply wchain_exact_cover; exact W|].
  split; [apply all_sizes_length|].
  split.
  { assert (G : forall m, 0 <= m -> m <= P ->
       zsum (map (fun i => Z.quot N P + (if i <? Z.rem N P then 1 else 0)) (zseq m))
       = div_equally_cumu_size_n N P (m - 1)).
    { refine (natlike_ind _ _ _).
      - intros _. reflexivity.
      - intros m Hm IH HmP. unfold Z.succ in *. rewrite zseq_succ by assumption.
        rewrite map_app, zsum_app, IH by lia. cbn [map zsum].
        replace (m + 1 - 1) with m by lia. rewrite (cumu_step N P m) by lia.
        unfold div_equally_size_n. lia. }
    unfold div_equally_all_sizes. rewrite (G P) by lia. apply cumu_last; lia. }
  split.
  { intros n Hn. split.
    - unfold share; cbn [fst snd]. rewrite (cumu_step N P n) by lia. lia.
    - symmetry. apply all_sizes_nth; lia. }
  { intros i j Hi Hij Hj. apply size_balance; lia. }
Qed.
