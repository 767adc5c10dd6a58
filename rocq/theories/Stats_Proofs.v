From Verif Require Import Base Cover_Spec Cover_Proofs Tuple_Model Tuple_Proofs Idiv_Model ParFor_Model Bbox_Model Bbox_Spec Bbox_Proofs Bbox2_Proofs Lifespan_Model Tile_Model TileSteps_Proofs Stats_Model Stats_Spec.
From Coq Require Import ZifyBool Permutation.

(* ---- boxes ---- *)
Lemma inter_in : forall a b p, length a = length b -> in_box (bb_inter a b) p = in_box a p && in_box b p.
Proof.
  induction a as [|(x, y) a IH]; intros [|(u, v) b] p L; try discriminate; [destruct p; reflexivity|]. destruct p as [|z p]; [reflexivity|]. cbn in L |- *. rewrite IH by lia. unfold in_iv. cbn [fst snd].
  destruct (in_box a p), (in_box b p); lia.
Qed.
Lemma inter_len : forall a b, length a = length b -> length (bb_inter a b) = length a.
Proof. induction a as [|(x, y) a IH]; intros [|(u, v) b] L; try discriminate; [reflexivity|]. cbn in *. rewrite IH; lia. Qed.
Lemma inter_le : forall a b, Forall (fun c => fst c <= snd c) (bb_inter a b).
Proof. induction a as [|(x, y) a IH]; intros [|(u, v) b]; cbn; constructor; [cbn; lia|apply IH]. Qed.

Definition pairs (A B : list dbox) : list dbox := flat_map (fun a => map (bb_inter a) B) A.
Lemma hits_map_inter : forall n a B p, length a = n -> Forall (fun b => length b = n) B -> hits in_box (map (bb_inter a) B) p = if in_box a p then hits in_box B p else 0%nat.
Proof.
  intros n a B p La. induction 1 as [|b B Lb HB IH]; [destruct (in_box a p); reflexivity|]. cbn [map]. rewrite !hits_cons, IH, inter_in by congruence. destruct (in_box a p), (in_box b p); reflexivity.
Qed.
Lemma hits_pairs : forall n A B p, Forall (fun b => length b = n) A -> Forall (fun b => length b = n) B -> hits in_box (pairs A B) p = (hits in_box A p * hits in_box B p)%nat.
Proof.
  intros n A B p HA HB. induction HA as [|a A La HA IH]; [reflexivity|]. cbn [pairs flat_map]. rewrite hits_app, hits_cons. fold (pairs A B). rewrite IH, (hits_map_inter n) by assumption. destruct (in_box a p); lia.
Qed.
Definition nz (b : dbox) : bool := negb (bb_size b =? 0).
Lemma nz_sum : forall l, zsum (map bb_size (filter nz l)) = zsum (map bb_size l).
Proof. induction l as [|b l IH]; [reflexivity|]. cbn [filter map zsum]. unfold nz at 1. destruct (bb_size b =? 0) eqn:E; cbn [negb map zsum]; rewrite IH; lia. Qed.
Lemma nz_hits : forall l p, Forall (Forall (fun c : Z * Z => fst c <= snd c)) l -> hits in_box (filter nz l) p = hits in_box l p.
Proof.
  intros l p H. induction H as [|b l Hb H IH]; [reflexivity|]. cbn [filter]. unfold nz at 1. destruct (bb_size b =? 0) eqn:E; cbn [negb].
  - rewrite hits_cons, IH, (zero_size b Hb) by lia. lia.
  - rewrite !hits_cons, IH. reflexivity.
Qed.
Lemma zsum_flat : forall A (f : A -> list Z) l, zsum (flat_map f l) = zsum (map (fun a => zsum (f a)) l).
Proof. intros A f. induction l as [|a l IH]; [reflexivity|]. cbn [flat_map map zsum]. rewrite <- IH. clear IH. generalize (flat_map f l). intros r. induction (f a) as [|x y IH]; cbn [app zsum]; lia. Qed.

Definition box_pts (bb : dbox) : list (list Z) := map (add_el (bb_begin bb)) (map fst (numbered_points true (bb_len bb))).
Lemma box_pts_in : forall bb p, box_pos bb -> In p (box_pts bb) <-> in_box bb p = true.
Proof.
  intros bb p Hp. destruct (numbered_enum true (bb_len bb) (box_pos_len bb Hp)) as (_ & B & _). unfold box_pts. split.
  - intros H. apply in_map_iff in H as (o & <- & Ho). apply B in Ho. apply offset_in_box. exact Ho.
  - intros H. destruct (in_box_offset bb p H) as (o & O1 & ->). apply in_map. apply B. exact O1.
Qed.
Lemma cover_card : forall n l R, gboxes n l -> exact_cover in_box l R -> card R (zsum (map bb_size l)).
Proof.
  intros n l R G C. exists (nodup (list_eq_dec Z.eq_dec) (flat_map box_pts l)). split; [apply NoDup_nodup|].
  assert (E : forall p, In p (nodup (list_eq_dec Z.eq_dec) (flat_map box_pts l)) <-> R p = true).
  { intros p. rewrite nodup_In, in_flat_map. specialize (C p). unfold gboxes in G. rewrite Forall_forall in G. split.
    - intros (b & Hb & Hp). apply box_pts_in in Hp; [|apply G; exact Hb]. destruct (R p); [reflexivity|]. rewrite (proj1 (hits_zero l p) C b Hb) in Hp. discriminate.
    - intros E. rewrite E in C. unfold hits in C. destruct (filter (fun c => in_box c p) l) as [|b r] eqn:F; [discriminate|]. assert (X : In b (filter (fun c => in_box c p) l)) by (rewrite F; left; reflexivity).
      apply filter_In in X as (X1 & X2). exists b. split; [exact X1|]. apply box_pts_in; [apply G; exact X1|exact X2]. }
  split; [exact E|]. apply (cover_count n l R); [exact G|exact C|apply NoDup_nodup|exact E].
Qed.
Lemma pairs_card : forall n A B RA RB, gboxes n A -> gboxes n B -> exact_cover in_box A RA -> exact_cover in_box B RB ->
  card (fun p => RA p && RB p) (zsum (map (fun a => zsum (map (fun b => bb_size (bb_inter a b)) B)) A)).
Proof.
  intros n A B RA RB GA GB CA CB.
  assert (LA : Forall (fun b => length b = n) A) by (eapply Forall_impl; [|exact GA]; intros b (_ & H); exact H).
  assert (LB : Forall (fun b => length b = n) B) by (eapply Forall_impl; [|exact GB]; intros b (_ & H); exact H).
  assert (LE : Forall (Forall (fun c : Z * Z => fst c <= snd c)) (pairs A B)).
  { apply Forall_forall. intros b Hb. unfold pairs in Hb. apply in_flat_map in Hb as (a & _ & Hb). apply in_map_iff in Hb as (b' & <- & _). apply inter_le. }
  replace (zsum (map (fun a => zsum (map (fun b => bb_size (bb_inter a b)) B)) A)) with (zsum (map bb_size (filter nz (pairs A B)))).
  2: { rewrite nz_sum. unfold pairs. rewrite flat_map_concat_map, concat_map, map_map, <- flat_map_concat_map, zsum_flat. f_equal. apply map_ext. intros a. rewrite map_map. reflexivity. }
  apply (cover_card n).
  - apply Forall_forall. intros b Hb. apply filter_In in Hb as (Hb & N). pose proof (proj1 (Forall_forall _ _) LE b Hb) as Le. unfold nz in N. split; [apply nonzero_pos; [exact Le|lia]|].
    unfold pairs in Hb. apply in_flat_map in Hb as (a & Ha & Hb). apply in_map_iff in Hb as (b' & <- & Hb'). pose proof (proj1 (Forall_forall _ _) LA a Ha) as E1. pose proof (proj1 (Forall_forall _ _) LB b' Hb') as E2. cbn beta in E1, E2. rewrite inter_len; congruence.
  - intros p. rewrite nz_hits by exact LE. rewrite (hits_pairs n) by assumption. rewrite (CA p), (CB p). destruct (RA p), (RB p); reflexivity.
Qed.
Lemma card_unique : forall P n m, card P n -> card P m -> n = m.
Proof.
  intros P n m (l & N & E & ->) (l' & N' & E' & ->). f_equal. apply Permutation_length. apply NoDup_Permutation; [assumption|assumption|]. intros p. rewrite E, E'. reflexivity.
Qed.

(* ---- the loops ---- *)
Lemma add_add : forall q a b w, add_work q a (add_work q b w) = add_work q (b + a) w.
Proof. intros. unfold add_work. cbn. f_equal; lia. Qed.
Lemma add_zero : forall q w, add_work q 0 w = w.
Proof. intros q [a b c d]. unfold add_work. cbn. f_equal; lia. Qed.
Definition in_sum (q : wpart) (a : dbox) : Z := zsum (map (fun b => bb_size (bb_inter a b)) (wp_bbs q)).
Lemma inner_same : forall q a l (m : Z -> work), 
  let m' := fold_left (fun m fnbb => fupd Z.eqb m (wp_name q) (add_work q (bb_size (bb_inter a fnbb)) (m (wp_name q)))) l m in
  m' (wp_name q) = add_work q (zsum (map (fun b => bb_size (bb_inter a b)) l)) (m (wp_name q)) /\ forall k, k <> wp_name q -> m' k = m k.
Proof.
  intros q a. induction l as [|b l IH]; intros m; cbn zeta; cbn [fold_left map zsum]; [rewrite add_zero; auto|].
  destruct (IH (fupd Z.eqb m (wp_name q) (add_work q (bb_size (bb_inter a b)) (m (wp_name q))))) as (I1 & I2). cbn zeta in I1, I2. split.
  - rewrite I1. unfold fupd at 1. rewrite Z.eqb_refl, add_add. reflexivity.
  - intros k Hk. rewrite I2 by exact Hk. unfold fupd. replace (k =? wp_name q) with false by lia. reflexivity.
Qed.
Definition step_box (sg_list : list wpart) (m : Z -> work) (fbb : dbox) : Z -> work :=
  fold_left (fun m rsg => fold_left (fun m fnbb => fupd Z.eqb m (wp_name rsg) (add_work rsg (bb_size (bb_inter fbb fnbb)) (m (wp_name rsg)))) (wp_bbs rsg) m) sg_list m.
Lemma step_box_ok : forall a l m, NoDup (map wp_name l) ->
  (forall q, In q l -> step_box l m a (wp_name q) = add_work q (in_sum q a) (m (wp_name q))) /\ (forall k, ~ In k (map wp_name l) -> step_box l m a k = m k).
Proof.
  intros a. induction l as [|q l IH]; intros m N; [split; [intros q []|reflexivity]|]. inversion N as [|? ? Nq Nl]. subst. cbn [step_box fold_left].
  set (m1 := fold_left _ (wp_bbs q) m). destruct (inner_same q a (wp_bbs q) m) as (I1 & I2). fold m1 in I1, I2. fold (step_box l m1 a). destruct (IH m1 Nl) as (A & B). split.
  - intros q' [<-|Hq].
    + rewrite B by exact Nq. exact I1.
    + rewrite A by exact Hq. rewrite I2; [reflexivity|]. intros E. apply Nq. rewrite <- E. apply in_map. exact Hq.
  - intros k Hk. cbn in Hk. rewrite B by tauto. apply I2. intros E. apply Hk. left. congruence.
Qed.
Lemma part_stats_ok : forall l fbbs, NoDup (map wp_name l) -> forall q, In q l -> part_stats l fbbs (wp_name q) = add_work q (zsum (map (in_sum q) fbbs)) work0.
Proof.
  intros l fbbs N q Hq. unfold part_stats. assert (G : forall fbbs m, fold_left (step_box l) fbbs m (wp_name q) = add_work q (zsum (map (in_sum q) fbbs)) (m (wp_name q))).
  { clear fbbs. induction fbbs as [|a fbbs IH]; intros m; cbn [fold_left map zsum]; [symmetry; apply add_zero|]. rewrite IH. destruct (step_box_ok a l m N) as (A & _). rewrite (A q Hq), add_add. reflexivity. }
  apply (G fbbs (fun _ => work0)).
Qed.
Definition npts (sg q : wpart) : Z := zsum (map (in_sum q) (wp_bbs sg)).
Lemma part_work_ok : forall acc s, NoDup (map wp_name (fst s ++ [snd s])) ->
  part_work acc s = mkWork (w_pts acc) (w_reads acc + zsum (map (fun q => wp_reads q * npts (snd s) q) (fst s ++ [snd s])))
    (w_writes acc + zsum (map (fun q => wp_writes q * npts (snd s) q) (fst s ++ [snd s]))) (w_fpops acc + zsum (map (fun q => wp_fpops q * npts (snd s) q) (fst s ++ [snd s]))).
Proof.
  intros acc [sc sg] N. unfold part_work. cbn [fst snd] in *. pose proof (part_stats_ok (sc ++ [sg]) (wp_bbs sg) N) as P. set (l := sc ++ [sg]) in *. set (m := part_stats l (wp_bbs sg)) in *. clearbody m l. clear N.
  revert acc. induction l as [|q l IH]; intros acc; cbn [fold_left map zsum]; [destruct acc; cbn; f_equal; lia|].
  rewrite IH by (intros q' Hq'; apply P; right; exact Hq'). rewrite (P q (or_introl eq_refl)). unfold add_work, work0. cbn [w_pts w_reads w_writes w_fpops]. fold (npts sg q). f_equal; lia.
Qed.
Definition all_sum (f : wpart -> Z) (sgs : list (list wpart * wpart)) : Z := zsum (map (fun s => zsum (map (fun q => f q * npts (snd s) q) (fst s ++ [snd s]))) sgs).
Lemma stage_work_ok : forall sgs, Forall (fun s => NoDup (map wp_name (fst s ++ [snd s]))) sgs -> stage_work sgs = mkWork 0 (all_sum wp_reads sgs) (all_sum wp_writes sgs) (all_sum wp_fpops sgs).
Proof.
  intros sgs H. unfold stage_work. assert (G : forall acc, fold_left part_work sgs acc = mkWork (w_pts acc) (w_reads acc + all_sum wp_reads sgs) (w_writes acc + all_sum wp_writes sgs) (w_fpops acc + all_sum wp_fpops sgs)).
  { induction H as [|s sgs Hs H IH]; intros acc; unfold all_sum; cbn [fold_left map zsum]; [destruct acc; cbn; f_equal; lia|]. rewrite IH, (part_work_ok acc s Hs). cbn [w_pts w_reads w_writes w_fpops]. unfold all_sum. f_equal; lia. }
  rewrite G. cbn. reflexivity.
Qed.

Lemma in_last : forall (l : list wpart) x, In x (l ++ [x]).
Proof. intros. apply in_or_app. right. left. reflexivity. Qed.
(* ---- points of parts found by the search ---- *)
Lemma found_ok : forall n q cond dom, found n q cond dom -> gboxes n (wp_bbs q) /\ exact_cover in_box (wp_bbs q) (Bbox_Spec.region dom cond).
Proof.
  intros n q cond dom (H1 & H2 & H3 & c & pb & H4 & H5 & ->). destruct (part_ok c cond dom H4 H1 H3) as (pb' & A & (B & _) & C & _). rewrite H5 in A. injection A as <-. rewrite H2 in C. auto.
Qed.
Theorem stage_counts : forall n (cond : wpart -> option (list Z -> bool)) (dom : wpart -> dbox) sgs,
  (forall s q, In s sgs -> In q (fst s ++ [snd s]) -> found n q (cond q) (dom q)) ->
  Forall (fun s => NoDup (map wp_name (fst s ++ [snd s]))) sgs ->
  exists N : wpart -> wpart -> Z,
    (forall s q, In s sgs -> In q (fst s ++ [snd s]) -> card (fun p => Bbox_Spec.region (dom (snd s)) (cond (snd s)) p && Bbox_Spec.region (dom q) (cond q) p) (N (snd s) q)) /\
    (forall s, In s sgs -> card (Bbox_Spec.region (dom (snd s)) (cond (snd s))) (N (snd s) (snd s))) /\
    let total f := zsum (map (fun s => zsum (map (fun q => f q * N (snd s) q) (fst s ++ [snd s]))) sgs) in
    stage_work sgs = mkWork 0 (total wp_reads) (total wp_writes) (total wp_fpops).
Proof.
  intros n cond dom sgs F H. exists npts.
  assert (C : forall s q, In s sgs -> In q (fst s ++ [snd s]) -> card (fun p => Bbox_Spec.region (dom (snd s)) (cond (snd s)) p && Bbox_Spec.region (dom q) (cond q) p) (npts (snd s) q)).
  { intros s q Hs Hq. destruct (found_ok _ _ _ _ (F s (snd s) Hs (in_last _ _))) as (A1 & A2). destruct (found_ok _ _ _ _ (F s q Hs Hq)) as (B1 & B2). apply (pairs_card n); assumption. }
  split; [exact C|]. split; [|apply stage_work_ok; exact H].
  intros s Hs. destruct (C s (snd s) Hs (in_last _ _)) as (l & L1 & L2 & L3). exists l. split; [exact L1|]. split; [|exact L3]. intros p. rewrite (L2 p). destruct (Bbox_Spec.region _ _ p); cbn; tauto.
Qed.

(* ---- counters ---- *)
Lemma flat_map_len : forall A B (f : A -> list B) l, Z.of_nat (length (flat_map f l)) = zsum (map (fun a => Z.of_nat (length (f a))) l).
Proof. intros A B f. induction l as [|a l IH]; [reflexivity|]. cbn [flat_map map zsum]. rewrite app_length, Nat2Z.inj_add, IH. reflexivity. Qed.
Lemma micro_len : forall b e, Z.of_nat (length (micro_steps b e)) = Z.abs (e - b).
Proof.
  intros b e. unfold micro_steps, step_chunks. rewrite !map_length, zseq_length. unfold dir_of, CEIL_DIV. assert (X : Z.abs (if b <=? e then 1 else -1) = 1) by (destruct (b <=? e); reflexivity). rewrite X. cbn [Z.sub]. rewrite Z.quot_1_r. lia.
Qed.
Lemma chunk_sum : forall m b e, 1 <= m -> zsum (map (fun ch => Z.abs (snd ch - fst ch)) (step_chunks b e (m * dir_of b e))) = Z.abs (e - b).
Proof.
  intros m b e Hm. rewrite <- (micro_len b e), <- (chunks_concat m b e Hm), flat_map_len. f_equal. apply map_ext. intros (x, y). cbn [fst snd]. rewrite micro_len. reflexivity.
Qed.
Lemma add_steps_fold : forall l c, fold_left add_steps l c = mkCnt (c_steps c + zsum (map (fun ch => Z.abs (snd ch - fst ch)) l)) (map (fun s => s + zsum (map (fun ch => Z.abs (snd ch - fst ch)) l)) (c_stage c)).
Proof.
  induction l as [|ch l IH]; intros [a b]; cbn [fold_left map zsum c_steps c_stage].
  - f_equal; [lia|]. rewrite <- (map_id b) at 1. apply map_ext. intros; lia.
  - rewrite IH. unfold add_steps. cbn [c_steps c_stage]. f_equal; [lia|]. rewrite map_map. apply map_ext. intros; lia.
Qed.
Lemma count_run_ok : forall wf first last c, count_run wf false first last c = mkCnt (c_steps c + num_steps (first, last)) (map (fun s => s + num_steps (first, last)) (c_stage c)).
Proof.
  intros wf first last c. unfold count_run, num_steps. cbn [fst snd]. set (dir := if first <=? last then 1 else -1). rewrite add_steps_fold.
  assert (D : dir = dir_of first (last + dir)) by (unfold dir_of, dir; destruct (first <=? last) eqn:E; [replace (first <=? last + 1) with true by lia|replace (first <=? last + -1) with false by lia]; reflexivity).
  replace (Z.max wf 1 * dir) with (Z.max wf 1 * dir_of first (last + dir)) by (rewrite <- D; reflexivity). rewrite chunk_sum by lia. replace (Z.abs (last + dir - first)) with (Z.abs (last - first) + 1) by (unfold dir; destruct (first <=? last) eqn:E; lia). reflexivity.
Qed.
Lemma stage_sum_ok : forall f tots s n, length s = length tots -> Forall (eq n) s -> stage_sum f tots (mkCnt n s) = n * zsum (map f tots).
Proof.
  intros f tots s n. unfold stage_sum. cbn [c_stage]. intros L H. assert (G : forall tots s a, length s = length tots -> Forall (eq n) s -> fold_left (fun a sw => a + f (snd sw) * fst sw) (combine s tots) a = a + n * zsum (map f tots)); [|rewrite G by assumption; lia].
  clear. induction tots as [|w tots IH]; intros [|x s] a L H; try discriminate; cbn [combine fold_left map zsum fst snd]; [lia|]. inversion H; subst. rewrite IH by (auto; cbn in L; lia). lia.
Qed.
Theorem counts_ok : forall wf pts tots segs,
  do_calls wf false pts tots (mkCnt 0 (map (fun _ => 0) tots)) (flat_map (fun rs => map (fun r => CRun (fst r) (snd r)) rs ++ [CGet]) segs) =
  map (fun rs => let n := zsum (map num_steps rs) in mkStats pts n (n * zsum (map w_reads tots)) (n * zsum (map w_writes tots)) (n * zsum (map w_fpops tots))) segs.
Proof.
  intros wf pts tots segs. set (z := map (fun _ => 0) tots).
  assert (Ez : forall s : list Z, length s = length tots -> map (fun _ => 0) s = z). { subst z. clear. induction tots as [|t tots IH]; intros [|x s] L; try discriminate; [reflexivity|]. cbn. f_equal. apply IH. cbn in L. lia. }
  induction segs as [|rs segs IH]; [reflexivity|]. cbn [flat_map map]. rewrite <- app_assoc. cbn [app].
  assert (G : forall rs n s r, length s = length tots -> Forall (eq n) s -> do_calls wf false pts tots (mkCnt n s) (map (fun r => CRun (fst r) (snd r)) rs ++ CGet :: r) =
    (let n' := n + zsum (map num_steps rs) in mkStats pts n' (n' * zsum (map w_reads tots)) (n' * zsum (map w_writes tots)) (n' * zsum (map w_fpops tots))) :: do_calls wf false pts tots (mkCnt 0 z) r).
  { clear IH rs. induction rs as [|x rs IH]; intros n s r L H.
    - cbn [map app do_calls zsum]. unfold get_stats. rewrite !stage_sum_ok by assumption. cbn [c_steps]. unfold clear_counters. cbn [c_stage]. rewrite (Ez s L). cbn zeta. rewrite Z.add_0_r. reflexivity.
    - cbn [map app do_calls]. rewrite count_run_ok. cbn [c_steps c_stage]. rewrite IH; [|rewrite map_length; exact L|].
      + cbn [zsum]. rewrite <- surjective_pairing. cbn zeta. rewrite Z.add_assoc. reflexivity.
      + apply Forall_forall. intros y Hy. apply in_map_iff in Hy as (x' & <- & Hx'). rewrite <- (proj1 (Forall_forall _ _) H x' Hx'). rewrite <- surjective_pairing. reflexivity. }
  rewrite G; [|unfold z; rewrite map_length; reflexivity|unfold z; apply Forall_forall; intros y Hy; apply in_map_iff in Hy as (? & <- & _); reflexivity].
  f_equal. exact IH.
Qed.

(* ---- all ranks ---- *)
Lemma zsum_add : forall A (f g : A -> Z) l, zsum (map (fun x => f x + g x) l) = zsum (map f l) + zsum (map g l).
Proof. intros A f g. induction l as [|x l IH]; cbn [map zsum]; lia. Qed.
Lemma zsum_swap : forall A B (f : A -> B -> Z) la lb, zsum (map (fun a => zsum (map (f a) lb)) la) = zsum (map (fun b => zsum (map (fun a => f a b) la)) lb).
Proof. intros A B f la lb. induction la as [|a la IH]; cbn [map zsum]; [induction lb; cbn [map zsum]; lia|]. rewrite IH, <- zsum_add. reflexivity. Qed.
Lemma map_nth_seq : forall A (l : list A) d, map (fun k => nth k l d) (seq 0 (length l)) = l.
Proof. intros A l d. induction l as [|a l IH]; [reflexivity|]. cbn [length seq map nth]. f_equal. rewrite <- seq_shift, map_map. exact IH. Qed.
Lemma all_sum_own : forall f st, (forall s, In s st -> fst s = []) -> all_sum f st = zsum (map (fun s => f (snd s) * npts (snd s) (snd s)) st).
Proof. intros f. induction st as [|s st IH]; intros H; [reflexivity|]. unfold all_sum in *. cbn [map zsum]. rewrite IH by (intros; apply H; right; assumption). rewrite (H s (or_introl eq_refl)). cbn [app map zsum]. lia. Qed.
Theorem writes_counted : forall n wf pts nst (ranks : list (list (list (list wpart * wpart)))) cond dom segs,
  Forall (fun rank => length rank = nst) ranks ->
  (forall r rank st s, nth_error ranks r = Some rank -> In st rank -> In s st -> fst s = [] /\ found n (snd s) (cond r (snd s)) (dom r (snd s))) ->
  let tots := map (fun k => sum_work (map (fun rank => stage_work (nth k rank [])) ranks)) (seq 0 nst) in
  exists N : wpart -> Z,
    (forall r rank st s, nth_error ranks r = Some rank -> In st rank -> In s st -> card (Bbox_Spec.region (dom r (snd s)) (cond r (snd s))) (N (snd s))) /\
    do_calls wf false pts tots (mkCnt 0 (map (fun _ => 0) tots)) (flat_map (fun rs => map (fun r => CRun (fst r) (snd r)) rs ++ [CGet]) segs) =
    map (fun rs => let k := zsum (map num_steps rs) in
                   let total f := k * zsum (map (fun rank => zsum (map (fun st => zsum (map (fun s => f (snd s) * N (snd s)) st)) rank)) ranks) in
                   mkStats pts k (total wp_reads) (total wp_writes) (total wp_fpops)) segs.
Proof.
  intros n wf pts nst ranks cond dom segs Hl H tots. exists (fun q => npts q q).
  assert (SC : forall r rank st, nth_error ranks r = Some rank -> In st rank -> stage_work st = mkWork 0 (all_sum wp_reads st) (all_sum wp_writes st) (all_sum wp_fpops st)).
  { intros r rank st Hr Hst. apply stage_work_ok. apply Forall_forall. intros s Hs. destruct (H r rank st s Hr Hst Hs) as (E & _). rewrite E. cbn. constructor; [intros []|constructor]. }
  split.
  - intros r rank st s Hr Hst Hs. destruct (H r rank st s Hr Hst Hs) as (_ & F). destruct (found_ok _ _ _ _ F) as (A & B). destruct (pairs_card n _ _ _ _ A A B B) as (l & L1 & L2 & L3). exists l. split; [exact L1|]. split; [|exact L3]. intros p. rewrite (L2 p). destruct (Bbox_Spec.region _ _ p); cbn; tauto.
  - rewrite counts_ok. apply map_ext. intros rs. cbn zeta.
    assert (T : forall (wf0 : work -> Z) f, (forall l, wf0 (sum_work l) = zsum (map wf0 l)) -> (forall st r rank, nth_error ranks r = Some rank -> In st rank -> wf0 (stage_work st) = all_sum f st) ->
      zsum (map wf0 tots) = zsum (map (fun rank => zsum (map (fun st => zsum (map (fun s => f (snd s) * npts (snd s) (snd s)) st)) rank)) ranks)).
    { intros wf0 f E1 E2. unfold tots. rewrite map_map. rewrite (map_ext _ (fun k => zsum (map (fun rank => wf0 (stage_work (nth k rank []))) ranks))) by (intros k; rewrite E1, map_map; reflexivity).
      rewrite zsum_swap. f_equal. apply map_ext_in. intros rank Hr. rewrite <- (proj1 (Forall_forall _ _) Hl rank Hr). rewrite <- (map_map (fun k => nth k rank []) (fun st => wf0 (stage_work st))), map_nth_seq. f_equal. apply map_ext_in. intros st Hst.
      apply In_nth_error in Hr as (r & Hr). rewrite (E2 st r rank Hr Hst). apply all_sum_own. intros s Hs. apply (H r rank st s Hr Hst Hs). }
    rewrite (T w_reads wp_reads), (T w_writes wp_writes), (T w_fpops wp_fpops); try reflexivity; intros st r rank Hr Hst; rewrite (SC r rank st Hr Hst); reflexivity.
Qed.
