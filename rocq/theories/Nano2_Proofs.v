From Coq Require Import ZifyBool.
From Verif Require Import Base Cover_Spec Cover_Proofs MixedRadix Idiv_Model Idiv_Proofs Visit_Spec Tuple_Model Tuple_Proofs Combo_Model Combo_Spec Combo_Proofs
  Loops_Model Loops_Spec Loops_Proofs LoopsRun_Proofs LoopsTop_Proofs Scan_Model Scan_Proofs Nano_Model Nano_Spec Nano_Proofs.

Lemma list_eqb_iff : forall a b, list_eqb a b = true <-> a = b.
Proof. intros a b. unfold list_eqb. destruct (list_eq_dec Z.eq_dec a b); split; congruence. Qed.

Lemma hits_ext_in : forall A B C (f : A -> B -> bool) (g : A -> C -> bool) l x y, (forall a, In a l -> f a x = g a y) -> hits f l x = hits g l y.
Proof.
  intros A B C f g l x y H. induction l as [|a l IH]; [reflexivity|]. rewrite !hits_cons, (H a) by (left; reflexivity). f_equal. apply IH. intros b Hb. apply H. right. exact Hb.
Qed.
Lemma hits_map : forall A B C (f : B -> C -> bool) (h : A -> B) l x, hits f (map h l) x = hits (fun a => f (h a)) l x.
Proof. intros. induction l as [|a l IH]; [reflexivity|]. cbn [map]. rewrite !hits_cons, IH. reflexivity. Qed.
Lemma hits_flat_map : forall A B C (f : B -> C -> bool) (h : A -> list B) l x, hits f (flat_map h l) x = list_sum (map (fun a => hits f (h a) x) l).
Proof. intros. rewrite flat_map_concat_map, hits_concat, map_map. reflexivity. Qed.

(* ---------- pico-block loops ---------- *)
Lemma unit_box : forall ds b, Forall2 (fun d c => exists i, c = sub_range false d i) ds b -> Forall (fun d => l_stride d = 1) ds -> nonempty_box b ->
  forall p, in_box b p = list_eqb (map fst b) p.
Proof.
  intros ds b H. induction H as [|d c ds b (i & E) H IH]; intros Hs Hn p.
  - destruct p; reflexivity.
  - inversion Hs; subst. inversion Hn; subst. destruct p as [|x p]; [reflexivity|]. cbn [in_box map]. rewrite (IH ltac:(assumption) ltac:(assumption)).
    unfold sub_range in *. cbn [fst snd] in *. unfold aligned_begin, in_iv in *. cbn [fst snd] in *.
    match goal with K : l_stride d = 1 |- _ => rewrite K in * end.
    assert (E : (l_begin d + i * 1 <=? x) && (x <? Z.min (l_begin d + (i + 1) * 1) (l_end d)) = (l_begin d + i * 1 =? x)) by lia. rewrite E.
    apply Bool.eq_iff_eq_true. rewrite andb_true_iff, !list_eqb_iff, Z.eqb_eq. split; [intros (-> & ->); reflexivity|intros K; injection K; auto].
Qed.

Definition reorder (inner : nat) (v : list Z) : list Z := let o := removelast v in firstn inner o ++ [last v 0] ++ skipn inner o.
Definition toback {A} (inner : nat) (l : list A) : list A := firstn inner l ++ skipn (S inner) l ++ firstn 1 (skipn inner l).

Lemma split_at : forall A (l : list A) n, (n < length l)%nat -> exists x, l = firstn n l ++ x :: skipn (S n) l /\ firstn 1 (skipn n l) = [x].
Proof.
  intros A l. induction l as [|a l IH]; intros n H; cbn in H; [lia|]. destruct n as [|n].
  - exists a. split; reflexivity.
  - destruct (IH n ltac:(lia)) as (x & E & F). exists x. split; [change (a :: l = a :: (firstn n l ++ x :: skipn (S n) l)); f_equal; exact E|exact F].
Qed.

Lemma F2_len : forall A B (R : A -> B -> Prop) l l', Forall2 R l l' -> length l = length l'.
Proof. induction 1; cbn; congruence. Qed.
Lemma app_inj_len : forall A (a b c d : list A), a ++ b = c ++ d -> length a = length c -> a = c /\ b = d.
Proof. induction a as [|x a IH]; intros b [|y c] d H L; try discriminate; [auto|]. cbn in H. injection H as -> H. destruct (IH b c d H ltac:(injection L; auto)) as (-> & ->). auto. Qed.
Lemma in_box_app : forall b1 b2 p1 p2, length b1 = length p1 -> in_box (b1 ++ b2) (p1 ++ p2) = in_box b1 p1 && in_box b2 p2.
Proof. induction b1 as [|c b1 IH]; intros b2 [|x p1] p2 H; try discriminate; cbn; [reflexivity|]. rewrite IH by (injection H; auto). apply andb_assoc. Qed.
Lemma in_box_length : forall b p, in_box b p = true -> length b = length p.
Proof. induction b as [|c b IH]; intros [|x p] H; try discriminate; cbn in *; [reflexivity|]. apply andb_prop in H as (_ & H). f_equal. apply IH. exact H. Qed.

Lemma in_box_toback : forall b p n, (n < length b)%nat -> length p = length b -> in_box (toback n b) (toback n p) = in_box b p.
Proof.
  intros b p n Hn L. destruct (split_at _ b n Hn) as (c & Eb & Fb). destruct (split_at _ p n ltac:(lia)) as (x & Ep & Fp).
  rewrite Eb, Ep at 2. unfold toback. rewrite Fb, Fp.
  rewrite !in_box_app by (rewrite ?firstn_length, ?skipn_length; lia). cbn [in_box].
  destruct (in_box (firstn n b) _), (in_iv c x), (in_box (skipn _ b) _); reflexivity.
Qed.

Lemma reorder_toback : forall v p n, (n < length p)%nat -> length v = length p -> (reorder n v = p <-> v = toback n p).
Proof.
  intros v p n Hn L. destruct (split_at _ p n Hn) as (x & Ep & Fp). unfold reorder, toback. rewrite Fp.
  assert (Hv : v <> []) by (destruct v; [cbn in L; lia|discriminate]).
  pose proof (app_removelast_last 0 Hv) as Ev. set (o := removelast v) in *. set (y := last v 0) in *.
  assert (Lo : (length o + 1 = length p)%nat) by (rewrite <- L, Ev, app_length; reflexivity).
  split.
  - intros H. rewrite <- H at 1 2. assert (Lf : length (firstn n o) = n) by (rewrite firstn_length; lia).
    rewrite firstn_app, Lf, Nat.sub_diag, firstn_O, app_nil_r, firstn_firstn, Nat.min_id.
    change ([y] ++ skipn n o) with (y :: skipn n o). rewrite skipn_app, Lf. rewrite (skipn_all2 (firstn n o)) by lia. replace (S n - n)%nat with 1%nat by lia. cbn [skipn app].
    rewrite app_assoc, firstn_skipn. assert (x = y); [|congruence].
    pose proof Ep as Ep2. rewrite <- H in Ep2 at 1. change ([y] ++ skipn n o) with (y :: skipn n o) in Ep2.
    apply app_inj_len in Ep2 as (_ & K); [injection K; auto|rewrite !firstn_length; lia].
  - intros H. rewrite Ev in H. rewrite app_assoc in H. apply app_inj_tail in H as (Ho & ->). rewrite Ho.
    assert (Lf : length (firstn n p) = n) by (rewrite firstn_length; lia).
    rewrite firstn_app, Lf, Nat.sub_diag, firstn_O, app_nil_r, firstn_firstn, Nat.min_id, skipn_app, Lf, Nat.sub_diag. rewrite (skipn_all2 (firstn n p)) by lia. cbn [skipn app]. symmetry. exact Ep.
Qed.

Lemma pico_cover : forall inner b, (inner < length b)%nat -> nonempty_box b ->
  exists vs, pico_loops inner b = Ok vs /\ forall v, hits list_eqb vs v = b2n (in_box b v).
Proof.
  intros inner b Hi Hn. unfold pico_loops. set (ds := map (fun c => plain_dim (fst c) (snd c) 1) b).
  set (prog := [(mkFeats false false false false false true, firstn inner ds ++ skipn (S inner) ds);
     (mkFeats false false false false false false, firstn 1 (skipn inner ds))]).
  assert (Ld : length ds = length b) by (unfold ds; apply map_length).
  assert (Hg : Forall (good false) ds).
  { unfold ds. apply Forall_forall. intros d Hd. apply in_map_iff in Hd as (c & <- & Hc). unfold nonempty_box in Hn. rewrite Forall_forall in Hn. specialize (Hn c Hc).
    unfold good, plain_dim. cbn. repeat split; try lia; discriminate. }
  assert (Hst : Forall (fun d => l_stride d = 1) ds) by (unfold ds; apply Forall_forall; intros d Hd; apply in_map_iff in Hd as (c & <- & Hc); reflexivity).
  assert (Eprog : flat_map snd prog = toback inner ds) by (unfold prog, toback; cbn [flat_map snd]; rewrite app_nil_r, app_assoc; reflexivity).
  assert (Htb : forall (P : ldim -> Prop), Forall P ds -> Forall P (toback inner ds)).
  { intros P F. unfold toback. destruct (split_at _ ds inner ltac:(lia)) as (x & E & F1). rewrite F1. rewrite E in F. apply Forall_app in F as (F & G). inversion G; subst. repeat (apply Forall_app; split); auto. }
  assert (W : Forall (wf_loop false) prog).
  { unfold prog. assert (F1 := Htb _ Hg). unfold toback in F1. apply Forall_app in F1 as (Fa & Fb). apply Forall_app in Fb as (Fb & Fc).
    repeat constructor; cbn [fst snd]; try (cbn; discriminate); [apply Forall_app; split; assumption|assumption]. }
  assert (A : accepted false prog).
  { unfold prog. cbn [accepted]. destruct (split_at _ ds inner ltac:(lia)) as (x & _ & ->). destruct (firstn inner ds ++ skipn (S inner) ds) as [|d1 l1]; cbn [accepted]; repeat split; try discriminate;
    unfold adj_feats; cbn [f_nested f_manual f_omp f_serp f_square f_tile andb orb]; destruct (Nat.ltb _ 2); cbn; discriminate. }
  destruct (loops_cover false prog 1 ltac:(lia) W A) as (calls & E & C & N & _). rewrite E. cbn [rbind]. eexists. split; [reflexivity|]. intros v.
  change (fun c : list (Z * Z) => let v0 := map fst c in let o := removelast v0 in firstn inner o ++ [last v0 0] ++ skipn inner o) with (fun c : list (Z * Z) => reorder inner (map fst c)).
  assert (Lc : forall c, In c calls -> length c = length b /\ (forall p, in_box c p = list_eqb (map fst c) p)).
  { intros c Hc. pose proof (calls_shape _ _ _ _ _ _ E Hc) as S. rewrite Eprog in S. split.
    - apply F2_len in S. rewrite <- S. unfold toback. destruct (split_at _ ds inner ltac:(lia)) as (x & E2 & ->).
      rewrite !app_length. cbn [length]. apply (f_equal (@length ldim)) in E2. rewrite app_length in E2. cbn [length] in E2. lia.
    - apply (unit_box _ _ S (Htb _ Hst)). unfold nonempty_box in *. rewrite Forall_forall in N. apply N. exact Hc. }
  specialize (C (toback inner v)). rewrite Eprog in C.
  destruct (Nat.eq_dec (length v) (length b)) as [Lv|Lv].
  - rewrite hits_map. transitivity (hits in_box calls (toback inner v)).
    + apply hits_ext_in. intros c Hc. destruct (Lc c Hc) as (L & U). rewrite U. apply Bool.eq_iff_eq_true. rewrite !list_eqb_iff. apply reorder_toback; [lia|]. rewrite map_length. lia.
    + rewrite C. assert (Eb : map (fun d => (l_begin d, l_end d)) (toback inner ds) = toback inner b).
      { unfold toback. rewrite !map_app, <- !firstn_map, <- !skipn_map. unfold ds. rewrite map_map. rewrite (map_ext _ (fun c => c)) by (intros (? & ?); reflexivity). rewrite map_id.
        reflexivity. }
      unfold parent. rewrite Eb. rewrite in_box_toback by lia. unfold b2n. reflexivity.
  - assert (in_box b v = false) as -> by (destruct (in_box b v) eqn:Q; [apply in_box_length in Q; lia|reflexivity]). cbn [b2n]. rewrite hits_map. unfold hits.
    apply filter_length_0. intros c Hc. destruct (Lc c Hc) as (L & _). apply Bool.not_true_iff_false. rewrite list_eqb_iff. intros <-. apply Lv. unfold reorder.
    assert (map fst c <> []) as Hv by (destruct c; [cbn in L; lia|discriminate]). pose proof (app_removelast_last 0 Hv) as Ev. apply (f_equal (@length Z)) in Ev. rewrite app_length, map_length in Ev. cbn in Ev.
    rewrite !app_length, firstn_length, skipn_length. cbn. lia.
Qed.

(* ---------- one call of calc_vectors ---------- *)
Lemma writes_pair : forall fi rofs folds v m p, length p = length folds ->
  writes fi rofs folds (v, m) p = list_eqb v (vec_of rofs folds p) && Z.testbit m (lane fi folds (offs_of rofs folds p)).
Proof. intros. unfold writes. rewrite H, Nat.eqb_refl. reflexivity. Qed.

Lemma hits_pair : forall fi rofs folds vs m p, length p = length folds ->
  hits (writes fi rofs folds) (map (fun v => (v, m)) vs) p = (hits list_eqb vs (vec_of rofs folds p) * b2n (Z.testbit m (lane fi folds (offs_of rofs folds p))))%nat.
Proof.
  intros. induction vs as [|v vs IH]; [reflexivity|]. cbn [map]. rewrite !hits_cons, IH, writes_pair by assumption.
  destruct (list_eqb v _), (Z.testbit m _); cbn [andb b2n]; lia.
Qed.

Lemma zprod_zero : forall l, In 0 l -> zprod l = 0.
Proof. induction l as [|x l IH]; [contradiction|]. intros [->|H]; cbn; [lia|]. rewrite (IH H). lia. Qed.

Lemma in_box_empty : forall rs c p, In c rs -> snd c <= fst c -> in_box rs p = false.
Proof.
  induction rs as [|c0 rs IH]; intros c p H L; [contradiction|]. destruct p as [|x p]; [reflexivity|]. cbn. destruct H as [->|H].
  - unfold in_iv. apply andb_false_iff. left. lia.
  - rewrite (IH c p H L). apply andb_false_r.
Qed.

Lemma list_sum_scale : forall A (f : A -> nat) n l, list_sum (map (fun a => (f a * n)%nat) l) = (list_sum (map f l) * n)%nat.
Proof. intros A f n l. induction l as [|a l IH]; [reflexivity|]. cbn [map list_sum fold_right]. unfold list_sum in *. rewrite IH. lia. Qed.
Lemma list_sum_ext : forall A (f g : A -> nat) l, (forall a, In a l -> f a = g a) -> list_sum (map f l) = list_sum (map g l).
Proof. intros. f_equal. apply map_ext_in. assumption. Qed.
Lemma hits_sum : forall A B (f : A -> B -> bool) l x, hits f l x = list_sum (map (fun a => b2n (f a x)) l).
Proof. induction l as [|a l IH]; intros x; [reflexivity|]. rewrite hits_cons, IH. reflexivity. Qed.

Lemma vectors_cover : forall inner strides rs mask, length strides = length rs -> (inner < length rs)%nat -> Forall (fun s => 1 <= s) strides ->
  Forall2 range_ok strides rs ->
  exists out, calc_vectors inner strides rs mask = Ok out /\
    forall fi rofs folds p, length p = length folds ->
      hits (writes fi rofs folds) out p = b2n (in_box rs (vec_of rofs folds p) && Z.testbit mask (lane fi folds (offs_of rofs folds p))).
Proof.
  intros inner strides rs mask L Hi Hs Hr. unfold calc_vectors. destruct (mask =? 0) eqn:E0.
  { exists []. split; [reflexivity|]. intros. assert (mask = 0) as -> by lia. rewrite Z.bits_0, andb_false_r. reflexivity. }
  set (ds := map (fun x : Z * Z * Z => plain_dim (fst (fst x)) (snd (fst x)) (snd x)) (combine rs strides)).
  assert (Ld : length ds = length rs) by (unfold ds; rewrite map_length, combine_length; lia).
  assert (Ed : map (fun d => (l_begin d, l_end d)) ds = rs).
  { unfold ds. rewrite map_map. cbn. clear -L. revert strides L. induction rs as [|c rs IH]; intros [|s st] L; try discriminate; cbn; [reflexivity|]. f_equal; [destruct c; reflexivity|apply IH; injection L; auto]. }
  assert (Hd : forall d, In d ds -> 1 <= l_stride d /\ (l_begin d < l_end d \/ (l_end d <= l_begin d /\ num_iters false d = 0))).
  { intros d Hd. unfold ds in Hd. apply in_map_iff in Hd as (((b & e) & s) & <- & Hx). clear -Hx Hr Hs. cbn. induction Hr as [|s0 c st rs0 R Hr IH]; [contradiction|].
    inversion Hs; subst. cbn [combine In] in Hx. destruct Hx as [K|Hx]; [|apply IH; assumption]. injection K as -> ->. split; [assumption|]. exact R. }
  destruct (existsb (fun d => l_end d <=? l_begin d) ds) eqn:Ex.
  - (* an empty dim *)
    apply existsb_exists in Ex as (d & Hin & Hle). destruct (Hd d Hin) as (_ & [B|(_ & N0)]); [lia|].
    assert (ds <> []) by (destruct ds; [contradiction|discriminate]).
    assert (E : run_loops false 1 None [(mkFeats true false false false false false, ds)] = Ok []).
    { cbn [run_loops]. clearbody ds. destruct ds as [|d0 ds0]; [congruence|].
      unfold adj_feats. cbn [f_manual f_omp f_square f_nested f_serp f_tile andb orb]. 
      unfold one_loop. rewrite divs_false.
      2:{ apply Forall_forall. intros d1 H1. unfold plain_divs. destruct (Hd d1 H1). lia. }
      cbn [negb f_nested f_manual]. rewrite (zprod_zero (map (num_iters false) (d0 :: ds0))) by (rewrite <- N0; apply in_map; exact Hin). reflexivity. }
    rewrite E. cbn. exists []. split; [reflexivity|]. intros. rewrite (in_box_empty rs (l_begin d, l_end d)); [reflexivity| |cbn; lia].
    rewrite <- Ed. apply (in_map (fun d => (l_begin d, l_end d))). exact Hin.
  - assert (Hg : Forall (good false) ds).
    { apply Forall_forall. intros d Hin. destruct (Hd d Hin) as (S1 & _). unfold good. repeat split; [|lia|discriminate].
      destruct (Z.lt_ge_cases (l_begin d) (l_end d)) as [|G]; [assumption|]. exfalso. assert (existsb (fun d => l_end d <=? l_begin d) ds = true); [|congruence].
      apply existsb_exists. exists d. split; [exact Hin|]. lia. }
    assert (W : Forall (wf_loop false) [(mkFeats true false false false false false, ds)]) by (repeat constructor; cbn; [exact Hg|discriminate]).
    assert (A : accepted false [(mkFeats true false false false false false, ds)]).
    { cbn [accepted]. destruct ds; [exact I|]. split; [|exact I]. unfold adj_feats. cbn [f_manual f_omp f_square f_nested f_serp f_tile andb orb]. discriminate. }
    destruct (loops_cover false _ 1 ltac:(lia) W A) as (boxes & E & C & N & Bi). rewrite E. cbn [rbind]. cbn [flat_map snd] in C, Bi. rewrite app_nil_r in C, Bi.
    unfold parent in C, Bi. rewrite Ed in C, Bi.
    assert (P : forall b, In b boxes -> exists vs, pico_loops inner b = Ok vs /\ forall v, hits list_eqb vs v = b2n (in_box b v)).
    { intros b Hb. rewrite Forall_forall in N, Bi. apply pico_cover; [|apply N; exact Hb]. specialize (Bi b Hb). unfold box_inside in Bi. apply F2_len in Bi. lia. }
    rewrite (rconcat_map _ _ _ (fun b => map (fun v => (v, mask)) (match pico_loops inner b with Ok vs => vs | _ => [] end)))
      by (intros b Hb; destruct (P b Hb) as (vs & -> & _); reflexivity).
    eexists. split; [reflexivity|]. intros fi rofs folds p Lp. rewrite hits_flat_map.
    rewrite (list_sum_ext _ _ (fun b => (b2n (in_box b (vec_of rofs folds p)) * b2n (Z.testbit mask (lane fi folds (offs_of rofs folds p))))%nat)).
    2:{ intros b Hb. destruct (P b Hb) as (vs & -> & Hv). rewrite hits_pair by exact Lp. rewrite Hv. reflexivity. }
    rewrite list_sum_scale, <- hits_sum, C. destruct (in_box rs _), (Z.testbit mask _); reflexivity.
Qed.
