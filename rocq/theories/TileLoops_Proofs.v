(* Facts about the loops of one tiling level, one dim at a time, and about [rmap]. *)
From Coq Require Import ZifyBool.
From Verif Require Import Base Cover_Spec Cover_Proofs Idiv_Model Idiv_Proofs Loops_Model Loops_Spec LoopsTop_Proofs Scan_Model Tile_Model Sched_Spec Sched_Proofs Sched2_Proofs.

Definition iv0 : Z * Z := (0, 0).
Definition ld0 : ldim := mkLdim 0 0 1 1 0 1.
Notation cutd := (cut true).

Lemma in_box_nth : forall b p, in_box b p = true <-> length b = length p /\ (forall j, (j < length b)%nat -> fst (nth j b iv0) <= nth j p 0 < snd (nth j b iv0)).
Proof.
  induction b as [|c b IH]; intros [|x p]; cbn [in_box length]; try (split; [discriminate|intros (H & _); discriminate H]).
  - split; [intros _; split; [reflexivity|intros j Hj; lia]|reflexivity].
  - rewrite andb_true_iff, IH. unfold in_iv. split.
    + intros (A & B & C). split; [congruence|]. intros [|j] Hj; cbn; [lia|apply C; lia].
    + intros (A & B). split; [specialize (B 0%nat ltac:(lia)); cbn in B; lia|]. split; [congruence|]. intros j Hj. exact (B (S j) ltac:(lia)).
Qed.

Lemma F2_nth : forall A B (R : A -> B -> Prop) l r da db, Forall2 R l r -> forall j, (j < length l)%nat -> R (nth j l da) (nth j r db).
Proof. intros A B R l r da db H. induction H as [|a b l r H F IH]; intros [|j] Hj; cbn in *; try lia; [exact H|apply IH; lia]. Qed.

Lemma chain_pairs : forall l b e, chain b e l -> pairs (fun c c' => snd c <= fst c') l /\ Forall (fun c => b <= fst c /\ fst c < snd c) l.
Proof.
  induction l as [|(s, t) l IH]; intros b e H; [split; constructor|]. destruct H as (-> & H1 & H2). destruct (IH _ _ H2) as (P & F).
  split; [split; [|exact P]|].
  - intros y Hy. rewrite Forall_forall in F. specialize (F y Hy). cbn in *. lia.
  - constructor; [cbn; lia|]. eapply Forall_impl; [|exact F]. cbn. intros; lia.
Qed.

(* lexicographic order of a grid of chains *)
Lemma grid_pairs : forall ls, Forall (fun l => pairs (fun c c' : Z * Z => snd c <= fst c') l) ls ->
  pairs (fun B B' => exists j, (j < length ls)%nat /\ snd (nth j B iv0) <= fst (nth j B' iv0)) (grid ls).
Proof.
  induction ls as [|l ls IH]; intros H; [cbn; split; [intros y []|exact I]|]. inversion H as [|? ? Hl Hs]; subst.
  specialize (IH Hs). cbn [grid]. rewrite flat_map_concat_map. apply pairs_concat.
  - intros r Hr. apply in_map_iff in Hr. destruct Hr as (a & <- & _). apply pairs_map. eapply pairs_impl; [|exact IH].
    intros B B' _ _ (j & Hj & E). exists (S j). split; [cbn; lia|exact E].
  - apply pairs_map. eapply pairs_impl; [|exact Hl]. intros a a' _ _ E x y Hx Hy.
    apply in_map_iff in Hx. destruct Hx as (x' & <- & _). apply in_map_iff in Hy. destruct Hy as (y' & <- & _).
    exists 0%nat. split; [cbn; lia|exact E].
Qed.

Definition is_cut (d : ldim) (c : Z * Z) : Prop := exists i, 0 <= i < num_iters true d /\ c = (cutd d i, cutd d (i + 1)).
Definition loops_ok (f : feats) (lds : list ldim) : Prop :=
  lds <> [] /\ adj_feats (length lds) false f <> None /\ Forall (good true) lds /\ Forall (fun d => f_tile f = true -> 1 <= l_tile d) lds.

Lemma loops_level : forall nt f lds, 0 < nt -> loops_ok f lds ->
  exists calls, run_loops true nt None [(f, lds)] = Ok calls /\
    (forall B, In B calls -> length B = length lds /\ forall j, (j < length lds)%nat -> is_cut (nth j lds ld0) (nth j B iv0)) /\
    (forall B, length B = length lds -> (forall j, (j < length lds)%nat -> is_cut (nth j lds ld0) (nth j B iv0)) -> In B calls) /\
    pairs (fun B B' => exists j, (j < length lds)%nat /\ (snd (nth j B iv0) <= fst (nth j B' iv0) \/ snd (nth j B' iv0) <= fst (nth j B iv0))) calls /\
    (plain f -> pairs (fun B B' => exists j, (j < length lds)%nat /\ snd (nth j B iv0) <= fst (nth j B' iv0)) calls).
Proof.
  intros nt f lds Hn (N & A & G & T).
  assert (W : Forall (wf_loop true) [(f, lds)]) by (constructor; [split; [exact G|intros Ft; revert T; apply Forall_impl; cbn [fst snd]; auto]|constructor]).
  assert (Ac : accepted false [(f, lds)]). { destruct lds as [|d lds]; [congruence|]. cbn. split; [exact A|exact I]. }
  destruct (run_perm true [(f, lds)] nt None Hn W Ac) as (calls & E & P & Q).
  cbn [flat_map snd] in P, Q. rewrite app_nil_r in P, Q.
  change (map (fun d => map (sub_range true d) (zseq (num_iters true d))) lds) with (map (ivs true) lds) in P, Q.
  assert (Iv : forall d c, good true d -> (In c (ivs true d) <-> is_cut d c)).
  { intros d c Gd. unfold ivs, is_cut. rewrite in_map_iff. split.
    - intros (i & <- & Hi). apply zseq_In in Hi. exists i. split; [exact Hi|]. apply subr_cut; assumption.
    - intros (i & Hi & ->). exists i. split; [apply subr_cut; assumption|apply zseq_In; exact Hi]. }
  assert (M : forall B, In B calls <-> Forall2 (fun l c => In c l) (map (ivs true) lds) B).
  { intros B. rewrite <- grid_In. split; intros H; [eapply Permutation_in; [exact P|exact H]|eapply Permutation_in; [apply Permutation_sym; exact P|exact H]]. }
  assert (GP : pairs (fun B B' => exists j, (j < length lds)%nat /\ snd (nth j B iv0) <= fst (nth j B' iv0)) (grid (map (ivs true) lds))).
  { rewrite <- (map_length (ivs true) lds). apply grid_pairs. apply Forall_forall. intros l Hl. apply in_map_iff in Hl. destruct Hl as (d & <- & Hd).
    rewrite Forall_forall in G. exact (proj1 (chain_pairs _ _ _ (ivs_chain true d (G d Hd)))). }
  exists calls. split; [exact E|]. split; [|split; [|split]].
  - intros B HB. apply M in HB. assert (L : length (map (ivs true) lds) = length B) by (clear -HB; induction HB; cbn; congruence). rewrite map_length in L. split; [congruence|].
    intros j Hj. apply Iv; [rewrite Forall_forall in G; apply G; apply nth_In; exact Hj|].
    pose proof (F2_nth _ _ _ _ _ [] iv0 HB j ltac:(rewrite map_length; exact Hj)) as H. cbv beta in H.
    rewrite (nth_indep _ [] (ivs true ld0)) in H by (rewrite map_length; exact Hj). rewrite map_nth in H. exact H.
  - intros B L H. apply M. clear -L H G Iv. revert B L H. induction lds as [|d lds IH]; intros [|b B] L H; cbn in L; try lia; [constructor|].
    inversion G as [|? ? Gd Gl]; subst. cbn [map]. constructor.
    + apply Iv; [exact Gd|]. exact (H 0%nat ltac:(cbn; lia)).
    + apply IH; [exact Gl|lia|]. intros j Hj. exact (H (S j) ltac:(cbn; lia)).
  - eapply pairs_perm; [|apply Permutation_sym; exact P|].
    + intros x y (j & Hj & H). exists j. tauto.
    + eapply pairs_impl; [|exact GP]. intros B B' _ _ (j & Hj & H). exists j. tauto.
  - intros Pf. rewrite Q by (constructor; [exact Pf|constructor]). exact GP.
Qed.

Lemma cut_0 : forall d, cutd d 0 = l_begin d.
Proof. reflexivity. Qed.
Lemma cut_n : forall d, good true d -> cutd d (num_iters true d) = l_end d.
Proof. intros d G. pose proof (good_nit true d G). unfold cut. destruct (num_iters true d <=? 0) eqn:E; [lia|]. rewrite Z.leb_refl. reflexivity. Qed.
Lemma cut_mono : forall d i j, good true d -> 0 <= i -> i <= j -> j <= num_iters true d -> cutd d i <= cutd d j.
Proof.
  intros d i j G Hi Hij Hj. replace j with (i + Z.of_nat (Z.to_nat (j - i))) by lia.
  assert (Hb : i + Z.of_nat (Z.to_nat (j - i)) <= num_iters true d) by lia. revert Hb. generalize (Z.to_nat (j - i)) as m.
  induction m as [|m IH]; intros Hb; [replace (i + Z.of_nat 0) with i by lia; lia|].
  pose proof (cut_lt true d (i + Z.of_nat m) G ltac:(lia)). replace (i + Z.of_nat (S m)) with (i + Z.of_nat m + 1) by lia.
  specialize (IH ltac:(lia)). lia.
Qed.
Lemma is_cut_in : forall d c, good true d -> is_cut d c -> l_begin d <= fst c /\ fst c < snd c /\ snd c <= l_end d.
Proof.
  intros d c G (i & Hi & ->). cbn. rewrite <- (cut_0 d), <- (cut_n d G).
  pose proof (cut_mono d 0 i G ltac:(lia) ltac:(lia) ltac:(lia)). pose proof (cut_lt true d i G Hi).
  pose proof (cut_mono d (i + 1) (num_iters true d) G ltac:(lia) ltac:(lia) ltac:(lia)). lia.
Qed.
(* two sub-ranges of one dim are the same or apart *)
Lemma cut_cases : forall d c c', good true d -> is_cut d c -> is_cut d c' -> c = c' \/ snd c <= fst c' \/ snd c' <= fst c.
Proof.
  intros d c c' G (i & Hi & ->) (i' & Hi' & ->). cbn. destruct (Z.lt_trichotomy i i') as [H|[->|H]]; [right; left|left; reflexivity|right; right].
  - apply (cut_mono d (i + 1) i' G); lia.
  - apply (cut_mono d (i' + 1) i G); lia.
Qed.
(* the sub-range selected by a monotone question about its start: the last one that answers yes *)
Lemma cut_select : forall d (P : Z -> bool), good true d ->
  exists c, is_cut d c /\ (fst c = l_begin d \/ P (fst c) = true) /\ (snd c = l_end d \/ P (snd c) = false).
Proof.
  intros d P G. pose proof (good_nit true d G) as Hn.
  assert (H : forall m : nat, Z.of_nat m < num_iters true d ->
    (exists i, 0 <= i < Z.of_nat m /\ (i = 0 \/ P (cutd d i) = true) /\ P (cutd d (i + 1)) = false) \/
    (Z.of_nat m = 0 \/ P (cutd d (Z.of_nat m)) = true)).
  { induction m as [|m IH]; intros Hm; [right; left; reflexivity|].
    destruct (IH ltac:(lia)) as [(i & Hi & A & B)|H]; [left; exists i; split; [lia|split; assumption]|].
    destruct (P (cutd d (Z.of_nat (S m)))) eqn:E; [right; right; reflexivity|].
    left. exists (Z.of_nat m). split; [lia|]. split; [exact H|]. replace (Z.of_nat m + 1) with (Z.of_nat (S m)) by lia. exact E. }
  destruct (H (Z.to_nat (num_iters true d - 1)) ltac:(lia)) as [(i & Hi & A & B)|A].
  - exists (cutd d i, cutd d (i + 1)). split; [exists i; split; [lia|reflexivity]|]. cbn. split; [|right; exact B].
    destruct A as [->|A]; [left; apply cut_0|right; exact A].
  - rewrite Z2Nat.id in A by lia. exists (cutd d (num_iters true d - 1), cutd d (num_iters true d - 1 + 1)).
    split; [exists (num_iters true d - 1); split; [lia|reflexivity]|]. cbn. split.
    + destruct A as [A|A]; [left; rewrite A; apply cut_0|right; exact A].
    + left. replace (num_iters true d - 1 + 1) with (num_iters true d) by lia. apply cut_n. exact G.
Qed.
(* width of a sub-range that is neither first nor last *)
Lemma cut_width : forall d c, good true d -> is_cut d c -> l_begin d < fst c -> snd c < l_end d -> snd c - fst c = l_stride d.
Proof.
  intros d c G (i & Hi & ->) H1 H2. cbn in *. unfold cut in *. destruct (i <=? 0) eqn:E1; [lia|]. destruct (i + 1 <=? 0) eqn:E2; [lia|].
  destruct (num_iters true d <=? i) eqn:E3; [lia|]. destruct (num_iters true d <=? i + 1) eqn:E4; [lia|]. lia.
Qed.
(* a stride of at least the range plus the alignment gives a single sub-range *)
Lemma cut_single : forall d c, good true d -> l_end d - l_begin d + l_align d <= l_stride d -> is_cut d c -> c = (l_begin d, l_end d).
Proof.
  intros d c G H (i & Hi & ->). destruct G as (G1 & G2 & G3). specialize (G3 eq_refl).
  assert (num_iters true d <= 1).
  { pose proof (nit_bounds true d G2) as N. unfold aligned_begin, adj_align in N. 
    pose proof (round_down_flr_bounds (l_begin d - l_aofs d) (Z.min (l_align d) (l_stride d)) ltac:(lia)) as R. nia. }
  assert (i = 0) by lia. subst. unfold cut. replace (0 + 1) with 1 by lia. destruct (num_iters true d <=? 1) eqn:E; [|lia]. reflexivity.
Qed.

Lemma rmap_ok : forall A B (f : A -> res B) l, (forall x, In x l -> exists y, f x = Ok y) -> exists ys, rmap f l = Ok ys.
Proof.
  intros A B f l. induction l as [|a l IH]; intros H; [exists []; reflexivity|]. cbn [rmap].
  destruct (H a (or_introl eq_refl)) as (y & ->). destruct IH as (ys & ->); [intros; apply H; right; assumption|]. exists (y :: ys). reflexivity.
Qed.
Lemma rmap_F2 : forall A B (f : A -> res B) l ys, rmap f l = Ok ys -> Forall2 (fun x y => f x = Ok y) l ys.
Proof.
  intros A B f l. induction l as [|a l IH]; intros ys H; cbn [rmap] in H; [injection H as <-; constructor|].
  destruct (f a) as [y| | |] eqn:E; try discriminate H. cbn [rbind] in H. destruct (rmap f l) as [ys'| | |]; try discriminate H.
  cbn [rbind] in H. injection H as <-. constructor; [exact E|apply IH; reflexivity].
Qed.
Lemma F2_In_r : forall A B (R : A -> B -> Prop) l r y, Forall2 R l r -> In y r -> exists x, In x l /\ R x y.
Proof. intros A B R l r y H. induction H as [|a b l r H F IH]; intros I; [destruct I|]. destruct I as [->|I]; [exists a; split; [left; reflexivity|exact H]|]. destruct (IH I) as (x & A1 & A2). exists x. split; [right; exact A1|exact A2]. Qed.
Lemma F2_In_l : forall A B (R : A -> B -> Prop) l r x, Forall2 R l r -> In x l -> exists y, In y r /\ R x y.
Proof. intros A B R l r x H. induction H as [|a b l r H F IH]; intros I; [destruct I|]. destruct I as [->|I]; [exists b; split; [left; reflexivity|exact H]|]. destruct (IH I) as (y & A1 & A2). exists y. split; [right; exact A1|exact A2]. Qed.
Lemma F2_pairs : forall A B (R : A -> B -> Prop) (P : B -> B -> Prop) l r, Forall2 R l r ->
  pairs (fun x x' => forall y y', R x y -> R x' y' -> P y y') l -> pairs P r.
Proof.
  intros A B R P l r H. induction H as [|a b l r H F IH]; intros Q; [exact I|]. destruct Q as (Q1 & Q2). split; [|apply IH; exact Q2].
  intros y Hy. destruct (F2_In_r _ _ _ _ _ _ F Hy) as (x & Hx & Rx). exact (Q1 x Hx b y H Rx).
Qed.

Lemma zip3_length : forall A B C D (f : A -> B -> C -> D) a b c, length b = length a -> length c = length a -> length (zip3 f a b c) = length a.
Proof. intros A B C D f. induction a as [|x a IH]; intros [|y b] [|z c] H1 H2; cbn in *; try lia. rewrite IH by lia. reflexivity. Qed.
Lemma zip3_nth : forall A B C D (f : A -> B -> C -> D) a b c da db dc dd j, length b = length a -> length c = length a -> (j < length a)%nat ->
  nth j (zip3 f a b c) dd = f (nth j a da) (nth j b db) (nth j c dc).
Proof. intros A B C D f. induction a as [|x a IH]; intros [|y b] [|z c] da db dc dd [|j] H1 H2 H3; cbn in *; try lia; [reflexivity|apply IH; lia]. Qed.
Lemma map_nth' : forall A B (f : A -> B) l da db j, (j < length l)%nat -> nth j (map f l) db = f (nth j l da).
Proof. intros A B f. induction l as [|a l IH]; intros da db [|j] H; cbn in *; try lia; [reflexivity|apply IH; lia]. Qed.
Lemma ranges_nth : forall lds j, (j < length lds)%nat -> nth j (ranges lds) iv0 = (l_begin (nth j lds ld0), l_end (nth j lds ld0)).
Proof. intros lds j H. unfold ranges. rewrite (map_nth' _ _ _ _ ld0) by exact H. reflexivity. Qed.
Lemma Forall_nth' : forall A (P : A -> Prop) l d, (forall j, (j < length l)%nat -> P (nth j l d)) -> Forall P l.
Proof. intros A P l d H. apply Forall_forall. intros x Hx. destruct (In_nth l x d Hx) as (j & Hj & <-). apply H. exact Hj. Qed.
