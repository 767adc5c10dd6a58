(* The statements on temporal tiling, overlapped communication and split runs. *)
From Coq Require Import ZifyBool Bool.
From Verif Require Import Base Cover_Spec Idiv_Model Idiv_Proofs Loops_Model Loops_Spec LoopsTop_Proofs Scan_Model Scan_Proofs Combo_Model
  Tile_Model Sched_Spec Sched_Proofs Sched2_Proofs Tile_Spec TileCfg_Spec TileLoops_Proofs TileGeo_Proofs TileSteps_Proofs Tile_Proofs Tile2_Proofs Tile3_Proofs.

(* ----- sorting a schedule ----- *)
Lemma before_filter : forall A (f : A -> bool) l a b, before l a b -> f a = true -> f b = true -> before (filter f l) a b.
Proof.
  intros A f l a b (l1 & l2 & -> & I) Ha Hb. exists (filter f l1), (filter f l2). rewrite filter_app. cbn [filter]. rewrite Ha. split; [reflexivity|]. apply filter_In. split; assumption.
Qed.
Lemma filter_perm : forall A (f : A -> bool) l, Permutation l (filter (fun x => negb (f x)) l ++ filter f l).
Proof.
  intros A f l. induction l as [|a l IH]; [constructor|]. cbn [filter]. destruct (f a); cbn [negb]; [|cbn [app]; constructor; exact IH].
  eapply perm_trans; [apply perm_skip; exact IH|]. apply Permutation_middle.
Qed.
Definition so_b (dir : Z) (a b : inst) : bool := (dir * i_t a <? dir * i_t b) || ((i_t a =? i_t b) && (i_s a <? i_s b)).
Lemma so_b_iff : forall dir a b, so_b dir a b = true <-> step_order dir a b.
Proof. intros dir a b. unfold so_b, step_order. lia. Qed.
Lemma plain_sort : forall dir, dir = 1 \/ dir = -1 -> forall l, exists r, Permutation r l /\ plain_run dir r.
Proof.
  intros dir Hd l. induction l as [|x l (r & P & R)]; [exists []; split; [constructor|intros a b []]|].
  exists (filter (fun y => negb (so_b dir x y)) r ++ x :: filter (so_b dir x) r). split.
  - eapply perm_trans; [apply Permutation_sym; apply Permutation_middle|]. constructor. eapply perm_trans; [apply Permutation_sym; apply filter_perm|exact P].
  - intros a b Ia Ib O. apply before_app.
    assert (T : forall u v w, step_order dir u v -> step_order dir v w -> step_order dir u w) by (intros u v w; unfold step_order; destruct Hd; subst; lia).
    assert (Irr : forall u, ~ step_order dir u u) by (intros u; unfold step_order; lia).
    apply in_app_iff in Ia, Ib. destruct Ia as [Ia|[<-|Ia]]; destruct Ib as [Ib|[<-|Ib]].
    + left. apply filter_In in Ia, Ib. apply before_filter; [apply R; tauto|tauto|tauto].
    + right. right. split; [exact Ia|left; reflexivity].
    + right. right. split; [exact Ia|right; exact Ib].
    + apply filter_In in Ib. destruct Ib as (_ & Ib). apply so_b_iff in O. rewrite O in Ib. discriminate.
    + destruct (Irr _ O).
    + right. left. apply before_head. exact Ib.
    + apply filter_In in Ia, Ib. destruct Ia as (_ & Ia), Ib as (_ & Ib). apply so_b_iff in Ia. pose proof (T _ _ _ Ia O) as Q. apply so_b_iff in Q. rewrite Q in Ib. discriminate.
    + apply filter_In in Ia. destruct Ia as (_ & Ia). apply so_b_iff in Ia. destruct (Irr x (T _ _ _ Ia O)).
    + apply filter_In in Ia, Ib. right. left. apply before_cons. apply before_filter; [apply R; tauto|tauto|tauto].
Qed.

Section Top.
  Variables (ss : list sdim) (bbs : list (list (Z * Z))) (mg_t bk_t : Z) (ru overlap : bool) (fr fm fb : feats) (nt : Z) (c : tcfg) (dom : Z -> list Z -> Prop).
  Hypothesis H : tile_hyp ss bbs mg_t bk_t ru overlap fr fm fb nt c dom.
  Notation nst := (Z.of_nat (length bbs)).
  Notation wf := (wf_steps mg_t bk_t).
  Notation hh := (halo_of ss).

  Lemma top_tb : 0 < tb_steps nst wf bk_t ru ss -> (length ss <= 8)%nat /\ Forall (fun d => tb_room nst wf (tb_steps nst wf bk_t ru ss) (tb_angle bk_t ru d) d) ss.
  Proof using H. destruct H as [A B C D]. destruct (c_eq _ _ _ _ _ _ _ _ _ _ _ B) as (E & _). rewrite E in D. exact D. Qed.
  Lemma top_cfg : cfg_ok c hh dom.
  Proof using H. exact (setup_cfg_ok _ _ _ _ _ _ _ _ _ _ _ _ (th_s _ _ _ _ _ _ _ _ _ _ _ _ H) (th_c _ _ _ _ _ _ _ _ _ _ _ _ H) (th_in _ _ _ _ _ _ _ _ _ _ _ _ H) top_tb). Qed.
  Lemma top_dims : length (c_dims c) = length ss.
  Proof using H. destruct (c_eq _ _ _ _ _ _ _ _ _ _ _ (th_c _ _ _ _ _ _ _ _ _ _ _ _ H)) as (-> & _). cbn [c_dims]. apply map_length. Qed.
  Lemma top_reach : forall first last x, in_run c dom first last x <-> to_do nst dom first last x /\ in_reach ss nst wf first x.
  Proof using H. exact (reach_iff _ _ _ _ _ _ _ _ _ _ _ _ (th_s _ _ _ _ _ _ _ _ _ _ _ _ H) (th_c _ _ _ _ _ _ _ _ _ _ _ _ H) (th_in _ _ _ _ _ _ _ _ _ _ _ _ H) top_tb). Qed.

  Theorem tile_cover : forall first last, exists regs, run_solution c first last = Ok regs /\ forall l, runs_regions (programs dom regs) l ->
    NoDup l /\ (forall x, In x l <-> to_do nst dom first last x /\ in_reach ss nst wf first x).
  Proof.
    intros first last. destruct (run_main c hh dom first last top_cfg) as (regs & E & M). exists regs. split; [exact E|]. intros l R. destruct (M l R) as (N & I & _).
    split; [exact N|]. intros x. rewrite I. apply top_reach.
  Qed.

  Theorem tile_order : forall first last regs l V (alloc : Z -> Z) (st : stencil V), run_solution c first last = Ok regs -> runs_regions (programs dom regs) l ->
    halo_stencil (length ss) hh st -> forall a b, In a l -> In b l -> step_order (direction first last) a b -> conflict alloc st a b -> before l a b.
  Proof.
    intros first last regs l V alloc st E R HS a b Ia Ib O C. rewrite <- top_dims in HS.
    destruct (run_main c hh dom first last top_cfg) as (regs' & E' & M). rewrite E in E'. injection E' as <-. destruct (M l R) as (N & I & P).
    apply I in Ia as Ja. apply I in Ib as Jb. destruct Ja as (A1 & A2 & _), Jb as (B1 & B2 & _).
    assert (HK : Kf c first (i_t a) (i_s a) < Kf c first (i_t b) (i_s b)) by (apply (step_K c first last); assumption).
    destruct (before_total _ l a b Ia Ib) as [G|G]; [intros ->; lia|exact G|exfalso].
    apply (pairs_before _ _ _ _ _ P G). apply (halo_bad c hh first V alloc st); try assumption. intros j Hj. apply (o_h _ _ _ _ (k_dim _ _ _ top_cfg j Hj)).
  Qed.

  Theorem tile_exec : forall first last regs l V (alloc : Z -> Z) (st : stencil V), run_solution c first last = Ok regs -> runs_regions (programs dom regs) l ->
    halo_stencil (length ss) hh st -> stage_indep alloc st ->
    forall r, Permutation r l -> plain_run (direction first last) r -> forall m cl, exec alloc st l m cl = exec alloc st r m cl.
  Proof.
    intros first last regs l V alloc st E R HS SI r P Pl m cl. rewrite <- top_dims in HS.
    eapply (run_exec c hh dom first last top_cfg); eassumption.
  Qed.

  (* blocks that run at the same time do not touch what another one writes *)
  Theorem tile_threads : forall first last regs V (alloc : Z -> Z) (st : stencil V), run_solution c first last = Ok regs ->
    halo_stencil (length ss) hh st -> stage_indep alloc st ->
    forall g i i' th th' e e' x y, In g regs -> nth_error g i = Some th -> nth_error g i' = Some th' -> i <> i' -> In e th -> In e' th' ->
      event_task dom e x -> event_task dom e' y -> ~ conflict alloc st x y.
  Proof.
    intros first last regs V alloc st E HS SI. destruct (run_good c hh dom first last top_cfg) as (regs' & E' & G). rewrite E in E'. injection E' as <-. rewrite <- top_dims in HS.
    destruct G as [G1 G2 G3 G4].
    assert (W : forall g i i' th th' e e' x y, In g regs -> nth_error g i = Some th -> nth_error g i' = Some th' -> (i < i')%nat -> In e th -> In e' th' ->
      event_task dom e x -> event_task dom e' y -> ~ conflict alloc st x y).
    { intros g i i' th th' e e' x y Hg Hi Hi' Lt He He' Hx Hy C. destruct (G1 g Hg) as (_ & P).
      assert (S : esep c hh (Kf c first) dom e e' /\ esep c hh (Kf c first) dom e' e).
      { clear -P Hi Hi' Lt He He'. revert i i' Hi Hi' Lt. induction g as [|t g IH]; intros i i' Hi Hi' Lt; [destruct i; discriminate|]. destruct P as (P1 & P2).
        destruct i' as [|i']; [lia|]. cbn [nth_error] in Hi'. destruct i as [|i]; [injection Hi as ->; exact (P1 th' (nth_error_In _ _ Hi') e e' He He')|]. apply (IH P2 i i'); [exact Hi|exact Hi'|lia]. }
      destruct S as (S1 & S2). specialize (S1 x y Hx Hy). specialize (S2 y x Hy Hx).
      assert (Hh : forall j, (j < length (c_dims c))%nat -> 0 <= hh j) by (intros j Hj; apply (o_h _ _ _ _ (k_dim _ _ _ top_cfg j Hj))).
      destruct Hx as (X1 & X2 & X3 & X4), Hy as (Y1 & Y2 & Y3 & Y4). destruct (k_dom _ _ _ top_cfg _ _ X4) as (Lx & _), (k_dom _ _ _ top_cfg _ _ Y4) as (Ly & _).
      destruct (Z.lt_trichotomy (Kf c first (i_t x) (i_s x)) (Kf c first (i_t y) (i_s y))) as [Q|[Q|Q]].
      - apply S2. apply (halo_bad c hh first V alloc st x y); assumption.
      - assert (Ev : forall e0, In e0 (evs regs) -> forall z, event_task dom e0 z -> (first <= i_t z <= last \/ last <= i_t z <= first) /\ 0 <= i_s z < c_nst c).
        { intros e0 He0 z (Z1 & Z2 & Z3 & Z4). destruct (G3 e0 (i_p z) He0 Z3) as (Z5 & Z6 & _). rewrite Z1, Z2. split; assumption. }
        assert (Ie : forall t, In t g -> forall e0, In e0 t -> In e0 (evs regs)) by (intros t Ht e0 He0; apply evs_In; exists g; split; [exact Hg|apply in_concat; exists t; split; assumption]).
        destruct (Ev e (Ie th (nth_error_In _ _ Hi) e He) x ltac:(repeat split; assumption)) as (T1 & T2).
        destruct (Ev e' (Ie th' (nth_error_In _ _ Hi') e' He') y ltac:(repeat split; assumption)) as (U1 & U2).
        assert (Et : Z.abs (i_t x - first) = Z.abs (i_t y - first) /\ i_s x = i_s y) by (unfold Kf in Q; clear -Q T2 U2; set (u := Z.abs (i_t x - first)) in *; set (v := Z.abs (i_t y - first)) in *; assert (u = v) by nia; nia). destruct Et as (Et & Es).
        apply (same_stage c hh V alloc st x y HS SI Lx Ly); [|lia|exact Es|exact C]. intros <-. apply S1. split; [lia|]. intros j Hj. rewrite !Z.sub_diag. lia.
      - apply S1. apply (halo_bad c hh first V alloc st y x); try assumption. apply conflict_sym. exact C. }
    intros g i i' th th' e e' x y Hg Hi Hi' Ne He He' Hx Hy C. destruct (Nat.lt_trichotomy i i') as [Q|[Q|Q]]; [|contradiction|].
    - exact (W g i i' th th' e e' x y Hg Hi Hi' Q He He' Hx Hy C).
    - exact (W g i' i th' th e' e y x Hg Hi' Hi Q He' He Hy Hx (conflict_sym _ _ _ _ C)).
  Qed.
End Top.

(* two ways to run the same instances *)
Section Two.
  Variables (ss ss' : list sdim) (bbs : list (list (Z * Z))) (mg_t bk_t mg_t' bk_t' : Z) (ru ru' overlap overlap' : bool) (fr fm fb fr' fm' fb' : feats) (nt nt' : Z) (c c' : tcfg) (dom : Z -> list Z -> Prop).
  Hypothesis H : tile_hyp ss bbs mg_t bk_t ru overlap fr fm fb nt c dom.
  Hypothesis H' : tile_hyp ss' bbs mg_t' bk_t' ru' overlap' fr' fm' fb' nt' c' dom.
  Theorem tile_two : forall first last regs regs' l l', run_solution c first last = Ok regs -> runs_regions (programs dom regs) l ->
    run_solution c' first last = Ok regs' -> runs_regions (programs dom regs') l' -> (forall x, In x l <-> In x l') ->
    forall V (alloc : Z -> Z) (st : stencil V), halo_stencil (length ss) (halo_of ss) st -> halo_stencil (length ss') (halo_of ss') st -> stage_indep alloc st ->
    forall m cl, exec alloc st l m cl = exec alloc st l' m cl.
  Proof.
    intros first last regs regs' l l' E R E' R' Same V alloc st HS HS' SI m cl.
    destruct (tile_cover _ _ _ _ _ _ _ _ _ _ _ _ H first last) as (q & Eq & M). rewrite E in Eq. injection Eq as <-. destruct (M l R) as (N & _).
    destruct (tile_cover _ _ _ _ _ _ _ _ _ _ _ _ H' first last) as (q & Eq & M'). rewrite E' in Eq. injection Eq as <-. destruct (M' l' R') as (N' & _).
    destruct (plain_sort (direction first last) (proj2 (dirs first last)) l) as (r & P & Pl).
    rewrite (tile_exec _ _ _ _ _ _ _ _ _ _ _ _ H first last regs l V alloc st E R HS SI r P Pl).
    rewrite (tile_exec _ _ _ _ _ _ _ _ _ _ _ _ H' first last regs' l' V alloc st E' R' HS' SI r); [reflexivity| |exact Pl].
    eapply perm_trans; [exact P|]. apply NoDup_Permutation; assumption.
  Qed.
End Two.

(* the instances inside the rank itself are always evaluated *)
Lemma near_rank_mono : forall d w w' p, 0 <= w <= w' -> near_rank d w p -> near_rank d w' p.
Proof. intros d w w' p Hw. unfold near_rank. destruct (d_first d), (d_last d); lia. Qed.
Lemma moves_left_nonneg : forall nst wf first t s, 1 <= nst -> 0 <= s < nst -> 0 <= moves_left nst wf first t s.
Proof. intros nst wf first t s Hn Hs. unfold moves_left. destruct (0 <? wf) eqn:E; [|lia]. pose proof (Z.mod_pos_bound (Z.abs (t - first)) wf ltac:(lia)). nia. Qed.
Lemma own_reach : forall ss nst wf first x, Forall (fun d => 1 <= d_fold d /\ 0 <= d_halo d) ss -> 1 <= nst -> 0 <= i_s x < nst -> in_rank ss (i_p x) -> in_reach ss nst wf first x.
Proof.
  intros ss nst wf first x F Hn Hs Hp j d E. specialize (Hp j d E). rewrite Forall_forall in F. destruct (F d (nth_error_In _ _ E)) as (F1 & F2). destruct (angle_ge d F1 F2) as (A & _).
  pose proof (moves_left_nonneg nst wf first (i_t x) (i_s x) Hn Hs). unfold near_rank. assert (0 <= angle d * moves_left nst wf first (i_t x) (i_s x)) by nia. destruct (d_first d), (d_last d); lia.
Qed.
Lemma alone_reach : forall ss nst wf first x, (forall d, In d ss -> d_first d = true /\ d_last d = true) -> in_rank ss (i_p x) -> in_reach ss nst wf first x.
Proof. intros ss nst wf first x A Hp j d E. specialize (Hp j d E). destruct (A d (nth_error_In _ _ E)) as (A1 & A2). unfold near_rank. rewrite A1, A2. lia. Qed.
Lemma alone_inside : forall ss bbs wf dom s p, (forall d, In d ss -> d_first d = true /\ d_last d = true) -> inside ss bbs wf dom -> dom s p -> in_rank ss p.
Proof. intros ss bbs wf dom s p A I Hp j d E. destruct (I s p Hp) as (_ & Q). destruct (Q j d E) as (N & _). destruct (A d (nth_error_In _ _ E)) as (A1 & A2). unfold near_rank in N. rewrite A1, A2 in N. lia. Qed.

(* what a stage of a wave-front needs has been evaluated in the wave-front, or was there before it started *)
Lemma reach_needs : forall ss nst wf first x y, 0 < wf -> Forall (fun d => 1 <= d_fold d /\ 0 <= d_halo d) ss ->
  in_reach ss nst wf first x -> Z.abs (i_t x - first) / wf = Z.abs (i_t y - first) / wf ->
  let k := Z.abs (i_t x - first) * nst + i_s x - (Z.abs (i_t y - first) * nst + i_s y) in
  0 <= k -> (forall j, (j < length ss)%nat -> Z.abs (nth j (i_p y) 0 - nth j (i_p x) 0) <= halo_of ss j * k) ->
  (forall j d, nth_error ss j = Some d -> (d_first d = true -> d_rb d <= nth j (i_p y) 0) /\ (d_last d = true -> nth j (i_p y) 0 < d_rb d + d_rksz d)) -> in_reach ss nst wf first y.
Proof.
  intros ss nst wf first x y Hw F R Eq k Hk N B j d E. specialize (R j d E). destruct (B j d E) as (B1 & B2). clear B. rewrite Forall_forall in F. destruct (F d (nth_error_In _ _ E)) as (F1 & F2). destruct (angle_ge d F1 F2) as (A & _).
  assert (Hj : (j < length ss)%nat) by (apply nth_error_Some; congruence). specialize (N j Hj). unfold halo_of in N. rewrite E in N.
  assert (El : moves_left nst wf first (i_t y) (i_s y) = moves_left nst wf first (i_t x) (i_s x) + k).
  { unfold moves_left. replace (0 <? wf) with true by lia. rewrite (Z.mod_eq (Z.abs (i_t x - first)) wf), (Z.mod_eq (Z.abs (i_t y - first)) wf), Eq by lia. unfold k. ring. }
  rewrite El, Z.mul_add_distr_l. unfold near_rank in *. clearbody k. assert (d_halo d * k <= angle d * k) by nia. destruct (d_first d), (d_last d); lia.
Qed.

Lemma dir_sub : forall first mid last t t' s s' p p', (first <= mid <= last \/ last <= mid <= first) -> between first mid t -> between first mid t' ->
  (step_order (direction first last) (mkInst t s p) (mkInst t' s' p') <-> step_order (direction first mid) (mkInst t s p) (mkInst t' s' p')).
Proof. intros first mid last t t' s s' p p'. unfold between, step_order, direction. cbn [i_t i_s]. destruct (first <=? last) eqn:E1, (first <=? mid) eqn:E2; lia. Qed.
Lemma dir_sub2 : forall first nxt last t t' s s' p p', (first <= nxt <= last \/ last <= nxt <= first) -> between nxt last t -> between nxt last t' ->
  (step_order (direction first last) (mkInst t s p) (mkInst t' s' p') <-> step_order (direction nxt last) (mkInst t s p) (mkInst t' s' p')).
Proof. intros first mid last t t' s s' p p'. unfold between, step_order, direction. cbn [i_t i_s]. destruct (first <=? last) eqn:E1, (mid <=? last) eqn:E2; lia. Qed.

Section Split.
  Variables (ss : list sdim) (bbs : list (list (Z * Z))) (mg_t bk_t : Z) (ru overlap : bool) (fr fm fb : feats) (nt : Z) (c : tcfg) (dom : Z -> list Z -> Prop).
  Hypothesis H : tile_hyp ss bbs mg_t bk_t ru overlap fr fm fb nt c dom.
  Variables (first mid last : Z).
  Hypothesis Hm : first <= mid < last \/ last < mid <= first.
  Notation nxt := (mid + direction first last).
  Notation nst := (Z.of_nat (length bbs)).
  Variables (regs regs1 regs2 : list region) (l l1 l2 : list inst).
  Hypothesis E : run_solution c first last = Ok regs. Hypothesis R : runs_regions (programs dom regs) l.
  Hypothesis E1 : run_solution c first mid = Ok regs1. Hypothesis R1 : runs_regions (programs dom regs1) l1.
  Hypothesis E2 : run_solution c nxt last = Ok regs2. Hypothesis R2 : runs_regions (programs dom regs2) l2.

  Lemma between_split : forall t, between first last t <-> between first mid t \/ between nxt last t.
  Proof using Hm. clear -Hm. intros t. unfold between, direction. destruct (first <=? last) eqn:Q; lia. Qed.
  Lemma between_disj : forall t, between first mid t -> between nxt last t -> False.
  Proof using Hm. clear -Hm. intros t. unfold between, direction. destruct (first <=? last) eqn:Q; lia. Qed.
  Lemma cov : forall a b q k, run_solution c a b = Ok q -> runs_regions (programs dom q) k -> NoDup k /\ forall x, In x k <-> to_do nst dom a b x /\ in_reach ss nst (wf_steps mg_t bk_t) a x.
  Proof using H. clear -H. intros a b q k Eq Rq. destruct (tile_cover _ _ _ _ _ _ _ _ _ _ _ _ H a b) as (q' & Eq' & M). rewrite Eq in Eq'. injection Eq' as <-. exact (M k Rq). Qed.

  Lemma dims_ok : Forall (fun d => 1 <= d_fold d /\ 0 <= d_halo d) ss /\ 1 <= nst.
  Proof using H.
    clear -H. destruct H as [Hs _ _ _]. destruct (so_dims _ _ _ _ _ _ _ _ _ Hs) as (_ & F). split; [|apply (nst1 _ _ _ _ _ _ _ _ _ Hs)]. eapply Forall_impl; [|exact F]. intros d [F1 F2 _ _ _ _ _]. split; assumption.
  Qed.
  Theorem split_own : forall x, in_rank ss (i_p x) -> (In x l <-> In x l1 \/ In x l2).
  Proof.
    intros x Hx. destruct (cov _ _ _ _ E R) as (_ & I). destruct (cov _ _ _ _ E1 R1) as (_ & I1). destruct (cov _ _ _ _ E2 R2) as (_ & I2). rewrite I, I1, I2. destruct dims_ok as (F & Hn).
    unfold to_do. rewrite between_split. split.
    - intros (([B|B] & Hs & D) & _); [left|right]; (split; [repeat split; try assumption; lia|]); apply own_reach; assumption.
    - intros [((B & Hs & D) & _)|((B & Hs & D) & _)]; (split; [split; [auto|split; assumption]|]); apply own_reach; assumption.
  Qed.
  Theorem split_once : NoDup (l1 ++ l2).
  Proof.
    destruct (cov _ _ _ _ E1 R1) as (N1 & I1). destruct (cov _ _ _ _ E2 R2) as (N2 & I2).
    assert (D : forall x, In x l1 -> ~ In x l2). { intros x X1 X2. apply I1 in X1. apply I2 in X2. destruct X1 as ((B & _) & _), X2 as ((B' & _) & _). exact (between_disj _ B B'). }
    clear -N1 N2 D. induction l1 as [|a k IH]; [exact N2|]. inversion N1; subst. cbn [app]. constructor.
    - rewrite in_app_iff. intros [X|X]; [contradiction|]. exact (D a (or_introl eq_refl) X).
    - apply IH; [assumption|]. intros x Hx. apply D. right. exact Hx.
  Qed.
  Theorem split_exec : (forall d, In d ss -> d_first d = true /\ d_last d = true) ->
    forall V (alloc : Z -> Z) (st : stencil V), halo_stencil (length ss) (halo_of ss) st -> stage_indep alloc st ->
    (forall x, In x l <-> In x (l1 ++ l2)) /\ forall m cl, exec alloc st l2 (exec alloc st l1 m) cl = exec alloc st l m cl.
  Proof.
    intros A V alloc st HS SI. destruct (cov _ _ _ _ E R) as (N & I). destruct (cov _ _ _ _ E1 R1) as (N1 & I1). destruct (cov _ _ _ _ E2 R2) as (N2 & I2).
    assert (IR : forall s p, dom s p -> in_rank ss p) by (intros s p D; exact (alone_inside _ _ _ _ _ _ A (th_in _ _ _ _ _ _ _ _ _ _ _ _ H) D)).
    assert (Same : forall x, In x l <-> In x (l1 ++ l2)).
    { intros x. rewrite in_app_iff. split.
      - intros X. apply split_own; [|exact X]. apply I in X. destruct X as ((_ & _ & D) & _). exact (IR _ _ D).
      - intros X. apply split_own; [|exact X]. destruct X as [X|X]; [apply I1 in X|apply I2 in X]; destruct X as ((_ & _ & D) & _); exact (IR _ _ D). }
    split; [exact Same|]. intros m cl.
    destruct (plain_sort (direction first mid) (proj2 (dirs first mid)) l1) as (r1 & P1 & Pl1).
    destruct (plain_sort (direction nxt last) (proj2 (dirs nxt last)) l2) as (r2 & P2 & Pl2).
    rewrite (tile_exec _ _ _ _ _ _ _ _ _ _ _ _ H first last regs l V alloc st E R HS SI (r1 ++ r2)).
    - rewrite exec_app. rewrite (tile_exec _ _ _ _ _ _ _ _ _ _ _ _ H nxt last regs2 l2 V alloc st E2 R2 HS SI r2 P2 Pl2).
      apply exec_ext. intros c0. apply (tile_exec _ _ _ _ _ _ _ _ _ _ _ _ H first mid regs1 l1 V alloc st E1 R1 HS SI r1 P1 Pl1).
    - eapply perm_trans; [apply Permutation_app; eassumption|]. apply Permutation_sym. apply NoDup_Permutation; [exact N|exact split_once|exact Same].
    - intros a b Ia Ib O. apply before_app. apply in_app_iff in Ia, Ib.
      assert (T1 : forall x, In x r1 -> between first mid (i_t x)) by (intros x X; eapply Permutation_in in X; [|exact P1]; apply I1 in X; apply X).
      assert (T2 : forall x, In x r2 -> between nxt last (i_t x)) by (intros x X; eapply Permutation_in in X; [|exact P2]; apply I2 in X; apply X).
      destruct Ia as [Ia|Ia], Ib as [Ib|Ib].
      + left. apply Pl1; try assumption. destruct a as [ta sa pa], b as [tb sb pb]. apply (dir_sub first mid last); [lia|exact (T1 _ Ia)|exact (T1 _ Ib)|exact O].
      + right. right. split; assumption.
      + exfalso. apply T2 in Ia. apply T1 in Ib. clear -Hm O Ia Ib. unfold between, step_order, direction in *. destruct (first <=? last) eqn:Q; lia.
      + right. left. apply Pl2; try assumption. destruct a as [ta sa pa], b as [tb sb pb]. apply (dir_sub2 first nxt last); [|exact (T2 _ Ia)|exact (T2 _ Ib)|exact O].
        clear -Hm. unfold direction. destruct (first <=? last) eqn:Q; lia.
  Qed.
End Split.
