(* Consequences for jobs of several ranks: no failure, other rank counts, split runs. *)
From Coq Require Import ZifyBool.
From Verif Require Import Base Cover_Spec Loops_Model Tile_Model Sched_Spec Sched_Proofs Sched2_Proofs Tile_Spec TileCfg_Spec TileSteps_Proofs Tile_Proofs Tile2_Proofs Tile3_Proofs Tile4_Proofs
  Job_Model Job_Spec Job_Proofs Job2_Proofs Job3_Proofs.

(* the passes are what run_solution does *)
Lemma rmap_flat : forall A C B (f : C -> res (list B)) (g : A -> list C) l, rbind (rmap (fun x => rbind (rmap f (g x)) (fun r => Ok (concat r))) l) (fun rs => Ok (concat rs)) = rbind (rmap f (flat_map g l)) (fun rs => Ok (concat rs)).
Proof.
  intros A C B f g l.
  assert (App : forall a b, rmap f (a ++ b) = rbind (rmap f a) (fun x => rbind (rmap f b) (fun y => Ok (x ++ y)))).
  { induction a as [|x a IH]; intros b; cbn; [destruct (rmap f b); reflexivity|]. destruct (f x); cbn; try reflexivity. rewrite IH. destruct (rmap f a); cbn; try reflexivity. destruct (rmap f b); reflexivity. }
  induction l as [|x l IH]; [reflexivity|]. cbn [rmap flat_map]. rewrite App. destruct (rmap f (g x)) as [y| | |]; cbn [rbind]; try reflexivity.
  match type of IH with rbind ?a _ = rbind ?b _ => destruct a, b end; cbn [rbind] in *; try discriminate; try reflexivity. injection IH as IH. cbn [concat]. rewrite concat_app, IH. reflexivity.
Qed.
Lemma rmap_ext : forall A B (f g : A -> res B) l, (forall x, f x = g x) -> rmap f l = rmap g l.
Proof. intros A B f g l H. induction l as [|x l IH]; [reflexivity|]. cbn. rewrite H, IH. reflexivity. Qed.
Lemma rmap_map : forall A C B (f : C -> res B) (g : A -> C) l, rmap f (map g l) = rmap (fun x => f (g x)) l.
Proof. intros A C B f g l. induction l as [|x l IH]; [reflexivity|]. cbn. rewrite IH. reflexivity. Qed.
Lemma run_passes : forall c first last, 1 <= zprod (map (fun d => ext_e d - ext_b d) (c_dims c)) ->
  run_solution c first last = rbind (rmap (rank_does c) (passes (c_nst c) (c_wf c) first last)) (fun rs => Ok (concat rs)).
Proof.
  intros c first last Hv. unfold run_solution. cbv zeta. replace (_ <? 1) with false by lia. unfold passes. cbv zeta. rewrite <- rmap_flat. f_equal. apply rmap_ext. intros (b, e). cbn [fst snd].
  destruct (c_wf c =? 0); [rewrite rmap_map; reflexivity|]. cbn [rmap]. unfold rank_does. cbn [fst snd]. destruct (rank_pass c None b e); cbn [rbind concat]; rewrite ?app_nil_r; reflexivity.
Qed.

Section Jobs.
  Context {V : Type}.
  Variables (ranks : list rank_cfg) (n : nat) (h : nat -> Z) (nst wf : Z) (dom : Z -> list Z -> Prop) (ex : Z -> bool) (hl hr : Z -> nat -> Z).
  Variables (lk : Z -> nat -> nat -> list Z -> Prop) (alloc : Z -> Z) (st : stencil V).
  Hypothesis Hjob : job_ok ranks n h nst wf dom.
  Notation Moves0 := (rank_moves0 ranks nst wf dom alloc st).
  Notation Moves := (rank_moves ranks nst wf dom alloc st).
  Notation Exch := (exchanged ranks nst wf ex hl hr lk).

  Lemma job_no_fail : forall first last p k, In p (passes nst wf first last) -> In k ranks -> exists regs re ri, rank_does (k_c k) p = Ok regs /\ rank_parts (k_c k) p = Ok (re, ri) /\ regs = re ++ ri.
  Proof using Hjob.
    intros first last p k Hp Hk. destruct (jo_same _ _ _ _ _ _ Hjob k Hk) as (_ & En & Ew & _). rewrite <- En, <- Ew in Hp.
    destruct (pass_rank _ _ _ _ _ _ _ _ _ _ _ _ (jo_tile _ _ _ _ _ _ Hjob k Hk) first last p Hp) as (regs & (E & (re & ri & X1 & X2 & X3 & _)) & _). exists regs, re, ri. split; [exact E|]. split; [|exact X3]. unfold rank_parts. rewrite X1. cbn [rbind]. rewrite X2. reflexivity.
  Qed.

  (* the instances a job evaluates *)
  Lemma pass_list : forall first last p M M', In p (passes nst wf first last) -> (forall r, Moves0 p r (M r) (M' r)) ->
    exists l, forall x, In x l <-> In (i_t x, i_s x) (lay_of nst p) /\ dom (i_s x) (i_p x).
  Proof using Hjob.
    intros first last p M M' Hp Mv.
    assert (G : forall r k, nth_error ranks r = Some k -> exists l, forall x, (In x l -> In (i_t x, i_s x) (lay_of nst p) /\ dom (i_s x) (i_p x)) /\
      (In (i_t x, i_s x) (lay_of nst p) -> dom (i_s x) (i_p x) -> in_rank (k_ss k) (i_p x) -> In x l)).
    { intros r k Hr. pose proof (nth_error_In _ _ Hr) as Hk. destruct (jo_same _ _ _ _ _ _ Hjob k Hk) as (Ln & En & Ew & _). pose proof (jo_tile _ _ _ _ _ _ Hjob k Hk) as T.
      destruct (Mv r k Hr) as (regs & l & E & R & _). assert (Hp' := Hp). rewrite <- En, <- Ew in Hp'.
      destruct (pass_rank _ _ _ _ _ _ _ _ _ _ _ _ T first last p Hp') as (regs' & (E' & _) & P). rewrite E in E'. injection E' as <-. destruct (P l R) as (_ & I & _). rewrite En, Ew in I.
      assert (Hw : 0 <= wf) by (rewrite <- Ew; pose proof (so_steps _ _ _ _ _ _ _ _ _ (th_s _ _ _ _ _ _ _ _ _ _ _ _ T)); unfold wf_steps; lia).
      assert (Hn : 1 <= nst) by (rewrite <- En; pose proof (so_bbs _ _ _ _ _ _ _ _ _ (th_s _ _ _ _ _ _ _ _ _ _ _ _ T)) as (Q & _); destruct (k_bbs k); [contradiction|cbn; lia]).
      pose proof (so_dims _ _ _ _ _ _ _ _ _ (th_s _ _ _ _ _ _ _ _ _ _ _ _ T)) as (_ & Fd). rewrite Forall_forall in Fd.
      assert (An : forall d, In d (k_ss k) -> 0 <= angle d).
      { intros d Hd. destruct (Fd d Hd) as [F1 F2 _ _ _ _ _]. unfold angle. apply Z.mul_nonneg_nonneg; [apply Z.div_pos; lia|lia]. }
      assert (Wd : forall w x, 0 <= w -> in_rank (k_ss k) (i_p x) -> forall j d, nth_error (k_ss k) j = Some d -> near_rank d (angle d * w) (nth j (i_p x) 0)).
      { intros w x Ww Ix j d Hj. specialize (Ix j d Hj). pose proof (An d (nth_error_In _ _ Hj)). unfold near_rank. assert (0 <= angle d * w) by nia. destruct (d_first d), (d_last d); lia. }
      exists l. intros x. split.
      - intros Hx. apply I in Hx. split; [apply Hx|]. exact (proj1 (proj1 (proj2 Hx))).
      - intros Hl D Ix. apply I. destruct (In_nth_error _ _ Hl) as (i & Hi). destruct (lay_moves nst wf Hn Hw first last p i _ _ Hp Hi) as (M1 & M2 & _).
        split; [exact Hl|]. split; [split; [exact D|]; apply Wd; [lia|exact Ix]|]. unfold near_ss. apply Wd; [lia|exact Ix]. }
    assert (U : forall rs, (forall k, In k rs -> In k ranks) -> exists l, forall x, (In x l -> In (i_t x, i_s x) (lay_of nst p) /\ dom (i_s x) (i_p x)) /\
      (In (i_t x, i_s x) (lay_of nst p) -> dom (i_s x) (i_p x) -> forall k, In k rs -> in_rank (k_ss k) (i_p x) -> In x l)).
    { induction rs as [|k rs IH]; intros Sub; [exists []; intros x; split; [intros []|intros _ _ k []]|].
      destruct (In_nth_error _ _ (Sub k (or_introl eq_refl))) as (r & Hr). destruct (G r k Hr) as (l & Hl). destruct (IH (fun q Hq => Sub q (or_intror Hq))) as (l' & Hl'). exists (l ++ l'). intros x. split.
      - intros Hx. apply in_app_iff in Hx. destruct Hx as [Hx|Hx]; [apply (Hl x); exact Hx|apply (Hl' x); exact Hx].
      - intros A D q [<-|Hq] Ix; apply in_app_iff; [left; apply (Hl x); assumption|right; apply (proj2 (Hl' x) A D q Hq Ix)]. }
    destruct (U ranks (fun k Hk => Hk)) as (l & Hl). exists l. intros x. split; [apply Hl|]. intros (A & D). destruct (jo_owned _ _ _ _ _ _ Hjob _ _ D) as (_ & k & Hk & Ix). exact (proj2 (Hl x) A D k Hk Ix).
  Qed.
  Lemma passes_list : forall first last ps M M', (forall p, In p ps -> In p (passes nst wf first last)) -> job_passes Moves Exch ps M M' ->
    exists l, forall x, In x l <-> In (i_t x, i_s x) (flat_map (lay_of nst) ps) /\ dom (i_s x) (i_p x).
  Proof using Hjob.
    intros first last ps M M' Sub J. induction J as [M|p ps M P M1 M2 M3 Mv X J IH]; [exists []; intros x; cbn; tauto|].
    destruct (pass_list first last p M M1 (Sub p (or_introl eq_refl)) (fun r => moves_old ranks n h nst wf dom alloc st Hjob first last p r _ _ _ (Sub p (or_introl eq_refl)) (Mv r))) as (l & Hl). destruct (IH (fun q Hq => Sub q (or_intror Hq))) as (l' & Hl').
    exists (l ++ l'). intros x. cbn [flat_map]. rewrite !in_app_iff, Hl, Hl'. tauto.
  Qed.
  Lemma inst_dec : forall x y : inst, {x = y} + {x <> y}.
  Proof using. intros [t s p] [t' s' p']. destruct (Z.eq_dec t t') as [->|]; [|right; congruence]. destruct (Z.eq_dec s s') as [->|]; [|right; congruence]. destruct (list_eq_dec Z.eq_dec p p') as [->|]; [left; reflexivity|right; congruence]. Qed.
  Lemma job_list : forall first last M M', ranks <> [] -> runs_job ranks nst wf dom ex hl hr lk alloc st first last M M' ->
    exists L, NoDup L /\ (forall x, In x L <-> to_do nst dom first last x) /\ plain_run (direction first last) L.
  Proof using Hjob.
    intros first last M M' Ne (M1 & _ & J). destruct (passes_list first last _ M1 M' (fun p Hp => Hp) J) as (l & Hl).
    assert (Hw : 0 <= wf). { destruct ranks as [|k ?] eqn:Er; [contradiction|]. destruct (jo_same _ _ _ _ _ _ Hjob k (or_introl eq_refl)) as (_ & _ & <- & _).
      pose proof (so_steps _ _ _ _ _ _ _ _ _ (th_s _ _ _ _ _ _ _ _ _ _ _ _ (jo_tile _ _ _ _ _ _ Hjob k (or_introl eq_refl)))). unfold wf_steps. lia. }
    rewrite (all_layers nst wf first last Hw) in Hl.
    destruct (plain_sort (direction first last) (proj2 (dirs first last)) (nodup inst_dec l)) as (L & P & Pl). exists L.
    split; [eapply Permutation_NoDup; [apply Permutation_sym; exact P|apply NoDup_nodup]|]. split; [|exact Pl].
    intros x. unfold to_do. transitivity (In x (nodup inst_dec l)); [split; apply Permutation_in; [exact P|apply Permutation_sym; exact P]|]. rewrite nodup_In, Hl, lay_steps_In. tauto.
  Qed.
End Jobs.

(* Two jobs with any ranks and settings. *)
Theorem jobs_agree : forall V ranks ranks' n h h' nst wf wf' dom ex hl hr lk lk' (alloc : Z -> Z) (st : stencil V),
  job_ok ranks n h nst wf dom -> job_ok ranks' n h' nst wf' dom -> job_stencil n ex hl hr st -> var_halos n h hl hr -> var_halos n h' hl hr -> stage_indep alloc st -> interiors_ok ranks nst wf ex hl hr -> interiors_ok ranks' nst wf' ex hl hr ->
  reads_linked ranks nst wf dom ex lk st -> reads_linked ranks' nst wf' dom ex lk' st ->
  forall first last M1 M2 M1' M2' g, holds ranks nst wf dom ex hl hr lk alloc st M1 g -> holds ranks' nst wf' dom ex hl hr lk' alloc st M2 g ->
  runs_job ranks nst wf dom ex hl hr lk alloc st first last M1 M1' -> runs_job ranks' nst wf' dom ex hl hr lk' alloc st first last M2 M2' ->
  forall r r' c, owns ranks r (snd c) -> owns ranks' r' (snd c) -> M1' r c = M2' r' c.
Proof.
  intros V ranks ranks' n h h' nst wf wf' dom ex hl hr lk lk' alloc st J1 J2 S V1 V2 SI IO1 IO2 LK1 LK2 first last M1 M2 M1' M2' g H1 H2 R1 R2 r r' c O1 O2.
  assert (Ne : ranks <> []) by (intros ->; destruct O1 as (k & E & _); destruct r; discriminate).
  destruct (job_list ranks n h nst wf dom ex hl hr lk alloc st J1 first last M1 M1' Ne R1) as (L & NL & HL & Pl).
  destruct (job_same ranks n h nst wf dom ex hl hr lk alloc st J1 S V1 SI IO1 LK1 first last L NL HL Pl M1 M1' g H1 R1) as ([A _ _] & _).
  destruct (job_same ranks' n h' nst wf' dom ex hl hr lk' alloc st J2 S V2 SI IO2 LK2 first last L NL HL Pl M2 M2' g H2 R2) as ([B _ _] & _).
  rewrite (A r c O1), (B r' c O2). reflexivity.
Qed.

(* A run that is split in two. *)
Theorem jobs_split : forall V ranks n h nst wf dom ex hl hr lk (alloc : Z -> Z) (st : stencil V),
  job_ok ranks n h nst wf dom -> job_stencil n ex hl hr st -> var_halos n h hl hr -> stage_indep alloc st -> interiors_ok ranks nst wf ex hl hr -> reads_linked ranks nst wf dom ex lk st ->
  forall first mid last M g Ma Mb Mc, first <= mid < last \/ last < mid <= first -> holds ranks nst wf dom ex hl hr lk alloc st M g ->
  runs_job ranks nst wf dom ex hl hr lk alloc st first mid M Ma -> runs_job ranks nst wf dom ex hl hr lk alloc st (mid + direction first last) last Ma Mb ->
  runs_job ranks nst wf dom ex hl hr lk alloc st first last M Mc ->
  (forall r c, owns ranks r (snd c) -> Mb r c = Mc r c) /\ forall r v u q, ex v = true -> keeps ranks nst wf hl hr lk r v q -> Mb r (v, u, q) = Mc r (v, u, q).
Proof.
  intros V ranks n h nst wf dom ex hl hr lk alloc st J S Vh SI IO LK first mid last M g Ma Mb Mc Hm Ho R1 R2 R3.
  assert (X : ranks = [] \/ ranks <> []) by (destruct ranks; [left; reflexivity|right; discriminate]). destruct X as [E|Ne].
  { subst ranks. split; [intros r c (k & E & _)|intros r v u q _ (k & E & _)]; destruct r; discriminate. }
  destruct (job_list ranks n h nst wf dom ex hl hr lk alloc st J first mid M Ma Ne R1) as (L1 & N1 & H1 & P1).
  destruct (job_list ranks n h nst wf dom ex hl hr lk alloc st J _ last Ma Mb Ne R2) as (L2 & N2 & H2 & P2).
  destruct (job_same ranks n h nst wf dom ex hl hr lk alloc st J S Vh SI IO LK first mid L1 N1 H1 P1 M Ma g Ho R1) as (Ho1 & _).
  destruct (job_same ranks n h nst wf dom ex hl hr lk alloc st J S Vh SI IO LK _ last L2 N2 H2 P2 Ma Mb _ Ho1 R2) as (Ho2 & K2).
  assert (NL : NoDup (L1 ++ L2)).
  { apply Permutation_NoDup with (l := L2 ++ L1); [apply Permutation_app_comm|]. clear -N1 N2 H1 H2 Hm.
    assert (D : forall x, In x L2 -> In x L1 -> False). { intros x A B. apply H1 in B. apply H2 in A. destruct A as (A & _), B as (B & _). exact (between_disj first mid last Hm _ B A). }
    clear H1 H2. induction N2 as [|x l Nx N IH]; [exact N1|]. cbn. constructor; [rewrite in_app_iff; intros [Q|Q]; [contradiction|exact (D x (or_introl eq_refl) Q)]|]. apply IH. intros y Hy. apply D. right. exact Hy. }
  assert (HL : forall x, In x (L1 ++ L2) <-> to_do nst dom first last x).
  { intros x. rewrite in_app_iff, H1, H2. unfold to_do. rewrite (between_split first mid last Hm (i_t x)). tauto. }
  assert (Pl : plain_run (direction first last) (L1 ++ L2)).
  { intros a b Ia Ib O. apply before_app. apply in_app_iff in Ia, Ib.
    destruct Ia as [Ia|Ia], Ib as [Ib|Ib].
    - left. apply P1; [exact Ia|exact Ib|]. apply H1 in Ia, Ib. destruct Ia as (Ia & _), Ib as (Ib & _). destruct a as [ta sa pa], b as [tb sb pb]. apply (dir_sub first mid last); [lia|exact Ia|exact Ib|exact O].
    - right. right. split; assumption.
    - exfalso. apply H2 in Ia. apply H1 in Ib. destruct Ia as (Ia & _), Ib as (Ib & _). clear -Ia Ib O Hm. unfold step_order, direction, between in *. destruct (first <=? last) eqn:Q1; lia.
    - right. left. apply P2; [exact Ia|exact Ib|]. apply H2 in Ia, Ib. destruct Ia as (Ia & _), Ib as (Ib & _). destruct a as [ta sa pa], b as [tb sb pb].
      apply (dir_sub2 first (mid + direction first last) last); [unfold direction; destruct (first <=? last) eqn:Q; lia|exact Ia|exact Ib|exact O]. }
  destruct (job_same ranks n h nst wf dom ex hl hr lk alloc st J S Vh SI IO LK first last (L1 ++ L2) NL HL Pl M Mc g Ho R3) as (Ho3 & K3).
  rewrite exec_app in *. split.
  - intros r c O. destruct Ho2 as [A _ _], Ho3 as [B _ _]. rewrite (A r c O), (B r c O). reflexivity.
  - intros r v u q Ev K. rewrite (K2 r v u q Ev K), (K3 r v u q Ev K). reflexivity.
Qed.
