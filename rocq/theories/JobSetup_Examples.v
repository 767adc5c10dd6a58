(* Data for the example of a job that the code has set up: the two ranks of Job_Examples, their halos exchanged by messages. *)
From Coq Require Import ZifyBool.
From Verif Require Import Base Cover_Spec Loops_Model Tile_Model Sched_Spec Sched2_Proofs Tile_Spec TileCfg_Spec Tile5_Proofs Tile_Examples Rank_Model Rank_Spec Exchange_Model Exchange_Spec Exchange_Proofs
  Job_Model Job_Spec Job_Examples JobSetup_Spec JobSetup_Proofs JobSetup2_Proofs.

(* the points of a slice in the order of its dims *)
Definition walk (_ : bool) (box : list (Z * Z)) : list (list Z) := fold_right (fun r acc => flat_map (fun x => map (cons x) acc) (zrange (fst r) (snd r))) [[]] box.
Lemma walk_ok : order_ok walk.
Proof.
  intros vec box. induction box as [|r box IH]; intros p; cbn [walk fold_right].
  - split; [intros [<-|[]]; constructor|]. intros H. inversion H. left. reflexivity.
  - change (fold_right _ [[]] box) with (walk vec box). rewrite in_flat_map. split.
    + intros (x & Ix & Ip). apply in_map_iff in Ip. destruct Ip as (q & <- & Iq). constructor; [apply zrange_In; exact Ix|apply IH; exact Iq].
    + intros H. inversion H; subst. exists y. split; [apply zrange_In; assumption|]. apply in_map_iff. exists l'. split; [reflexivity|apply IH; assumption].
Qed.

(* 20 points, 2 ranks, one var with 2 slots and halos of 1 that is exchanged with direct neighbours, wave-fronts of 2 steps *)
Definition mini : xset := mkXs (mkJob 1 [20] [2] [1] true false) [mkXv [XStep 2; XDom 0 1 1 1] 1] 2 1 false true 0.
Definition mini_given : list rank_in := repeat (mkRk [0] [0]) 2.
Definition mini_ranks : list xrank := [mkXr (mkRo [0] [10] [20] [0]) [8] [0] [0]; mkXr (mkRo [1] [10] [20] [10]) [8] [0] [0]].
Lemma mini_ok : set_up mini mini_given mini_ranks two_ranks (dom1 0 20).
Proof.
  assert (ranks_wf (s_job mini) mini_given) as W.
  { repeat split; try reflexivity; try discriminate; repeat constructor; cbn; try lia. all: repeat constructor; lia. }
  assert (job_ready mini mini_given mini_ranks) as R.
  { split; [vm_compute; reflexivity|]. repeat split; cbn; try lia; repeat constructor; cbn; try lia; repeat constructor; try lia; vm_compute; congruence. }
  constructor; [exact W|exact R| | |cbn; lia|exact (jo_tile _ _ _ _ _ _ two_ok)| |].
  - apply (aligned_auto mini mini_given mini_ranks W R); try reflexivity; [intros [|j] Lj; cbn in *; lia|repeat constructor|].
    intros r j Ir Lj. apply repeat_spec in Ir. subst r. destruct j as [|j]; cbn in *; try reflexivity; lia.
  - constructor; [|constructor; [|constructor]]; (split; [reflexivity|]; split; [reflexivity|]; split; [reflexivity|]; exists 0; split; [lia|]; intros [|[|j]] d E; try discriminate; injection E as <-; vm_compute; repeat split).
  - intros s p (-> & i & -> & Hi). split; [reflexivity|]. intros x [|j] Ix Lj; [|cbn in Lj; lia]. destruct Ix as [<-|[<-|[]]]; cbn; lia.
  - constructor; [left; cbn; lia|constructor].
Qed.
Lemma mini_var : forall v x, var_at mini v = Some x -> v = 0 /\ x = mkXv [XStep 2; XDom 0 1 1 1] 1.
Proof. intros v x E. unfold var_at in E. destruct (v <? 0) eqn:N; [discriminate|]. destruct (Z.to_nat v) as [|n] eqn:Q; cbn in E; [injection E as <-; split; [lia|reflexivity]|]. destruct n; discriminate. Qed.
Lemma mini_ex : forall v, exchanged_var mini v = (v =? 0).
Proof. intros v. unfold exchanged_var. destruct (var_at mini v) as [x|] eqn:E; [apply mini_var in E; destruct E as (-> & ->); reflexivity|]. destruct (v =? 0) eqn:Q; [|reflexivity]. assert (v = 0) by lia. subst v. discriminate. Qed.
Lemma mini_stencil : job_stencil 1 (exchanged_var mini) (halo_in true mini) (halo_in false mini) (sum3 1).
Proof.
  constructor.
  - intros x e [<-|[]]. split; [reflexivity|]. intros j Hj. reflexivity.
  - intros x e He _ j Hj. assert (j = 0%nat) by lia. subst j. cbn in He. destruct He as [<-|[<-|[<-|[]]]]; cbn [snd fst nth]; change (halo_in true mini 0 0%nat) with 1; change (halo_in false mini 0 0%nat) with 1; lia.
Qed.
Lemma mini_reads : reads_in mini (sum3 1).
Proof.
  intros y e x Ie Vx F. apply mini_var in Vx. destruct Vx as (_ & ->). cbn in Ie. split; [destruct Ie as [<-|[<-|[<-|[]]]]; reflexivity|]. cbn [s_job mini j_nd seq filter v_l1]. destruct (negb _); cbn; lia.
Qed.
(* at the start the halos between the ranks are out of date *)
Definition mini_start (r : nat) (c : cell) : Z := let '(v, u, q) := c in if (u =? 0) || (u =? 1) then two_start r c else 0.
Lemma mini_keeps : forall r v q, keeps two_ranks 1 2 (halo_in true mini) (halo_in false mini) (code_links mini mini_ranks) r v q -> exchanged_var mini v = true -> keeps two_ranks 1 2 halo1 halo1 all_links r v q.
Proof.
  intros r v q (k & E & H & _) Ev. exists k. split; [exact E|]. split; [|intros; exact I]. rewrite mini_ex in Ev. assert (v = 0) by lia. subst v. intros j d Ed. specialize (H j d Ed).
  assert (j = 0%nat) as ->. { destruct r as [|[|[|r]]]; try discriminate; injection E as <-; destruct j as [|[|j]]; try discriminate; reflexivity. } exact H.
Qed.
Lemma mini_holds : holds two_ranks 1 2 (dom1 0 20) (exchanged_var mini) (halo_in true mini) (halo_in false mini) (code_links mini mini_ranks) (fun _ => 2) (sum3 1) mini_start square.
Proof.
  assert (forall r v u q, two_start r (v, u, q) = square (v, u, q) -> mini_start r (v, u, q) = square (v, u, q)) as K.
  { intros r v u q H. unfold mini_start. destruct ((u =? 0) || (u =? 1)) eqn:E; [exact H|]. cbn. replace (u =? 0) with false by lia. reflexivity. }
  constructor.
  - intros r ((v, u), q) O. apply K. apply (ho_own _ _ _ _ _ _ _ _ _ _ _ _ two_holds). exact O.
  - intros r v u q Ev Kp N. apply K. apply (ho_edge _ _ _ _ _ _ _ _ _ _ _ _ two_holds); [reflexivity|apply mini_keeps; assumption|exact N].
  - intros r k x e _ _ _ Ie Ev. exfalso. rewrite mini_ex in Ev. cbn in Ie. destruct Ie as [<-|[<-|[<-|[]]]]; cbn in Ev; discriminate.
Qed.

(* every exchange sends both slots *)
Definition mini_swap : (nat -> cell -> Z) -> (nat -> cell -> Z) -> nat -> cell -> Z := code_swap mini mini_ranks walk (fun _ => [0; 1]) (fun _ _ => true).
Definition clean (M : nat -> cell -> Z) : Prop := forall r v u q, (r < 2)%nat -> u <> 0 -> u <> 1 -> M r (v, u, q) = 0.
Lemma exec_clean : forall l m, (forall v u q, u <> 0 -> u <> 1 -> m (v, u, q) = 0) -> forall v u q, u <> 0 -> u <> 1 -> exec (fun _ => 2) (sum3 1) l m (v, u, q) = 0.
Proof.
  induction l as [|x l IH]; intros m H v u q N0 N1; [apply H; assumption|]. unfold exec. cbn [fold_left]. apply IH; [|assumption..]. intros v' u' q' M0 M1. unfold update. destruct (in_dec _ _ _) as [I|I]; [|apply H; assumption].
  exfalso. unfold wr_cells in I. cbn in I. destruct I as [E|[]]. injection E as _ E _. pose proof (Z.mod_pos_bound (i_t x + 1) 2 ltac:(lia)). lia.
Qed.
Lemma mini_clean : forall P M, clean P -> clean M -> code_exchange mini mini_ranks two_ranks walk P M (mini_swap P M) /\ clean (mini_swap P M).
Proof.
  intros P M HP HM.
  assert (code_exchange mini mini_ranks two_ranks walk P M (mini_swap P M)) as Ce.
  { apply (code_swap_ok _ _ _ _ _ mini_ok _ walk_ok). intros v x r s b u q Vx F Ne Es Ns K O. apply mini_var in Vx. destruct Vx as (-> & ->).
    assert (r < 2)%nat as Lr. { destruct K as (k & Ek & _). assert (r < length two_ranks)%nat as L by (apply nth_error_Some; congruence). exact L. }
    assert (s < 2)%nat as Ls. { assert (s < length mini_ranks)%nat as L by (apply nth_error_Some; congruence). exact L. }
    assert (u <> 0 /\ u <> 1) as (N0 & N1). { split; intros ->; apply Ns; (split; [reflexivity|cbn; tauto]). }
    rewrite HP, HM by assumption. reflexivity. }
  split; [exact Ce|].
  intros r v u q Lr N0 N1. unfold mini_swap, code_swap. destruct (var_at mini v) as [x|] eqn:Vx; [|apply HM; assumption]. destruct (nth_error mini_ranks r) as [a|] eqn:Ea; [|apply HM; assumption].
  destruct (full_var (j_nd (s_job mini)) x && element (j_nd (s_job mini)) x q) eqn:Fe; [|apply HM; assumption]. apply andb_prop in Fe. destruct Fe as (F & El).
  pose proof (nth_error_In _ _ Ea) as Ia. pose proof (var_In mini v x Vx) as Ix.
  destruct (exchange_gets mini mini_given mini_ranks (su_wf _ _ _ _ _ mini_ok) (su_ready _ _ _ _ _ mini_ok) (Z -> Z) walk walk_ok x [0; 1] (fun _ => true) (fun b => view mini v x (P (rank_idx mini_ranks b))) Ix a (view mini v x (M r)) Ia) as (w & E & G).
  rewrite E. destruct (G (point_of (j_nd (s_job mini)) (v_dims x) u q)) as [(b & Ib & _ & _ & Vq)|(_ & Vq)]; rewrite Vq, view_point by assumption; [|apply HM; assumption].
  apply HP; [|assumption..]. apply In_nth_error in Ib. destruct Ib as (s & Es). rewrite (rank_idx_nth _ _ _ _ _ mini_ok s b Es). assert (s < length mini_ranks)%nat as L by (apply nth_error_Some; congruence). exact L.
Qed.
Definition mini_end : nat -> cell -> Z := seq_job two_ranks (fun _ => 2) (sum3 1) mini_swap 1 2 0 3 mini_start.
Lemma mini_runs : code_job mini mini_ranks two_ranks (dom1 0 20) walk (fun _ => 2) (sum3 1) 0 3 mini_start mini_end.
Proof.
  assert (clean mini_start) as C0. { intros r v u q _ N0 N1. unfold mini_start. replace ((u =? 0) || (u =? 1)) with false by lia. reflexivity. }
  destruct (mini_clean mini_start mini_start C0 C0) as (E0 & C1). exists (mini_swap mini_start mini_start). split; [exact E0|]. unfold mini_end, seq_job.
  assert (forall p, In p (passes 1 2 0 3) -> forall r k, nth_error two_ranks r = Some k -> part1 box_two p r k = true) as H.
  { intros p [<-|[<-|[]]] [|[|[|r]]] k E; try discriminate; injection E as <-; vm_compute; reflexivity. }
  revert C1. generalize (mini_swap mini_start mini_start). revert H. change (s_nstages mini) with 1. change (s_wf mini) with 2. generalize (passes 1 2 0 3). induction l as [|p ps IH]; intros H m Cm; [constructor|].
  cbn [fold_left].
  set (P := fun r => match nth_error two_ranks r with Some k => exec (fun _ => 2) (sum3 1) (fst (seq_parts k p)) (m r) | None => m r end).
  set (M1 := fun r => match nth_error two_ranks r with Some k => exec (fun _ => 2) (sum3 1) (snd (seq_parts k p)) (P r) | None => P r end).
  assert (clean P) as CP. { intros r v u q Lr N0 N1. unfold P. destruct (nth_error two_ranks r); [apply exec_clean; [|assumption..]; intros; apply Cm; assumption|apply Cm; assumption]. }
  assert (clean M1) as CM. { intros r v u q Lr N0 N1. unfold M1. destruct (nth_error two_ranks r); [apply exec_clean; [|assumption..]; intros; apply CP; assumption|apply CP; assumption]. }
  destruct (mini_clean P M1 CP CM) as (E & C2). apply (jp_cons _ _ p ps m P M1 (mini_swap P M1)).
  - intros r k Hr. unfold M1, P. rewrite Hr. specialize (H p (or_introl eq_refl) r k Hr). unfold part1 in H. unfold seq_parts.
    destruct (rank_parts (k_c k) p) as [(re, ri)| | |]; try discriminate. rewrite forallb_app in H. apply andb_prop in H. destruct H as (H1 & H2). cbn [fst snd].
    exists re, ri, (seq1 re), (seq1 ri). split; [reflexivity|]. split; [eapply programs_ext; [apply (two_box r k Hr)|apply seq1_runs; exact H1]|]. split; [eapply programs_ext; [apply (two_box r k Hr)|apply seq1_runs; exact H2]|]. split; intros c; reflexivity.
  - exact E.
  - apply IH; [intros q Hq; apply H; right; exact Hq|exact C2].
Qed.

(* the same on one rank without tiling *)
Lemma mini_value : forall r i, Job_Spec.owns two_ranks r [i] -> 0 <= i < 20 -> mini_end r (0, 0, [i]) = seq_job one_rank (fun _ => 2) (sum3 1) swap_none 1 0 0 3 (fun _ => square) 0%nat (0, 0, [i]).
Proof.
  intros r i O Hi.
  assert (Ex : forall P M : nat -> cell -> Z, exchanged one_rank 1 0 (exchanged_var mini) (halo_in true mini) (halo_in false mini) all_links P M (swap_none P M)).
  { intros P M. constructor; [reflexivity| |left; reflexivity|reflexivity]. intros r' s v u q N _ (k & E & _) (k' & E' & _). destruct r' as [|[|r']], s as [|[|s]]; try discriminate. congruence. }
  assert (R1 : runs_job one_rank 1 0 (dom1 0 20) (exchanged_var mini) (halo_in true mini) (halo_in false mini) all_links (fun _ => 2) (sum3 1) 0 3 (fun _ => square) (seq_job one_rank (fun _ => 2) (sum3 1) swap_none 1 0 0 3 (fun _ => square))).
  { apply (seq_runs _ _ _ _ _ _ _ _ _ _ _ (fun _ => (0, 20))); [exact one_box|exact Ex|]. intros p [<-|[<-|[<-|[<-|[]]]]] [|[|r']] k E; try discriminate; injection E as <-; vm_compute; reflexivity. }
  assert (Vh : var_halos 1 (fun _ => 1) (halo_in true mini) (halo_in false mini)).
  { assert (forall left v j, 0 <= halo_in left mini v j <= 1) as H. { intros left v j. unfold halo_in. destruct (var_at mini v) as [x|] eqn:E; [|lia]. apply mini_var in E. destruct E as (_ & ->). cbn. destruct j; cbn; [destruct left; lia|lia]. } constructor; intros; apply H. }
  refine (Job4_Proofs.jobs_agree Z two_ranks one_rank 1 _ (fun _ => 1) 1 2 0 (dom1 0 20) _ _ _ (code_links mini mini_ranks) all_links (fun _ => 2) (sum3 1) (set_up_job _ _ _ _ _ mini_ok) one_ok mini_stencil (set_up_halos _ _ _ _ _ mini_ok) Vh (sum3_indep 1)
    (set_up_interiors _ _ _ _ _ mini_ok) _ (reads_in_linked _ _ _ _ _ mini_ok _ mini_stencil mini_reads) (all_linked _ _ _ _ _ _) 0 3 mini_start (fun _ => square) _ _ square mini_holds _ (code_job_runs _ _ _ _ _ mini_ok _ walk_ok _ _ _ _ _ _ mini_runs) R1 r 0%nat (0, 0, [i]) O _).
  - intros k j d v [<-|[]] E; discriminate.
  - constructor; reflexivity.
  - eexists. split; [reflexivity|]. intros [|[|j]] d E; try discriminate. injection E as <-. cbn. lia.
Qed.
