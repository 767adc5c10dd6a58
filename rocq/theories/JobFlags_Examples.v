(* Data for the example of a job with flags: the job of JobSetup_Examples; all flags are set at the start. *)
From Coq Require Import ZifyBool.
From Verif Require Import Base Cover_Spec Loops_Model Tile_Model Sched_Spec Sched2_Proofs Tile_Spec TileCfg_Spec Tile5_Proofs Tile_Examples Rank_Model Rank_Spec Exchange_Model Exchange_Spec Exchange_Proofs
  Job_Model Job_Spec Job_Examples JobSetup_Spec JobSetup_Proofs JobSetup2_Proofs JobSetup_Examples JobFlags_Model JobFlags_Spec JobFlags_Proofs.

(* one part that writes the var at the next step *)
Definition mini_parts (_ : Z) : list part_out := [mkPo [0] 1 (fun _ => true)].
Lemma mini_outputs : outputs_ok mini mini_parts (fun _ => 2) (sum3 1).
Proof.
  constructor.
  - intros y e [<-|[]]. exists (mkPo [0] 1 (fun _ => true)). split; [left; reflexivity|]. split; [reflexivity|]. split; [left; reflexivity|reflexivity].
  - intros y e x [<-|[]] Vx. apply mini_var in Vx. destruct Vx as (_ & ->). exists 2. split; [left; reflexivity|]. split; [lia|reflexivity].
Qed.
Definition set_flags (f : Z -> Z -> bool) : Prop := f 0 0 = true /\ f 0 1 = true.
Definition no_flags (f : Z -> Z -> bool) : Prop := forall u, f 0 u = false.
Lemma mini_flag_swap : forall self oth P M, (forall r, (r < 2)%nat -> set_flags (self r)) -> set_flags oth ->
  exists self' oth', flag_exchange mini mini_ranks walk self oth P M (mini_swap P M) self' oth' /\ (forall r, (r < 2)%nat -> no_flags (self' r)) /\ no_flags oth'.
Proof.
  intros self oth P M Hs (O0 & O1). eexists. eexists. split; [|split].
  - exists (fun _ => [0; 1]), (fun _ _ => true). split; [|split; [|split; [|split; intros; reflexivity]]].
    + intros v x Vx u. apply mini_var in Vx. destruct Vx as (-> & ->). change (slots (mkXv [XStep 2; XDom 0 1 1 1] 1)) with [0; 1]. split; [|intros (I & _); exact I].
      intros [<-|[<-|[]]]; (split; [cbn; auto|assumption]).
    + intros v x s b Vx Eb. apply mini_var in Vx. destruct Vx as (-> & _). assert (s < length mini_ranks)%nat as L by (apply nth_error_Some; congruence). destruct (Hs s L) as (Q & _). cbn [existsb]. rewrite Q. reflexivity.
    + exact (code_swap_messages _ _ _ _ _ mini_ok walk walk_ok (fun _ => [0; 1]) (fun _ _ => true) P M).
  - intros r Lr u. unfold cleared. change (var_at mini 0) with (Some (mkXv [XStep 2; XDom 0 1 1 1] 1)). cbn [length Nat.eqb negb]. rewrite andb_true_r. destruct r as [|[|r]]; [reflexivity|reflexivity|lia].
  - intros u. unfold cleared. change (var_at mini 0) with (Some (mkXv [XStep 2; XDom 0 1 1 1] 1)). cbn [length Nat.eqb negb]. rewrite andb_true_r. reflexivity.
Qed.
Lemma mini_marks : forall p, In p (passes 1 2 0 3) -> forall r k f, nth_error two_ranks r = Some k -> match rank_parts (k_c k) p with Ok (re, _) => set_flags (mark_self mini mini_parts re f) | _ => False end.
Proof. intros p [<-|[<-|[]]] [|[|[|r]]] k f E; try discriminate; injection E as <-; vm_compute; split; destruct (f _ _); reflexivity. Qed.
Lemma mini_marks_others : forall p, In p (passes 1 2 0 3) -> forall f, set_flags (mark_others mini mini_parts p f).
Proof. intros p [<-|[<-|[]]] f; vm_compute; split; destruct (f _ _); reflexivity. Qed.
Lemma mini_flag_job : exists self', flag_job mini mini_ranks two_ranks (dom1 0 20) walk mini_parts (fun _ => 2) (sum3 1) 0 3 mini_start (fun _ _ _ => true) mini_end self' /\
  forall r, (r < 2)%nat -> no_flags (self' r).
Proof.
  destruct (mini_flag_swap (fun _ _ _ => true) (fun _ _ => true) mini_start mini_start) as (self1 & oth1 & E1 & N1 & No1); [split; reflexivity|split; reflexivity|].
  assert (exists self', flag_passes mini mini_ranks two_ranks (dom1 0 20) walk mini_parts (fun _ => 2) (sum3 1) (passes 1 2 0 3) (mini_swap mini_start mini_start) self1 oth1 mini_end self' /\ forall r, (r < 2)%nat -> no_flags (self' r)) as (self' & J & N).
  2: { exists self'. split; [|exact N]. exists (mini_swap mini_start mini_start), self1, oth1. split; [exact E1|exact J]. }
  clear E1 No1. unfold mini_end, seq_job.
  assert (forall p, In p (passes 1 2 0 3) -> forall r k, nth_error two_ranks r = Some k -> part1 box_two p r k = true) as H.
  { intros p [<-|[<-|[]]] [|[|[|r]]] k E; try discriminate; injection E as <-; vm_compute; reflexivity. }
  pose proof mini_marks as Hm. pose proof mini_marks_others as Ho. revert H Hm Ho self1 oth1 N1. generalize (mini_swap mini_start mini_start) as m. change (s_nstages mini) with 1. change (s_wf mini) with 2.
  generalize (passes 1 2 0 3). induction l as [|p ps IH]; intros m H Hm Ho self oth N1; [exists self; split; [constructor|exact N1]|].
  cbn [fold_left].
  set (P := fun r => match nth_error two_ranks r with Some k => exec (fun _ => 2) (sum3 1) (fst (seq_parts k p)) (m r) | None => m r end).
  set (M1 := fun r => match nth_error two_ranks r with Some k => exec (fun _ => 2) (sum3 1) (snd (seq_parts k p)) (P r) | None => P r end).
  set (self1 := fun r => match nth_error two_ranks r with Some k => match rank_parts (k_c k) p with Ok (re, _) => mark_self mini mini_parts re (self r) | _ => self r end | None => self r end).
  destruct (mini_flag_swap self1 (mark_others mini mini_parts p oth) P M1) as (self2 & oth2 & E2 & N2 & _).
  { intros r Lr. unfold self1. destruct (nth_error two_ranks r) as [k|] eqn:Ek; [|apply nth_error_None in Ek; cbn in Ek; lia]. specialize (Hm p (or_introl eq_refl) r k (self r) Ek). destruct (rank_parts (k_c k) p) as [(re, ri)| | |]; try contradiction. exact Hm. }
  { apply Ho. left. reflexivity. }
  destruct (IH (mini_swap P M1) (fun q Hq => H q (or_intror Hq)) (fun q Hq => Hm q (or_intror Hq)) (fun q Hq => Ho q (or_intror Hq)) self2 oth2 N2) as (self' & J & N).
  exists self'. split; [|exact N]. apply (fp_cons mini mini_ranks two_ranks (dom1 0 20) walk mini_parts (fun _ => 2) (sum3 1) p ps m self oth P M1 self1 (mini_swap P M1) self2 oth2); [|exact E2|exact J].
  intros r k Hr. unfold M1, P, self1. rewrite Hr. specialize (H p (or_introl eq_refl) r k Hr). unfold part1 in H. unfold seq_parts.
  destruct (rank_parts (k_c k) p) as [(re, ri)| | |]; try discriminate. rewrite forallb_app in H. apply andb_prop in H. destruct H as (H1 & H2). cbn [fst snd].
  exists re, ri, (seq1 re), (seq1 ri). split; [reflexivity|]. split; [eapply programs_ext; [apply (two_box r k Hr)|apply seq1_runs; exact H1]|]. split; [eapply programs_ext; [apply (two_box r k Hr)|apply seq1_runs; exact H2]|]. repeat split.
Qed.
(* no halos are known to be up to date at the start *)
Lemma mini_flags_ok : flags_ok mini mini_ranks two_ranks mini_start (fun _ _ _ => true).
Proof.
  intros v x r s u q Vx F Ne K O [N|Q]; [|discriminate]. apply mini_var in Vx. destruct Vx as (-> & ->). unfold mini_start. replace ((u =? 0) || (u =? 1)) with false; [reflexivity|].
  symmetry. apply not_true_is_false. intros Q. apply N. intros n [I|[I|[]]]; [|discriminate]. injection I as <-. lia.
Qed.
