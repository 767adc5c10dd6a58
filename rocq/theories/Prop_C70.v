(* C70: The ranks of a performance run agree on every run, and its report is right.
   The report is wrong for an even number of trials (percentile), for two trials (deviation) and for trials without throughput
   (minimum), and options that are not compared can make the ranks part: see the theorems _refuted. *)
From Verif Require Import Base Trial_Model Trial_Spec Trial_Proofs Trial2_Proofs.

(* Whatever times the ranks measure, they never part: every barrier and run is reached by all of them with the same number of steps. *)
Theorem C70_ranks_agree : forall wt os, os <> [] -> (forall n, length (wt n) = length os) ->
  same_choices os -> plan wt os <> UB.
Proof. exact ranks_agree. Qed.
Print Assumptions C70_ranks_agree.

(* The runs made: at most three warm-up runs of 1, up to 10 and up to 100 steps, none exactly if neither asked for nor needed; then
   the trials asked for, of at least one step. *)
Theorem C70_runs_made : forall wt os runs nt s, os <> [] -> (forall n, length (wt n) = length os) ->
  plan wt os = Ok (runs, nt, s) ->
  1 <= nt /\ 1 <= s /\
  (forall o, In o os -> num_trials o = nt /\ (0 < trial_steps o -> s = trial_steps o)) /\
  (runs = [] \/ runs = [1] \/
   (exists a, runs = [1; a] /\ 2 <= a <= 10) \/
   (exists a b, runs = [1; a; b] /\ 2 <= a <= 10 /\ 2 <= b <= 100)) /\
  (runs = [] <-> forall o, In o os -> do_warmup o = false /\ (0 < trial_steps o \/ trial_time o <= 0)) /\
  (forall o, In o os -> 0 < trial_steps o -> (length runs <= 1)%nat).
Proof. exact runs_made. Qed.
Print Assumptions C70_runs_made.

(* Without a given number of steps, the first and the second run decide whether another one is made and of how many steps: as many as
   take half a second (a second), at most 10 (100), in the mean over the ranks; none if that is one step or less. *)
Theorem C70_calibration : forall wt os runs nt s, os <> [] -> (forall n, length (wt n) = length os) ->
  plan wt os = Ok (runs, nt, s) -> (forall o, In o os -> trial_steps o <= 0) ->
  forall k w, (k < 2)%nat -> nth_error runs k = Some w ->
  exists m, next_steps (wt (Z.of_nat k)) (Z.of_nat k) w (if (k =? 0)%nat then 10 else 100) m /\
    (nth_error runs (S k) = None <-> m <= 1) /\ (forall x, nth_error runs (S k) = Some x -> x = m).
Proof. exact calibrated. Qed.
Print Assumptions C70_calibration.

(* Without a given number of steps, a trial has the mean over the ranks of the least numbers of steps that take the wanted time at the
   rate of the last warm-up run, or the next multiple of the temporal block size if that adds no more than a fifth. *)
Theorem C70_steps_chosen : forall wt os runs nt s, os <> [] -> (forall n, length (wt n) = length os) ->
  plan wt os = Ok (runs, nt, s) ->
  (forall o, In o os -> trial_steps o <= 0 /\ 0 < trial_time o) ->
  exists ds m,
    length ds = length os /\
    (forall i o t, nth_error os i = Some o ->
       nth_error (wt (Z.of_nat (length runs) - 1)) i = Some t ->
       exists d, nth_error ds i = Some d /\ need (last runs 0) t (trial_time o) d) /\
    mean_up ds m /\
    (6 * m < 5 * 2147483648 -> forall o, In o os -> fitted (block_t o) m s).
Proof. exact steps_chosen. Qed.
Print Assumptions C70_steps_chosen.

(* The best trial is one of the fastest. *)
Theorem C70_best : forall l r, make_report l = Some r ->
  In (rp_best r) l /\ forall t, In t l -> run_time (rp_best r) <= run_time t.
Proof. exact best_ok. Qed.
Print Assumptions C70_best.

(* The middle trial has the rank that is printed. *)
Theorem C70_printed_rank : forall l r, make_report l = Some r ->
  In (rp_mid r) l /\ has_rank (rp_rank r) (run_time (rp_mid r)) l /\
  rp_rank r = Z.of_nat (length l) / 2 + 1.
Proof. exact mid_ok. Qed.
Print Assumptions C70_printed_rank.

(* With an odd number of trials it is the median, also by the nearest-rank method. *)
Theorem C70_median : forall l r k, make_report l = Some r -> Z.of_nat (length l) = 2 * k + 1 ->
  has_rank (k + 1) (run_time (rp_mid r)) l /\ nearest_rank_50 (run_time (rp_mid r)) l.
Proof. exact median_ok. Qed.
Print Assumptions C70_median.

(* Minimum, maximum, mean and, for three trials or more, variance of the throughput. *)
Theorem C70_throughput : forall l r, make_report l = Some r ->
  (forall t, In t l -> 0 < pts_ps t) ->
  is_min (rp_min r) (map pts_ps l) /\ is_max (rp_max r) (map pts_ps l) /\
  rp_ave r = (zsum (map pts_ps l), Z.of_nat (length l)) /\
  ((3 <= length l)%nat -> is_variance (fst (rp_var r)) (snd (rp_var r)) (map pts_ps l)).
Proof. exact numbers_ok. Qed.
Print Assumptions C70_throughput.

(* Two ranks of different speed; trials of ten seconds, blocks of four steps. *)
Definition C70_os := [mkOpts true 3 0 10000000000 4; mkOpts true 3 0 10000000000 4].
Definition C70_wt (n : Z) : list Z := if n =? 0 then [100000000; 120000000] else [620000000; 480000000].
Example C70_ex_plan : plan C70_wt C70_os = Ok ([1; 5; 10], 3, 188).
Proof. vm_compute. reflexivity. Qed.
Example C70_ex_hyps : C70_os <> [] /\ (forall n, length (C70_wt n) = length C70_os) /\ same_choices C70_os /\
  (forall o, In o C70_os -> trial_steps o <= 0 /\ 0 < trial_time o).
Proof.
  split; [discriminate|]. split; [intros n; unfold C70_wt; destruct (n =? 0); reflexivity|]. split.
  - intros a b [<-|[<-|[]]] [<-|[<-|[]]]; cbn; tauto.
  - intros o [<-|[<-|[]]]; cbn; lia.
Qed.
(* 10 steps in 0.62 s need 162 steps for ten seconds, 10 in 0.48 s need 209; their mean, rounded up, is 186, and 188 a multiple of 4. *)
Example C70_ex_need : need 10 620000000 10000000000 162 /\ need 10 480000000 10000000000 209 /\ mean_up [162; 209] 186 /\ fitted 4 186 188.
Proof.
  unfold need, mean_up, fitted. cbn [zsum length]. repeat split; intros; try lia.
  - right. split; [lia|]. split; [exists 47; reflexivity|lia].
  - exists 47. reflexivity.
Qed.
(* A given number of steps: one warm-up run. *)
Example C70_ex_given : plan C70_wt [mkOpts true 2 50 0 4; mkOpts true 2 50 0 4] = Ok ([1], 2, 50).
Proof. vm_compute. reflexivity. Qed.
(* No measurable time on any rank: nothing is run. *)
Example C70_ex_untimed : plan (fun _ => [0; 0]) C70_os = Throw.
Proof. vm_compute. reflexivity. Qed.
Definition C70_trials := [mkTrial 30 200; mkTrial 20 300; mkTrial 60 100].
Example C70_ex_report : make_report C70_trials =
  Some (mkReport (mkTrial 20 300) (mkTrial 30 200) 2 100 300 (600, 3) (60000, 6)) /\
  (forall t, In t C70_trials -> 0 < pts_ps t).
Proof. split; [vm_compute; reflexivity|]. intros t [<-|[<-|[<-|[]]]]; cbn; lia. Qed.

(* Refuted: "ranks whose compared options agree never part".  Whether to warm up is not compared. *)
Theorem C70_unchecked_warmup_refuted : exists wt os, os <> [] /\ (forall n, length (wt n) = length os) /\
  (forall a b, In a os -> In b os -> num_trials a = num_trials b /\ trial_steps a = trial_steps b /\
     trial_time a = trial_time b /\ block_t a = block_t b) /\
  plan wt os = UB.
Proof.
  exists (fun _ => [1; 1]), [mkOpts true 3 10 0 1; mkOpts false 3 10 0 1].
  split; [discriminate|]. split; [reflexivity|]. split; [|vm_compute; reflexivity].
  intros a b [<-|[<-|[]]] [<-|[<-|[]]]; cbn; auto.
Qed.
Print Assumptions C70_unchecked_warmup_refuted.

(* Refuted: "with an even number of trials the middle trial is chosen with the nearest-rank method", as the report says. *)
Theorem C70_nearest_rank_refuted : exists l r, make_report l = Some r /\ Z.even (Z.of_nat (length l)) = true /\
  ~ nearest_rank_50 (run_time (rp_mid r)) l.
Proof.
  exists [mkTrial 10 600; mkTrial 20 300; mkTrial 30 200; mkTrial 40 150].
  eexists. split; [vm_compute; reflexivity|]. split; [reflexivity|].
  intros (_ & _ & H). specialize (H (mkTrial 20 300)). cbn in H.
  assert (30 <= 20); [|lia]. apply H; [auto|]. vm_compute. discriminate.
Qed.
Print Assumptions C70_nearest_rank_refuted.

(* Refuted: "the deviation of two trials is reported". *)
Theorem C70_two_trials_refuted : exists l r, make_report l = Some r /\ (2 <= length l)%nat /\
  (forall t, In t l -> 0 < pts_ps t) /\ ~ is_variance (fst (rp_var r)) (snd (rp_var r)) (map pts_ps l).
Proof.
  exists [mkTrial 10 600; mkTrial 20 300]. eexists. split; [vm_compute; reflexivity|].
  split; [cbn; lia|]. split; [intros t [<-|[<-|[]]]; cbn; lia|].
  intros (_ & H). vm_compute in H. discriminate.
Qed.
Print Assumptions C70_two_trials_refuted.

(* Refuted: "the least throughput is reported", if a trial was too short to be measured. *)
Theorem C70_zero_throughput_refuted : exists l r, make_report l = Some r /\
  (forall t, In t l -> 0 <= pts_ps t) /\ ~ is_min (rp_min r) (map pts_ps l).
Proof.
  exists [mkTrial 10 600; mkTrial 0 0]. eexists. split; [vm_compute; reflexivity|].
  split; [intros t [<-|[<-|[]]]; cbn; lia|].
  intros (_ & H). specialize (H 0). cbn in H. assert (600 <= 0); [|lia]. apply H. auto.
Qed.
Print Assumptions C70_zero_throughput_refuted.
