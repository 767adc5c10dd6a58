(* C13: sender and receiver of a halo message agree, and every halo point gets the value of its owner. *)
From Verif Require Import Base Tuple_Model Rank_Model Rank_Spec Exchange_Model Exchange_Spec Exchange_Proofs.

(* Both sides of a message compute the same thing: whether there is a message, the points and whether whole vectors are copied. *)
Theorem C13_agree : forall S given ranks n a b v, ranks_wf (s_job S) given -> job_ready S given ranks ->
  In a ranks -> In b ranks -> next_to n a b -> In v (s_vars S) -> mpi_buf S true a b v = mpi_buf S false b a v.
Proof. intros S given ranks n a b v Wf Rd Ia Ib Nx Iv. exact (agree S given ranks Wf Rd a b v Ia Ib (proj1 (next_adj S given ranks Wf Rd n a b Ia Ib Nx)) Iv). Qed.
Print Assumptions C13_agree.

(* All ranks exchange the same vars, so the message tags (positions in the list of vars) match. *)
Theorem C13_same_vars : forall S given ranks a c v, ranks_wf (s_job S) given -> job_ready S given ranks ->
  In a ranks -> In c ranks -> In v (s_vars S) -> has_data S ranks a v = has_data S ranks c v.
Proof. intros S given ranks a c v Wf Rd. exact (same_vars S given ranks Wf Rd a c v). Qed.
Print Assumptions C13_same_vars.

(* One exchange of a var, for any order in which the points of a slice are walked ([st] = values when the ranks pack, [vals] =
   values of rank a when it unpacks):
   - it completes without an error or a message that the other side does not expect;
   - the rank's own points are not changed;
   - if ranks made of whole vectors begin at whole vectors, then every point in the (extended) halo of rank a that belongs to
     a rank b within the exchange distance of the var that has written to it gets the value of its owner. *)
Theorem C13_exchange : forall S given ranks Val ord v steps dirty (st : xrank -> list Z -> Val) vals a,
  ranks_wf (s_job S) given -> job_ready S given ranks -> order_ok ord -> In v (s_vars S) -> In a ranks ->
  exists vals', exchange_rank S Val ord ranks v steps dirty st vals a = Ok vals' /\
    (forall q, owns v a q -> vals' q = vals q) /\
    (aligned_ranks S ranks -> forall ext b t q x, In b ranks -> next_to (if 0 <? s_wf S then Z.of_nat (j_nd (s_job S)) else v_l1 v) a b -> dirty b = true ->
      (forall j, (j < j_nd (s_job S))%nat -> ext j <= shift_pts S a j) ->
      owns v b q -> in_halo ext v a q -> ~ owns v a q -> In t steps -> step_in v q [t] -> (forall g, In g ranks -> owns v g q -> st g q = x) -> vals' q = x).
Proof. intros S given ranks Val ord v steps dirty st vals a Wf Rd Or Iv Ia. exact (exchange_ok S given ranks Wf Rd Val ord Or v steps dirty st Iv a vals Ia). Qed.
Print Assumptions C13_exchange.

(* Automatic sizes are aligned. *)
Theorem C13_auto_aligned : forall S given ranks, ranks_wf (s_job S) given -> job_ready S given ranks -> j_find (s_job S) = true ->
  (forall j, (j < j_nd (s_job S))%nat -> 0 < pos j (j_gsz (s_job S))) -> Forall (fun n => 0 < n) (j_nranks (s_job S)) ->
  zprod (j_nranks (s_job S)) = Z.of_nat (length given) -> (forall r j, In r given -> (j < j_nd (s_job S))%nat -> pos j (k_sizes r) = 0) ->
  aligned_ranks S ranks.
Proof. exact aligned_auto. Qed.
Print Assumptions C13_auto_aligned.

(* An order. *)
Definition ex_ord (_ : bool) (box : list (Z * Z)) : list (list Z) :=
  fold_right (fun r acc => flat_map (fun x => map (cons x) acc) (zrange (fst r) (snd r))) [[]] box.
Lemma ex_ord_ok : order_ok ex_ord.
Proof.
  intros vec box. induction box as [|r box IH]; intros p; cbn [ex_ord fold_right].
  - split; [intros [<-|[]]; constructor|]. intros H. inversion H. left. reflexivity.
  - change (fold_right _ [[]] box) with (ex_ord vec box). rewrite in_flat_map. split.
    + intros (x & Ix & Ip). apply in_map_iff in Ip. destruct Ip as (q & <- & Iq). constructor; [apply zrange_In; exact Ix|apply IH; exact Iq].
    + intros H. inversion H; subst. exists y. split; [apply zrange_In; assumption|]. apply in_map_iff. exists l'. split; [reflexivity|apply IH; assumption].
Qed.

(* 2x2 ranks of 4x3 (the last ones 4x2), fold 2x1, one var read at all corners. *)
Definition ex_job : job := mkJob 2 [8; 5] [2; 2] [2; 1] true false.
Definition ex_var : xvar := mkXv [XStep 2; XDom 0 2 1 1; XDom 1 1 1 1] 2.
Definition ex_set : xset := mkXs ex_job [ex_var] 0 1 false true 1.
Definition ex_rank (c s o : list Z) : xrank := mkXr (mkRo c s [8; 5] o) [4; 3] [0; 0] [0; 0].
Definition ex_ranks : list xrank := [ex_rank [0; 0] [4; 3] [0; 0]; ex_rank [0; 1] [4; 2] [0; 3]; ex_rank [1; 0] [4; 3] [4; 0]; ex_rank [1; 1] [4; 2] [4; 3]].
Definition ex_given : list rank_in := repeat (mkRk [0; 0] [0; 0]) 4.
Example C13_ex : ranks_wf ex_job ex_given /\ job_ready ex_set ex_given ex_ranks /\ aligned_ranks ex_set ex_ranks /\
  (forall a, In a ex_ranks -> has_data ex_set ex_ranks a ex_var = true) /\
  mpi_buf ex_set false (ex_rank [0; 0] [4; 3] [0; 0]) (ex_rank [1; 1] [4; 2] [4; 3]) ex_var = Some (mkMb true [(0, 2); (4, 6); (3, 4)]) /\
  match exchange_rank ex_set Z ex_ord ex_ranks ex_var [7] (fun _ => true) (fun r q => 1000 * xr_c r 0 + 100 * xr_c r 1 + zsum q) zsum (ex_rank [0; 0] [4; 3] [0; 0]) with
  | Ok vals => (vals [7; 4; 3], vals [7; 3; 2], vals [7; 4; 2], vals [7; 0; 3])
  | _ => (0, 0, 0, 0)
  end = (1114, 12, 1013, 110).
Proof.
  assert (ranks_wf ex_job ex_given) as W.
  { repeat split; try reflexivity; try discriminate; repeat constructor; cbn; try lia. all: repeat constructor; lia. }
  assert (job_ready ex_set ex_given ex_ranks) as R.
  { split; [vm_compute; reflexivity|]. repeat split; cbn; try lia; repeat constructor; cbn; try lia; repeat constructor; try lia; vm_compute; congruence. }
  split; [exact W|]. split; [exact R|]. split.
  { apply (aligned_auto ex_set ex_given ex_ranks W R); try reflexivity; [intros [|[|j]] Lj; cbn in *; lia|repeat constructor|].
    intros r j Ir Lj. apply repeat_spec in Ir. subst r. destruct j as [|[|j]]; cbn in *; try reflexivity; lia. }
  split. { intros a Ia. repeat (destruct Ia as [<-|Ia]; [vm_compute; reflexivity|]). destruct Ia. }
  split; vm_compute; reflexivity.
Qed.

(* Explicit rank sizes that are not all whole vectors: a halo point may keep a stale value although its owner is next to the
   rank, has written to it and sends it.  Here 3x2 ranks have 5, 8 and 8 points in x, with fold length 4.  Ranks (1,0) and (1,1)
   have whole numbers of vectors, so the row they exchange is widened to whole vectors: x from 4 to 15.  Column 4 belongs to
   rank (0,1); the copy of it in the halo of rank (1,1), from the last exchange, overwrites the new value. *)
Definition st_job : job := mkJob 2 [0; 0] [3; 2] [4; 1] true false.
Definition st_var : xvar := mkXv [XStep 2; XDom 0 4 1 1; XDom 1 1 1 1] 2.
Definition st_set : xset := mkXs st_job [st_var] 0 1 false true 1.
Definition st_rank (c s o : list Z) : xrank := mkXr (mkRo c s [21; 6] o) [8; 3] [0; 0] [0; 0].
Definition st_ranks : list xrank :=
  [st_rank [0; 0] [5; 3] [0; 0]; st_rank [0; 1] [5; 3] [0; 3]; st_rank [1; 0] [8; 3] [5; 0]; st_rank [1; 1] [8; 3] [5; 3]; st_rank [2; 0] [8; 3] [13; 0]; st_rank [2; 1] [8; 3] [13; 3]].
Definition st_given : list rank_in := map (mkRk [0; 0]) [[5; 3]; [5; 3]; [8; 3]; [8; 3]; [8; 3]; [8; 3]].

Theorem C13_stale_refuted : exists S given ranks ord v steps (st : xrank -> list Z -> Z) a b t q vals',
  ranks_wf (s_job S) given /\ job_ready S given ranks /\ order_ok ord /\ In v (s_vars S) /\ In a ranks /\ In b ranks /\
  next_to (v_l1 v) a b /\ owns v b q /\ in_halo (fun _ => 0) v a q /\ ~ owns v a q /\ In t steps /\ step_in v q [t] /\
  exchange_rank S Z ord ranks v steps (fun _ => true) st (st a) a = Ok vals' /\ st b q = 1 /\ vals' q = 0.
Proof.
  exists st_set, st_given, st_ranks, ex_ord, st_var, [7], (fun r q => if xr_c r 0 =? 0 then 1 else 0), (st_rank [1; 0] [8; 3] [5; 0]), (st_rank [0; 1] [5; 3] [0; 3]), 7, [7; 4; 3].
  assert (ranks_wf (s_job st_set) st_given) as W.
  { repeat split; try reflexivity; try discriminate; repeat constructor; cbn; try lia. all: repeat constructor; lia. }
  assert (job_ready st_set st_given st_ranks) as R.
  { split; [vm_compute; reflexivity|]. repeat split; cbn; try lia; repeat constructor; cbn; try lia; repeat constructor; try lia; vm_compute; congruence. }
  destruct (exchange_ok st_set st_given st_ranks W R Z ex_ord ex_ord_ok st_var [7] (fun _ => true) (fun r q => if xr_c r 0 =? 0 then 1 else 0)
    ltac:(left; reflexivity) (st_rank [1; 0] [8; 3] [5; 0]) (fun q => 0) ltac:(cbn; tauto)) as (vals' & E & _). exists vals'.
  split; [exact W|]. split; [exact R|]. split; [exact ex_ord_ok|]. split; [left; reflexivity|]. split; [cbn; tauto|]. split; [cbn; tauto|].
  split; [split; [discriminate|]; split; [reflexivity|]; split; [repeat constructor; cbn; lia|cbn; lia]|].
  split; [repeat constructor; cbn; lia|]. split; [repeat constructor; cbn; lia|].
  split. { intros H. inversion H as [|d1 x1 l1 l1p A B]. inversion B as [|d2 x2 l2 l2p C D]. cbn in C. lia. }
  split; [left; reflexivity|]. split; [repeat constructor|]. split; [exact E|]. split; [reflexivity|].
  assert (match exchange_rank st_set Z ex_ord st_ranks st_var [7] (fun _ => true) (fun r q => if xr_c r 0 =? 0 then 1 else 0) (fun q => 0) (st_rank [1; 0] [8; 3] [5; 0]) with
          | Ok vals => vals [7; 4; 3] | _ => 2 end = 0) as X by (vm_compute; reflexivity).
  rewrite E in X. exact X.
Qed.
Print Assumptions C13_stale_refuted.
