(* C14: dirty tracking never skips a needed halo exchange. *)
From Verif Require Import Base Tuple_Model Rank_Model Rank_Spec Exchange_Model Exchange_Spec Exchange_Proofs Dirty_Model Dirty_Spec Dirty_Proofs.

(* Any history of API calls and runs that ends with a run (the state after any stage is the state after a shorter run).  When
   every rank writes its own points only, and slices are written by all ranks at the same steps (the conditions of op_ok), then
   no rank waits for a message that is not sent, and every halo point of a rank a, read within the exchange distance from its
   owner b, holds the value last written to its storage by b.
   Missing for the full property: ranks that do not write slices of the same steps and writes into a rank's own halo, for which
   it is false (see below); misaligned explicit rank sizes (C13_stale_refuted). *)
Theorem C14_fresh_partial : forall S given ranks v Val ord (st : xrank -> rst Val) ops sgs,
  ranks_wf (s_job S) given -> job_ready S given ranks -> In v (s_vars S) -> one_step v -> aligned_ranks S ranks -> order_ok ord ->
  (forall b k, In b ranks -> r_self Val (st b) k = true) ->
  (forall a b, In a ranks -> In b ranks -> r_first Val (st a) = r_first Val (st b)) ->
  (forall a b q, In a ranks -> In b ranks -> owns v a q -> owns v b q -> get v Val (st a) q = get v Val (st b) q) ->
  Forall (op_ok S ranks v Val) (ops ++ [ORun Val sgs]) ->
  exists st', do_ops S ranks v Val ord st (ops ++ [ORun Val sgs]) = Ok st' /\
    (forall b q, In b ranks -> owns v b q ->
      get v Val (st' b) q = last (written v Val q (flat_map (op_writes Val b) (ops ++ [ORun Val sgs]))) (get v Val (st b) q)) /\
    (forall a b q, halo_of S ranks v a b q ->
      get v Val (st' a) q = last (written v Val q (flat_map (op_writes Val b) (ops ++ [ORun Val sgs]))) (get v Val (st b) q)).
Proof. intros S given ranks v Val ord st ops sgs Wf Rd Iv One Al Or. exact (fresh S given ranks Wf Rd v Iv One Al Val ord Or st ops sgs). Qed.
Print Assumptions C14_fresh_partial.

(* Two ranks of four points, halos of one point. *)
Definition e14_job : job := mkJob 1 [8] [2] [1] true false.
Definition e14_var : xvar := mkXv [XStep 2; XDom 0 1 1 1] 1.
Definition e14_set : xset := mkXs e14_job [e14_var] 0 1 false true 0.
Definition e14_r0 : xrank := mkXr (mkRo [0] [4] [8] [0]) [4] [0] [0].
Definition e14_r1 : xrank := mkXr (mkRo [1] [4] [8] [4]) [4] [0] [0].
Definition e14_ranks : list xrank := [e14_r0; e14_r1].
Definition e14_given : list rank_in := repeat (mkRk [0] [0]) 2.
Definition e14_ord (_ : bool) (box : list (Z * Z)) : list (list Z) :=
  fold_right (fun r acc => flat_map (fun x => map (cons x) acc) (zrange (fst r) (snd r))) [[]] box.
Lemma e14_ord_ok : order_ok e14_ord.
Proof.
  intros vec box. induction box as [|r box IH]; intros p; cbn [e14_ord fold_right].
  - split; [intros [<-|[]]; constructor|]. intros H. inversion H. left. reflexivity.
  - change (fold_right _ [[]] box) with (e14_ord vec box). rewrite in_flat_map. split.
    + intros (x & Ix & Ip). apply in_map_iff in Ip. destruct Ip as (q & <- & Iq). constructor; [apply zrange_In; exact Ix|apply IH; exact Iq].
    + intros H. inversion H; subst. exists y. split; [apply zrange_In; assumption|]. apply in_map_iff. exists l'. split; [reflexivity|apply IH; assumption].
Qed.
Definition e14_st : xrank -> rst Z := fun _ => mkRst Z 0 (fun _ => true) (fun _ => true) (fun _ => 0).
Definition first_rank (r : xrank) : bool := xr_c r 0 =? 0.
Definition e14_api : op Z := OApi Z (fun r => if first_rank r then [AElem Z [0; 3] 100] else [AElem Z [0; 4] 200; AElem Z [0; 7] 9]).
Definition e14_stage : stage Z :=
  mkStage Z [1] (fun r => if first_rank r then [(1, [([1; 3], 101)])] else [(1, [([1; 4], 201)])])
    (fun r => if first_rank r then [(1, [([1; 0], 7)])] else [(1, [([1; 6], 8)])]) true.
Lemma e14_ready : ranks_wf e14_job e14_given /\ job_ready e14_set e14_given e14_ranks /\ aligned_ranks e14_set e14_ranks.
Proof.
  assert (ranks_wf e14_job e14_given) as W.
  { repeat split; try reflexivity; try discriminate; repeat constructor; cbn; try lia. all: repeat constructor; lia. }
  assert (job_ready e14_set e14_given e14_ranks) as R.
  { split; [vm_compute; reflexivity|]. repeat split; cbn; try lia; repeat constructor; cbn; try lia; repeat constructor; try lia; vm_compute; congruence. }
  split; [exact W|]. split; [exact R|].
  apply (aligned_auto e14_set e14_given e14_ranks W R); try reflexivity; [intros [|j] Lj; cbn in *; lia|repeat constructor|].
  intros r j Ir Lj. apply repeat_spec in Ir. subst r. destruct j as [|j]; cbn in *; try reflexivity; lia.
Qed.
Lemma e14_owner : forall a b q, In a e14_ranks -> In b e14_ranks -> owns e14_var a q -> owns e14_var b q -> a = b.
Proof.
  intros a b q [<-|[<-|[]]] [<-|[<-|[]]] Oa Ob; try reflexivity; inversion Oa as [|? x ? q' _ Oa']; subst; inversion Ob as [|? ? ? ? _ Ob']; subst;
  inversion Oa' as [|? y ? q2 Ha _]; subst; inversion Ob' as [|? ? ? ? Hb _]; subst; cbn in Ha, Hb; lia.
Qed.
Lemma e14_agree : forall w, owners_agree e14_ranks e14_var Z w.
Proof. intros w a b q Ia Ib Oa Ob. rewrite (e14_owner a b q Ia Ib Oa Ob). reflexivity. Qed.
Ltac e14_pt := repeat constructor; cbn; try lia.
Lemma e14_halo : forall t, halo_of e14_set e14_ranks e14_var e14_r0 e14_r1 [t; 4].
Proof.
  intros t. split; [left; reflexivity|]. split; [right; left; reflexivity|]. split; [split; [discriminate|]; split; [reflexivity|]; split; [e14_pt|vm_compute; discriminate]|].
  split; [e14_pt|]. split; [constructor; [exact I|constructor; [vm_compute; split; congruence|constructor]]|].
  intros H. inversion H as [|? x ? q' _ H']; subst; inversion H' as [|? y ? q2 Ha _]; subst. cbn in Ha. lia.
Qed.
Example C14_ex : ranks_wf e14_job e14_given /\ job_ready e14_set e14_given e14_ranks /\ aligned_ranks e14_set e14_ranks /\ one_step e14_var /\
  (forall a b q, In a e14_ranks -> In b e14_ranks -> owns e14_var a q -> owns e14_var b q -> get e14_var Z (e14_st a) q = get e14_var Z (e14_st b) q) /\
  Forall (op_ok e14_set e14_ranks e14_var Z) [e14_api; ORun Z [e14_stage]] /\
  halo_of e14_set e14_ranks e14_var e14_r0 e14_r1 [1; 4] /\ halo_of e14_set e14_ranks e14_var e14_r0 e14_r1 [0; 4] /\
  match do_ops e14_set e14_ranks e14_var Z e14_ord e14_st [e14_api; ORun Z [e14_stage]] with
  | Ok st => [get e14_var Z (st e14_r0) [0; 4]; get e14_var Z (st e14_r0) [1; 4]; get e14_var Z (st e14_r1) [0; 3]; get e14_var Z (st e14_r1) [1; 3]; get e14_var Z (st e14_r1) [1; 6]]
  | _ => []
  end = [200; 201; 100; 101; 8].
Proof.
  destruct e14_ready as (W & R & A). split; [exact W|]. split; [exact R|]. split; [exact A|]. split; [unfold one_step; cbn; lia|]. split; [reflexivity|]. split.
  { constructor; [|constructor; [|constructor]].
    - split; [|split; [|apply e14_agree]].
      + intros a [<-|[<-|[]]]; e14_pt.
      + intros a b [<-|[<-|[]]] [<-|[<-|[]]]; reflexivity.
    - constructor; [|constructor]. split; [|split; [|split; [|split; [|split; apply e14_agree]]]].
      + intros a c e [<-|[<-|[]]] [<-|[<-|[]]] [<-|[]]; repeat constructor.
      + intros a c [<-|[<-|[]]] [<-|[]]; left; reflexivity.
      + intros a c e b [<-|[<-|[]]] [<-|[]] [<-|[]] Ib Ob; left; e14_pt.
      + intros _ a c e [<-|[<-|[]]] [<-|[]] [<-|[]]; (split; [e14_pt|]); intros b [<-|[<-|[]]] Nx Hh; try (destruct Nx as (Ne & _); congruence);
        inversion Hh as [|? x ? q' _ Hh']; subst; inversion Hh' as [|? y ? q2 Ha _]; subst; vm_compute in Ha; destruct Ha as (Ha1 & Ha2); congruence. }
  split; [apply e14_halo|]. split; [apply e14_halo|]. vm_compute. reflexivity.
Qed.

(* FALSE in general: a slice written by one rank only, here rank 1 at step 2 (into its own points), moves the valid steps of that
   rank only.  At the start of the next run it sends steps 1 and 2, and rank 0 puts them where it has steps 0 and 1: rank 0 reads
   the old value of step 1 at step 2 and the new one at step 1. *)
Definition e14_slice : op Z := OApi Z (fun r => if first_rank r then [] else [ASlice Z [([2; 4], 55)] 2 2]).
Theorem C14_windows_refuted : exists S given ranks v ord (st st' : xrank -> rst Z) ops a b q,
  ranks_wf (s_job S) given /\ job_ready S given ranks /\ In v (s_vars S) /\ one_step v /\ aligned_ranks S ranks /\ order_ok ord /\
  (forall b k, In b ranks -> r_self Z (st b) k = true) /\
  (forall a b, In a ranks -> In b ranks -> r_first Z (st a) = r_first Z (st b)) /\
  (forall o, In o ops -> match o with OApi _ w => forall r, In r ranks -> Forall (api_ok v Z r) (w r) | ORun _ sgs => sgs = [] end) /\
  halo_of S ranks v a b q /\
  do_ops S ranks v Z ord st (ops ++ [ORun Z []]) = Ok st' /\
  get v Z (st' b) q = 55 /\ get v Z (st' a) q <> 55.
Proof.
  destruct e14_ready as (W & R & A).
  assert (match do_ops e14_set e14_ranks e14_var Z e14_ord e14_st ([e14_slice] ++ [ORun Z []]) with Ok s => (get e14_var Z (s e14_r1) [2; 4], get e14_var Z (s e14_r0) [2; 4]) = (55, 0) | _ => False end) as G by (vm_compute; reflexivity).
  destruct (do_ops e14_set e14_ranks e14_var Z e14_ord e14_st ([e14_slice] ++ [ORun Z []])) as [st'| | |] eqn:E; try contradiction. injection G as G1 G0.
  exists e14_set, e14_given, e14_ranks, e14_var, e14_ord, e14_st, st', [e14_slice], e14_r0, e14_r1, [2; 4].
  split; [exact W|]. split; [exact R|]. split; [left; reflexivity|]. split; [unfold one_step; cbn; lia|]. split; [exact A|]. split; [exact e14_ord_ok|].
  split; [reflexivity|]. split; [reflexivity|]. split.
  { intros o [<-|[]]. intros r [<-|[<-|[]]]; [constructor|]. constructor; [|constructor]. constructor; [split; [e14_pt|]|constructor]. constructor; [left; reflexivity|]. repeat constructor. }
  split; [apply e14_halo|]. split; [exact E|].
  rewrite G1, G0. split; [reflexivity|discriminate].
Qed.
Print Assumptions C14_windows_refuted.

(* FALSE also when a rank writes into its own halo (which the APIs allow): the owner has not written since the last exchange and
   sends nothing, so the value stays. *)
Definition e14_halo_write : op Z := OApi Z (fun r => if first_rank r then [AElem Z [0; 4] 66] else []).
Theorem C14_halo_write_refuted : exists S given ranks v ord (st st' : xrank -> rst Z) ops a b q,
  ranks_wf (s_job S) given /\ job_ready S given ranks /\ In v (s_vars S) /\ one_step v /\ aligned_ranks S ranks /\ order_ok ord /\
  (forall b k, In b ranks -> r_self Z (st b) k = true) /\
  (forall a b, In a ranks -> In b ranks -> r_first Z (st a) = r_first Z (st b)) /\
  halo_of S ranks v a b q /\
  do_ops S ranks v Z ord st (ops ++ [ORun Z []]) = Ok st' /\
  flat_map (op_writes Z b) ops = [] /\ get v Z (st' b) q = get v Z (st b) q /\ get v Z (st' a) q <> get v Z (st' b) q.
Proof.
  destruct e14_ready as (W & R & A).
  assert (match do_ops e14_set e14_ranks e14_var Z e14_ord e14_st ([ORun Z []; e14_halo_write] ++ [ORun Z []]) with Ok s => (get e14_var Z (s e14_r1) [0; 4], get e14_var Z (s e14_r0) [0; 4]) = (0, 66) | _ => False end) as G by (vm_compute; reflexivity).
  destruct (do_ops e14_set e14_ranks e14_var Z e14_ord e14_st ([ORun Z []; e14_halo_write] ++ [ORun Z []])) as [st'| | |] eqn:E; try contradiction. injection G as G1 G0.
  exists e14_set, e14_given, e14_ranks, e14_var, e14_ord, e14_st, st', [ORun Z []; e14_halo_write], e14_r0, e14_r1, [0; 4].
  split; [exact W|]. split; [exact R|]. split; [left; reflexivity|]. split; [unfold one_step; cbn; lia|]. split; [exact A|]. split; [exact e14_ord_ok|].
  split; [reflexivity|]. split; [reflexivity|]. split; [apply e14_halo|]. split; [exact E|]. split; [reflexivity|].
  rewrite G1, G0. split; [reflexivity|discriminate].
Qed.
Print Assumptions C14_halo_write_refuted.
