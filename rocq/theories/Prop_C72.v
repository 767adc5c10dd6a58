(* C72: The ranks of a node make the same collective calls while message buffers are allocated.
   False when a rank has nothing to send, or no neighbor, on its own node: see the theorems _refuted. *)
From Verif Require Import Base Coll_Model Coll_Spec Coll_Proofs Share_Spec Coll2_Spec Coll2_Proofs.

(* A var has buffers on a rank exactly if it has a halo in a dim with several ranks; so it has them on all ranks or on none. *)
Theorem C72_same_vars : forall g c v, job_ok g -> rank_at g c -> In v (g_vars g) ->
  (has_data g c v = true <-> exists i, exchanged g v i).
Proof. intros g c v G. exact (same_vars g G c v). Qed.
Print Assumptions C72_same_vars.

(* Full statement: two ranks on the same node make the same collective calls.  Proved for halos on both sides when each of the two ranks
   exchanges some var with a rank next to it on the node; what is missing is false (the theorems _refuted). *)
Theorem C72_calls_agree_partial : forall g c c', job_ok g -> two_sided g -> rank_at g c -> rank_at g c' ->
  has_partner g c -> has_partner g c' -> calls g c = calls g c'.
Proof. intros g c c' G. exact (agree g G c c'). Qed.
Print Assumptions C72_calls_agree_partial.

(* The same if all ranks are on one node, whatever is exchanged. *)
Theorem C72_one_node_partial : forall g c c', job_ok g -> two_sided g -> (forall r, rank_at g r -> g_node g r <> None) ->
  rank_at g c -> rank_at g c' -> calls g c = calls g c'.
Proof. intros g c c' G. exact (agree_one_node g G c c'). Qed.
Print Assumptions C72_one_node_partial.

(* Exactly when two ranks agree: both or none send something to the node, and both or none touch a rank of it while some var is exchanged. *)
Theorem C72_calls_iff : forall g c c', job_ok g -> (0 < g_nshm g)%nat -> rank_at g c -> rank_at g c' ->
  (calls g c = calls g c' <-> (sends_here g c <-> sends_here g c') /\ (shares_here g c <-> shares_here g c')).
Proof. exact agree_iff. Qed.
Print Assumptions C72_calls_iff.

(* Three by two ranks on two nodes (the node of the first two columns), a var over both dims and one over y only. *)
Definition C72_job := mkJob [3; 2] (fun _ _ => 8) (fun c => if at_ c 0 <? 2 then Some (at_ c 0 * 2 + at_ c 1) else None) 4
  [mkX [Some (2, 1); Some (1, 1)] 2; mkX [None; Some (1, 3)] 1; mkX [Some (0, 0); Some (0, 0)] 2].
Example C72_ex_ok : job_ok C72_job /\ two_sided C72_job /\ rank_at C72_job [0; 1] /\ rank_at C72_job [1; 0].
Proof.
  split; [|split; [|split]].
  - constructor.
    + intros. cbn. lia.
    + intros v i l r [<-|[<-|[<-|[]]]] H; destruct i as [|[|[|i]]]; cbn in H; try discriminate; injection H as <- <-; lia.
    + intros v [<-|[<-|[<-|[]]]]; reflexivity.
  - intros v i l r [<-|[<-|[<-|[]]]] H; destruct i as [|[|[|i]]]; cbn in H; try discriminate; injection H as <- <-; lia.
  - split; [reflexivity|]. intros [|[|[|i]]] x n H1 H2; cbn in *; try discriminate; injection H1 as <-; injection H2 as <-; lia.
  - split; [reflexivity|]. intros [|[|[|i]]] x n H1 H2; cbn in *; try discriminate; injection H1 as <-; injection H2 as <-; lia.
Qed.
Example C72_ex_partner : has_partner C72_job [0; 1] /\ has_partner C72_job [1; 0].
Proof.
  assert (E : exchanged C72_job (mkX [Some (2, 1); Some (1, 1)] 2) 0).
  { split; [cbn; lia|]. exists 2, 1, 3. cbn. repeat split; lia. }
  split; (exists (mkX [Some (2, 1); Some (1, 1)] 2), O).
  - exists [1; 1]. split; [cbn; auto|]. split; [exact E|]. split; [|split; [|cbn; discriminate]].
    + split; [reflexivity|]. split; [intros [|j] H; [congruence|reflexivity]|]. exists 0, 1. cbn. auto.
    + split; [reflexivity|]. intros [|[|[|i]]] x n H1 H2; cbn in *; try discriminate; injection H1 as <-; injection H2 as <-; lia.
  - exists [0; 0]. split; [cbn; auto|]. split; [exact E|]. split; [|split; [|cbn; discriminate]].
    + split; [reflexivity|]. split; [intros [|j] H; [congruence|reflexivity]|]. exists 1, 0. cbn. auto.
    + split; [reflexivity|]. intros [|[|[|i]]] x n H1 H2; cbn in *; try discriminate; injection H1 as <-; injection H2 as <-; lia.
Qed.
Example C72_ex_calls : calls C72_job [0; 1] = calls C72_job [1; 0] /\ calls C72_job [0; 1] =
  [CWin; CBarrier; CBcast 0 0; CBcast 0 1; CBcast 0 2; CBcast 0 3; CBcast 1 0; CBcast 1 1; CBcast 1 2; CBcast 1 3; CBarrier; CBarrier].
Proof. vm_compute. auto. Qed.
(* All ranks of a line of three on one node. *)
Definition C72_line := mkJob [3] (fun _ _ => 8) (fun c => Some (at_ c 0)) 3 [mkX [Some (1, 2)] 1].
Example C72_ex_line : job_ok C72_line /\ two_sided C72_line /\ (forall r, rank_at C72_line r -> g_node C72_line r <> None) /\
  calls C72_line [0] = [CWin; CBarrier; CBcast 0 0; CBcast 0 1; CBcast 0 2; CBarrier; CBarrier] /\ calls C72_line [1] = calls C72_line [0].
Proof.
  split; [|split; [|split; [discriminate|vm_compute; auto]]].
  - constructor.
    + intros. cbn. lia.
    + intros v i l r [<-|[]] H; destruct i as [|[|i]]; cbn in H; try discriminate; injection H as <- <-; lia.
    + intros v [<-|[]]; reflexivity.
  - intros v i l r [<-|[]] H; destruct i as [|[|i]]; cbn in H; try discriminate; injection H as <- <-; lia.
Qed.

(* Refuted: "ranks on one node make the same calls", for halos on one side.  The second of two ranks only receives, so it asks for no
   shared memory and goes to the barrier while the first one waits for it in the allocation. *)
Theorem C72_one_sided_refuted : exists g c c', job_ok g /\ (forall r, rank_at g r -> g_node g r <> None) /\
  rank_at g c /\ rank_at g c' /\ hd CBarrier (calls g c) = CWin /\ hd CWin (calls g c') = CBarrier.
Proof.
  exists (mkJob [2] (fun _ _ => 8) (fun c => Some (at_ c 0)) 2 [mkX [Some (1, 0)] 1]), [0], [1].
  split; [|split; [discriminate|split; [|split; [|vm_compute; auto]]]].
  - constructor.
    + intros. cbn. lia.
    + intros v i l r [<-|[]] H; destruct i as [|[|i]]; cbn in H; try discriminate; injection H as <- <-; lia.
    + intros v [<-|[]]; reflexivity.
  - split; [reflexivity|]. intros [|[|i]] x n H1 H2; cbn in *; try discriminate; injection H1 as <-; injection H2 as <-; lia.
  - split; [reflexivity|]. intros [|[|i]] x n H1 H2; cbn in *; try discriminate; injection H1 as <-; injection H2 as <-; lia.
Qed.
Print Assumptions C72_one_sided_refuted.

(* Refuted: the same with halos on both sides, when ranks are spread over nodes.  Of four ranks in a line, the first, third and fourth are
   on one node; the first has no neighbor there and makes neither the allocation nor the broadcasts. *)
Theorem C72_spread_refuted : exists g c c', job_ok g /\ two_sided g /\ rank_at g c /\ rank_at g c' /\
  g_node g c <> None /\ g_node g c' <> None /\ hd CWin (calls g c) = CBarrier /\ hd CBarrier (calls g c') = CWin.
Proof.
  exists (mkJob [4] (fun _ _ => 8) (fun c => if at_ c 0 =? 0 then Some 0 else if at_ c 0 =? 1 then None else Some (at_ c 0 - 1)) 3
            [mkX [Some (1, 1)] 1]), [0], [2].
  split; [|split; [|split; [|split; [|vm_compute; repeat split; discriminate]]]].
  - constructor.
    + intros. cbn. lia.
    + intros v i l r [<-|[]] H; destruct i as [|[|i]]; cbn in H; try discriminate; injection H as <- <-; lia.
    + intros v [<-|[]]; reflexivity.
  - intros v i l r [<-|[]] H; destruct i as [|[|i]]; cbn in H; try discriminate; injection H as <- <-; lia.
  - split; [reflexivity|]. intros [|[|i]] x n H1 H2; cbn in *; try discriminate; injection H1 as <-; injection H2 as <-; lia.
  - split; [reflexivity|]. intros [|[|i]] x n H1 H2; cbn in *; try discriminate; injection H1 as <-; injection H2 as <-; lia.
Qed.
Print Assumptions C72_spread_refuted.
