(* C11: the domains of the ranks tile the overall domain. *)
From Verif Require Import Base Idiv_Model Cover_Spec Rank_Model Rank_Spec Rank_Proofs.

(* If no exception is raised on any rank, for explicit or automatic positions and sizes, then every size is positive, given sizes
   are kept, all ranks have the same overall size (the given one), and every point of the overall domain is in the domain of
   exactly one rank while no other point is in any. *)
Theorem C11_tiles : forall J ranks outs, ranks_wf J ranks -> setup_ranks J ranks = Ok outs ->
  length outs = length ranks /\
  (forall o, In o outs -> length (o_sizes o) = j_nd J /\ Forall (fun z => 0 < z) (o_sizes o)) /\
  (forall i r o j, nth_error ranks i = Some r -> nth_error outs i = Some o -> (j < j_nd J)%nat -> pos j (k_sizes r) <> 0 -> pos j (o_sizes o) = pos j (k_sizes r)) /\
  exists G, length G = j_nd J /\ (forall o, In o outs -> o_gsz o = G) /\
    (forall j, (j < j_nd J)%nat -> pos j (j_gsz J) <> 0 -> pos j G = pos j (j_gsz J)) /\
    exact_cover in_box (map rank_box outs) (in_box (map (fun g => (0, g)) G)).
Proof. exact setup_ranks_ok. Qed.
Print Assumptions C11_tiles.

(* With automatic positions and sizes there is no exception exactly when, in every dim, the sizes of all ranks but the last
   (rounded up to the fold length) do not already reach the overall size. *)
Theorem C11_auto : forall J ranks, ranks_wf J ranks -> j_find J = true ->
  (forall j, (j < j_nd J)%nat -> 0 < pos j (j_gsz J)) -> Forall (fun n => 0 < n) (j_nranks J) ->
  zprod (j_nranks J) = Z.of_nat (length ranks) -> (forall r j, In r ranks -> (j < j_nd J)%nat -> pos j (k_sizes r) = 0) ->
  ((exists outs, setup_ranks J ranks = Ok outs) <->
   forall j, (j < j_nd J)%nat ->
     let n := pos j (j_nranks J) in let f := pos j (j_fold J) in let g := pos j (j_gsz J) in
     ((g + n - 1) / n + f - 1) / f * f * (n - 1) < g).
Proof. exact auto_iff. Qed.
Print Assumptions C11_auto.

(* 2x3 ranks, overall 10x17, fold 2x4: automatic. *)
Definition ex_job : job := mkJob 2 [10; 17] [2; 3] [2; 4] true false.
Definition ex_rk (c s : list Z) : rank_in := mkRk c s.
Example C11_auto_ex :
  setup_ranks ex_job (repeat (ex_rk [0; 0] [0; 0]) 6) =
  Ok [mkRo [0; 0] [6; 8] [10; 17] [0; 0]; mkRo [0; 1] [6; 8] [10; 17] [0; 8]; mkRo [0; 2] [6; 1] [10; 17] [0; 16];
      mkRo [1; 0] [4; 8] [10; 17] [6; 0]; mkRo [1; 1] [4; 8] [10; 17] [6; 8]; mkRo [1; 2] [4; 1] [10; 17] [6; 16]] /\
  setup_ranks (mkJob 2 [10; 16] [2; 3] [2; 4] true false) (repeat (ex_rk [0; 0] [0; 0]) 6) = Throw.
Proof. split; vm_compute; reflexivity. Qed.
(* Explicit positions in another order, explicit uneven sizes, overall size left out; a misfit is rejected. *)
Example C11_explicit_ex :
  setup_ranks (mkJob 2 [0; 0] [2; 2] [1; 1] false false)
    [ex_rk [1; 0] [5; 3]; ex_rk [0; 1] [7; 4]; ex_rk [1; 1] [5; 4]; ex_rk [0; 0] [7; 3]] =
  Ok [mkRo [1; 0] [5; 3] [12; 7] [7; 0]; mkRo [0; 1] [7; 4] [12; 7] [0; 3]; mkRo [1; 1] [5; 4] [12; 7] [7; 3]; mkRo [0; 0] [7; 3] [12; 7] [0; 0]] /\
  setup_ranks (mkJob 2 [0; 0] [2; 2] [1; 1] false false)
    [ex_rk [1; 0] [5; 3]; ex_rk [0; 1] [7; 4]; ex_rk [1; 1] [6; 4]; ex_rk [0; 0] [7; 3]] = Throw.
Proof. split; vm_compute; reflexivity. Qed.
