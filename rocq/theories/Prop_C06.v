(* C06: Loop traversal order options are permutations of the iteration space. *)
From Coq Require Import Permutation.
From Verif Require Import Base Loops_Model Loops_Spec LoopsTop_Proofs.

(* Two loop programs over the same dims, with any path options (tile, serpentine, square wave, manual, nested, OpenMP) and
   any grouping of the dims into loop statements, make the same body calls up to order; without path options even the
   order is the same. *)
Theorem C06_permutation : forall (da : bool) prog prog' nt nt', 0 < nt -> 0 < nt' ->
  Forall (wf_loop da) prog -> Forall (wf_loop da) prog' -> accepted false prog -> accepted false prog' ->
  flat_map snd prog = flat_map snd prog' ->
  exists calls calls', run_loops da nt None prog = Ok calls /\ run_loops da nt' None prog' = Ok calls' /\ Permutation calls calls' /\
    (Forall (fun fd => plain (fst fd)) prog -> Forall (fun fd => plain (fst fd)) prog' -> calls = calls').
Proof. exact loops_order. Qed.
Print Assumptions C06_permutation.

(* The plain nested order is the full grid of sub-ranges, last dim fastest, and the others are permutations of it. *)
Theorem C06_grid : forall (da : bool) prog nt enc, 0 < nt -> Forall (wf_loop da) prog -> accepted (is_some enc) prog ->
  exists calls, run_loops da nt enc prog = Ok calls /\
    Permutation calls (grid (map (fun d => map (sub_range da d) (zseq (num_iters da d))) (flat_map snd prog))) /\
    (Forall (fun fd => plain (fst fd)) prog ->
       calls = grid (map (fun d => map (sub_range da d) (zseq (num_iters da d))) (flat_map snd prog))).
Proof. exact run_perm. Qed.
Print Assumptions C06_grid.

Definition C06_dims := [mkLdim 0 5 1 1 0 2; mkLdim 0 3 1 1 0 2].
Definition C06_run f := match run_loops false 2 None [(f, C06_dims)] with Ok l => map (map fst) l | _ => [] end.
Example C06_permutation_ex :
  Forall (wf_loop false) [(mkFeats false false true false false false, C06_dims)] /\
  accepted false [(mkFeats false false true false false false, C06_dims)] /\
  (* tiled *)
  C06_run (mkFeats false false true false false false) =
    [[0;0];[0;1];[1;0];[1;1];[0;2];[1;2];[2;0];[2;1];[3;0];[3;1];[2;2];[3;2];[4;0];[4;1];[4;2]] /\
  (* serpentine *)
  C06_run (mkFeats true false false false false false) =
    [[0;0];[0;1];[0;2];[1;2];[1;1];[1;0];[2;0];[2;1];[2;2];[3;2];[3;1];[3;0];[4;0];[4;1];[4;2]] /\
  (* square wave with serpentine *)
  C06_run (mkFeats true true false false false false) =
    [[0;0];[1;0];[1;1];[0;1];[0;2];[1;2];[2;2];[3;2];[3;1];[2;1];[2;0];[3;0];[4;0];[4;1];[4;2]].
Proof.
  split; [|split; [cbn; split; [discriminate|exact I]|vm_compute; repeat split]].
  repeat constructor; cbn; try (intros; discriminate); try (intros _; repeat constructor; cbn; discriminate); try discriminate.
Qed.
