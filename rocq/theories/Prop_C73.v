(* C73: A receive buffer in shared memory is the send buffer that the neighbor fills for this rank. *)
From Verif Require Import Base Coll_Model Coll_Spec Share_Model Share_Spec Share_Proofs.

(* What a rank looks up for a neighbor on its node is the place of the buffer of the same var and size that the neighbor has for it. *)
Theorem C73_same_buffer : forall esz pad g c c' me var v, job_ok g -> node_ok g -> rank_at g c -> rank_at g c' -> touch c c' ->
  g_node g c = Some me -> g_node g c' <> None -> nth_error (g_vars g) var = Some v ->
  buf_size g v c (toward c c') false <> 0 ->
  In (mkSB var (toward c' c) (bytes esz g v c (toward c c') false), recv_ofs esz pad g c (toward c c') var me) (placed esz pad g c').
Proof. exact recv_is_send. Qed.
Print Assumptions C73_same_buffer.

(* Every buffer with its pad is inside the memory of its rank and begins at a cache line. *)
Theorem C73_inside : forall esz pad g c b x, job_ok g -> 0 < esz -> 0 <= pad -> In (b, x) (placed esz pad g c) ->
  0 <= x /\ x + b_bytes b + pad <= window esz pad g c /\ x mod 64 = 0.
Proof. exact placed_in. Qed.
Print Assumptions C73_inside.

(* Buffers of a rank do not overlap. *)
Theorem C73_apart : forall esz pad g c i j x y, job_ok g -> 0 < esz -> 0 <= pad -> i <> j ->
  nth_error (placed esz pad g c) i = Some x -> nth_error (placed esz pad g c) j = Some y -> apart pad x y.
Proof. exact placed_apart. Qed.
Print Assumptions C73_apart.

(* Two by two ranks on one node, sizes 8 and 5 in the first dim; a var with corners and one over the second dim only. *)
Definition C73_job := mkJob [2; 2] (fun c i => match i, nth_error c i with O, Some 0 => 8 | O, _ => 5 | _, _ => 6 end)
  (fun c => match c with [x; y] => if (0 <=? x) && (x <? 2) && (0 <=? y) && (y <? 2) then Some (x * 2 + y) else None | _ => None end) 4
  [mkX [Some (2, 1); Some (1, 3)] 2; mkX [None; Some (1, 2)] 1].
Example C73_ex_ok : job_ok C73_job /\ node_ok C73_job /\ rank_at C73_job [0; 1] /\ rank_at C73_job [1; 0] /\ touch [0; 1] [1; 0].
Proof.
  split; [|split; [|split; [|split]]].
  - constructor.
    + intros c [|i]; cbn; [|lia]. destruct c as [|[| |] c]; cbn; lia.
    + intros v i l r [<-|[<-|[]]] H; destruct i as [|[|[|i]]]; cbn in H; try discriminate; injection H as <- <-; lia.
    + intros v [<-|[<-|[]]]; reflexivity.
  - constructor.
    + intros [|x [|y [|]]] [|x' [|y' [|]]] m (L & _) (L' & _); try discriminate. cbn [C73_job g_node].
      destruct ((0 <=? x) && (x <? 2) && (0 <=? y) && (y <? 2)) eqn:E; [|discriminate].
      destruct ((0 <=? x') && (x' <? 2) && (0 <=? y') && (y' <? 2)) eqn:E'; [|discriminate].
      intros H H'. injection H as <-. injection H' as H'. rewrite !andb_true_iff, !Z.leb_le, !Z.ltb_lt in *.
      assert (x = x') by lia. assert (y = y') by lia. congruence.
    + intros c c' [|i] H; cbn [C73_job g_dom]; [rewrite H|]; reflexivity.
  - split; [reflexivity|]. intros [|[|[|i]]] x n H1 H2; cbn in *; try discriminate; injection H1 as <-; injection H2 as <-; lia.
  - split; [reflexivity|]. intros [|[|[|i]]] x n H1 H2; cbn in *; try discriminate; injection H1 as <-; injection H2 as <-; lia.
  - split; [discriminate|]. repeat constructor; cbn; lia.
Qed.
(* The rank (1,0) has four buffers; the rank (0,1) finds the one for it. *)
Example C73_ex_placed : placed 4 64 C73_job [1; 0] =
  [(mkSB 0 [-1; 0] 24, 0); (mkSB 0 [-1; 1] 4, 128); (mkSB 0 [0; 1] 20, 256); (mkSB 1 [0; 1] 4, 384)] /\
  window 4 64 C73_job [1; 0] = 512 /\ toward [1; 0] [0; 1] = [-1; 1] /\
  recv_ofs 4 64 C73_job [0; 1] (toward [0; 1] [1; 0]) 0 1 = 128 /\ recv_ofs 4 64 C73_job [1; 1] (toward [1; 1] [1; 0]) 1 3 = 384.
Proof. vm_compute. auto. Qed.
