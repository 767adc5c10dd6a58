(* C08: Scanning an empty region executes nothing. *)
From Verif Require Import Base Cover_Spec Loops_Model Loops_Spec LoopsTop_Proofs Scan_Proofs.

(* Full statement: in every loop style, a region with at least one dim with end <= begin gives Ok [].  True for the cases
   C08_nested_partial and C08_flat_partial, false in general (refutations below). *)

(* real nested loops without alignment: any number of empty dims *)
Theorem C08_nested_partial : forall nt f ds rest enc, (2 <= length ds)%nat -> f_nested f = true -> adj_feats (length ds) (is_some enc) f <> None ->
  Forall (fun d => 1 <= l_stride d) ds -> Exists (fun d => l_end d <= l_begin d) ds ->
  run_loops false nt enc ((f, ds) :: rest) = Ok [].
Proof. exact empty_nested. Qed.
Print Assumptions C08_nested_partial.

(* flattened loops without alignment, any path option: exactly one empty dim *)
Theorem C08_flat_partial : forall nt f ds1 d ds2 rest enc, f_manual f = false -> adj_feats (length (ds1 ++ d :: ds2)) (is_some enc) f <> None ->
  Forall (fun d => 1 <= l_stride d /\ l_begin d < l_end d) ds1 -> Forall (fun d => 1 <= l_stride d /\ l_begin d < l_end d) ds2 ->
  1 <= l_stride d -> l_end d <= l_begin d ->
  run_loops false nt enc ((f, ds1 ++ d :: ds2) :: rest) = Ok [].
Proof. exact empty_flat. Qed.
Print Assumptions C08_flat_partial.

(* aligned loops: whatever is processed stays inside [begin, end), so it is empty in the empty dim; no hypotheses at all *)
Theorem C08_aligned_partial : forall nt prog calls, run_loops true nt None prog = Ok calls ->
  forall b, In b calls -> Forall2 (fun d c => l_begin d <= fst c /\ snd c <= l_end d) (flat_map snd prog) b.
Proof. exact aligned_only_empty. Qed.
Print Assumptions C08_aligned_partial.

(* two inverted dims: the number of iterations is the product, which is positive; the sub-range processed is not empty and
   not inside the region *)
Theorem C08_two_inverted_refuted : exists f ds calls b p, Exists (fun d => l_end d <= l_begin d) ds /\ Forall (fun d => 1 <= l_stride d) ds /\
  run_loops false 1 None [(f, ds)] = Ok calls /\ In b calls /\ nonempty_box b /\ in_box b p = true.
Proof.
  set (ds := [mkLdim 0 2 1 1 0 0; mkLdim 4 0 1 1 0 0; mkLdim 4 0 1 1 0 0]).
  destruct (run_loops false 1 None [(mkFeats true false false false false false, ds)]) as [calls| | |] eqn:E; vm_compute in E; try discriminate E.
  exists (mkFeats true false false false false false), ds, calls, [(1, 2); (-1, 0); (-1, 0)], [1; -1; -1].
  injection E as <-. split; [right; left; cbn; discriminate|]. split; [repeat constructor; discriminate|]. split; [vm_compute; reflexivity|].
  split; [do 16 right; left; reflexivity|]. split; [repeat constructor|reflexivity].
Qed.
Print Assumptions C08_two_inverted_refuted.

(* aligned code with begin = end not on an alignment boundary: the body is called *)
Theorem C08_misaligned_refuted : exists f d calls, l_end d <= l_begin d /\ 1 <= l_stride d /\ 1 <= l_align d /\
  run_loops true 1 None [(f, [d])] = Ok calls /\ calls <> [].
Proof. exists (mkFeats false false false true false false), (mkLdim 20 20 8 4 15 0), [[(20, 20)]]. repeat split; discriminate. Qed.
Print Assumptions C08_misaligned_refuted.

(* manual thread distribution: division by the number of iterations, zero *)
Theorem C08_manual_refuted : exists f ds, Exists (fun d => l_end d <= l_begin d) ds /\ Forall (fun d => 1 <= l_stride d /\ l_begin d <= l_end d) ds /\
  run_loops false 2 None [(f, ds)] = UB.
Proof.
  exists (mkFeats false false false true true false), [mkLdim 0 4 1 1 0 0; mkLdim 0 0 1 1 0 0].
  split; [right; left; cbn; discriminate|]. split; [repeat constructor; discriminate|vm_compute; reflexivity].
Qed.
Print Assumptions C08_manual_refuted.

Example C08_nested_ex : run_loops false 1 None [(mkFeats false false false false false true, [mkLdim 7 3 2 1 0 0; mkLdim 5 1 1 1 0 0; mkLdim 0 9 4 1 0 0])] = Ok [] /\
  adj_feats 3 false (mkFeats false false false false false true) <> None.
Proof. split; [vm_compute; reflexivity|discriminate]. Qed.
Example C08_flat_ex : run_loops false 1 None [(mkFeats true true false false false false, [mkLdim 0 9 2 1 0 0; mkLdim 5 1 1 1 0 0; mkLdim 0 9 4 1 0 0])] = Ok [].
Proof. vm_compute; reflexivity. Qed.
Example C08_aligned_ex : run_loops true 1 None [(mkFeats false false false false false false, [mkLdim 20 20 8 4 15 0; mkLdim 0 9 8 4 0 0])] = Ok [[(20, 20); (0, 8)]; [(20, 20); (8, 9)]].
Proof. vm_compute; reflexivity. Qed.
