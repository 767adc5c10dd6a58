(* C07: Sub-tile boundaries respect the requested alignment. *)
From Verif Require Import Base Loops_Model Loops_Spec LoopsTop_Proofs Scan_Model Scan_Proofs.

(* Full statement: the same without the divisibility hypothesis; false, see C07_refuted. *)
Theorem C07_aligned_partial : forall prog nt, 0 < nt -> Forall (wf_loop true) prog -> accepted false prog ->
  Forall (fun d => (Z.min (l_align d) (l_stride d) | l_stride d)) (flat_map snd prog) ->
  exists calls, run_loops true nt None prog = Ok calls /\
    forall b, In b calls -> Forall2 (fun d c => forall x, In x (inner_bounds (l_begin d, l_end d) c) ->
       (x - l_aofs d) mod Z.min (l_align d) (l_stride d) = 0) (flat_map snd prog) b.
Proof. exact loops_aligned. Qed.
Print Assumptions C07_aligned_partial.

(* The strides set by ScanIndices meet the hypothesis: alignment = vector length, stride = whole vectors; and every
   level keeps the alignment offset of the outermost one, so all levels share one grid of vector boundaries. *)
Theorem C07_levels : forall fold d, 0 < fold -> l_align d = fold ->
  let whole d' := l_align d' = fold /\ (fold | l_stride d') /\ fold <= l_stride d' in
  (forall s t, l_begin d < l_end d -> let d' := create_inner fold d s t in
     whole d' /\ l_aofs d' = l_aofs d /\ l_begin d' = s /\ l_end d' = t) /\
  (forall n, 1 <= n -> let d' := set_strides_from_inner fold n d in
     whole d' /\ l_aofs d' = l_aofs d /\ l_begin d' = l_begin d /\ l_end d' = l_end d) /\
  (forall a b c, l_begin d < l_end d -> whole d -> let d' := adjust_from_settings fold a b c d in
     whole d' /\ l_aofs d' = l_aofs d /\ l_begin d' = l_begin d /\ l_end d' = l_end d) /\
  (forall b e, whole d -> let d' := set_range b e d in
     whole d' /\ l_aofs d' = l_aofs d /\ l_begin d' = b /\ l_end d' = e).
Proof. exact levels_vec. Qed.
Print Assumptions C07_levels.

(* So no vector is split between two sub-ranges of such a level. *)
Theorem C07_vectors_not_split : forall prog nt folds, 0 < nt -> Forall (wf_loop true) prog -> accepted false prog ->
  Forall2 (fun fold d => 1 <= fold /\ l_align d = fold /\ (fold | l_stride d) /\ fold <= l_stride d) folds (flat_map snd prog) ->
  exists calls, run_loops true nt None prog = Ok calls /\
    forall b, In b calls -> Forall2 (fun fd c => forall x, In x (inner_bounds (l_begin (snd fd), l_end (snd fd)) c) ->
       (x - l_aofs (snd fd)) mod fst fd = 0) (combine folds (flat_map snd prog)) b.
Proof. exact loops_vec_aligned. Qed.
Print Assumptions C07_vectors_not_split.

(* Stride 6 with alignment 4: the second boundary, 10, is not aligned. *)
Theorem C07_refuted : exists d calls b x, 1 <= l_align d <= l_stride d /\ l_begin d < l_end d /\
  run_loops true 1 None [(mkFeats false false false false false false, [d])] = Ok calls /\ In b calls /\
  In x (flat_map (inner_bounds (l_begin d, l_end d)) b) /\ (x - l_aofs d) mod Z.min (l_align d) (l_stride d) <> 0.
Proof.
  exists (mkLdim 4 20 6 4 0 0), [[(4, 10)]; [(10, 16)]; [(16, 20)]], [(4, 10)], 10.
  cbn -[run_loops]. repeat split; try discriminate; auto.
Qed.
Print Assumptions C07_refuted.

Definition C07_dims := [set_strides_from_inner 4 30 (create_inner 4 (mkLdim (-100) 100 50 4 3 0) (-47) 90);
                        set_strides_from_inner 8 5 (create_inner 8 (mkLdim 0 64 64 8 0 0) 3 64)].
Example C07_ex : Forall2 (fun fold d => 1 <= fold /\ l_align d = fold /\ (fold | l_stride d) /\ fold <= l_stride d) [4; 8] C07_dims /\
  map (fun d => map (sub_range true d) (zseq (num_iters true d))) C07_dims =
  [[(-47, -17); (-17, 15); (15, 47); (47, 79); (79, 90)];
   [(3, 8); (8, 16); (16, 24); (24, 32); (32, 40); (40, 48); (48, 56); (56, 64)]].
Proof.
  split; [|vm_compute; reflexivity].
  constructor; [|constructor; [|constructor]]; cbn; repeat split; try discriminate; [exists 8|exists 1]; reflexivity.
Qed.
