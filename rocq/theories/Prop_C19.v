(* C19: Folded storage agrees with element access. *)
From Verif Require Import Base MixedRadix Layout_Model Var_Model Var_Spec Var_Proofs.

Theorem C19_folded_storage : forall v a, wf_var v -> v_vec v = true -> valid_indices true v a ->
  0 <= vec_elem_index v a < zprod (map d_vec_alloc (v_dims v)) * VLEN v /\
  forall b, valid_indices true v b ->
    (vec_elem_index v a = vec_elem_index v b <-> same_elem (v_dims v) a b).
Proof. exact vec_storage. Qed.
Print Assumptions C19_folded_storage.

(* [vo]: for each dim a rank-relative vector index and a position in the vector.  The lane number
   is the linear index of the positions in the folded dims. *)
Theorem C19_vector_lanes : forall V sw v (m : Z -> V) vo dflt,
  wf_var v -> v_vec v = true ->
  Forall (fun d => d_step d = false -> d_lpad d mod d_vlen d = 0 /\ d_lofs d mod d_vlen d = 0) (v_dims v) ->
  Forall2 (fun d (p : Z * Z) => 0 <= snd p < d_vlen d) (v_dims v) vo ->
  valid_indices sw v (map2 elem_of_vec (v_dims v) vo) ->
  let lane := vec_fold_layout v (get_fold_ofs v (map snd vo)) in
  0 <= lane < VLEN v /\
  get_element sw (mkState v (Some m)) (map2 elem_of_vec (v_dims v) vo) =
    Ok (nth (Z.to_nat lane) (read_vec_norm v m (map fst vo)) dflt).
Proof. exact vec_lane_read. Qed.
Print Assumptions C19_vector_lanes.

(* Different positions are in different lanes. *)
Theorem C19_lanes_distinct : forall v p q, wf_var v -> v_vec v = true ->
  in_sizes (fold_lens v) p -> in_sizes (fold_lens v) q ->
  vec_fold_layout v p = vec_fold_layout v q -> p = q.
Proof. exact lanes_distinct. Qed.
Print Assumptions C19_lanes_distinct.

(* 2x4 fold in x and y; t with 2 steps; offsets and pads. *)
Definition C19_var : yvar :=
  mkVar [mkDim true false 2 0 0 0 0 1; mkDim false true 8 4 4 40 0 4; mkDim false true 6 2 2 (-7) 0 2]
        [0; 1; 2]%nat true [1; 2]%nat true.

Example C19_ex :
  wf_var C19_var /\ v_vec C19_var = true /\
  Forall (fun d => d_step d = false -> d_lpad d mod d_vlen d = 0 /\ d_lofs d mod d_vlen d = 0)
         (v_dims C19_var) /\
  let vo := [(-1, 0); (-1, 3); (2, 1)] in
  Forall2 (fun d (p : Z * Z) => 0 <= snd p < d_vlen d) (v_dims C19_var) vo /\
  map2 elem_of_vec (v_dims C19_var) vo = [-1; 39; -2] /\
  valid_indices true C19_var [-1; 39; -2] /\
  vec_fold_layout C19_var (get_fold_ofs C19_var (map snd vo)) = 7 /\
  vec_elem_index C19_var [-1; 39; -2] = (1 * 20 + 0 * 5 + 3) * 8 + 7.
Proof.
  split.
  { split; [|split].
    - repeat constructor; cbn; try lia; intros; try discriminate; auto; lia.
    - cbn. apply Permutation_refl.
    - intros _. cbn. split; [repeat constructor; cbn; intuition lia|].
      split; [intros j H; intuition lia|].
      intros j Hj H. destruct j as [|[|[|j]]]; cbn in *; try lia; auto. }
  split; [reflexivity|]. split; [repeat constructor|].
  cbn zeta. split; [repeat constructor; cbn; lia|]. split; [reflexivity|].
  split.
  { unfold valid_indices; cbn [v_dims C19_var]; repeat apply Forall2_cons; try apply Forall2_nil; unfold valid_index; cbn; first [left; split; reflexivity | right; lia]. }
  vm_compute. auto.
Qed.
