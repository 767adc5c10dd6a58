(* C59: Pointers of the generated inner loop reach the right vectors. *)
From Verif Require Import Base Layout_Model Var_Model Var_Spec Ptr_Model Ptr_Spec Ptr_Proofs Ptr_Examples.
Open Scope Z_scope.

(* In every iteration and for every choice of pointer settings, the vector at the computed position has
   the elements that the point denotes, at their lanes: the position of each is the one that the
   element access of the API uses. *)
Theorem C59_vector_position : forall c pv args cur cur' lanes i,
  let v := pv_var pv in
  wf_var v -> v_vec v = true -> whole_vectors (v_dims v) -> misc_fixed c pv -> loop_in_domain c pv ->
  check_rhs pv args = true -> aligned_args (v_dims v) args -> lanes_ok (v_dims v) lanes ->
  length cur = length (v_dims v) -> advance (p_loop c) i cur cur' ->
  exists a, vec_pos c pv args cur i = Ok a /\
    vec_elem_index v (point_elems (v_dims v) args cur' lanes) =
    a * VLEN v + vec_fold_layout v (get_fold_ofs v lanes).
Proof. exact ptr_pos. Qed.
Print Assumptions C59_vector_position.

Example C59_ex :
  wf_var pe_var /\ v_vec pe_var = true /\ whole_vectors (v_dims pe_var) /\
  misc_fixed (mkP false false true 3 2) pe /\ loop_in_domain (mkP false false true 3 2) pe /\
  check_rhs pe pe_args = true /\ aligned_args (v_dims pe_var) pe_args /\
  lanes_ok (v_dims pe_var) [0; 3; 1; 0] /\ advance 2 1 [5; 1; 0; 0] [5; 1; 1; 0] /\
  point_elems (v_dims pe_var) pe_args [5; 1; 1; 0] [0; 3; 1; 0] = [5; 43; -2; 2] /\
  vec_pos (mkP false false true 3 2) pe pe_args [5; 1; 0; 0] 1 = Ok 85 /\
  vec_elem_index pe_var [5; 43; -2; 2] = 85 * 8 + 7.
Proof.
  split; [exact pe_wf|]. split; [reflexivity|]. split; [repeat constructor|].
  split.
  { intros _ k d H Hs Hd. destruct k as [|[|[|[|k]]]]; cbn in H; try (injection H as <-; cbn in *; try discriminate; reflexivity).
    destruct k; discriminate. }
  split; [intros d H; cbn in H; injection H as <-; reflexivity|].
  split; [reflexivity|]. split; [repeat constructor|].
  split; [repeat constructor; cbn; lia|].
  split.
  { split; [reflexivity|]. intros j Hj. cbn in Hj.
    destruct j as [|[|[|[|j]]]]; try lia; reflexivity. }
  vm_compute. auto.
Qed.

(* The base pointer itself is inside the storage for a var that is not scratch, without the setting
   that measures offsets from the start of the allocation. *)
Theorem C59_base_pointer : forall c pv args cur,
  let v := pv_var pv in
  wf_var v -> p_offsets c = false -> pv_scratch pv = false ->
  (forall k d, nth_error (v_dims v) k = Some d ->
     1 <= d_dom d /\ (d_step d = false -> d_lofs d = if d_domain d then 0 else nth k (pv_min pv) 0)) ->
  0 <= var_base_ptr c pv args cur < zprod (map d_vec_alloc (v_dims v)).
Proof. exact base_inside. Qed.
Print Assumptions C59_base_pointer.

Example C59_base_ex :
  (forall k d, nth_error (v_dims pe_var) k = Some d ->
     1 <= d_dom d /\ (d_step d = false -> d_lofs d = if d_domain d then 0 else nth k (pv_min pe) 0)) /\
  var_base_ptr (mkP false false true 3 2) pe pe_args [5; 1; 0; 0] = 78 /\
  zprod (map d_vec_alloc (v_dims pe_var)) = 120.
Proof.
  split; [|vm_compute; auto].
  intros k d H. destruct k as [|[|[|[|k]]]]; cbn in H; try (injection H as <-; cbn; split; [lia|reflexivity]).
  destruct k; discriminate.
Qed.

(* Not in general: the local offset of a relocated scratch var is in elements but is used as the index
   of a vector, and so is the pad when offsets are measured from the start of the allocation.  Both
   cancel out when the offset of a point is added, but the base pointers are outside of the storage. *)
Theorem C59_base_pointer_refuted : exists c pv c' pv' args cur,
  wf_var (pv_var pv) /\ whole_vectors (v_dims (pv_var pv)) /\ pv_scratch pv = true /\ p_offsets c = false /\
  zprod (map d_vec_alloc (v_dims (pv_var pv))) <= var_base_ptr c pv args cur /\
  wf_var (pv_var pv') /\ whole_vectors (v_dims (pv_var pv')) /\ pv_scratch pv' = false /\ p_offsets c' = true /\
  var_base_ptr c' pv' args cur < 0.
Proof.
  exists (mkP false false true 0 0),
    (mkPv (mkVar [mkDim false true 8 4 4 0 16 4] [0%nat] true [0%nat] true) [0] [0] true),
    (mkP false true true 0 0),
    (mkPv (mkVar [mkDim false true 8 4 4 0 0 4] [0%nat] true [0%nat] true) [0] [0] false),
    [AOfs 0], [4].
  assert (W : forall o, wf_var (mkVar [mkDim false true 8 4 4 0 o 4] [0%nat] true [0%nat] true)).
  { intros o. split; [|split].
    - repeat constructor; cbn; try lia; intros; discriminate.
    - apply Permutation_refl.
    - intros _. cbn. split; [repeat constructor; cbn; intuition lia|].
      split; [intros j H; intuition lia|]. intros [|j] Hj H; cbn in *; [auto|lia]. }
  split; [apply W|]. split; [repeat constructor|]. split; [reflexivity|]. split; [reflexivity|].
  split; [vm_compute; discriminate|].
  split; [apply W|]. split; [repeat constructor|]. split; [reflexivity|]. split; [reflexivity|].
  reflexivity.
Qed.
Print Assumptions C59_base_pointer_refuted.
