(* C60: Unaligned loads read the elements of their point. *)
From Verif Require Import Base Layout_Model Var_Model Var_Spec Ptr_Model Ptr_Spec Ptr_Proofs Ptr_Examples.
Open Scope Z_scope.

(* Full statement: for every point that passes the checks, the address given to the unaligned load is
   the one of the first element of the point,
     unaligned_pos asserts pv args cur =
     Ok (vec_elem_index v (point_elems (v_dims v) args cur (map (fun _ => 0) (v_dims v)))).
   It is only true where vector indices and global element indices are the same numbers, and never when
   the compiler was built with assertions. *)
Theorem C60_unaligned_load_partial : forall pv args cur,
  let v := pv_var pv in
  check_rhs pv args = true -> length args = length (v_dims v) -> length cur = length (v_dims v) ->
  (forall k d, nth_error (v_dims v) k = Some d ->
     if d_step d then True
     else if d_domain d then d_rofs d + nth k cur 0 * d_vlen d = nth k cur 0
     else d_rofs d = 0) ->
  unaligned_pos false pv args cur =
  Ok (vec_elem_index v (point_elems (v_dims v) args cur (map (fun _ => 0) (v_dims v)))).
Proof. exact unaligned_ok. Qed.
Print Assumptions C60_unaligned_load_partial.

(* The first vector of a rank at the origin. *)
Example C60_ex :
  let v := mkVar [mkDim false true 16 4 4 0 0 4] [0%nat] true [0%nat] true in
  let pv := mkPv v [0] [0] false in
  check_rhs pv [AOfs 1] = true /\
  (forall k d, nth_error (v_dims v) k = Some d ->
     if d_step d then True
     else if d_domain d then d_rofs d + nth k [0] 0 * d_vlen d = nth k [0] 0
     else d_rofs d = 0) /\
  unaligned_pos false pv [AOfs 1] [0] = Ok 5 /\ vec_elem_index v [1] = 5.
Proof.
  cbn zeta. split; [reflexivity|]. split; [|vm_compute; auto].
  intros [|k] d H; cbn in H; [injection H as <-; reflexivity|destruct k; discriminate].
Qed.

(* The read of A(x+1) in the third vector: the compiler stops at an assertion, or without assertions it
   makes code that loads from A(3) instead of A(9). *)
Theorem C60_unaligned_load_refuted : exists pv args cur,
  let v := pv_var pv in
  wf_var v /\ v_vec v = true /\ whole_vectors (v_dims v) /\ check_rhs pv args = true /\
  point_elems (v_dims v) args cur (map (fun _ => 0) (v_dims v)) = [9] /\
  unaligned_pos true pv args cur = Throw /\
  unaligned_pos false pv args cur = Ok (vec_elem_index v [3]) /\
  vec_elem_index v [3] <> vec_elem_index v [9].
Proof.
  exists (mkPv (mkVar [mkDim false true 16 4 4 0 0 4] [0%nat] true [0%nat] true) [0] [0] false),
    [AOfs 1], [2].
  cbn zeta. split.
  { split; [|split].
    - repeat constructor; cbn; try lia; intros; discriminate.
    - apply Permutation_refl.
    - intros _. cbn. split; [repeat constructor; cbn; intuition lia|].
      split; [intros j H; intuition lia|]. intros [|j] Hj H; cbn in *; [auto|lia]. }
  split; [reflexivity|]. split; [repeat constructor|]. vm_compute.
  repeat split; discriminate.
Qed.
Print Assumptions C60_unaligned_load_refuted.
