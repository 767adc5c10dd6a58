(* C24: Slice writes and reads are inverse and confined. *)
From Verif Require Import Base ParFor_Model Var_Model Var_Spec Slice_Model Slice_Spec Slice_Proofs.

(* For any threading configuration [c], any contents, any value type. *)
Theorem C24_get_slice : forall V c sw v (m : Z -> V) buf n first last,
  1 <= omp_num_threads c -> wf_var v -> valid_indices sw v first -> valid_indices sw v last ->
  slice_size first last <= n ->
  let s := mkState v (Some m) in
  exists buf', get_elements_in_slice c sw s buf n first last = Ok (buf', slice_size first last) /\
    (forall p, in_slice first last p -> get_element sw s p = Ok (buf' (row_major first last p))) /\
    (forall k, ~ (0 <= k < slice_size first last) -> buf' k = buf k).
Proof. exact slice_get. Qed.
Print Assumptions C24_get_slice.

Theorem C24_set_slice : forall V c sw v (m : Z -> V) buf n first last,
  1 <= omp_num_threads c -> wf_var v -> valid_indices false v first -> valid_indices false v last ->
  slice_size first last <= n ->
  let s := mkState v (Some m) in
  exists s', set_elements_in_slice c sw s buf n first last = Ok (s', slice_size first last) /\
    st_var s' = v /\
    (forall p, in_slice first last p -> get_element sw s' p = Ok (buf (row_major first last p))) /\
    (forall b, (forall p, in_slice first last p -> ~ same_elem (v_dims v) p b) ->
       get_element sw s' b = get_element sw s b).
Proof. exact slice_set. Qed.
Print Assumptions C24_set_slice.

Theorem C24_round_trip : forall V c c' sw v (m : Z -> V) buf n first last,
  1 <= omp_num_threads c -> 1 <= omp_num_threads c' -> wf_var v ->
  valid_indices false v first -> valid_indices false v last ->
  slice_size first last <= n ->
  exists s', set_elements_in_slice c sw (mkState v (Some m)) buf n first last = Ok (s', slice_size first last) /\
  forall buf0 n', slice_size first last <= n' ->
  exists buf', get_elements_in_slice c' sw s' buf0 n' first last = Ok (buf', slice_size first last) /\
    forall k, 0 <= k < slice_size first last -> buf' k = buf k.
Proof. exact slice_round_trip. Qed.
Print Assumptions C24_round_trip.

(* Invalid indices, a buffer that is too small, or no storage: an exception. *)
Theorem C24_errors : forall V c sw v (m : Z -> V) buf n first last,
  ((~ valid_indices sw v first \/ ~ valid_indices sw v last) ->
     get_elements_in_slice c sw (mkState v (Some m)) buf n first last = Throw /\
     set_elements_in_slice c sw (mkState v (Some m)) buf n first last = Throw) /\
  (valid_indices sw v first -> valid_indices sw v last -> 0 <= n < slice_size first last ->
     get_elements_in_slice c sw (mkState v (Some m)) buf n first last = Throw /\
     set_elements_in_slice c sw (mkState v (Some m)) buf n first last = Throw) /\
  get_elements_in_slice c sw (mkState v None) buf n first last = Throw /\
  set_elements_in_slice c sw (mkState v None) buf n first last = Throw.
Proof. exact slice_errors. Qed.
Print Assumptions C24_errors.

(* A folded var (2 steps, 4x2 fold) on 6 threads, nested 2x3; the slice starts and ends inside folds. *)
Definition C24_var : yvar :=
  mkVar [mkDim true false 2 0 0 0 0 1; mkDim false true 8 4 4 40 0 4; mkDim false true 6 2 2 (-7) 0 2]
        [0; 1; 2]%nat true [1; 2]%nat true.
Definition C24_cfg : omp_cfg := Build_omp_cfg true 1 2 2 3.

Example C24_ex :
  wf_var C24_var /\ 1 <= omp_num_threads C24_cfg /\
  valid_indices false C24_var [0; 39; -8] /\ valid_indices false C24_var [1; 42; -4] /\
  slice_size [0; 39; -8] [1; 42; -4] = 40 /\
  row_major [0; 39; -8] [1; 42; -4] [1; 40; -5] = 28 /\
  exists s', set_elements_in_slice C24_cfg false (mkState C24_var (Some (fun _ => -1))) (fun k => 100 + k) 40
               [0; 39; -8] [1; 42; -4] = Ok (s', 40) /\
    get_element false s' [1; 40; -5] = Ok 128 /\ get_element false s' [1; 43; -5] = Ok (-1).
Proof.
  split.
  { split; [|split].
    - repeat constructor; cbn; try lia; intros; try discriminate; auto; lia.
    - cbn. apply Permutation_refl.
    - intros _. cbn. split; [repeat constructor; cbn; intuition lia|].
      split; [intros j H; intuition lia|].
      intros j Hj H. destruct j as [|[|[|j]]]; cbn in *; try lia; auto. }
  split; [cbn; lia|].
  split; [|split].
  1,2: unfold valid_indices; cbn [v_dims C24_var]; repeat apply Forall2_cons; try apply Forall2_nil;
       unfold valid_index; cbn; right; lia.
  split; [reflexivity|]. split; [reflexivity|].
  eexists. split; [vm_compute; reflexivity|]. split; vm_compute; reflexivity.
Qed.
