(* C25: Non-strict slice operations ignore elements outside the allocation. *)
From Coq Require Import QArith Qcanon.
From Verif Require Import Base ParFor_Model Var_Model Var_Spec Slice_Model Slice_Spec Slice_Proofs SliceRed_Proofs.
Open Scope Z_scope.

(* Proved when, in each dim, the slice reaches into the allocated indices (Forall2 meets_alloc) and
   the given step indices are valid.  Exactly the intersection is set and counted. *)
Theorem C25_nonstrict_set_partial : forall V c v (m : Z -> V) x first last,
  1 <= omp_num_threads c -> wf_var v -> Forall nonempty_dim (v_dims v) ->
  length first = length (v_dims v) -> length last = length (v_dims v) ->
  Forall2 meets_alloc (v_dims v) (combine first last) ->
  step_in_window v first -> step_in_window v last ->
  let s := mkState v (Some m) in
  exists s' n f' l', set_elements_in_slice_same c false s x first last false = Ok (s', n) /\
    n = slice_size f' l' /\
    (forall p, in_slice f' l' p <-> in_slice first last p /\ valid_indices false v p) /\
    st_var s' = v /\
    (forall p, in_slice first last p -> valid_indices false v p -> get_element false s' p = Ok x) /\
    (forall b, valid_indices false v b -> ~ in_slice first last b -> get_element false s' b = get_element false s b).
Proof. exact nonstrict_set_same. Qed.
Print Assumptions C25_nonstrict_set_partial.

(* The reduction is the one over exactly the elements of the intersection. *)
Theorem C25_nonstrict_reduce_partial : forall c thr v m mask first last,
  1 <= omp_num_threads c -> Forall nonempty_dim (v_dims v) ->
  length first = length (v_dims v) -> length last = length (v_dims v) ->
  Forall2 meets_alloc (v_dims v) (combine first last) ->
  let s := mkState v (Some m) in
  exists f' l', valid_indices false v f' /\ valid_indices false v l' /\
    (forall p, in_slice f' l' p <-> in_slice first last p /\ valid_indices false v p) /\
    reduce_elements_in_slice c thr false s mask first last false =
    reduce_elements_in_slice c thr false s mask f' l' true.
Proof. exact nonstrict_reduce. Qed.
Print Assumptions C25_nonstrict_reduce_partial.

Definition C25_var : yvar :=
  mkVar [mkDim true false 2 0 0 0 0 1; mkDim false true 4 1 1 10 0 1] [0; 1]%nat false [] false.
Definition C25_cfg : omp_cfg := Build_omp_cfg true 1 1 4 0.

Lemma C25_var_wf : wf_var C25_var.
Proof.
  split; [|split].
  - repeat constructor; cbn; try lia; intros; try discriminate; auto; lia.
  - cbn. apply Permutation_refl.
  - discriminate.
Qed.

Example C25_ex :
  wf_var C25_var /\ Forall nonempty_dim (v_dims C25_var) /\
  Forall2 meets_alloc (v_dims C25_var) (combine [1; -50] [1; 11]) /\
  step_in_window C25_var [1; -50] /\ step_in_window C25_var [1; 11] /\
  exists s', set_elements_in_slice_same C25_cfg false (mkState C25_var (Some (fun _ => 0))) 7
               [1; -50] [1; 11] false = Ok (s', 3) /\
     map (fun x => get_element false s' [1; x]) [9; 10; 11; 12] = [Ok 7; Ok 7; Ok 7; Ok 0].
Proof.
  split; [exact C25_var_wf|].
  split; [repeat apply Forall_cons; try apply Forall_nil; vm_compute; discriminate|].
  split; [cbn [combine v_dims C25_var]; repeat apply Forall2_cons; try apply Forall2_nil; vm_compute; split; discriminate|].
  split; [vm_compute; intros _; split; discriminate|]. split; [vm_compute; intros _; split; discriminate|].
  eexists. split; vm_compute; reflexivity.
Qed.

(* FALSE of the code in general.  A slice that misses the allocation is not ignored: both corners are
   moved to the nearest allocated index, so one boundary element is written and counted. *)
Theorem C25_slice_outside_refuted : exists (c : omp_cfg) (v : yvar) (m : Z -> Z) first last s' b,
  1 <= omp_num_threads c /\ wf_var v /\
  (forall p, in_slice first last p -> ~ valid_indices false v p) /\
  set_elements_in_slice_same c false (mkState v (Some m)) 7 first last false = Ok (s', 1) /\
  valid_indices false v b /\ ~ in_slice first last b /\
  get_element false (mkState v (Some m)) b = Ok 0 /\ get_element false s' b = Ok 7.
Proof.
  exists C25_cfg, C25_var, (fun _ => 0), [0; 20], [0; 29].
  eexists. exists [0; 14].
  split; [cbn; lia|]. split; [exact C25_var_wf|].
  split.
  { intros p Hp Hv. destruct p as [|t [|x [|? ?]]]; cbn in Hp; try tauto.
    inversion Hv as [|? ? ? ? _ Hv1]; subst. inversion Hv1 as [|? ? ? ? Hx _]; subst.
    destruct Hx as [(E & _)|Hx]; [discriminate|]. cbn in Hx. lia. }
  split; [vm_compute; reflexivity|].
  split; [unfold valid_indices; cbn [v_dims C25_var]; repeat apply Forall2_cons; try apply Forall2_nil;
          unfold valid_index; cbn; right; lia|].
  split; [cbn; lia|]. split; vm_compute; reflexivity.
Qed.
Print Assumptions C25_slice_outside_refuted.

(* FALSE also for the step dim: the window of valid steps is moved to steps of the given slice that
   were not written (they were cut off), and the elements just written cannot be read any more. *)
Theorem C25_window_moved_refuted : exists (c : omp_cfg) (v : yvar) (m : Z -> Z) first last s' p q,
  1 <= omp_num_threads c /\ wf_var v /\
  in_slice first last p /\ valid_indices false v p /\
  set_elements_in_slice_same c false (mkState v (Some m)) 7 first last false = Ok (s', 2) /\
  get_element false s' p = Throw /\
  get_element false (mkState v (Some m)) q = Throw /\ get_element false s' q = Ok 7.
Proof.
  exists C25_cfg, C25_var, (fun _ => 0), [0; 12], [9; 12].
  eexists. exists [0; 12], [9; 12].
  split; [cbn; lia|]. split; [exact C25_var_wf|]. split; [cbn; lia|].
  split; [unfold valid_indices; cbn [v_dims C25_var]; repeat apply Forall2_cons; try apply Forall2_nil;
          unfold valid_index; cbn; right; lia|].
  split; [vm_compute; reflexivity|]. repeat split; vm_compute; reflexivity.
Qed.
Print Assumptions C25_window_moved_refuted.
