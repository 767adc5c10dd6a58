(* C26: Reductions return the documented value. *)
From Coq Require Import QArith Qcanon.
From Verif Require Import Base ParFor_Model Tuple_Model Var_Model Var_Spec Slice_Model Slice_Spec Slice_Proofs SliceRed_Proofs.
Open Scope Z_scope.

(* For any threads and any assignment [thr] of visits to threads; [xs] are the values in the slice.
   Missing from the full property (see the refutations below): the sum of squares; the maximum when all
   values are below DBL_MIN; access to the minimum without the sum bit in the mask. *)
Theorem C26_reductions_partial : forall c thr sw v m mask first last strict xs,
  1 <= omp_num_threads c -> wf_var v -> valid_indices sw v first -> valid_indices sw v last ->
  (forall k, 0 <= thr k < yask_get_num_threads c) ->
  let s := mkState v (Some m) in
  slice_contents sw s first last xs ->
  exists r, reduce_elements_in_slice c thr sw s mask first last strict = Ok r /\
    r_mask r = mask /\ r_nred r = slice_size first last /\
    (in_mask mask yk_sum_reduction = true -> get_sum r = Ok (qsum xs)) /\
    (in_mask mask yk_product_reduction = true -> get_product r = Ok (qprod xs)) /\
    (in_mask mask yk_max_reduction = true -> exists y, get_max r = Ok y /\
       (y = DBL_MIN \/ In y xs) /\ (DBL_MIN <= y)%Qc /\ (forall x, In x xs -> (x <= y)%Qc)) /\
    (in_mask mask yk_min_reduction = true -> exists y, r_min r = y /\
       (y = DBL_MAX \/ In y xs) /\ (y <= DBL_MAX)%Qc /\ (forall x, In x xs -> (y <= x)%Qc)).
Proof. exact reduce_spec. Qed.
Print Assumptions C26_reductions_partial.

Definition q (n : Z) : Qc := Q2Qc (inject_Z n).
Definition C26_var : yvar := mkVar [mkDim false true 5 0 0 0 0 1] [0]%nat false [] false.
Definition C26_cfg : omp_cfg := Build_omp_cfg true 1 1 2 0.
Definition C26_thr (k : Z) : Z := Z.modulo k 2.

Lemma C26_var_wf : wf_var C26_var.
Proof.
  split; [|split].
  - repeat constructor; cbn; try lia; intros; try discriminate; auto; lia.
  - cbn. apply Permutation_refl.
  - discriminate.
Qed.

Lemma C26_valid : forall x, 0 <= x < 5 -> valid_indices false C26_var [x].
Proof. intros. apply Forall2_cons; [right; cbn; lia|apply Forall2_nil]. Qed.

Lemma C26_thr_ok : forall k, 0 <= C26_thr k < yask_get_num_threads C26_cfg.
Proof. intros. unfold C26_thr. change (yask_get_num_threads C26_cfg) with 2. apply Z.mod_pos_bound. lia. Qed.

(* elements 1..3 of the var *)
Lemma C26_contents : forall (m : Z -> Qc),
  slice_contents false (mkState C26_var (Some m)) [1] [3] [m 3; m 1; m 2].
Proof.
  intros m. exists [[3]; [1]; [2]]. split; [|split].
  - repeat constructor; cbn; intuition congruence.
  - intros p. cbn. split.
    + intros [<-|[<-|[<-|[]]]]; cbn; lia.
    + destruct p as [|x [|? ?]]; cbn; try tauto. intros ((H1 & H2) & _).
      assert (x = 1 \/ x = 2 \/ x = 3) as [->|[->| ->]] by lia; auto.
  - repeat constructor.
Qed.

Example C26_ex : exists r,
  reduce_elements_in_slice C26_cfg C26_thr false (mkState C26_var (Some (fun a => q (a + 1)))) 31 [1] [3] true = Ok r /\
  get_sum r = Ok (q 9) /\ get_product r = Ok (q 24) /\ get_max r = Ok (q 4) /\ get_min r = Ok (q 2) /\ r_nred r = 3.
Proof. eexists. split; [vm_compute; reflexivity|]. repeat split; vm_compute; reflexivity. Qed.

(* FALSE of the code: the maximum of all-negative data. *)
Theorem C26_max_refuted : exists c thr v m first last xs r y,
  1 <= omp_num_threads c /\ wf_var v /\ valid_indices false v first /\ valid_indices false v last /\
  (forall k, 0 <= thr k < yask_get_num_threads c) /\
  slice_contents false (mkState v (Some m)) first last xs /\ xs <> [] /\
  reduce_elements_in_slice c thr false (mkState v (Some m)) yk_max_reduction first last true = Ok r /\
  get_max r = Ok y /\ forall x, In x xs -> x <> y.
Proof.
  exists C26_cfg, C26_thr, C26_var, (fun a => q (- a - 1)), [1], [3], [q (-4); q (-2); q (-3)].
  eexists. exists DBL_MIN.
  split; [cbn; lia|]. split; [exact C26_var_wf|]. split; [apply C26_valid; lia|]. split; [apply C26_valid; lia|].
  split; [exact C26_thr_ok|]. split; [exact (C26_contents (fun a => q (- a - 1)))|]. split; [discriminate|].
  split; [vm_compute; reflexivity|]. split; [vm_compute; reflexivity|].
  intros x Hx E. subst x. cbn [In] in Hx.
  destruct Hx as [Hx|[Hx|[Hx|[]]]]; apply (f_equal this) in Hx; vm_compute in Hx; discriminate.
Qed.
Print Assumptions C26_max_refuted.

(* FALSE of the code: the sum of squares, with only that bit and with the sum bit as well. *)
Theorem C26_sum_squares_refuted : exists c thr v m first last xs r1 r2 y1 y2,
  1 <= omp_num_threads c /\ wf_var v /\ valid_indices false v first /\ valid_indices false v last /\
  (forall k, 0 <= thr k < yask_get_num_threads c) /\
  slice_contents false (mkState v (Some m)) first last xs /\
  reduce_elements_in_slice c thr false (mkState v (Some m)) yk_sum_squares_reduction first last true = Ok r1 /\
  reduce_elements_in_slice c thr false (mkState v (Some m)) (yk_sum_squares_reduction + yk_sum_reduction) first last true = Ok r2 /\
  get_sum_squares r1 = Ok y1 /\ get_sum_squares r2 = Ok y2 /\
  y1 <> qsum (map (fun x => x * x)%Qc xs) /\ y2 <> qsum (map (fun x => x * x)%Qc xs).
Proof.
  exists C26_cfg, C26_thr, C26_var, (fun a => q (a + 1)), [1], [3], [q 4; q 2; q 3].
  do 2 eexists. exists (q 0), (q 9).
  split; [cbn; lia|]. split; [exact C26_var_wf|]. split; [apply C26_valid; lia|]. split; [apply C26_valid; lia|].
  split; [exact C26_thr_ok|]. split; [exact (C26_contents (fun a => q (a + 1)))|].
  split; [vm_compute; reflexivity|]. split; [vm_compute; reflexivity|].
  split; [vm_compute; reflexivity|]. split; [vm_compute; reflexivity|].
  split; intros E; apply (f_equal this) in E; vm_compute in E; discriminate.
Qed.
Print Assumptions C26_sum_squares_refuted.

(* FALSE of the code: a minimum that was requested cannot be read. *)
Theorem C26_min_refuted : exists c thr v m first last r,
  1 <= omp_num_threads c /\ wf_var v /\ valid_indices false v first /\ valid_indices false v last /\
  (forall k, 0 <= thr k < yask_get_num_threads c) /\
  reduce_elements_in_slice c thr false (mkState v (Some m)) yk_min_reduction first last true = Ok r /\
  r_mask r = yk_min_reduction /\ get_min r = Throw.
Proof.
  exists C26_cfg, C26_thr, C26_var, (fun a => q (a + 1)), [1], [3]. eexists.
  split; [cbn; lia|]. split; [exact C26_var_wf|]. split; [apply C26_valid; lia|]. split; [apply C26_valid; lia|].
  split; [exact C26_thr_ok|]. split; [vm_compute; reflexivity|]. split; reflexivity.
Qed.
Print Assumptions C26_min_refuted.
