(* C18: Element storage is in bounds and collision-free. *)
From Verif Require Import Base Layout_Model Var_Model Var_Spec Var_Proofs.

(* Any step index is accepted (it wraps); the other indices are within domain plus padding. *)
Theorem C18_element_storage : forall v a, wf_var v -> valid_indices true v a ->
  0 <= elem_index v a < zprod (map d_alloc (v_dims v)) /\
  forall b, valid_indices true v b ->
    (elem_index v a = elem_index v b <-> same_elem (v_dims v) a b).
Proof. exact elem_storage. Qed.
Print Assumptions C18_element_storage.

(* t with 2 steps, x with domain 5, pads 1 and 2 and offset 10, misc of 3; x is unit stride. *)
Definition C18_var : yvar :=
  mkVar [mkDim true false 2 0 0 0 7 1; mkDim false true 5 1 2 10 0 1; mkDim false false 3 0 0 0 (-1) 1]
        [0; 2; 1]%nat false [] false.

Example C18_element_storage_ex :
  wf_var C18_var /\ valid_indices true C18_var [-3; 16; -1] /\
  elem_index C18_var [-3; 16; -1] = 1 * (3 * 8) + 0 * 8 + 7 /\
  elem_index C18_var [-3; 16; -1] = elem_index C18_var [5; 16; -1].
Proof.
  split.
  { split; [|split].
    - repeat constructor; cbn; try lia; intros; try discriminate; auto; lia.
    - cbn. apply perm_skip. apply perm_swap.
    - discriminate. }
  split.
  { unfold valid_indices; cbn [v_dims C18_var]; repeat apply Forall2_cons; try apply Forall2_nil; unfold valid_index; cbn; first [left; split; reflexivity | right; lia]. }
  vm_compute. auto.
Qed.
