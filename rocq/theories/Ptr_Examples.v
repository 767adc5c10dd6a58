(* Computed examples for Ptr_Model. *)
From Verif Require Import Base Layout_Model Var_Model Var_Spec Ptr_Model Ptr_Spec.
Open Scope Z_scope.

(* t with 2 steps, 4x2 fold in x and y on a rank at (40,-7), misc dim with indices 1 to 3 innermost. *)
Definition pe_var : yvar :=
  mkVar [mkDim true false 2 0 0 0 0 1; mkDim false true 8 4 4 40 0 4; mkDim false true 6 2 2 (-7) 0 2;
         mkDim false false 3 0 0 0 1 1]
        [0; 1; 2; 3]%nat true [1; 2]%nat true.
Definition pe : pvar := mkPv pe_var [0; 0; 0; 1] [0; 0; 0; 3] false.
(* A(t, x-4, y+2, 2) *)
Definition pe_args : list parg := [AOfs 0; AOfs (-4); AOfs 2; AConst 2].

Lemma pe_wf : wf_var pe_var.
Proof.
  split; [|split].
  - repeat constructor; cbn; try lia; intros; try discriminate; auto; lia.
  - cbn. apply Permutation_refl.
  - intros _. cbn. split; [repeat constructor; cbn; intuition lia|].
    split; [intros j H; intuition lia|].
    intros j Hj H. destruct j as [|[|[|[|j]]]]; cbn in *; try lia; auto.
Qed.

(* The same position from all kinds of pointers; the strides of y and m are fixed when misc dims are
   innermost, those of y are looked up otherwise. *)
Example pe_pos :
  map (fun c => vec_pos c pe pe_args [5; 1; 0; 0] 1)
      [mkP false false true 3 2; mkP true false true 2 2; mkP false true true 2 2;
       mkP false false false 3 2; mkP true true false 9 2] = repeat (Ok 85) 5.
Proof. vm_compute. reflexivity. Qed.

Example pe_strides :
  map (stride (mkP false false true 3 2) pe) [1; 2; 3]%nat = [15; 3; 1] /\
  stride_scan (mkP false false true 3 2) pe 2 [0; 1; 2; 3]%nat false true 1 = (true, 3) /\
  fst (stride_scan (mkP false false false 3 2) pe 2 [0; 1; 2; 3]%nat false true 1) = false.
Proof. vm_compute. auto. Qed.

(* Pointers before the loop and in it. *)
Example pe_ptrs :
  let c := mkP false false true 3 2 in
  var_base_ptr c pe pe_args [5; 1; 0; 0] = 78 /\ ptr_ofs c pe = -1 /\
  loop_ptr c pe pe_args [5; 1; 0; 0] 0 = 93 /\ loop_ptr c pe pe_args [5; 1; 0; 0] 1 = 96 /\
  loop_ptr_offset c pe pe_args = Ok (-11).
Proof. vm_compute. auto. Qed.

(* An arg that fails the check would crash the compiler. *)
Example pe_const :
  check_rhs pe [AOfs 0; AConst 3; AOfs 2; AConst 2] = false /\
  vec_pos (mkP false false true 3 2) pe [AOfs 0; AConst 3; AOfs 2; AConst 2] [5; 1; 0; 0] 1 = UB.
Proof. vm_compute. auto. Qed.
