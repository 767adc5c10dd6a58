(* C20: Multi-dimensional linearisation is a bijection. *)
From Verif Require Import Base MixedRadix Layout_Model Layout_Proofs.

(* For every permutation p of the n dims: layout is one-to-one from the box onto
   0..size-1 and unlayout is its inverse. *)
Theorem C20_layout_bijection : forall (n : nat) (p : list nat) (sizes : list Z),
  Permutation p (seq 0 n) -> length sizes = n -> Forall (fun s => 1 <= s) sizes ->
  (forall j, in_sizes sizes j ->
     0 <= gl_layout p sizes j < zprod sizes /\ gl_unlayout p sizes (gl_layout p sizes j) = j) /\
  (forall ai, 0 <= ai < zprod sizes ->
     in_sizes sizes (gl_unlayout p sizes ai) /\ gl_layout p sizes (gl_unlayout p sizes ai) = ai).
Proof. exact layout_bijective. Qed.
Print Assumptions C20_layout_bijection.

Example C20_layout_bijection_ex :
  let p := [2; 0; 1]%nat in let sizes := [2; 3; 4] in
  Permutation p (seq 0 3) /\ gl_layout p sizes [1; 2; 3] = 3 * (2 * 3) + 1 * 3 + 2 /\
  gl_unlayout p sizes 23 = [1; 2; 3].
Proof.
  cbn zeta. split; [|vm_compute; auto].
  apply NoDup_Permutation.
  - repeat constructor; cbn; intuition lia.
  - apply seq_NoDup.
  - intros x; cbn; intuition lia.
Qed.

(* The reported stride of dim k is the product of the sizes of the dims listed after it, and
   moving by d in dim k moves the linear index by d strides. *)
Theorem C20_strides : forall (n : nat) (p p1 p2 : list nat) (k : nat) (sizes j : list Z) (d : Z),
  Permutation p (seq 0 n) -> p = p1 ++ k :: p2 -> length sizes = n -> length j = n ->
  gl_stride p sizes k = zprod (map (fun i => nth i sizes 0) p2) /\
  gl_layout p sizes (set_nth k (nth k j 0 + d) j) = gl_layout p sizes j + d * gl_stride p sizes k.
Proof. exact layout_strides. Qed.
Print Assumptions C20_strides.

Example C20_strides_ex :
  let p := [2; 0; 1]%nat in let sizes := [2; 3; 4] in
  (gl_stride p sizes 0, gl_stride p sizes 1, gl_stride p sizes 2) = (3, 1, 6) /\
  gl_layout p sizes [1; 2; 3] - gl_layout p sizes [1; 2; 1] = 2 * 6.
Proof. vm_compute. auto. Qed.
