(* C46: finite-difference coefficients reproduce derivatives of polynomials exactly (in exact arithmetic). *)
From Coq Require Import QArith Qcanon.
From Verif Require Import Base FD_Model FD_Spec FDSim_Proofs.
Open Scope Z_scope.

(* Full property: with enough distinct points the weights are exact on all polynomials of degree
   below the number of points. *)
Theorem C46_exact_on_polynomials : forall order x0 (pts : list Qc),
  1 <= order -> order + 1 <= Z.of_nat (length pts) -> NoDup pts ->
  exists ws, get_arbitrary_fd_coefficients order x0 pts = Ok ws /\ length ws = length pts /\
    forall p, (length p <= length pts)%nat ->
      weighted_sum ws pts (peval p) = deriv_at (Z.to_nat order) p x0.
Proof. exact fd_exact. Qed.
Print Assumptions C46_exact_on_polynomials.

Theorem C46_center : forall order radius, 1 <= order <= 2 * radius -> 1 <= radius ->
  exists ws, get_center_fd_coefficients order radius = Ok ws /\ length ws = Z.to_nat (2 * radius + 1) /\
    forall p, (length p <= Z.to_nat (2 * radius + 1))%nat ->
      weighted_sum ws (map zq (zrange (- radius) (radius + 1))) (peval p) = deriv_at (Z.to_nat order) p 0%Qc.
Proof. exact fd_center. Qed.
Print Assumptions C46_center.

Theorem C46_forward : forall order accuracy, 1 <= order <= accuracy ->
  exists ws, get_forward_fd_coefficients order accuracy = Ok ws /\ length ws = Z.to_nat (accuracy + 1) /\
    forall p, (length p <= Z.to_nat (accuracy + 1))%nat ->
      weighted_sum ws (map zq (zrange 0 (accuracy + 1))) (peval p) = deriv_at (Z.to_nat order) p 0%Qc.
Proof. exact fd_forward. Qed.
Print Assumptions C46_forward.

Theorem C46_backward : forall order accuracy, 1 <= order <= accuracy ->
  exists ws, get_backward_fd_coefficients order accuracy = Ok ws /\ length ws = Z.to_nat (accuracy + 1) /\
    forall p, (length p <= Z.to_nat (accuracy + 1))%nat ->
      weighted_sum ws (map zq (zrange (- accuracy) 1)) (peval p) = deriv_at (Z.to_nat order) p 0%Qc.
Proof. exact fd_backward. Qed.
Print Assumptions C46_backward.

Theorem C46_errors : forall order x0 pts, order < 1 \/ (length pts < 2)%nat ->
  get_arbitrary_fd_coefficients order x0 pts = Throw.
Proof. exact fd_errors. Qed.
Print Assumptions C46_errors.

(* With fewer than order+1 points the work array is read out of bounds. *)
Theorem C46_few_points_refuted : exists order x0 pts,
  1 <= order /\ (2 <= length pts)%nat /\ NoDup pts /\ get_arbitrary_fd_coefficients order x0 pts = UB.
Proof.
  exists 2, 0%Qc, [zq 0; zq 1]. split; [lia|]. split; [cbn; lia|]. split; [exact (zrange_pts_nodup 0 2)|].
  vm_compute. reflexivity.
Qed.
Print Assumptions C46_few_points_refuted.

(* Second derivative, radius 1: weights 1, -2, 1. *)
Example C46_example :
  rbind (get_center_fd_coefficients 2 1) (fun ws => Ok (map this ws)) = Ok [1%Q; (-2)%Q; 1%Q] /\
  this (weighted_sum [zq 1; zq (-2); zq 1] [zq (-1); zq 0; zq 1] (peval [zq 5; zq 3; zq 7])) = 14%Q.
Proof. split; vm_compute; reflexivity. Qed.

Example C46_hypotheses_hold : 1 <= 2 /\ 2 + 1 <= Z.of_nat (length [zq 0; zq 1; zq 3]) /\ NoDup [zq 0; zq 1; zq 3].
Proof.
  split; [lia|]. split; [cbn; lia|]. change (NoDup (map zq [0; 1; 3])).
  apply FinFun.Injective_map_NoDup; [exact zq_inj|]. repeat constructor; cbn; lia.
Qed.
