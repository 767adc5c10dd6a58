(* C21: Step indices wrap correctly, also for negative steps. *)
From Verif Require Import Base Var_Model Var_Proofs.

Theorem C21_step_wrap : forall n, 1 <= n ->
  (forall t, 0 <= wrap_step t n < n) /\
  (forall t u, wrap_step t n = wrap_step u n <-> exists k, t = u + k * n) /\
  (forall t u, t <> u -> Z.abs (t - u) < n -> wrap_step t n <> wrap_step u n).
Proof. exact step_wrap_spec. Qed.
Print Assumptions C21_step_wrap.

Example C21_step_wrap_ex :
  map (fun t => wrap_step t 3) [-4; -3; -2; -1; 0; 1; 2; 3] = [2; 0; 1; 2; 0; 1; 2; 0].
Proof. vm_compute. reflexivity. Qed.
