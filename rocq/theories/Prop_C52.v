(* C52: the outer and inner thread counts are at least one and their product is within the budget. *)
From Verif Require Import Base Threads_Model Threads_Proofs.

(* For every setting, including zero, negative and over-large ones.  A maximum below one counts as one.
   Explicit requests that fit are honoured, and an automatic outer count wastes less than one outer thread. *)
Theorem C52_budget : forall mt ni no ct ot it,
  get_num_comp_threads mt ni no = (ct, ot, it) ->
  1 <= ot /\ 1 <= it /\ ct = ot * it /\ ot * it <= Z.max mt 1 /\
  (1 <= ni <= mt -> it = ni) /\
  (1 <= no -> 1 <= ni -> no * ni <= mt -> ot = no /\ it = ni) /\
  (no <= 0 -> Z.max mt 1 < (ot + 1) * it).
Proof. exact comp_threads_spec. Qed.
Print Assumptions C52_budget.

(* The numbers handed to OpenMP. *)
Theorem C52_configured : forall mt ni no,
  let '(r, n0, n1) := set_num_outer_threads mt ni no in
  r = n0 /\ n1 = set_num_inner_threads mt ni no /\ 1 <= n0 /\ 1 <= n1 /\ n0 * n1 <= Z.max mt 1.
Proof. exact threads_set. Qed.
Print Assumptions C52_configured.

Example C52_example : get_num_comp_threads 14 4 0 = (12, 3, 4) /\ get_num_comp_threads 8 100 7 = (8, 1, 8) /\ get_num_comp_threads (-3) 0 (-1) = (1, 1, 1).
Proof. repeat split. Qed.
