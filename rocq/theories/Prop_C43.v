(* C43: Tuple comparison is a strict total order consistent with equality. *)
From Coq Require Import String.
From Verif Require Import Base Tuple_Model Tuple_Proofs.

Theorem C43_tuple_order :
  (forall a, tuple_lt a a = false) /\
  (forall a b c, tuple_lt a b = true -> tuple_lt b c = true -> tuple_lt a c = true) /\
  (forall a b, tuple_eq a b = true <-> dims a = dims b) /\
  (forall a b, (tuple_lt a b = true /\ tuple_lt b a = false /\ tuple_eq a b = false) \/
               (tuple_lt a b = false /\ tuple_lt b a = true /\ tuple_eq a b = false) \/
               (tuple_lt a b = false /\ tuple_lt b a = false /\ tuple_eq a b = true)) /\
  (forall a b, tuple_le a b = negb (tuple_lt b a)) /\
  (forall a b, tuple_gt a b = tuple_lt b a) /\
  (forall a b, tuple_ge a b = tuple_le b a).
Proof. exact tuple_order. Qed.
Print Assumptions C43_tuple_order.

Example C43_tuple_order_ex :
  let a := mkTuple [("x"%string, 1); ("y"%string, 5)] true in
  let b := mkTuple [("x"%string, 2); ("y"%string, 0)] true in
  let c := mkTuple [("x"%string, 2); ("z"%string, 0)] true in
  tuple_lt a b = true /\ tuple_lt b c = true /\ tuple_lt a c = true /\ tuple_lt b a = false.
Proof. vm_compute. auto. Qed.
