(* C62: a constant of the stencil is printed as a literal that the C++ compiler reads back as the same number. *)
From Coq Require Import String QArith Qabs.
From Verif Require Import Base Expr_Model Expr_Spec Print_Model Print_Spec Dec_Proofs Double_Proofs PrintEval_Proofs PrintConst_Proofs Print_Examples.
Open Scope Z_scope.

(* Every constant below 2^31 is printed as a literal, possibly with a minus sign, that stands for a number of 16 decimal
   digits closest to it; so constants of at most 16 digits, such as integers, are printed exactly.  Full claim: every
   double is read back as itself; refuted below. *)
Theorem C62_constants_partial : forall q, (Qabs q < inject_Z (2 ^ 31))%Q -> exists t c p,
  format_real q = Ok t /\ parse t = Some c /\ lit_val c = Some p /\ nearest16 q p.
Proof. exact constants. Qed.
Print Assumptions C62_constants_partial.

(* A double that some number of 16 digits is read as, such as the value of a literal of at most 16 digits, is printed as
   a literal that is read as the same double.  Partial: not for powers of two, unless they have 16 digits. *)
Theorem C62_read_back_partial : forall q d, (Qabs q < inject_Z (2 ^ 31))%Q -> double q -> digits16 d -> reads_as d q ->
  (~ power2 q \/ (d == q)%Q) -> exists t c p,
  format_real q = Ok t /\ parse t = Some c /\ lit_val c = Some p /\ reads_as p q.
Proof. exact constants_back. Qed.
Print Assumptions C62_read_back_partial.

(* 0.1 + 0.2 needs 17 digits: it is printed as 3.000000000000000e-01, which is read as another double. *)
Theorem C62_precision_refuted : exists q p, double q /\ format_real q = Ok [TReal p] /\ ~ reads_as p q.
Proof. exact three_tenths. Qed.
Print Assumptions C62_precision_refuted.

(* 2^-24 is the value of the literal 5.960464477539063e-08 but is printed as 5.960464477539062e-08, another double. *)
Theorem C62_power_refuted : exists q d p, double q /\ digits16 d /\ reads_as d q /\ format_real q = Ok [TReal p] /\ ~ reads_as p q.
Proof. exact power_24. Qed.
Print Assumptions C62_power_refuted.

(* The test for integers converts to int: undefined for large constants. *)
Theorem C62_range_refuted : exists q, double q /\ format_real q = UB.
Proof. exists (inject_Z (10 ^ 10)). split; [exists (10 ^ 10), 0; split; reflexivity|reflexivity]. Qed.
Print Assumptions C62_range_refuted.

(* Literals 0.1 (as a double), -7 and -2.5 *)
Example C62_tenth : let q := (3602879701896397 # 36028797018963968)%Q in
  (Qabs q < inject_Z (2 ^ 31))%Q /\ double q /\ digits16 (1 # 10) /\ reads_as (1 # 10) q /\ ~ power2 q /\
  format_real q = Ok [TReal (1000000000000000 # 10000000000000000)].
Proof. exact tenth. Qed.
Example C62_texts : format_real (-7) = Ok [TMinus; TInt 7] /\
  format_real (-5 # 2) = Ok [TMinus; TReal (2500000000000000 # 1000000000000000)] /\
  reads_as (1 # 2) (1 # 2) /\ digits16 (1 # 2) /\ power2 (1 # 2).
Proof. exact half_texts. Qed.
