(* Polynomials over the rationals as coefficient lists (constant term first), their value and derivative. *)
From Coq Require Import QArith Qcanon.
From Verif Require Import Base FD_Model.
Open Scope Z_scope.

Fixpoint peval (p : list Qc) (x : Qc) : Qc :=
  match p with
  | [] => 0%Qc
  | a :: r => (a + x * peval r x)%Qc
  end.

(* derivative of a0 + a1 x + a2 x^2 + ... is a1 + 2 a2 x + ...; [k] is the exponent of the head *)
Fixpoint pderiv_from (k : Z) (p : list Qc) : list Qc :=
  match p with
  | [] => []
  | a :: r => (zq k * a)%Qc :: pderiv_from (k + 1) r
  end.
Definition pderiv (p : list Qc) : list Qc :=
  match p with
  | [] => []
  | _ :: r => pderiv_from 1 r
  end.

(* n-th derivative of p at x *)
Definition deriv_at (n : nat) (p : list Qc) (x : Qc) : Qc := peval (Nat.iter n pderiv p) x.

(* sum of weight * value over the sample points *)
Definition weighted_sum (ws pts : list Qc) (f : Qc -> Qc) : Qc :=
  fold_right (fun wx acc => (fst wx * f (snd wx) + acc)%Qc) 0%Qc (combine ws pts).
