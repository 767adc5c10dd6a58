(* Binomial coefficients by Pascal's rule, and k-element subsets of {0, ..., n-1} as bit masks. *)
From Verif Require Import Base.

Fixpoint binom (n k : nat) : Z :=
  match n, k with
  | _, O => 1
  | O, S _ => 0
  | S n', S k' => binom n' k' + binom n' k
  end.

Definition subset_mask (n k c : Z) : Prop :=
  0 <= c < 2 ^ n /\ Z.of_nat (length (filter (Z.testbit c) (zseq n))) = k.
