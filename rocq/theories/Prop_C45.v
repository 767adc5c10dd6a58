(* C45: Combination enumeration is complete and duplicate-free. *)
From Verif Require Import Base Combo_Model Combo_Spec Combo_Proofs.

(* n <= 29 keeps the 32-bit products in range; k <= 8 is the size of the work array.  [fuel] only has
   to be at least n.  Missing for the full property: larger n and k, where it is false (below). *)
Theorem C45_enumeration_partial : forall n k fuel, 0 <= n <= 29 -> 0 <= k <= 8 -> (Z.to_nat n <= fuel)%nat ->
  let N := binom (Z.to_nat n) (Z.to_nat k) in
  n_choose_k n k = Ok N /\
  (forall r, 0 <= r < N -> exists c, n_choose_k_set fuel n k r = Ok c /\ subset_mask n k c) /\
  (forall r1 r2, 0 <= r1 < N -> 0 <= r2 < N ->
     n_choose_k_set fuel n k r1 = n_choose_k_set fuel n k r2 -> r1 = r2) /\
  (forall c, subset_mask n k c -> exists r, 0 <= r < N /\ n_choose_k_set fuel n k r = Ok c).
Proof. exact n_choose_k_set_bij. Qed.
Print Assumptions C45_enumeration_partial.

(* The coefficient alone: right whenever no intermediate product exceeds the int range. *)
Theorem C45_coefficient : forall n k, 0 <= n -> 0 <= k ->
  (forall i, 2 <= i <= Z.min k (n - k) -> i * binom (Z.to_nat n) (Z.to_nat i) <= int_max) ->
  n_choose_k n k = Ok (binom (Z.to_nat n) (Z.to_nat k)).
Proof. exact n_choose_k_spec. Qed.
Print Assumptions C45_coefficient.

Example C45_ex :
  n_choose_k 5 3 = Ok 10 /\ binom 5 3 = 10 /\
  map (n_choose_k_set 5 5 3) (zseq 10) =
    [Ok 7; Ok 11; Ok 19; Ok 13; Ok 21; Ok 25; Ok 14; Ok 22; Ok 26; Ok 28] /\
  subset_mask 5 3 22 /\ ~ subset_mask 5 3 23.
Proof.
  split; [reflexivity|]. split; [reflexivity|]. split; [vm_compute; reflexivity|].
  split; [split; [cbn; lia|reflexivity]|]. intros (_ & H). vm_compute in H. discriminate.
Qed.

(* FALSE of the code beyond the work array of sizeof(size_t) = 8 entries, although up to 64 are allowed. *)
Theorem C45_work_array_refuted : exists n k r fuel,
  0 <= k <= n /\ n <= 64 /\ 0 <= r < binom (Z.to_nat n) (Z.to_nat k) /\
  n_choose_k n k = Ok (binom (Z.to_nat n) (Z.to_nat k)) /\ n_choose_k_set fuel n k r = UB.
Proof. exists 10, 9, 0, 100%nat. split; [lia|]. split; [lia|]. split; [vm_compute; split; [discriminate|reflexivity]|].
  split; vm_compute; reflexivity. Qed.
Print Assumptions C45_work_array_refuted.

(* FALSE of the code when a product overflows although the coefficient itself fits. *)
Theorem C45_overflow_refuted : exists n k,
  0 <= k <= n /\ n <= 64 /\ binom (Z.to_nat n) (Z.to_nat k) <= int_max /\ n_choose_k n k = UB.
Proof.
  exists 30, 15. split; [lia|]. split; [lia|]. split; [exact binom_30_15'|vm_compute; reflexivity].
Qed.
Print Assumptions C45_overflow_refuted.
