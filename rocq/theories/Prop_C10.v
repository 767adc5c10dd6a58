(* C10: Work division among threads is complete and balanced. *)
From Verif Require Import Base Cover_Spec ParFor_Model ParFor_Proofs.

(* [share n] is the sub-range of items given to worker n. *)
Theorem C10_div_equally : forall N P : Z, 0 <= N -> 1 <= P ->
  let share n := (div_equally_cumu_size_n N P (n - 1), div_equally_cumu_size_n N P n) in
  (* consecutive shares from 0 to N *)
  wchain 0 N (map share (zseq P)) /\
  (* every item belongs to exactly one worker *)
  exact_cover in_iv (map share (zseq P)) (in_iv (0, N)) /\
  (* the three functions agree *)
  length (div_equally_all_sizes N P) = Z.to_nat P /\
  zsum (div_equally_all_sizes N P) = N /\
  (forall n, 0 <= n < P ->
     snd (share n) - fst (share n) = div_equally_size_n N P n /\
     div_equally_size_n N P n = znth n (div_equally_all_sizes N P)) /\
  (* sizes differ by at most one, larger ones first *)
  (forall i j, 0 <= i -> i <= j -> j < P ->
     0 <= div_equally_size_n N P i - div_equally_size_n N P j <= 1).
Proof. exact div_equally_complete. Qed.
Print Assumptions C10_div_equally.

Example C10_div_equally_ex :
  div_equally_all_sizes 6 4 = [2; 2; 1; 1] /\
  map (fun n => (div_equally_cumu_size_n 6 4 (n - 1), div_equally_cumu_size_n 6 4 n)) (zseq 4)
  = [(0, 2); (2, 4); (4, 5); (5, 6)].
Proof. vm_compute. auto. Qed.
