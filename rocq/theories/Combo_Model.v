(* src/common/combo.cpp and combo.hpp:44-60: binomial coefficients and enumeration of k-element
   subsets as bit masks.  'int' is 32 bits: a product that does not fit is UB.  size_t is 64 bits:
   setting a bit outside 0..63 is UB.  Asserts are off. *)
From Verif Require Import Base.

Definition int_max : Z := 2147483647.

(* combo.cpp:57-62: for (i = 2; i <= k; i++) { nc *= (n - i + 1); nc /= i; } *)
Fixpoint nck_loop (cnt : nat) (n i nc : Z) : res Z :=
  match cnt with
  | O => Ok nc
  | S c =>
      let p := nc * (n - i + 1) in
      if p <=? int_max then nck_loop c n (i + 1) (Z.quot p i) else UB
  end.

(* combo.cpp:37-64 *)
Definition n_choose_k (n k : Z) : res Z :=
  if (k <=? 0) || (k =? n) then Ok 1
  else if n <? k then Ok 0
  else let k' := if n <? k * 2 then n - k else k in
       nck_loop (Z.to_nat (k' - 1)) n 2 n.

(* combo.hpp:50-55 *)
Definition set_bit (c i : Z) : res Z :=
  if (0 <=? i) && (i <? 64) then Ok (Z.setbit c i) else UB.

(* combo.cpp:92-98: the "while (true)" loop for one i; returns ca[i] and j.  [a]: ca[i] before ++.
   [kk] is k - (i+1). *)
Fixpoint ca_loop (fuel : nat) (n kk r a j : Z) : res (Z * Z) :=
  match fuel with
  | O => OutOfFuel
  | S f =>
      let a := a + 1 in
      rbind (n_choose_k (n - (a + 1)) kk) (fun nc =>
      if r + 1 <=? j + nc then Ok (a, j) else ca_loop f n kk r a (j + nc))
  end.

(* combo.cpp:90-99: for (i = 0; i < k-1; i++); [prev] is ca[i-1] or -1.
   'int ca[sizeof(size_t)]' has 8 entries: writing ca[i] with i >= 8 is UB. *)
Fixpoint ca_outer (cnt : nat) (fuel : nat) (n k r i prev j : Z) : res (list Z * Z * Z) :=
  match cnt with
  | O => Ok ([], prev, j)
  | S c =>
      if 8 <=? i then UB
      else rbind (ca_loop fuel n (k - (i + 1)) r prev j) (fun aj =>
           rbind (ca_outer c fuel n k r (i + 1) (fst aj) (snd aj)) (fun t =>
           Ok (fst aj :: fst (fst t), snd (fst t), snd t)))
  end.

(* combo.cpp:102-106 *)
Fixpoint set_bits (l : list Z) (c : Z) : res Z :=
  match l with
  | [] => Ok c
  | b :: r => rbind (set_bit c b) (fun c' => set_bits r c')
  end.

(* combo.cpp:69-110.  The inner loop does not terminate when r is too large; [fuel] bounds it. *)
Definition n_choose_k_set (fuel : nat) (n k r : Z) : res Z :=
  if (n <=? 0) || (k <=? 0) then Ok 0
  else if k =? 1 then set_bit 0 r
  else rbind (ca_outer (Z.to_nat (k - 1)) fuel n k r 0 (-1) 0) (fun t =>
       if 8 <=? k - 1 then UB
       else set_bits (fst (fst t) ++ [snd (fst t) + r - snd t + 1]) 0).
