(* C41: Ordered-set container behaves like an ordered set. *)
From Verif Require Import Base VecSet_Model VecSet_Spec VecSet_Proofs.

(* Histories in which every erase but the last is of an absent item or of the back item.
   Full statement: the same without that restriction; it is false (below). *)
Theorem C41_one_erase_partial : forall A (eqd : forall a b : A, {a = b} + {a <> b}) ops1 x ops2 l,
  back_erases eqd [] ops1 -> no_erase ops2 ->
  oset_run eqd [] (ops1 ++ VErase x :: ops2) = Some l ->
  exists s, vs_run eqd vs_empty (ops1 ++ VErase x :: ops2) = Ok s /\
    vs_items s = l /\ NoDup l /\ (forall y, vs_count eqd s y = true <-> In y l).
Proof. exact vset_history. Qed.
Print Assumptions C41_one_erase_partial.

(* When all erases are at the back, the positions are right as well. *)
Theorem C41_back_erases_partial : forall A (eqd : forall a b : A, {a = b} + {a <> b}) ops l,
  back_erases eqd [] ops -> oset_run eqd [] ops = Some l ->
  exists s, vs_run eqd vs_empty ops = Ok s /\
    vs_items s = l /\ NoDup l /\ (forall y, vs_count eqd s y = true <-> In y l) /\
    (forall y p, posn_find A eqd y (vs_posn s) = Some p <-> nth_error l p = Some y).
Proof. exact vset_back_history. Qed.
Print Assumptions C41_back_erases_partial.

Example C41_ex :
  let ops1 := [VInsert 5; VInsert 7; VInsert 5; VInsert 9; VSwap 0 2; VErase 5; VErase 6; VInsert 8; VInsert 3] in
  let ops2 := [VInsert 7; VInsert 1; VSwap 2 3] in
  back_erases Z.eq_dec [] ops1 /\ no_erase ops2 /\
  oset_run Z.eq_dec [] (ops1 ++ VErase 7 :: ops2) = Some [9; 8; 7; 3; 1].
Proof.
  cbv zeta. split; [|split].
  - cbn. repeat (split; [first [exact I | right; exists [9; 7]; reflexivity | left; lia]|]). exact I.
  - intros x C. cbn in C. intuition discriminate.
  - reflexivity.
Qed.

(* FALSE of the code: after erasing an item, erasing a later one removes the wrong item... *)
Theorem C41_erase_twice_refuted : exists (ops : list (vs_op Z)) l s,
  oset_run Z.eq_dec [] ops = Some l /\ vs_run Z.eq_dec vs_empty ops = Ok s /\
  vs_items s <> l /\ exists y, In y (vs_items s) /\ vs_count Z.eq_dec s y = false.
Proof.
  exists [VInsert 1; VInsert 2; VInsert 3; VErase 1; VErase 2], [3]. eexists.
  split; [reflexivity|]. split; [reflexivity|]. split; [cbn; discriminate|].
  exists 2. split; [left; reflexivity|reflexivity].
Qed.
Print Assumptions C41_erase_twice_refuted.

(* ... or accesses the vector beyond its end; adding and removing a part with two equations does that. *)
Theorem C41_remove_part_refuted : exists (eqs : list Z) l,
  oset_run Z.eq_dec [] (add_part_eqs eqs ++ remove_part_eqs eqs) = Some l /\
  vs_run Z.eq_dec vs_empty (add_part_eqs eqs ++ remove_part_eqs eqs) = UB.
Proof. exists [1; 2], []. split; reflexivity. Qed.
Print Assumptions C41_remove_part_refuted.
