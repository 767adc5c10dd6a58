(* C01: Any dependence-respecting schedule gives the reference result. *)
From Verif Require Import Base Sched_Spec Sched_Proofs.

(* [r] = the reference order, [l] = another order of the same instances.  [respects] states the conditions of the property;
   for [r] it says that the stencil can be run step by step at all with the given numbers of allocated steps. *)
Theorem C01_respects : forall V (alloc : Z -> Z) (st : stencil V) dir r l m, dir = 1 \/ dir = -1 ->
  NoDup r -> Permutation r l -> respects alloc st dir r -> respects alloc st dir l ->
  forall c, exec alloc st l m c = exec alloc st r m c.
Proof. exact @exec_respects. Qed.
Print Assumptions C01_respects.

(* In terms of storage only: it is enough that two instances of which one writes a cell the other reads or writes keep
   their reference order. *)
Theorem C01_conflict_order : forall V (alloc : Z -> Z) (st : stencil V) r l m, NoDup r -> Permutation r l ->
  (forall a b, before r a b -> conflict alloc st a b -> before l a b) ->
  forall c, exec alloc st l m c = exec alloc st r m c.
Proof. exact @exec_conflict_order. Qed.
Print Assumptions C01_conflict_order.

(* u(t+1,x) = u(t,x-1) + 2 u(t,x) + 3 u(t,x+1), two steps allocated, two steps run over x = 0, 1, 2:
   the skewed order computes step 1 at x = 0 before step 0 at x = 2. *)
Definition C01_heat : stencil Z := mkStencil Z
  (fun i => match i_p i with [x] => [(0, i_t i, [x - 1]); (0, i_t i, [x]); (0, i_t i, [x + 1])] | _ => [] end)
  (fun i => [(0, i_t i + 1, i_p i)])
  (fun i vs _ => match vs with [a; b; c] => a + 2 * b + 3 * c | _ => 0 end).
Definition C01_ref := [mkInst 0 0 [0]; mkInst 0 0 [1]; mkInst 0 0 [2]; mkInst 1 0 [0]; mkInst 1 0 [1]; mkInst 1 0 [2]].
Definition C01_skew := [mkInst 0 0 [0]; mkInst 0 0 [1]; mkInst 1 0 [0]; mkInst 0 0 [2]; mkInst 1 0 [1]; mkInst 1 0 [2]].
Definition C01_init : cell -> Z := fun c => match c with (_, s, [x]) => if s =? 0 then x * x + 1 else 0 | _ => 0 end.

Ltac bf := solve [repeat first [apply before_head; cbn; tauto | apply before_cons]].
Ltac brute := intros; cbn in *;
  repeat match goal with
  | H : _ \/ _ |- _ => destruct H
  | H : False |- _ => destruct H
  | H : _ = ?i |- _ => is_var i; subst i
  end; cbn in *;
  repeat match goal with H : (_, _, _) = (_, _, _) |- _ => injection H as ?; subst end; try congruence;
  repeat match goal with
  | H : _ \/ _ |- _ => destruct H
  | H : False |- _ => destruct H
  | H : _ = ?i |- _ => is_var i; subst i
  end; try congruence; cbn in *; try discriminate; try (exfalso; lia); try bf.
Example C01_respects_ex :
  respects (fun _ => 2) C01_heat 1 C01_ref /\ respects (fun _ => 2) C01_heat 1 C01_skew /\ NoDup C01_ref /\ Permutation C01_ref C01_skew /\
  map (exec (fun _ => 2) C01_heat C01_skew C01_init) [(0, 0, [0]); (0, 0, [1]); (0, 0, [2])] = [80; 176; 104] /\
  map (exec (fun _ => 2) C01_heat C01_ref C01_init) [(0, 0, [0]); (0, 0, [1]); (0, 0, [2])] = [80; 176; 104].
Proof.
  split; [constructor; brute|]. split; [constructor; brute|].
  split; [repeat constructor; cbn; intuition discriminate|].
  split; [unfold C01_ref, C01_skew; do 2 apply perm_skip; apply perm_swap|].
  split; vm_compute; reflexivity.
Qed.
