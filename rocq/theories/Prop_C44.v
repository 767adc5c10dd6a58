(* C44: Automatic rank/thread grids multiply to the requested count. *)
From Coq Require Import String.
From Verif Require Import Base Tuple_Model Factors_Model Factors_Spec Factors_Proofs.
Open Scope string_scope.
Open Scope Z_scope.

(* If some factorisation keeps the fixed entries (those > 0), a most compact such one is returned.
   Otherwise the fixed entries are ignored and a most compact factorisation is returned (N > 1). *)
Theorem C44_factors_partial : forall N t, 1 <= N -> vals t <> [] -> Forall (fun d => 0 <= d) (vals t) ->
  let r := vals (get_compact_factors N t) in
  let P f := factorisation N (List.length (vals t)) f in
  ((exists f, P f /\ keeps (vals t) f) -> most_compact (fun f => P f /\ keeps (vals t) f) r) /\
  (~ (exists f, P f /\ keeps (vals t) f) -> N <> 1 -> most_compact P r).
Proof. exact compact_factors. Qed.
Print Assumptions C44_factors_partial.

Example C44_ex :
  let t := mkTuple [("x", 0); ("y", 3); ("z", 0)] true in
  vals (get_compact_factors 60 t) = [5; 3; 4] /\
  factorisation 60 3 [5; 3; 4] /\ keeps (vals t) [5; 3; 4] /\ keeps (vals t) [20; 3; 1] /\
  vals (get_compact_factors 60 (mkTuple [("x", 0); ("y", 7); ("z", 0)] true)) = [5; 4; 3].
Proof.
  cbv zeta. split; [vm_compute; reflexivity|].
  split; [split; [reflexivity|split; [repeat constructor; lia|reflexivity]]|].
  split; [repeat constructor; cbn; lia|]. split; [repeat constructor; cbn; lia|].
  vm_compute. reflexivity.
Qed.

(* FALSE of the code as stated: fixed entries that cannot be kept are changed silently, no exception. *)
Theorem C44_preset_changed_refuted : exists N t,
  1 <= N /\ vals t <> [] /\ Forall (fun d => 0 <= d) (vals t) /\
  (forall f, factorisation N (List.length (vals t)) f -> ~ keeps (vals t) f) /\
  product (get_compact_factors N t) = N /\ ~ keeps (vals t) (vals (get_compact_factors N t)).
Proof.
  exists 4, (mkTuple [("x", 3); ("y", 0)] true). split; [lia|]. split; [discriminate|].
  split; [cbn; repeat (apply Forall_cons; [lia|]); apply Forall_nil|].
  split.
  { intros f (L & P & Z0) K. cbn in K. inversion K as [|? a ? f' Ka Kr]; subst. inversion Kr as [|? b ? f'' _ Kr2]; subst.
    inversion Kr2; subst. cbn in Z0. rewrite Ka in Z0 by lia. lia. }
  split; [vm_compute; reflexivity|]. intros K. vm_compute in K. inversion K as [|? a ? f' Ka Kr]; subst.
  specialize (Ka eq_refl). discriminate.
Qed.
Print Assumptions C44_preset_changed_refuted.

(* FALSE of the code: one rank and an impossible fixed entry give a tuple with no dims at all. *)
Theorem C44_one_refuted : exists t,
  vals t <> [] /\ Forall (fun d => 0 <= d) (vals t) /\
  dims (get_compact_factors 1 t) = [] /\ product (get_compact_factors 1 t) = 1.
Proof.
  exists (mkTuple [("x", 2); ("y", 0)] true). split; [discriminate|]. split; [cbn; repeat (apply Forall_cons; [lia|]); apply Forall_nil|].
  split; vm_compute; reflexivity.
Qed.
Print Assumptions C44_one_refuted.
