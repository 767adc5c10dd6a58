(* C61: the printed C++ statements of a part compute the values of its equations. *)
From Coq Require Import String QArith Qabs Qcanon.
From Verif Require Import Base Expr_Model Expr_Spec Expr_Proofs ExprOpt_Proofs Print_Model Print_Spec Print_Proofs Dec_Proofs Double_Proofs PrintEval_Proofs PrintRun_Proofs Print_Examples Pair_Model Pair_Proofs Pair_Examples.
Open Scope Z_scope.

(* For every object graph, sharing, pairing, size limits and number system in which the integer literals are exact: the
   printed statements, read as C++ and run in order, are defined and write to each point the value of its equation, sums
   and products taken from left to right.  Partial: the expressions are [printable]; the refutations below show what
   happens without each of its conditions. *)
Theorem C61_printed_value_partial : forall V (N : nsys V) ix B h count size pair max_size min_size eqs es,
  ints_exact N B -> pairs_ok N h pair -> Forall2 (stands h) (map snd eqs) es -> Forall (printable N B) es ->
  exists f0, forall f, (f0 <= f)%nat -> exists prog en,
    print_part h count size pair max_size min_size f eqs = Ok prog /\
    run N ix (fun _ => None) prog = Some (en, combine (map fst eqs) (map (lval N) es)).
Proof. exact @print_part_ok. Qed.
Print Assumptions C61_printed_value_partial.

(* The pairing of sin and cos meets the condition on paired functions in every lawful number system, if negation and
   subtraction do not both occur. *)
Theorem C61_pairing_partial : forall V (N : nsys V), lawful N -> forall h roots es, nodes_ok h -> no_clash h ->
  Forall2 (stands h) roots es ->
  exists f0, forall fuel, (f0 <= fuel)%nat -> exists m, pair_all fuel h roots = Ok m /\ pairs_ok N h m.
Proof. exact @pair_all_ok. Qed.
Print Assumptions C61_pairing_partial.

(* Elimination of common sub-expressions, then pairing, then printing: the code that comes out writes the values of the
   original equations. *)
Theorem C61_compiled_value_partial : forall V (N : nsys V) ix B, lawful N -> ints_exact N B -> forall h roots es,
  nodes_ok h -> no_clash h -> Forall2 (stands h) roots es ->
  exists f0, forall fuel, (f0 <= fuel)%nat -> exists h' roots' es', cse fuel h roots = Ok (h', roots') /\ Forall2 (stands h') roots' es' /\
  exists f1, forall fuel', (f1 <= fuel')%nat -> exists m, pair_all fuel' h' roots' = Ok m /\
  (Forall (printable N B) es' -> forall points count size max_size min_size, List.length points = List.length roots ->
  exists f2, forall f, (f2 <= f)%nat -> exists prog en,
    print_part h' count size m max_size min_size f (combine points roots') = Ok prog /\
    run N ix (fun _ => None) prog = Some (en, combine points (map (value N) es))).
Proof. exact @compiled_ok. Qed.
Print Assumptions C61_compiled_value_partial.

(* With both, sin(a - b) is paired with cos(-b), and the call computes cos(a - b). *)
Theorem C61_pairing_refuted : exists h root e m x prog en, lawful qc /\ nodes_ok h /\ stands h root e /\
  pair_all 9 h [root] = Ok m /\ print_part h (fun _ => 1) (fun _ => 3) m 50 2 9 [("u"%string, root)] = Ok prog /\
  run qc (fun _ _ => 0) (fun _ => None) prog = Some (en, [("u"%string, x)]) /\ x <> value qc e.
Proof.
  exists clash, 0, clash_e. do 4 eexists. split; [exact qc_lawful|]. split; [apply heap_of_nodes; repeat constructor|].
  split; [apply (tree_of_stands 5); reflexivity|]. split; [vm_compute; reflexivity|]. split; [vm_compute; reflexivity|].
  split; [cbn; reflexivity|]. intros C. apply (f_equal this) in C. vm_compute in C. discriminate.
Qed.
Print Assumptions C61_pairing_refuted.

(* Integer-valued constants are printed as int literals: the quotient of two of them is an integer division. *)
Theorem C61_division_refuted : exists h a e x, stands h a e /\ lval qv e <> x /\
  forall fuel, (2 <= fuel)%nat -> exists prog en,
    print_part h (fun _ => 1) (fun _ => 3) (fun _ => None) 50 2 fuel [("u"%string, a)] = Ok prog /\
    run qv (fun _ _ => 0) (fun _ => None) prog = Some (en, [("u"%string, x)]).
Proof.
  exists (heap_of [(LConst 1, []); (LConst 3, []); (LBin ODiv, [0; 1])]), 2, (E (LBin ODiv) [E (LConst 1) []; E (LConst 3) []]), 0%Q.
  split; [repeat (econstructor; try reflexivity)|]. split; [vm_compute; discriminate|].
  intros fuel Hf. destruct fuel as [|[|fuel]]; [inversion Hf|inversion Hf as [|? H0]; inversion H0|]. do 2 eexists. split; [vm_compute; reflexivity|]. vm_compute; reflexivity.
Qed.
Print Assumptions C61_division_refuted.

(* A negation right below a negation is printed as "--": no expression. *)
Theorem C61_negation_refuted : exists h a e prog, stands h a e /\
  (forall fuel, (3 <= fuel)%nat -> print_part h (fun _ => 1) (fun _ => 3) (fun _ => None) 50 2 fuel [("u"%string, a)] = Ok prog) /\
  forall V (N : nsys V) ix en, run N ix en prog = None.
Proof.
  exists (heap_of [(LVar "v", []); (LNeg, [0]); (LNeg, [1])]), 2, (E LNeg [E LNeg [E (LVar "v") []]]).
  eexists. split; [repeat (econstructor; try reflexivity)|]. split.
  - intros fuel Hf. destruct fuel as [|[|[|fuel]]]; [inversion Hf|inversion Hf as [|? H0]; inversion H0|
      inversion Hf as [|? H0]; inversion H0 as [|? H1]; inversion H1|]. vm_compute. reflexivity.
  - intros V N ix en. cbn. destruct (en 1); reflexivity.
Qed.
Print Assumptions C61_negation_refuted.

(* A product of integer-valued constants is a product of ints: 100000 * 100000 * v is undefined. *)
Theorem C61_overflow_refuted : exists h a e prog, stands h a e /\ lval qv e = inject_Z 7500000000 /\
  (forall fuel, (3 <= fuel)%nat -> print_part h (fun _ => 1) (fun _ => 3) (fun _ => None) 50 2 fuel [("u"%string, a)] = Ok prog) /\
  forall V (N : nsys V) ix en, run N ix en prog = None.
Proof.
  exists (heap_of [(LVar "v", []); (LConst 100000, []); (LComm OMul, [1; 1; 0])]), 2,
    (E (LComm OMul) [E (LConst 100000) []; E (LConst 100000) []; E (LVar "v") []]).
  eexists. split; [repeat (econstructor; try reflexivity)|]. split; [vm_compute; reflexivity|]. split.
  - intros fuel Hf. destruct fuel as [|[|[|fuel]]]; [inversion Hf|inversion Hf as [|? H0]; inversion H0|
      inversion Hf as [|? H0]; inversion H0 as [|? H1]; inversion H1|]. vm_compute. reflexivity.
  - intros V N ix en. cbn. destruct (en 1); reflexivity.
Qed.
Print Assumptions C61_overflow_refuted.

(* The value of a domain index on the right-hand side: the scalar and the vector code of the same equation write
   different values to the same element. *)
Theorem C61_index_refuted : exists h a prog rank_start vlen g x y en1 en2, x <> y /\ 0 < vlen /\ rank_start <= g /\
  print_part h (fun _ => 1) (fun _ => 1) (fun _ => None) 50 2 5 [("u"%string, a)] = Ok prog /\
  run qv (fun _ _ => scalar_ix g) (fun _ => None) prog = Some (en1, [("u"%string, x)]) /\
  run qv (fun _ _ => vector_ix rank_start vlen g) (fun _ => None) prog = Some (en2, [("u"%string, y)]).
Proof.
  exists (heap_of [(LIndex "x" DomainI, [])]), 0. eexists. exists 0, 4, 6, 6%Q, 1%Q. do 2 eexists.
  split; [discriminate|]. split; [reflexivity|]. split; [discriminate|]. split; [vm_compute; reflexivity|]. split; [vm_compute; reflexivity|]. vm_compute; reflexivity.
Qed.
Print Assumptions C61_index_refuted.

(* Two equations with shared nodes, paired functions, an integer product and a fraction: all hypotheses hold, and the
   two values are written. *)
Example C61_example : ints_exact qv 1000 /\ pairs_ok qv (heap_of ex_nodes) ex_pair /\
  Forall2 (stands (heap_of ex_nodes)) [11; 5] [e_neg; e_6] /\ Forall (printable qv 1000) [e_neg; e_6] /\
  exists prog en, print_part (heap_of ex_nodes) ex_count (fun _ => 3) ex_pair 4 2 20 [("u"%string, 11); ("w"%string, 5)] = Ok prog /\
    List.length prog = 13%nat /\ run qv (fun _ _ => 0) (fun _ => None) prog = Some (en, [("u"%string, (131 # 54)%Q); ("w"%string, 6%Q)]).
Proof. exact ex_part. Qed.
Example C61_text : print_part (heap_of ex_nodes) ex_count (fun _ => 3) ex_pair 4 2 20 [("w"%string, 5)] =
  Ok [SSet 1 [TLP; TInt 2; TSp; TStar; TSp; TInt 3; TRP]; SWrite "w" 1].
Proof. reflexivity. Qed.
(* sin(a + b) * cos(b + a): the arguments are merged, the functions are paired and one call is printed. *)
Example C61_trig : nodes_ok trig /\ no_clash trig /\ Forall2 (stands trig) [0] [trig_e] /\ lawful qc /\ ints_exact qc 100 /\
  Forall (printable qc 100) [trig_e'] /\
  match cse 9 trig [0] with
  | Ok (h', r') => r' = [0] /\ tree_of 5 h' 0 = Ok trig_e' /\
      match pair_all 9 h' r' with
      | Ok m => m 1 = Some 2 /\ m 2 = Some 1 /\
          print_part h' (fun _ => 1) (fun _ => 3) m 50 2 9 [("u"%string, 0)] =
          Ok [SSet 1 [TInt 0]; SSet 2 [TInt 0];
              SPair "sin" "cos" 1 2 [TLP; TLeaf (LVar "a"); TSp; TPlus; TSp; TLeaf (LVar "b"); TRP];
              SSet 3 [TTemp 1; TSp; TStar; TSp; TTemp 2]; SSet 4 [TTemp 3]; SWrite "u" 4]
      | _ => False
      end
  | _ => False
  end.
Proof. exact trig_ok. Qed.
