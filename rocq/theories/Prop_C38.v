(* C38: Expression optimisations preserve values.
   Full statement for common-sub-expression elimination: as C38_cse_partial without [no_clash].  This is false, see
   C38_cse_refuted: NegExpr::is_same accepts a SubExpr with the same right-hand side. *)
From Coq Require Import String QArith.
From Verif Require Import Base Expr_Model Expr_Spec Expr_Proofs ExprOpt_Proofs.
Open Scope Z_scope.

(* Sums and products built from two expressions. *)
Theorem C38_build : forall V (N : nsys V), lawful N -> forall l r,
  value N (new_comm_node OAdd l r) = n_add N (value N l) (value N r) /\ value N (new_comm_node OMul l r) = n_mul N (value N l) (value N r).
Proof. exact (fun V N H l r => conj (new_comm_value V N H OAdd l r) (new_comm_value V N H OMul l r)). Qed.
Print Assumptions C38_build.

(* Merging of nested sums and products terminates, keeps the value and leaves no nested ones. *)
Theorem C38_combine : forall V (N : nsys V), lawful N -> forall e, exists e', combine_visit e = Ok e' /\ value N e' = value N e /\ flat e'.
Proof. exact combine_ok. Qed.
Print Assumptions C38_combine.

(* Reordering keeps the value, whatever vectors the operands need. *)
Theorem C38_reorder : forall V (N : nsys V), lawful N -> forall needs e, exists e', reorder_visit needs e = Ok e' /\ value N e' = value N e.
Proof. exact reorder_ok. Qed.
Print Assumptions C38_reorder.

(* Common-sub-expression elimination over all equations keeps the value of every right-hand side, and of every other
   expression that shares nodes with them, if negation and subtraction do not both occur. *)
Theorem C38_cse_partial : forall V (N : nsys V), lawful N -> forall h roots es,
  nodes_ok h -> no_clash h -> Forall2 (stands h) roots es ->
  exists f0, forall fuel, (f0 <= fuel)%nat -> exists h' roots', cse fuel h roots = Ok (h', roots') /\
    (exists es', Forall2 (stands h') roots' es' /\ map (value N) es' = map (value N) es) /\
    (forall a e, stands h a e -> exists e', stands h' a e' /\ value N e' = value N e).
Proof. exact cse_ok. Qed.
Print Assumptions C38_cse_partial.

(* Numbers: integers, a = 5, b = 3. *)
Definition C38_Q : nsys Z :=
  mkNsys Z (fun q => Z.quot (Qnum q) (Zpos (Qden q))) (fun _ => 0) (fun s => if String.eqb s "a"%string then 5 else 3) (fun _ _ => 0) (fun _ _ => 0)
    Z.opp Z.sub Z.div Z.modulo Z.add 0 Z.mul 1 0.
Lemma C38_Q_lawful : lawful C38_Q.
Proof.
  split; [repeat split; cbn; intros; lia|]. split; [repeat split; cbn; intros; lia|].
  intros a b H. cbn. apply (truncates_fun a b); [apply quot_truncates|apply quot_truncates|exact H].
Qed.
(* (a - b) * (-b) becomes (a - b) * (a - b) *)
Definition C38_heap (x : Z) : option (label * list Z) :=
  if x =? 1 then Some (LComm OMul, [2; 3]) else if x =? 2 then Some (LBin OSub, [4; 5]) else if x =? 3 then Some (LNeg, [6])
  else if x =? 4 then Some (LVar "a"%string, []) else if x =? 5 then Some (LVar "b"%string, []) else if x =? 6 then Some (LVar "b"%string, []) else None.
Lemma C38_heap_ok : nodes_ok C38_heap.
Proof.
  intros x l ps H. unfold C38_heap in H. destruct (x =? 1), (x =? 2), (x =? 3), (x =? 4), (x =? 5), (x =? 6); try discriminate; injection H as <- <-; try reflexivity; exact I.
Qed.
Theorem C38_cse_refuted : exists V (N : nsys V) h roots es fuel h' roots' es',
  lawful N /\ nodes_ok h /\ Forall2 (stands h) roots es /\ cse fuel h roots = Ok (h', roots') /\
  Forall2 (stands h') roots' es' /\ map (value N) es' <> map (value N) es.
Proof.
  exists Z, C38_Q, C38_heap, [1].
  assert (F : match cse 5 C38_heap [1] with Ok (h', r') => r' = [1] /\
     tree_of 5 h' 1 = Ok (E (LComm OMul) [E (LBin OSub) [E (LVar "a"%string) []; E (LVar "b"%string) []]; E (LBin OSub) [E (LVar "a"%string) []; E (LVar "b"%string) []]]) | _ => False end)
    by (vm_compute; split; reflexivity).
  destruct (cse 5 C38_heap [1]) as [(h' & r')| | |] eqn:C; try contradiction. destruct F as (-> & F).
  exists [E (LComm OMul) [E (LBin OSub) [E (LVar "a"%string) []; E (LVar "b"%string) []]; E LNeg [E (LVar "b"%string) []]]], 5%nat, h', [1]. eexists.
  split; [exact C38_Q_lawful|]. split; [exact C38_heap_ok|]. split; [constructor; [apply (tree_of_stands 5); reflexivity|constructor]|].
  split; [exact C|]. split; [constructor; [apply (tree_of_stands 5); exact F|constructor]|]. vm_compute. discriminate.
Qed.
Print Assumptions C38_cse_refuted.

(* (a + b) * sin(b + a): the argument is redirected to the first factor *)
Definition C38_heap2 (x : Z) : option (label * list Z) :=
  if x =? 1 then Some (LComm OMul, [2; 3]) else if x =? 2 then Some (LComm OAdd, [4; 5]) else if x =? 3 then Some (LFunc "sin"%string, [6])
  else if x =? 4 then Some (LVar "a"%string, []) else if x =? 5 then Some (LVar "b"%string, []) else if x =? 6 then Some (LComm OAdd, [7; 8])
  else if x =? 7 then Some (LVar "b"%string, []) else if x =? 8 then Some (LVar "a"%string, []) else None.
Example C38_ex_cse : nodes_ok C38_heap2 /\ no_clash C38_heap2 /\ (exists e, stands C38_heap2 1 e) /\
  match cse 9 C38_heap2 [1] with Ok (h', r') => r' = [1] /\ h' 3 = Some (LFunc "sin"%string, [2]) | _ => False end.
Proof.
  split; [|split; [|split]].
  - intros x l ps H. unfold C38_heap2 in H. destruct (x =? 1), (x =? 2), (x =? 3), (x =? 4), (x =? 5), (x =? 6), (x =? 7), (x =? 8); try discriminate; injection H as <- <-; try reflexivity; exact I.
  - left. intros x ps H. unfold C38_heap2 in H. destruct (x =? 1), (x =? 2), (x =? 3), (x =? 4), (x =? 5), (x =? 6), (x =? 7), (x =? 8); discriminate.
  - eexists. apply (tree_of_stands 5). reflexivity.
  - vm_compute. split; reflexivity.
Qed.
Example C38_ex_lawful : lawful C38_Q.
Proof. exact C38_Q_lawful. Qed.
(* (a + (b + a)) + -(a * (b * b)) *)
Example C38_ex_combine :
  let a := E (LVar "a"%string) [] in let b := E (LVar "b"%string) [] in
  combine_visit (E (LComm OAdd) [E (LComm OAdd) [a; E (LComm OAdd) [b; a]]; E LNeg [E (LComm OMul) [a; E (LComm OMul) [b; b]]]]) =
  Ok (E (LComm OAdd) [E LNeg [E (LComm OMul) [a; b; b]]; a; b; a]).
Proof. vm_compute. reflexivity. Qed.
Example C38_ex_reorder :
  let a := E (LVar "a"%string) [] in let b := E (LVar "b"%string) [] in
  reorder_visit (fun e => match e with E (LVar s) _ => if String.eqb s "a"%string then [1; 2] else [1] | _ => [] end) (E (LComm OAdd) [a; b; a]) =
  Ok (E (LComm OAdd) [b; a; a]).
Proof. vm_compute. reflexivity. Qed.
