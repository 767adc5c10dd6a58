(* C71: A var created through the API has the name, dims, sizes and pads asked for, and a request that is not valid is rejected.
   A repeated dim is not rejected, and a rejected request can leave new dims behind: see the theorems _refuted. *)
From Coq Require Import String.
From Verif Require Import Base Resize_Model NewVar_Model NewVar_Spec NewVar_Proofs.
Local Open Scope string_scope.

(* A valid request without repeated dims and negative sizes creates the var, and the solution can be asked again. *)
Theorem C71_created : forall c name ds sizes, soln_ok c -> NoDup ds -> valid c name ds sizes ->
  (forall l n, sizes = Some l -> In n l -> 0 <= n) ->
  exists v c', new_var c name ds sizes = (Ok v, c') /\ created c name ds sizes v c' /\ soln_ok c'.
Proof. exact new_var_created. Qed.
Print Assumptions C71_created.

(* Full statement: any request that is not valid, or repeats a dim, throws and creates no var.  What is missing is the repeated dim,
   for which it is false (C71_repeated_dims_refuted). *)
Theorem C71_rejected_partial : forall c name ds sizes, soln_ok c -> NoDup ds -> ~ valid c name ds sizes ->
  exists c', new_var c name ds sizes = (Throw, c') /\ s_vars c' = s_vars c.
Proof. exact new_var_rejected. Qed.
Print Assumptions C71_rejected_partial.

(* Two domain dims, x folded by 4 and y by 2; the stencil has a folded var over t, x, y and a var over one misc dim. *)
Definition C71_soln := mkSoln "t" ["x"; "y"] ["c"] 4 true [(["t"; "x"; "y"], true); (["c"], false)]
  (fun d => if String.eqb d "x" then 4 else if String.eqb d "y" then 2 else 1) "y" false true
  (fun d => if String.eqb d "x" then 64 else if String.eqb d "y" then 30 else 0) (fun _ => 3) (fun _ => 5)
  [mkU "A" ["c"] false false (mkRV [] false false true 0)].
Example C71_ex_soln : soln_ok C71_soln.
Proof.
  constructor; cbn.
  - intros [H|[H|[]]]; discriminate.
  - intros [H|[]]; discriminate.
  - intros d [<-|[<-|[]]] [H|[]]; discriminate.
  - repeat constructor; cbn; intuition discriminate.
  - repeat constructor. intros [].
  - intros d. destruct (String.eqb d "x") eqn:E; [apply String.eqb_eq in E; subst d; split; [lia|intros H; exfalso; apply H; auto]|].
    destruct (String.eqb d "y") eqn:F; [apply String.eqb_eq in F; subst d; split; [lia|intros H; exfalso; apply H; auto]|]. split; [lia|reflexivity].
  - intros d. destruct (String.eqb d "x"); [lia|]. destruct (String.eqb d "y"); lia.
  - intros ds b [H|[H|[]]]; injection H as <- <-; (split; [repeat constructor; cbn; intuition discriminate|]); cbn; intuition (subst; auto).
Qed.
(* A var like one of the stencil, and one of a new kind with sizes and a new misc dim. *)
Example C71_ex_valid : valid C71_soln "B" ["t"; "x"; "y"] None /\ valid C71_soln "B" ["x"; "k"] (Some [7; 3]) /\
  NoDup ["t"; "x"; "y"] /\ NoDup ["x"; "k"].
Proof.
  split; [|split; [|split; repeat constructor; cbn; intuition discriminate]].
  - split; [intros v [<-|[]]; discriminate|]. split; [discriminate|]. left. exists true. cbn. auto.
  - split; [intros v [<-|[]]; discriminate|]. split; [intros l E; injection E as <-; reflexivity|]. right.
    split; [reflexivity|]. split; [cbn; lia|]. intros [|[|[|i]]] H; cbn in H; try discriminate; reflexivity.
Qed.
Definition C71_shape (r : res uvar * soln) : option (list string * list (Z * Z * Z * Z) * list string * nat) :=
  match r with
  | (Ok v, c') => Some (u_dims v, map (fun k => (r_dom k, r_lpad k, r_rpad k, r_alloc k)) (rv_dims (u_core v)), s_misc c', length (s_vars c'))
  | _ => None
  end.
Example C71_ex_like : C71_shape (new_var C71_soln "B" ["t"; "x"; "y"] None) =
  Some (["t"; "x"; "y"], [(0, 0, 0, 0); (64, 12, 12, 88); (30, 8, 8, 46)], ["c"], 2%nat).
Proof. vm_compute. reflexivity. Qed.
Example C71_ex_fixed : C71_shape (new_var C71_soln "B" ["x"; "k"] (Some [7; 3])) =
  Some (["x"; "k"], [(7, 12, 9, 28); (3, 0, 0, 3)], ["c"; "k"], 2%nat).
Proof. vm_compute. reflexivity. Qed.
(* A name that is used, sizes that do not fit, and a step dim that is not first. *)
Example C71_ex_rejected :
  fst (new_var C71_soln "A" ["x"] None) = Throw /\ fst (new_var C71_soln "B" ["x"] (Some [])) = Throw /\
  fst (new_var C71_soln "B" ["x"; "t"] None) = Throw /\ fst (new_var C71_soln "B" ["t"; "x"; "y"; "a"; "b"] None) = Throw.
Proof. vm_compute. auto. Qed.
Example C71_ex_not_valid : ~ valid C71_soln "B" ["x"; "t"] None /\ NoDup ["x"; "t"].
Proof.
  split; [|repeat constructor; cbn; intuition discriminate].
  intros (_ & _ & [(b & H)|(_ & _ & H)]).
  - cbn in H. intuition discriminate.
  - specialize (H 1%nat eq_refl). discriminate.
Qed.

(* Refuted: "a var with a repeated dim is rejected", as the documentation and the message in the code say.  The set of names seen
   stays empty, and a null pointer is written through. *)
Theorem C71_repeated_dims_refuted : exists c name ds, soln_ok c /\ valid c name ds None /\ ~ NoDup ds /\
  fst (new_var c name ds None) = UB.
Proof.
  exists C71_soln, "B", ["x"; "x"]. split; [exact C71_ex_soln|]. split; [|split; [|vm_compute; reflexivity]].
  - split; [intros v [<-|[]]; discriminate|]. split; [discriminate|]. right. split; [reflexivity|]. split; [cbn; lia|].
    intros [|[|[|i]]] H; cbn in H; try discriminate; reflexivity.
  - intros H. inversion H as [|? ? N _]; subst. apply N. cbn. auto.
Qed.
Print Assumptions C71_repeated_dims_refuted.

(* Refuted: "a request that throws leaves the solution as it was".  The new dims before the wrong one stay in the list of misc dims. *)
Theorem C71_failed_call_refuted : exists c name ds c', soln_ok c /\ NoDup ds /\
  new_var c name ds None = (Throw, c') /\ s_misc c' <> s_misc c.
Proof.
  exists C71_soln, "B", ["k"; "t"]. eexists. split; [exact C71_ex_soln|].
  split; [repeat constructor; cbn; intuition discriminate|]. split; [vm_compute; reflexivity|]. cbn. discriminate.
Qed.
Print Assumptions C71_failed_call_refuted.
