(* Solutions used in the examples of Prop_C67. *)
From Coq Require Import String.
From Verif Require Import Base Tuple_Model SetDims_Model SetDims_Spec.
Open Scope string_scope.
Open Scope list_scope.
Open Scope Z_scope.

Definition t_ := ("t", KStep).
Definition x_ := ("x", KDomain).
Definition y_ := ("y", KDomain).
Definition z_ := ("z", KDomain).
Definition m_ := ("m", KMisc).

Definition vA := mkDvar [t_; x_; y_; z_] false.
Definition vB := mkDvar [x_; m_; z_] false.
Definition vS := mkDvar [z_; y_] true.
Definition cs0 (dd : list string) (il : ilopt) (fold : list (string * Z)) :=
  mkCset "" dd il (mkTuple fold true) true false true false.

(* vars vS, vA, vB: the domain dims are mentioned in the order z, y, x; 16 elements per vector *)
Definition cs1 := cs0 [] (ILname "y") [("z", 2)].
Definition o1 := mkDims "t" ["z"; "y"; "x"] ["t"; "z"; "y"; "x"] ["m"] "y" 2
  (mkTuple [("z", 2); ("y", 1); ("x", 8)] true) (mkTuple [("z", 2); ("x", 8)] true) ["t"; "z"; "y"; "x"; "m"].

(* the same with dims x, y, z given, no vector elements, misc dims outside, first domain dim outermost *)
Definition cs2 := mkCset "" ["x"; "y"] (ILnum 9) (mkTuple [] true) false false false true.
Definition o2 := mkDims "t" ["x"; "y"; "z"] ["t"; "x"; "y"; "z"] ["m"] "z" 3
  (mkTuple [("x", 1); ("y", 1); ("z", 1)] false) (mkTuple [] false) ["x"; "m"; "t"; "y"; "z"].

Lemma ex1 : set_dims [vS; vA; vB] cs1 16 true = Ok o1.
Proof. vm_compute. reflexivity. Qed.
Lemma ex2 : set_dims [vS; vA; vB] cs2 1 false = Ok o2.
Proof. vm_compute. reflexivity. Qed.

Lemma ex_named : forall cs, ~ In "" (cs_domain cs) -> named [vS; vA; vB] cs.
Proof.
  intros cs N. split; [|exact N]. intros k d (v & I & J).
  destruct I as [<-|[<-|[<-|[]]]]; cbn in J; repeat (destruct J as [J|J]; [injection J as <- _; discriminate|]); destruct J.
Qed.

Lemma ex_kinds : forall cs, cs_step cs = "" -> (forall d, In d (cs_domain cs) -> In d ["x"; "y"; "z"]) -> one_kind [vS; vA; vB] cs.
Proof.
  intros cs ES ED.
  assert (S : forall d, step_name [vS; vA; vB] cs d -> d = "t").
  { intros d [(N & ->)|(v & I & J)]; [congruence|].
    destruct I as [<-|[<-|[<-|[]]]]; cbn in J; repeat (destruct J as [J|J]; [injection J; intros; congruence|]); destruct J. }
  assert (D : forall d, domain_name [vS; vA; vB] cs d -> In d ["x"; "y"; "z"]).
  { intros d [I|(v & I & J)]; [auto|].
    destruct I as [<-|[<-|[<-|[]]]]; cbn in J; repeat (destruct J as [J|J]; [injection J; intros; subst; cbn; auto; congruence|]); destruct J. }
  assert (M : forall d, misc_name [vS; vA; vB] d -> d = "m").
  { intros d (v & I & J).
    destruct I as [<-|[<-|[<-|[]]]]; cbn in J; repeat (destruct J as [J|J]; [injection J; intros; congruence|]); destruct J. }
  split; [|split].
  - intros d H1 H2. apply S in H1. apply D in H2. subst. cbn in H2. intuition discriminate.
  - intros d H1 H2. apply S in H1. apply M in H2. congruence.
  - intros d H1 H2. apply D in H1. apply M in H2. subst. cbn in H1. intuition discriminate.
Qed.
