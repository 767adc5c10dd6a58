(* What an insertion-ordered set is: a duplicate-free list.  One reference step per operation;
   [None]: the operation is not allowed (swap outside the list). *)
From Verif Require Import Base VecSet_Model.

Section Spec.
  Variable A : Type.
  Variable eqd : forall a b : A, {a = b} + {a <> b}.

  Definition oset_swap (i j : nat) (l : list A) : option (list A) :=
    match nth_error l i, nth_error l j with
    | Some xi, Some xj =>
        Some (map (fun n => nth (if Nat.eqb n i then j else if Nat.eqb n j then i else n) l xi) (seq 0 (length l)))
    | _, _ => None
    end.

  Definition oset_step (l : list A) (o : vs_op A) : option (list A) :=
    match o with
    | VInsert x => Some (if in_dec eqd x l then l else l ++ [x])
    | VErase x => Some (remove eqd x l)
    | VSwap i j => if Nat.eqb i j then Some l else oset_swap i j l
    | VClear => Some []
    end.

  Fixpoint oset_run (l : list A) (ops : list (vs_op A)) : option (list A) :=
    match ops with
    | [] => Some l
    | o :: r => match oset_step l o with Some l' => oset_run l' r | None => None end
    end.

  (* Every erase in the history is of an absent item or of the last item of the list. *)
  Fixpoint back_erases (l : list A) (ops : list (vs_op A)) : Prop :=
    match ops with
    | [] => True
    | o :: r =>
        match o with
        | VErase x => ~ In x l \/ exists l0, l = l0 ++ [x]
        | _ => True
        end /\ match oset_step l o with Some l' => back_erases l' r | None => True end
    end.

  Definition no_erase (ops : list (vs_op A)) : Prop := forall x, ~ In (VErase x) ops.
End Spec.
Arguments oset_run {A} _ _ _.
Arguments back_erases {A} _ _ _.
Arguments no_erase {A} _.
