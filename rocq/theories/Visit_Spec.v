(* Specification: feeding a list of (point, number) pairs to a visitor that may ask to stop. *)
From Verif Require Import Base.

Section Visit.
  Variable St : Type.
  Variable visitor : St -> list Z -> Z -> St * bool.

  Fixpoint run_visitor (l : list (list Z * Z)) (st : St) : St * bool :=
    match l with
    | [] => (st, true)
    | (p, i) :: r => let (st', ok) := visitor st p i in
                     if ok then run_visitor r st' else (st', false)
    end.
End Visit.
