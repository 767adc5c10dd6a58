(* src/common/common_utils.hpp:358-449: template class vector_set, a vector without duplicates
   plus a map from item to position.  The standard map is an association list with unique keys.
   Simplification: size_t is an unbounded natural number.  Asserts are not modelled (release build),
   so what an assert excludes is UB where the C++ would access out of bounds. *)
From Verif Require Import Base.

Section VectorSet.
  Variable A : Type.
  Variable eqd : forall a b : A, {a = b} + {a <> b}.

  Record vset := mkVset { vs_items : list A; vs_posn : list (A * nat) }.

  Fixpoint posn_find (k : A) (m : list (A * nat)) : option nat :=
    match m with
    | [] => None
    | (a, p) :: r => if eqd a k then Some p else posn_find k r
    end.
  (* _posn[k] = p *)
  Fixpoint posn_set (k : A) (p : nat) (m : list (A * nat)) : list (A * nat) :=
    match m with
    | [] => [(k, p)]
    | (a, q) :: r => if eqd a k then (a, p) :: r else (a, q) :: posn_set k p r
    end.
  (* _posn.erase(k) *)
  Fixpoint posn_erase (k : A) (m : list (A * nat)) : list (A * nat) :=
    match m with
    | [] => []
    | (a, q) :: r => if eqd a k then r else (a, q) :: posn_erase k r
    end.

  Definition vs_empty : vset := mkVset [] [].

  (* lines 399-401 *)
  Definition vs_count (s : vset) (x : A) : bool :=
    match posn_find x (vs_posn s) with Some _ => true | None => false end.

  (* lines 402-410 (and push_back, 411-413) *)
  Definition vs_insert (s : vset) (x : A) : vset :=
    if vs_count s x then s
    else mkVset (vs_items s ++ [x]) (posn_set x (length (vs_items s)) (vs_posn s)).

  (* vector::erase(begin() + n); n >= size() is UB *)
  Definition erase_at (n : nat) (l : list A) : res (list A) :=
    if Nat.ltb n (length l) then Ok (firstn n l ++ skipn (S n) l) else UB.

  (* lines 414-428.  The loop "for (auto pi : _posn) { auto& p = pi.second; if (p > op) p--; }"
     changes a copy of each map entry, so it has no effect on _posn. *)
  Definition vs_erase (s : vset) (x : A) : res vset :=
    match posn_find x (vs_posn s) with
    | None => Ok s
    | Some op =>
        rbind (erase_at op (vs_items s)) (fun items =>
        Ok (mkVset items (posn_erase x (vs_posn s))))
    end.

  (* lines 429-432 *)
  Definition vs_clear (s : vset) : vset := vs_empty.

  Fixpoint upd (n : nat) (x : A) (l : list A) : list A :=
    match l, n with
    | [], _ => []
    | _ :: r, O => x :: r
    | a :: r, S n' => a :: upd n' x r
    end.

  (* lines 435-445 *)
  Definition vs_swap (s : vset) (i j : nat) : res vset :=
    if Nat.eqb i j then Ok s
    else match nth_error (vs_items s) i, nth_error (vs_items s) j with
         | Some xi, Some xj =>
             Ok (mkVset (upd j xi (upd i xj (vs_items s))) (posn_set xi j (posn_set xj i (vs_posn s))))
         | _, _ => UB
         end.

  Inductive vs_op := VInsert (x : A) | VErase (x : A) | VSwap (i j : nat) | VClear.

  Definition vs_step (s : vset) (o : vs_op) : res vset :=
    match o with
    | VInsert x => Ok (vs_insert s x)
    | VErase x => vs_erase s x
    | VSwap i j => vs_swap s i j
    | VClear => Ok (vs_clear s)
    end.

  Fixpoint vs_run (s : vset) (ops : list vs_op) : res vset :=
    match ops with
    | [] => Ok s
    | o :: r => rbind (vs_step s o) (fun s' => vs_run s' r)
    end.

  (* Stage::add_part and Stage::remove_part, src/compiler/lib/Eqs.cpp:1333-1352, as far as the
     list of equations is concerned: EqLot::add_eq and remove_eq (815-835) for each eq of the part. *)
  Definition add_part_eqs (eqs : list A) : list vs_op := map VInsert eqs.
  Definition remove_part_eqs (eqs : list A) : list vs_op := map VErase eqs.
End VectorSet.

Arguments mkVset {A} _ _.
Arguments vs_items {A} _.
Arguments vs_posn {A} _.
Arguments VInsert {A} _.
Arguments VErase {A} _.
Arguments VSwap {A} _ _.
Arguments VClear {A}.
Arguments vs_empty {A}.
Arguments vs_run {A} _ _ _.
Arguments vs_count {A} _ _ _.
Arguments add_part_eqs {A} _.
Arguments remove_part_eqs {A} _.
