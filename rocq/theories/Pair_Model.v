(* Pairing of functions: PairingVisitor, src/compiler/lib/ExprUtils.hpp:136-151 and ExprUtils.cpp:118-152, and
   FuncExpr::make_pair, Expr.cpp:572-592.
   Simplifications: equations are given by their right-hand sides (Visitor.hpp:104-118: the flags for the other parts are
   off); comparing operands walks the expression tree of a pointer (Expr_Model.tree_of). *)
From Coq Require Import String.
From Verif Require Import Base Expr_Model.
Open Scope Z_scope.

(* FuncExpr::_paired of each node *)
Definition pairing := Z -> option Z.
Definition pset (m : pairing) (a b : Z) : pairing := fun x => if x =? a then Some b else m x.

(* Expr.cpp:575-581: as many operands, each the same *)
Fixpoint ops_same (tf : nat) (h : heap) (ps qs : list Z) : res bool :=
  match ps, qs with
  | [], [] => Ok true
  | p :: ps', q :: qs' =>
      rbind (tree_of tf h p) (fun e => rbind (tree_of tf h q) (fun o =>
        if is_same e o then ops_same tf h ps' qs' else Ok false))
  | _, _ => Ok false
  end.
(* Expr.cpp:583-591 *)
Definition pair_names (f g : string) : bool :=
  (String.eqb f "sin" && String.eqb g "cos") || (String.eqb f "cos" && String.eqb g "sin").
Definition make_pair (tf : nat) (h : heap) (m : pairing) (a b : Z) : res (option pairing) :=
  match h a, h b with
  | Some (LFunc f, ps), Some (LFunc g, qs) =>
      if (List.length ps =? List.length qs)%nat then
        rbind (ops_same tf h ps qs) (fun same =>
          if same then if pair_names f g then Ok (Some (pset (pset m a b) b a)) else Ok None else Ok None)
      else Ok None
  | _, _ => Ok None
  end.

(* ExprUtils.cpp:130-147: loop over the nodes already seen, in the order of the set *)
Fixpoint find_pair (tf : nat) (h : heap) (m : pairing) (a : Z) (seen : list Z) : res pairing :=
  match seen with
  | [] => Ok m
  | o :: r => rbind (make_pair tf h m a o) (fun x => match x with Some m' => Ok m' | None => find_pair tf h m a r end)
  end.

(* Visit of a node: functions as in ExprUtils.cpp:119-152, which does not visit their operands; other nodes visit all
   operands (Visitor.hpp:62-92). *)
Fixpoint pair_visit (tf fuel : nat) (h : heap) (st : pairing * list Z) (a : Z) : res (pairing * list Z) :=
  match fuel with
  | O => OutOfFuel
  | S f =>
      match h a with
      | None => UB
      | Some (LFunc _, _) =>
          let '(m, seen) := st in
          if zmem a seen then Ok st
          else rbind (find_pair tf h m a seen) (fun m' => Ok (m', set_insert a seen))
      | Some (_, ps) => rfold (fun st p => pair_visit tf f h st p) ps st
      end
  end.

(* One visitor for all equations (Eqs.cpp:1272-1286). *)
Definition pair_all (fuel : nat) (h : heap) (roots : list Z) : res pairing :=
  rbind (rfold (fun st r => pair_visit fuel fuel h st r) roots (fun _ => None, [])) (fun st => Ok (fst st)).
