(* Expression nodes of the compiler: src/compiler/lib/Expr.hpp, Expr.cpp, and the optimisation visitors of
   src/compiler/lib/ExprUtils.{hpp,cpp} and Vec.cpp:134-214.
   Simplifications: a double is a rational number; every result of double arithmetic goes through [rnd], so
   theorems that quantify over [rnd] hold for IEEE rounding of finite values; infinities and NaN are not modelled
   (division by zero is UB here); a VarPoint is its cached string _def_str, on which VarPoint::operator== compares
   (VarPoint.hpp:140-142); boolean nodes do not occur below numerical nodes and are left out. *)
From Coq Require Import String QArith.
From Verif Require Import Base Idiv_Model.
Open Scope Z_scope.

(* Expr.hpp:235-241 *)
Inductive itype := StepI | DomainI | MiscI | FirstI | LastI.
(* Expr.hpp:537-544: op strings "-", "/", "%" *)
Inductive bop := OSub | ODiv | OMod.
(* Expr.hpp:723-724: op strings "+", "*" *)
Inductive cop := OAdd | OMul.
(* The concrete node classes: ConstExpr 314, CodeExpr 352, VarPoint (VarPoint.hpp:35), IndexExpr 245, NegExpr 417,
   SubExpr/DivExpr/ModExpr 537-544, AddExpr/MultExpr 723-724, FuncExpr 730. *)
Inductive label :=
| LConst (q : Q) | LCode (s : string) | LVar (s : string) | LIndex (d : string) (ty : itype)
| LNeg | LBin (o : bop) | LComm (o : cop) | LFunc (f : string).
(* A node with its operands: [rhs] for NegExpr, [lhs; rhs] for binary nodes, _ops for commutative and function nodes. *)
Inductive expr := E (l : label) (ops : list expr).

Definition bop_eqb (a b : bop) : bool :=
  match a, b with OSub, OSub => true | ODiv, ODiv => true | OMod, OMod => true | _, _ => false end.
Definition cop_eqb (a b : cop) : bool :=
  match a, b with OAdd, OAdd => true | OMul, OMul => true | _, _ => false end.
Definition itype_eqb (a b : itype) : bool :=
  match a, b with
  | StepI, StepI => true | DomainI, DomainI => true | MiscI, MiscI => true | FirstI, FirstI => true | LastI, LastI => true
  | _, _ => false
  end.

Section Num.
  Variable rnd : Q -> Q.

  (* Expr.hpp:195 default false; :330 ConstExpr; :426 NegExpr; :524 binary; :673 commutative; :765 FuncExpr *)
  Fixpoint is_const_val (e : expr) : bool :=
    match e with
    | E (LConst _) _ => true
    | E LNeg [r] => is_const_val r
    | E (LBin _) [l; r] => is_const_val l && is_const_val r
    | E (LComm _) ops => forallb is_const_val ops
    | E (LFunc _) ops => forallb is_const_val ops
    | _ => false
    end.

  (* Conversion of a double to an integer type truncates; out of range is UB. *)
  Definition to_int (bits : Z) (q : Q) : res Z :=
    let n := Z.quot (Qnum q) (Zpos (Qden q)) in
    if (- 2 ^ (bits - 1) <=? n) && (n <? 2 ^ (bits - 1)) then Ok n else UB.

  (* Expr.hpp:201-204 throws by default; :331, :429-432, :528-532 with the operators of 537-544 (host_assert(b) in
     imod_flr), :712-720 *)
  Fixpoint get_num_val (e : expr) : res Q :=
    match e with
    | E (LConst q) _ => Ok q
    | E LNeg [r] => rbind (get_num_val r) (fun v => Ok (- v)%Q)
    | E (LBin OSub) [l; r] => rbind (get_num_val l) (fun a => rbind (get_num_val r) (fun b => Ok (rnd (a - b))))
    | E (LBin ODiv) [l; r] => rbind (get_num_val l) (fun a => rbind (get_num_val r) (fun b =>
        if Qeq_bool b 0 then UB else Ok (rnd (a / b))))
    | E (LBin OMod) [l; r] => rbind (get_num_val l) (fun a => rbind (get_num_val r) (fun b =>
        rbind (to_int 64 a) (fun m => rbind (to_int 64 b) (fun n =>
        if n =? 0 then UB else Ok (rnd (inject_Z (imod_flr m n)))))))
    | E (LComm OAdd) ops =>
        (fix go (l : list expr) (val : Q) : res Q :=
           match l with [] => Ok val | op :: l' => rbind (get_num_val op) (fun r => go l' (rnd (val + r))) end) ops 0%Q
    | E (LComm OMul) ops =>
        (fix go (l : list expr) (val : Q) : res Q :=
           match l with [] => Ok val | op :: l' => rbind (get_num_val op) (fun r => go l' (rnd (val * r))) end) ops 1%Q
    | _ => Throw
    end.

  (* Expr.hpp:208-216 *)
  Definition get_int_val (e : expr) : res Z :=
    rbind (get_num_val e) (fun v => rbind (to_int 32 v) (fun i => if Qeq_bool v (inject_Z i) then Ok i else Throw)).

  (* int arithmetic; overflow is UB *)
  Definition chk_int (z : Z) : res Z := if (- 2 ^ 31 <=? z) && (z <? 2 ^ 31) then Ok z else UB.

  (* Expr.hpp:221-223 default false; Expr.cpp:597-606 IndexExpr, 607-619 Div, Mod and Mult, 620-632 Sub, 633-663 Add.
     [Ok (Some k)] is 'return true' with offset = k. *)
  Fixpoint is_offset_from (dim : string) (e : expr) : res (option Z) :=
    match e with
    | E (LIndex d ty) _ =>
        Ok (if (match ty with DomainI | StepI => true | _ => false end) && String.eqb d dim then Some 0 else None)
    | E (LBin OSub) [l; r] =>
        rbind (is_offset_from dim l) (fun t =>
          match t with
          | Some tmp => if is_const_val r then rbind (get_int_val r) (fun c => rbind (chk_int (tmp - c)) (fun k => Ok (Some k)))
                        else Ok None
          | None => Ok None
          end)
    | E (LComm OAdd) ops =>
        (fix go (l : list expr) (sum num_dims tmp : Z) : res (option Z) :=
           match l with
           | [] => if num_dims =? 1 then rbind (chk_int (tmp + sum)) (fun k => Ok (Some k)) else Ok None
           | op :: l' =>
               rbind (is_offset_from dim op) (fun t =>
                 match t with
                 | Some tmp' => go l' sum (num_dims + 1) tmp'
                 | None => if is_const_val op
                           then rbind (get_int_val op) (fun c => rbind (chk_int (sum + c)) (fun s => go l' s num_dims tmp))
                           else Ok None
                 end)
           end) ops 0 0 0
    | _ => Ok None
    end.
End Num.

(* VarPoint.cpp:236-277 VarPoint::set_arg_offset: the index expression put in place of one recognised as an offset;
   '-ofs' overflows for the smallest int. *)
Definition offset_expr (dim : string) (ty : itype) (ofs : Z) : res expr :=
  if 0 <? ofs then Ok (E (LComm OAdd) [E (LIndex dim ty) []; E (LConst (inject_Z ofs)) []])
  else if ofs <? 0 then rbind (chk_int (- ofs)) (fun n => Ok (E (LBin OSub) [E (LIndex dim ty) []; E (LConst (inject_Z n)) []]))
  else Ok (E (LIndex dim ty) []).

(* First operand that satisfies p taken out of the list. *)
Fixpoint take_first (p : expr -> bool) (l : list expr) : option (list expr) :=
  match l with
  | [] => None
  | x :: r => if p x then Some r else match take_first p r with Some r' => Some (x :: r') | None => None end
  end.

(* The is_same methods: ConstExpr Expr.hpp:336-339, CodeExpr 370-373, VarPoint VarPoint.hpp:151-154, IndexExpr 277-280,
   UnaryExpr 404-408 (the dynamic_cast to UnaryExpr also accepts a BinaryExpr, which is derived from it; NegExpr and
   SubExpr both have the op string "-"), BinaryExpr 488-493, CommutativeExpr Expr.cpp:524-557 (operands already matched
   are taken out of the other list instead of kept in a set), FuncExpr Expr.cpp:560-571. *)
Fixpoint is_same (e o : expr) {struct e} : bool :=
  match e, o with
  | E (LConst q) _, E (LConst q') _ => Qeq_bool q q'
  | E (LCode s) _, E (LCode s') _ => String.eqb s s'
  | E (LVar s) _, E (LVar s') _ => String.eqb s s'
  | E (LIndex d t) _, E (LIndex d' t') _ => String.eqb d d' && itype_eqb t t'
  | E LNeg [r], E LNeg [r'] => is_same r r'
  | E LNeg [r], E (LBin OSub) [_; r'] => is_same r r'
  | E (LBin b) [l; r], E (LBin b') [l'; r'] => bop_eqb b b' && is_same l l' && is_same r r'
  | E (LComm c) ops, E (LComm c') ops' =>
      cop_eqb c c' && (Z.of_nat (List.length ops) =? Z.of_nat (List.length ops')) &&
      (fix go (l rem : list expr) : bool :=
         match l with
         | [] => true
         | op :: l' => match take_first (is_same op) rem with Some rem' => go l' rem' | None => false end
         end) ops ops'
  | E (LFunc f) ops, E (LFunc f') ops' =>
      String.eqb f f' && (Z.of_nat (List.length ops) =? Z.of_nat (List.length ops')) &&
      (fix go (l m : list expr) : bool :=
         match l, m with
         | x :: l', y :: m' => is_same x y && go l' m'
         | _, _ => true
         end) ops ops'
  | _, _ => false
  end.

(* Expr.hpp:652-661 CommutativeExpr::merge_expr: append the operands of a node with the same operator, else the node. *)
Definition merge_expr (c : cop) (ops : list expr) (op : expr) : list expr :=
  match op with
  | E (LComm c') l => if cop_eqb c' c then ops ++ l else ops ++ [op]
  | _ => ops ++ [op]
  end.

(* Expr.cpp:102-136 new_add_node, new_multiply_node with two non-null operands *)
Definition new_comm_node (c : cop) (l r : expr) : expr := E (LComm c) (merge_expr c (merge_expr c [] l) r).

(* ExprUtils.cpp:50-65: first operand that is a commutative node with the same operator, with the rest of the list. *)
Fixpoint find_comm (c : cop) (ops : list expr) : option (expr * list expr) :=
  match ops with
  | [] => None
  | x :: r =>
      match x with
      | E (LComm c') _ =>
          if cop_eqb c' c then Some (x, r)
          else match find_comm c r with Some (y, r') => Some (y, x :: r') | None => None end
      | _ => match find_comm c r with Some (y, r') => Some (y, x :: r') | None => None end
      end
  end.
(* ExprUtils.cpp:44-66 the 'while (!done)' loop *)
Fixpoint combine_loop (fuel : nat) (c : cop) (ops : list expr) : res (list expr) :=
  match fuel with
  | O => OutOfFuel
  | S f => match find_comm c ops with
           | Some (ce2, rest) => combine_loop f c (merge_expr c rest ce2)
           | None => Ok ops
           end
  end.
Fixpoint num_nodes (e : expr) : nat :=
  match e with E _ ops => S (fold_right (fun x n => (num_nodes x + n)%nat) O ops) end.
Fixpoint rmap {A B} (f : A -> res B) (l : list A) : res (list B) :=
  match l with
  | [] => Ok []
  | x :: r => rbind (f x) (fun y => rbind (rmap f r) (fun ys => Ok (y :: ys)))
  end.
(* CombineVisitor: Visitor.hpp:56-92 for the other nodes; ExprUtils.cpp:34-68.  The fuel is the number of nodes.
   Nodes shared by several parents are copied here: combining a node twice changes nothing more. *)
Fixpoint combine_visit (e : expr) : res expr :=
  match e with
  | E (LComm c) ops =>
      rbind ((fix go (l : list expr) : res (list expr) :=
                match l with
                | [] => Ok []
                | x :: r => rbind (combine_visit x) (fun y => rbind (go r) (fun ys => Ok (y :: ys)))
                end) ops)
            (fun ops' => rbind (combine_loop (num_nodes (E (LComm c) ops')) c ops') (fun ops2 => Ok (E (LComm c) ops2)))
  | E l ops =>
      rbind ((fix go (l : list expr) : res (list expr) :=
                match l with
                | [] => Ok []
                | x :: r => rbind (combine_visit x) (fun y => rbind (go r) (fun ys => Ok (y :: ys)))
                end) ops)
            (fun ops' => Ok (E l ops'))
  end.

(* ExprReorderVisitor.  [needs e] stands for the set tmpvv._aligned_vecs after visiting e (Vec.cpp:165-167). *)
Section Reorder.
  Variable needs : expr -> list Z.

  Definition zmem (x : Z) (l : list Z) : bool := existsb (Z.eqb x) l.
  (* Vec.cpp:169-181 *)
  Definition cost_of (have : list Z) (e : expr) : Z :=
    Z.of_nat (List.length (filter (fun v => negb (zmem v have)) (needs e))).
  (* Vec.cpp:154-195: scan of the unused operands; [None] is the initial cost size_t(-1). *)
  Fixpoint scan_best (have used : list Z) (j : Z) (oev : list expr) (best : Z * option Z) : Z * option Z :=
    match oev with
    | [] => best
    | e :: r =>
        scan_best have used (j + 1) r
          (if zmem j used then best
           else let c := cost_of have e in
                match snd best with
                | None => (j, Some c)
                | Some c' => if c <? c' then (j, Some c) else best
                end)
    end.
  (* Vec.cpp:148-208: n remaining rounds of the loop over i; the assert on j_best_cost is the UB case. *)
  Fixpoint reorder_loop (n : nat) (oev : list expr) (have used : list Z) (nev : list expr) : res (list expr) :=
    match n with
    | O => Ok nev
    | S n' =>
        match scan_best have used 0 oev (0, None) with
        | (j, Some _) =>
            match nth_error oev (Z.to_nat j) with
            | Some e => reorder_loop n' oev (needs e ++ have) (j :: used) (nev ++ [e])
            | None => UB
            end
        | (_, None) => UB
        end
    end.
  (* Vec.cpp:134-214 does not visit the operands of a commutative node; the other nodes visit theirs. *)
  Fixpoint reorder_visit (e : expr) : res expr :=
    match e with
    | E (LComm c) ops => rbind (reorder_loop (List.length ops) ops [] [] []) (fun ops' => Ok (E (LComm c) ops'))
    | E l ops =>
        rbind ((fix go (l : list expr) : res (list expr) :=
                  match l with
                  | [] => Ok []
                  | x :: r => rbind (reorder_visit x) (fun y => rbind (go r) (fun ys => Ok (y :: ys)))
                  end) ops)
              (fun ops' => Ok (E l ops'))
    end.
End Reorder.

(* Nodes in memory: operands are pointers, and a node may be shared. *)
Definition heap := Z -> option (label * list Z).
Definition hset (h : heap) (a : Z) (n : label * list Z) : heap := fun x => if x =? a then Some n else h x.

(* The expression that is_same walks through when it starts at pointer a. *)
Fixpoint tree_of (fuel : nat) (h : heap) (a : Z) : res expr :=
  match fuel with
  | O => OutOfFuel
  | S f => match h a with
           | Some (l, ps) => rbind (rmap (tree_of f h) ps) (fun es => Ok (E l es))
           | None => UB
           end
  end.

(* std::set of pointers: kept in order of addresses. *)
Fixpoint set_insert (a : Z) (s : list Z) : list Z :=
  match s with
  | [] => [a]
  | x :: r => if a <? x then a :: s else if a =? x then s else x :: set_insert a r
  end.

(* ExprUtils.cpp:89-108: loop over the nodes already seen *)
Fixpoint find_seen (fuel : nat) (h : heap) (e : expr) (seen : list Z) : res (option Z) :=
  match seen with
  | [] => Ok None
  | o :: r => rbind (tree_of fuel h o) (fun eo => if is_same e eo then Ok (Some o) else find_seen fuel h e r)
  end.
(* ExprUtils.cpp:76-116: new value of the pointer, new set, result *)
Definition find_match_to (fuel : nat) (h : heap) (seen : list Z) (ep : Z) : res (Z * list Z * bool) :=
  if zmem ep seen then Ok (ep, seen, true)
  else rbind (tree_of fuel h ep) (fun e => rbind (find_seen fuel h e seen) (fun m =>
         match m with
         | Some o => Ok (o, seen, true)
         | None => Ok (ep, set_insert ep seen, false)
         end)).

Fixpoint set_nth (i : nat) (x : Z) (l : list Z) : list Z :=
  match i, l with
  | O, _ :: r => x :: r
  | S i', y :: r => y :: set_nth i' x r
  | _, [] => []
  end.

(* CseVisitor::visit for all kinds of nodes, ExprUtils.hpp:95-125: each operand pointer of node a in turn is
   redirected to a match, or the operand is visited.  [k] counts operands left, [i] is the position; [tf] bounds the depth
   of the comparisons, [fuel] the depth of the visit. *)
Fixpoint cse_visit (tf fuel : nat) (h : heap) (seen : list Z) (a : Z) : res (heap * list Z) :=
  match fuel with
  | O => OutOfFuel
  | S f =>
      match h a with
      | None => UB
      | Some (_, ps) =>
          (fix slots (k i : nat) (h : heap) (seen : list Z) : res (heap * list Z) :=
             match k with
             | O => Ok (h, seen)
             | S k' =>
                 match h a with
                 | None => UB
                 | Some (l, qs) =>
                     match nth_error qs i with
                     | None => UB
                     | Some ep =>
                         rbind (find_match_to tf h seen ep) (fun m =>
                           let '(ep', seen', found) := m in
                           let h' := hset h a (l, set_nth i ep' qs) in
                           rbind (if found : bool then Ok (h', seen') else cse_visit tf f h' seen' ep')
                                 (fun st => slots k' (Datatypes.S i) (fst st) (snd st)))
                     end
                 end
             end) (List.length ps) O h seen
      end
  end.

(* ExprUtils.hpp:126-133 for the EqualsExpr nodes in turn (Eqs.cpp:1277-1279, one visitor for all equations of all
   parts): the RHS pointer is redirected or visited. *)
Fixpoint cse_eqs (fuel : nat) (h : heap) (seen : list Z) (rhs : list Z) : res (heap * list Z * list Z) :=
  match rhs with
  | [] => Ok (h, seen, [])
  | ep :: r =>
      rbind (find_match_to fuel h seen ep) (fun m =>
        let '(ep', seen', found) := m in
        rbind (if found : bool then Ok (h, seen') else cse_visit fuel fuel h seen' ep') (fun st =>
        rbind (cse_eqs fuel (fst st) (snd st) r) (fun t =>
        let '(h2, seen2, r') := t in Ok (h2, seen2, ep' :: r'))))
  end.
Definition cse (fuel : nat) (h : heap) (rhs : list Z) : res (heap * list Z) :=
  rbind (cse_eqs fuel h [] rhs) (fun t => let '(h', _, r) := t in Ok (h', r)).
