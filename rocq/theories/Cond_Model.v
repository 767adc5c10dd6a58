(* Printing of the conditions of equations as C++ functions: src/compiler/lib/YaskKernel.cpp:469-523 with
   PrintVisitorTopDown (Print.cpp:59-133) and the two printers of constants (Print.hpp:132-147, Cpp.cpp:39-53).
   The printed text is a list of pieces.  Simplifications: var reads, hand-written code and function calls in conditions
   are left out (Throw here); a double is a rational number; comments are left out. *)
From Coq Require Import String QArith.
From Verif Require Import Base Expr_Model Print_Model.
Open Scope Z_scope.

(* Expr.hpp:573-578 op strings "==", "!=", "<", ">=", ">", "<=" *)
Inductive cmp := CEq | CNe | CLt | CGe | CGt | CLe.
(* Boolean nodes: comparisons Expr.hpp:547-579, NotExpr 442-460, AndExpr and OrExpr 583-609 *)
Inductive bexpr :=
| BCmp (c : cmp) (l r : expr) | BNot (b : bexpr) | BAnd (l r : bexpr) | BOr (l r : bexpr).

(* Operators of the printed text *)
Inductive xop := XOr | XAnd | XCmp (c : cmp) | XAdd | XSub | XMul | XDiv | XMod.
(* Pieces of the printed text; KFirst d is "FIRST_INDEX(d)", KLast d is "LAST_INDEX(d)" *)
Inductive ctok :=
| KInt (z : Z) | KReal (q : Q) | KName (d : string) | KFirst (d : string) | KLast (d : string)
| KOp (o : xop) | KNot | KLP | KRP | KSp.
Definition ctext := list ctok.

(* to_string of an int *)
Definition cint (n : Z) : ctext := if n <? 0 then [KOp XSub; KInt (- n)] else [KInt n].
(* ostream << scientific with the given number of digits after the point, for the absolute value *)
Definition dec_sci (digits : Z) (q : Q) : res Q :=
  let n := Z.abs (Qnum q) in
  let d := Zpos (Qden q) in
  rbind (find_exp (Z.to_nat (Z.log2 n + Z.log2 d + 4)) n d 0) (fun k =>
    let '(a, b) := scale n d (k - digits) in Ok (dec_val (rnd_even a b) (k - digits))).
(* to_string of a double, "%f": six digits after the point *)
Definition dec_fix (q : Q) : Q :=
  let '(a, b) := scale (Z.abs (Qnum q)) (Zpos (Qden q)) (-6) in dec_val (rnd_even a b) (-6).
Definition signed (q : Q) (p : Q) : ctext := (if Qnum q <? 0 then [KOp XSub] else []) ++ [KReal p].

(* Print.hpp:132-147 PrintHelper::add_const_expr: the constants of a domain condition *)
Definition fmt_domain (v : Q) : res ctext :=
  rbind (to_int 32 v) (fun n =>
    if Qeq_bool (inject_Z n) v then Ok (cint n)
    else if negb (Qle_bool (1 # 10000) v) || Qle_bool 100000 v then rbind (dec_sci 6 v) (fun p => Ok (signed v p))
    else Ok (signed v (dec_fix v))).
(* Cpp.hpp:61-63, Cpp.cpp:39-53 CppPrintHelper::format_real: the constants of a step condition *)
Definition fmt_step (v : Q) : res ctext :=
  rbind (to_int 32 v) (fun n =>
    if Qeq_bool (inject_Z n) v then Ok (cint n) else rbind (dec_sci 15 v) (fun p => Ok (signed v p))).

Definition cop_x (o : cop) : xop := match o with OAdd => XAdd | OMul => XMul end.
Definition bop_x (o : bop) : xop := match o with OSub => XSub | ODiv => XDiv | OMod => XMod end.
Definition spaced (o : xop) : ctext := [KSp; KOp o; KSp].
Fixpoint csep (s : ctext) (l : list ctext) : ctext :=
  match l with [] => [] | [t] => t | t :: r => t ++ s ++ csep s r end.

Fixpoint rall {A} (l : list (res A)) : res (list A) :=
  match l with [] => Ok [] | x :: r => rbind x (fun a => rbind (rall r) (fun t => Ok (a :: t))) end.

Section Print.
  Variable fmt : Q -> res ctext.
  (* Print.cpp:67-70 with IndexExpr::format (Expr.hpp:257-269), 74-77 ConstExpr, 87-90 UnaryNumExpr, 101-106 BinaryNumExpr,
     121-133 CommutativeExpr *)
  Fixpoint ntext (e : expr) : res ctext :=
    match e with
    | E (LConst q) _ => fmt q
    | E (LIndex d FirstI) _ => Ok [KFirst d]
    | E (LIndex d LastI) _ => Ok [KLast d]
    | E (LIndex d _) _ => Ok [KName d]
    | E LNeg [a] => rbind (ntext a) (fun t => Ok (KOp XSub :: t))
    | E (LBin o) [a; b] => rbind (ntext a) (fun t1 => rbind (ntext b) (fun t2 =>
        Ok (KLP :: (t1 ++ spaced (bop_x o) ++ t2) ++ [KRP])))
    | E (LComm o) l => rbind (rall (map ntext l)) (fun ts => Ok (KLP :: csep (spaced (cop_x o)) ts ++ [KRP]))
    | _ => Throw
    end.
  (* Print.cpp:91-94 UnaryBoolExpr, 107-112 BinaryBoolExpr, 113-118 BinaryNum2BoolExpr *)
  Fixpoint btext (b : bexpr) : res ctext :=
    match b with
    | BCmp c l r => rbind (ntext l) (fun t1 => rbind (ntext r) (fun t2 =>
        Ok (KLP :: (t1 ++ spaced (XCmp c) ++ t2) ++ [KRP])))
    | BNot a => rbind (btext a) (fun t => Ok (KNot :: t))
    | BAnd l r => rbind (btext l) (fun t1 => rbind (btext r) (fun t2 => Ok (KLP :: (t1 ++ spaced XAnd ++ t2) ++ [KRP])))
    | BOr l r => rbind (btext l) (fun t1 => rbind (btext r) (fun t2 => Ok (KLP :: (t1 ++ spaced XOr ++ t2) ++ [KRP])))
    end.
End Print.

(* A printed function: its variables, each with the position of its value in the argument idxs, and the returned text. *)
Record cfun := mkCfun { f_vars : list (string * nat); f_ret : ctext }.
Fixpoint number_from {A} (i : nat) (l : list A) : list (A * nat) :=
  match l with [] => [] | a :: r => (a, i) :: number_from (S i) r end.
(* YaskKernel.cpp:469-483 is_in_valid_domain, with print_indices (33-61): all stencil dims, "idx_t d = idxs[i];" *)
Definition valid_domain (dims : list string) (cond : bexpr) : res cfun :=
  rbind (btext fmt_domain cond) (fun t => Ok (mkCfun (number_from 0 dims) t)).
(* YaskKernel.cpp:500-523 is_in_valid_step: "idx_t t = input_step_index;" *)
Definition valid_step (step_dim : string) (cond : bexpr) : res cfun :=
  rbind (btext fmt_step cond) (fun t => Ok (mkCfun [(step_dim, O)] t)).
