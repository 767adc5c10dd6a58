(* Printing of expressions as C++ code: src/compiler/lib/Print.cpp, Print.hpp and Cpp.cpp:39-53.
   The printed text is a list of pieces [tok]; a piece is a literal, a name, a punctuator or a space.
   Nodes are objects at addresses of a heap (Expr_Model), because the printer keeps temporary variables by address.
   Simplifications: the text of a var read (PrintHelper::read_from_point) is one piece, and the code it may write before
   (see Buf_Model, Ptr_Model) is left out, so temporary variables are numbered without the numbers used there; the
   number of times a node occurs (CounterVisitor::get_count) and the size of an expression (Expr::_get_num_nodes) are
   arbitrary functions; comments are left out; real_t is double. *)
From Coq Require Import String QArith.
From Verif Require Import Base Expr_Model.
Open Scope Z_scope.

Inductive tok :=
| TInt (z : Z) | TReal (q : Q) | TTemp (n : Z) | TLeaf (l : label) | TFun (f : string)
| TMinus | TPlus | TStar | TSlash | TPct | TLP | TRP | TComma | TSp.
Definition text := list tok.

(* n / (d * 10^j) as a quotient of integers *)
Definition scale (n d j : Z) : Z * Z := if 0 <=? j then (n, d * 10 ^ j) else (n * 10 ^ (- j), d).
(* n / d rounded to the nearest integer, halves to even: the rounding of formatted output *)
Definition rnd_even (n d : Z) : Z :=
  let m := n / d in
  let r := 2 * (n mod d) in
  if r <? d then m else if d <? r then m + 1 else if Z.even m then m else m + 1.
(* The decimal exponent k with 10^k <= n/d < 10^(k+1) *)
Fixpoint find_exp (fuel : nat) (n d k : Z) : res Z :=
  match fuel with
  | O => OutOfFuel
  | S f => let '(a, b) := scale n d k in
           if a <? b then find_exp f n d (k - 1) else if 10 * b <=? a then find_exp f n d (k + 1) else Ok k
  end.
Definition dec_val (m j : Z) : Q := if 0 <=? j then inject_Z (m * 10 ^ j) else (m # Z.to_pos (10 ^ (- j))).
(* Cpp.cpp:50-51 setprecision(15) << scientific: one digit before and 15 digits after the point, for a positive value *)
Definition dec16 (q : Q) : res Q :=
  let n := Z.abs (Qnum q) in
  let d := Zpos (Qden q) in
  rbind (find_exp (Z.to_nat (Z.log2 n + Z.log2 d + 4)) n d 0) (fun k =>
    let '(a, b) := scale n d (k - 15) in Ok (dec_val (rnd_even a b) (k - 15))).

(* to_string of an int *)
Definition int_text (n : Z) : text := if n <? 0 then [TMinus; TInt (- n)] else [TInt n].
(* Cpp.cpp:39-53 CppPrintHelper::format_real; int(v) is undefined if v is out of the range of int *)
Definition format_real (v : Q) : res text :=
  rbind (to_int 32 v) (fun n =>
    if Qeq_bool (inject_Z n) v then Ok (int_text n)
    else rbind (dec16 v) (fun p => Ok ((if Qnum v <? 0 then [TMinus] else []) ++ [TReal p]))).

(* Expr.hpp:537-544, 723-724 get_op_str *)
Definition bop_tok (o : bop) : tok := match o with OSub => TMinus | ODiv => TSlash | OMod => TPct end.
Definition cop_tok (o : cop) : tok := match o with OAdd => TPlus | OMul => TStar end.

Fixpoint sep (s : text) (l : list text) : text :=
  match l with [] => [] | [t] => t | t :: r => t ++ s ++ sep s r end.

(* A printed statement: "real_t temp_n = t;", "yask_f_and_g(temp_n1, temp_n2, args);", write of temp_n to a point. *)
Inductive stmt :=
| SSet (n : Z) (t : text)
| SPair (f g : string) (n1 n2 : Z) (args : text)
| SWrite (point : string) (n : Z).

(* Print.hpp:39 _var_num, Print.hpp _temp_vars (latest first), and the output stream *)
Record pst := mkPst { p_next : Z; p_temps : list (Z * Z); p_out : list stmt }.

(* Print.cpp:41-56 make_next_temp_var, with the rest of the statement *)
Definition new_temp (st : pst) (ex : option Z) (t : text) : Z * pst :=
  let n := p_next st in
  (n, mkPst (n + 1) (match ex with Some a => (a, n) :: p_temps st | None => p_temps st end) (p_out st ++ [SSet n t])).
Definition temp_of (a : Z) (l : list (Z * Z)) : option Z :=
  match find (fun p => fst p =? a) l with Some p => Some (snd p) | None => None end.

Section Print.
  Variable h : heap.
  Variables count size : Z -> Z.
  Variable pair : Z -> option Z.           (* FuncExpr::_paired, Expr.hpp:736 *)
  Variables max_size min_size : Z.         (* CompilerSettings::_max_expr_size, _min_expr_size *)

  (* Print.hpp:87-92 *)
  Definition num_common (a : Z) : Z := let c := count a in if c <=? 1 then 0 else c - 1.

  (* PrintVisitorTopDown: the text and the number of common nodes.
     Print.cpp:61-64 VarPoint, 67-70 IndexExpr, 74-77 ConstExpr, 81-84 CodeExpr, 87-90 UnaryNumExpr,
     101-106 BinaryNumExpr, 121-133 CommutativeExpr, 136-156 FuncExpr *)
  Fixpoint td (fuel : nat) (a : Z) : res (text * Z) :=
    match fuel with
    | O => OutOfFuel
    | S f =>
        let nc := num_common a in
        match h a with
        | Some (LConst q, _) => rbind (format_real q) (fun t => Ok (t, nc))
        | Some (LNeg, [r]) => rbind (td f r) (fun '(t, n) => Ok (TMinus :: t, nc + n))
        | Some (LBin o, [x; y]) =>
            rbind (td f x) (fun '(t1, n1) => rbind (td f y) (fun '(t2, n2) =>
              Ok (TLP :: t1 ++ [TSp; bop_tok o; TSp] ++ t2 ++ [TRP], nc + n1 + n2)))
        | Some (LComm o, ps) =>
            rbind (rmap (td f) ps) (fun ts =>
              Ok (TLP :: sep [TSp; cop_tok o; TSp] (map fst ts) ++ [TRP], nc + zsum (map snd ts)))
        | Some (LFunc g, ps) =>
            rbind (rmap (td f) ps) (fun ts =>
              Ok (TFun g :: TLP :: sep [TComma; TSp] (map fst ts) ++ [TRP],
                  nc + (match pair a with Some _ => 1 | None => 0 end) + zsum (map snd ts)))
        | Some ((LCode _ | LVar _ | LIndex _ _) as l, _) => Ok ([TLeaf l], nc)
        | _ => UB
        end
    end.

  (* Print.cpp:191-245 try_simple_print; no text means that nothing was printed *)
  Definition try_simple (fuel : nat) (a : Z) (force : bool) (st : pst) : res (text * pst) :=
    let too_big := max_size <? size a in
    let too_small := size a <? min_size in
    match temp_of a (p_temps st) with
    | Some n => Ok ([TTemp n], st)
    | None =>
        if force || negb too_big then
          rbind (td fuel a) (fun '(t, nc) =>
            if nc =? 0 then Ok (t, st)
            else if force then
              if too_small then Ok (t, st)
              else let '(n, st') := new_temp st (Some a) t in Ok ([TTemp n], st')
            else Ok ([], st))
        else Ok ([], st)
    end.

  (* The operands in turn, each to its text. *)
  Fixpoint bu_list (bu : Z -> pst -> res (text * pst)) (ps : list Z) (st : pst) : res (list text * pst) :=
    match ps with
    | [] => Ok ([], st)
    | p :: r => rbind (bu p st) (fun '(t, st1) => rbind (bu_list bu r st1) (fun '(ts, st2) => Ok (t :: ts, st2)))
    end.
  (* Print.cpp:399-429: the operands of a commutative node after the first one; the last assignment is saved under the
     whole expression *)
  Fixpoint comm_loop (bu : Z -> pst -> res (text * pst)) (o : cop) (ce : Z) (lhs : text) (ps : list Z) (st : pst)
    : res (text * pst) :=
    match ps with
    | [] => Ok (lhs, st)
    | p :: r =>
        rbind (bu p st) (fun '(t, st1) =>
          let '(n, st2) := new_temp st1 (match r with [] => Some ce | _ => None end) (lhs ++ [TSp; cop_tok o; TSp] ++ t) in
          comm_loop bu o ce [TTemp n] r st2)
    end.

  (* PrintVisitorBottomUp: Print.cpp:248-265 leaves, 268-285 UnaryNumExpr, 288-307 BinaryNumExpr, 325-379 FuncExpr,
     382-431 CommutativeExpr (assert on the number of operands at 397) *)
  Fixpoint bu (fuel : nat) (a : Z) (st : pst) : res (text * pst) :=
    match fuel with
    | O => OutOfFuel
    | S f =>
        match h a with
        | Some ((LConst _ | LCode _ | LVar _ | LIndex _ _), _) => try_simple fuel a true st
        | Some (LNeg, [r]) =>
            rbind (try_simple fuel a false st) (fun '(res, st1) =>
              match res with
              | _ :: _ => Ok (res, st1)
              | [] => rbind (bu f r st1) (fun '(t, st2) =>
                        let '(n, st3) := new_temp st2 (Some a) (TMinus :: t) in Ok ([TTemp n], st3))
              end)
        | Some (LBin o, [x; y]) =>
            rbind (try_simple fuel a false st) (fun '(res, st1) =>
              match res with
              | _ :: _ => Ok (res, st1)
              | [] => rbind (bu f x st1) (fun '(t1, st2) => rbind (bu f y st2) (fun '(t2, st3) =>
                        let '(n, st4) := new_temp st3 (Some a) (t1 ++ [TSp; bop_tok o; TSp] ++ t2) in Ok ([TTemp n], st4)))
              end)
        | Some (LComm o, ps) =>
            rbind (try_simple fuel a false st) (fun '(res, st1) =>
              match res with
              | _ :: _ => Ok (res, st1)
              | [] => match ps with
                      | p :: ((_ :: _) as r) => rbind (bu f p st1) (fun '(t, st2) => comm_loop (bu f) o a t r st2)
                      | _ => UB
                      end
              end)
        | Some (LFunc g, ps) =>
            match pair a with
            | Some b =>
                match temp_of a (p_temps st) with
                | Some n => Ok ([TTemp n], st)
                | None =>
                    match h b with
                    | Some (LFunc g2, _) =>
                        rbind (bu_list (bu f) ps st) (fun '(ts, st1) =>
                          let '(n1, st2) := new_temp st1 (Some a) [TInt 0] in
                          let '(n2, st3) := new_temp st2 (Some b) [TInt 0] in
                          Ok ([TTemp n1], mkPst (p_next st3) (p_temps st3)
                                            (p_out st3 ++ [SPair g g2 n1 n2 (sep [TComma; TSp] ts)])))
                    | _ => UB
                    end
                end
            | None =>
                rbind (try_simple fuel a false st) (fun '(res, st1) =>
                  match res with
                  | _ :: _ => Ok (res, st1)
                  | [] => rbind (bu_list (bu f) ps st1) (fun '(ts, st2) =>
                            let '(n, st3) := new_temp st2 (Some a) (TFun g :: TLP :: sep [TComma; TSp] ts ++ [TRP]) in
                            Ok ([TTemp n], st3))
                  end)
            end
        | _ => UB
        end
    end.

  (* Print.cpp:434-468 visit(EqualsExpr) for one equation: its point and the address of its right-hand side *)
  Definition print_eq (fuel : nat) (eq : string * Z) (st : pst) : res pst :=
    rbind (bu fuel (snd eq) st) (fun '(t, st1) =>
      let '(n, st2) := new_temp st1 (Some (snd eq)) t in
      Ok (mkPst (p_next st2) (p_temps st2) (p_out st2 ++ [SWrite (fst eq) n]))).

  (* YaskKernel.cpp:573-580, 668-669: all equations of a part with one printer; Print.hpp:57 numbers start at 1 *)
  Definition print_part (fuel : nat) (eqs : list (string * Z)) : res (list stmt) :=
    rbind (rfold (fun st e => print_eq fuel e st) eqs (mkPst 1 [] [])) (fun st => Ok (p_out st)).
End Print.

(* The variable of a domain dim with global index g, in the code of calc_scalar (YaskKernel.cpp:559-580, the global
   index) and of calc_vectors (YaskKernel.cpp:600-669 and the comment there: relative to the start of the rank and
   counted in vectors) *)
Definition scalar_ix (g : Z) : Z := g.
Definition vector_ix (rank_start vlen g : Z) : Z := (g - rank_start) / vlen.
