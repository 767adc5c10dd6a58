(* How a C++ compiler reads the printed statements, and the value an expression should have.
   The grammar is the part of the C++ expression grammar that the printer can use: unary minus, * / % before + -, all from
   left to right, parentheses and calls.  Integer literals have type int; an operation on two integers is an integer
   operation and is undefined if its result is out of range; with one real operand the other one is converted. *)
From Coq Require Import String QArith Qabs.
From Verif Require Import Base Expr_Model Expr_Spec Print_Model.
Open Scope Z_scope.

Inductive binop := BAdd | BSub | BMul | BDiv | BMod.
Inductive cx :=
| CInt (z : Z) | CReal (q : Q) | CTemp (n : Z) | CLeaf (l : label) | CNeg (c : cx) | CBin (o : binop) (a b : cx)
| CCall (f : string) (args : list cx).

Fixpoint ws (t : text) : text := match t with TSp :: r => ws r | _ => t end.

(* Two minus signs without a space between them are one token of C++, the decrement operator: not an expression of this
   grammar. *)
Fixpoint p_un (fuel : nat) (t : text) : option (cx * text) :=
  match fuel with
  | O => None
  | S f =>
      match ws t with
      | TMinus :: TMinus :: _ => None
      | TMinus :: r => match p_un f r with Some (c, r') => Some (CNeg c, r') | None => None end
      | TInt z :: r => Some (CInt z, r)
      | TReal q :: r => Some (CReal q, r)
      | TTemp n :: r => Some (CTemp n, r)
      | TLeaf l :: r => Some (CLeaf l, r)
      | TLP :: r =>
          match p_add f r with
          | Some (c, r') => match ws r' with TRP :: r'' => Some (c, r'') | _ => None end
          | None => None
          end
      | TFun g :: r =>
          match ws r with
          | TLP :: r1 =>
              match p_args f r1 with
              | Some (cs, r') => match ws r' with TRP :: r'' => Some (CCall g cs, r'') | _ => None end
              | None => None
              end
          | _ => None
          end
      | _ => None
      end
  end
with p_mul (fuel : nat) (t : text) : option (cx * text) :=
  match fuel with
  | O => None
  | S f => match p_un f t with Some (c, r) => p_mul_rest f c r | None => None end
  end
with p_mul_rest (fuel : nat) (l : cx) (t : text) : option (cx * text) :=
  match fuel with
  | O => None
  | S f =>
      match ws t with
      | TStar :: r => match p_un f r with Some (c, r') => p_mul_rest f (CBin BMul l c) r' | None => None end
      | TSlash :: r => match p_un f r with Some (c, r') => p_mul_rest f (CBin BDiv l c) r' | None => None end
      | TPct :: r => match p_un f r with Some (c, r') => p_mul_rest f (CBin BMod l c) r' | None => None end
      | _ => Some (l, t)
      end
  end
with p_add (fuel : nat) (t : text) : option (cx * text) :=
  match fuel with
  | O => None
  | S f => match p_mul f t with Some (c, r) => p_add_rest f c r | None => None end
  end
with p_add_rest (fuel : nat) (l : cx) (t : text) : option (cx * text) :=
  match fuel with
  | O => None
  | S f =>
      match ws t with
      | TPlus :: r => match p_mul f r with Some (c, r') => p_add_rest f (CBin BAdd l c) r' | None => None end
      | TMinus :: TMinus :: _ => None
      | TMinus :: r => match p_mul f r with Some (c, r') => p_add_rest f (CBin BSub l c) r' | None => None end
      | _ => Some (l, t)
      end
  end
with p_args (fuel : nat) (t : text) : option (list cx * text) :=
  match fuel with
  | O => None
  | S f =>
      match p_add f t with
      | Some (c, r) =>
          match ws r with
          | TComma :: r1 => match p_args f r1 with Some (cs, r') => Some (c :: cs, r') | None => None end
          | _ => Some ([c], r)
          end
      | None => None
      end
  end.
(* A text that is one expression, or a list of arguments. *)
Definition parse (t : text) : option cx :=
  match p_add (4 * List.length t + 4) t with Some (c, r) => match ws r with [] => Some c | _ => None end | None => None end.
Definition parse_args (t : text) : option (list cx) :=
  match p_args (4 * List.length t + 5) t with Some (c, r) => match ws r with [] => Some c | _ => None end | None => None end.

Definition in_int (z : Z) : bool := (- 2 ^ 31 <=? z) && (z <? 2 ^ 31).

(* The functions with two results that the kernel defines, named by the results: yask_sin_and_cos and yask_cos_and_sin
   (realv.hpp:730-752).  A call of any other does not compile. *)
Definition known_pair (f g : string) : bool :=
  (String.eqb f "sin" && String.eqb g "cos") || (String.eqb f "cos" && String.eqb g "sin").

Section Run.
  Context {V : Type}.
  Variable N : nsys V.
  Variable ix : string -> itype -> Z.      (* the index variables of the code *)

  Inductive cval := VI (z : Z) | VR (v : V).
  Definition to_real (c : cval) : V := match c with VI z => n_const N (inject_Z z) | VR v => v end.
  Definition vi (z : Z) : option cval := if in_int z then Some (VI z) else None.
  Definition bin_val (o : binop) (a b : cval) : option cval :=
    match a, b with
    | VI x, VI y =>
        match o with
        | BAdd => vi (x + y) | BSub => vi (x - y) | BMul => vi (x * y)
        | BDiv => if y =? 0 then None else vi (Z.quot x y)
        | BMod => if y =? 0 then None else vi (Z.rem x y)
        end
    | _, _ =>
        let x := to_real a in let y := to_real b in
        match o with
        | BAdd => Some (VR (n_add N x y)) | BSub => Some (VR (n_sub N x y)) | BMul => Some (VR (n_mul N x y))
        | BDiv => Some (VR (n_div N x y)) | BMod => None
        end
    end.
  Fixpoint opts {A} (l : list (option A)) : option (list A) :=
    match l with
    | [] => Some []
    | Some x :: r => match opts r with Some xs => Some (x :: xs) | None => None end
    | None :: _ => None
    end.
  Definition env := Z -> option V.
  Fixpoint ev (en : env) (c : cx) : option cval :=
    match c with
    | CInt z => vi z
    | CReal q => Some (VR (n_const N q))
    | CTemp n => match en n with Some v => Some (VR v) | None => None end
    | CLeaf (LVar s) => Some (VR (n_var N s))
    | CLeaf (LIndex d t) => Some (VI (ix d t))
    | CLeaf _ => None
    | CNeg a => match ev en a with Some (VI z) => vi (- z) | Some (VR v) => Some (VR (n_neg N v)) | None => None end
    | CBin o a b => match ev en a, ev en b with Some x, Some y => bin_val o x y | _, _ => None end
    | CCall f l => match opts (map (ev en) l) with Some vs => Some (VR (n_fun N f (map to_real vs))) | None => None end
    end.

  Definition upd (en : env) (n : Z) (v : V) : env := fun k => if k =? n then Some v else en k.
  (* One statement: the variables after it and the points written.  A variable is declared once. *)
  Definition exec (en : env) (s : stmt) : option (env * list (string * V)) :=
    match s with
    | SSet n t =>
        match en n, parse t with
        | None, Some c => match ev en c with Some v => Some (upd en n (to_real v), []) | None => None end
        | _, _ => None
        end
    | SPair f g n1 n2 t =>
        match en n1, en n2, parse_args t, known_pair f g with
        | Some _, Some _, Some cs, true =>
            match opts (map (ev en) cs) with
            | Some vs => let xs := map to_real vs in Some (upd (upd en n1 (n_fun N f xs)) n2 (n_fun N g xs), [])
            | None => None
            end
        | _, _, _, _ => None
        end
    | SWrite p n => match en n with Some v => Some (en, [(p, v)]) | None => None end
    end.
  Fixpoint run (en : env) (l : list stmt) : option (env * list (string * V)) :=
    match l with
    | [] => Some (en, [])
    | s :: r => match exec en s with
                | Some (en1, w1) => match run en1 r with Some (en2, w2) => Some (en2, w1 ++ w2) | None => None end
                | None => None
                end
    end.

  (* Value of an expression: sums and products from left to right. *)
  Fixpoint lval (e : expr) : V :=
    match e with
    | E (LConst q) _ => n_const N q
    | E (LVar s) _ => n_var N s
    | E LNeg [a] => n_neg N (lval a)
    | E (LBin OSub) [a; b] => n_sub N (lval a) (lval b)
    | E (LBin ODiv) [a; b] => n_div N (lval a) (lval b)
    | E (LComm OAdd) [] => n_zero N
    | E (LComm OMul) [] => n_one N
    | E (LComm OAdd) (a :: l) => fold_left (fun s x => n_add N s (lval x)) l (lval a)
    | E (LComm OMul) (a :: l) => fold_left (fun s x => n_mul N s (lval x)) l (lval a)
    | E (LFunc f) l => n_fun N f (map lval l)
    | _ => n_bad N
    end.
End Run.
Arguments VI {V}. Arguments VR {V}.

(* An expression of integer constants only, without divisions and calls, and its integer value. *)
Definition q_int (q : Q) : option Z := if Qnum q mod Zpos (Qden q) =? 0 then Some (Qnum q / Zpos (Qden q)) else None.
Definition opt2 (f : Z -> Z -> Z) (a b : option Z) : option Z :=
  match a, b with Some x, Some y => Some (f x y) | _, _ => None end.
Fixpoint ival (e : expr) : option Z :=
  match e with
  | E (LConst q) _ => q_int q
  | E LNeg [a] => match ival a with Some z => Some (- z) | None => None end
  | E (LBin OSub) [a; b] => opt2 Z.sub (ival a) (ival b)
  | E (LComm OAdd) (a :: l) => fold_left (fun s x => opt2 Z.add s (ival x)) l (ival a)
  | E (LComm OMul) (a :: l) => fold_left (fun s x => opt2 Z.mul s (ival x)) l (ival a)
  | _ => None
  end.
Definition small (B : Z) (o : option Z) : Prop := match o with Some z => - B <= z <= B | None => True end.

(* p has at most 16 decimal digits; p is one of the numbers of 16 digits closest to q *)
Definition digits16 (p : Q) : Prop := exists m j, Z.abs m <= 10 ^ 16 /\ (p == inject_Z m * Qpower 10 j)%Q.
Definition nearest16 (q p : Q) : Prop := digits16 p /\ forall p', digits16 p' -> (Qabs (p - q) <= Qabs (p' - q))%Q.
(* A constant that keeps its value: an integer up to B, or a number that is the same to the number system as the closest
   numbers of 16 digits. *)
Definition const_ok {V} (N : nsys V) (B : Z) (q : Q) : Prop :=
  (Qabs q < inject_Z (2 ^ 31))%Q /\
  match q_int q with Some z => - B <= z <= B | None => forall p, nearest16 q p -> n_const N p = n_const N q end.

(* Negation of constants is exact, and so are integers up to B. *)
Definition ints_exact {V} (N : nsys V) (B : Z) : Prop :=
  0 <= B < 2 ^ 31 /\ (forall a b, (a == b)%Q -> n_const N a = n_const N b) /\
  (forall q, n_neg N (n_const N q) = n_const N (- q)%Q) /\
  (forall x y, - B <= x <= B -> - B <= y <= B ->
     (- B <= x + y <= B -> n_add N (n_const N (inject_Z x)) (n_const N (inject_Z y)) = n_const N (inject_Z (x + y))) /\
     (- B <= x - y <= B -> n_sub N (n_const N (inject_Z x)) (n_const N (inject_Z y)) = n_const N (inject_Z (x - y))) /\
     (- B <= x * y <= B -> n_mul N (n_const N (inject_Z x)) (n_const N (inject_Z y)) = n_const N (inject_Z (x * y)))).

(* No negation right below a negation, no negated negative constant, no quotient of two integers, all integer results up
   to B, and no index variables, modulo or hand-written code. *)
Fixpoint printable {V} (N : nsys V) (B : Z) (e : expr) : Prop :=
  small B (ival e) /\
  match e with
  | E (LConst q) l => l = [] /\ const_ok N B q
  | E (LVar _) l => l = []
  | E LNeg [a] => printable N B a /\ match a with E LNeg _ => False | E (LConst q) _ => (0 <= q)%Q | _ => True end
  | E (LBin OSub) [a; b] => printable N B a /\ printable N B b
  | E (LBin ODiv) [a; b] => printable N B a /\ printable N B b /\ (ival a = None \/ ival b = None)
  | E (LComm o) l =>
      fold_right (fun x P => printable N B x /\ P) True l /\ (2 <= List.length l)%nat /\
      forall k, small B (ival (E (LComm o) (firstn k l)))
  | E (LFunc _) l => l <> [] /\ fold_right (fun x P => printable N B x /\ P) True l
  | _ => False
  end.

(* Paired functions are called with arguments of the same values. *)
Definition pairs_ok {V} (N : nsys V) (h : heap) (pair : Z -> option Z) : Prop := forall a b, pair a = Some b ->
  exists f g ps qs, h a = Some (LFunc f, ps) /\ h b = Some (LFunc g, qs) /\ known_pair f g = true /\
    forall es es', Forall2 (stands h) ps es -> Forall2 (stands h) qs es' -> map (lval N) es = map (lval N) es'.

(* Doubles without limits on the exponent, and the double a decimal number is read as if there is one closest to it. *)
Definition double (q : Q) : Prop := exists m e, Z.abs m < 2 ^ 53 /\ (q == inject_Z m * Qpower 2 e)%Q.
Definition reads_as (x q : Q) : Prop := double q /\ forall f, double f -> (f == q)%Q \/ (Qabs (q - x) < Qabs (f - x))%Q.
Definition power2 (q : Q) : Prop := exists k, (Qabs q == Qpower 2 k)%Q.
(* The number that a literal stands for *)
Fixpoint lit_val (c : cx) : option Q :=
  match c with
  | CInt z => Some (inject_Z z) | CReal q => Some q
  | CNeg a => match lit_val a with Some q => Some (- q)%Q | None => None end
  | _ => None
  end.
