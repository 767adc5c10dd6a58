(* How a C++ compiler reads the printed conditions, and the value a condition should have. *)
From Coq Require Import String QArith Qabs Qpower.
From Verif Require Import Base Expr_Model Expr_Spec Print_Model Print_Spec Cond_Model.
Open Scope Z_scope.

(* C++ expressions *)
Inductive xx :=
| XI (z : Z) | XR (q : Q) | XVar (d : string) | XFirst (d : string) | XLast (d : string)
| XDec (d : string) | XNeg (a : xx) | XNotE (a : xx) | XBin (o : xop) (a b : xx).

(* The binary operators by increasing binding strength *)
Definition level (o : xop) : nat :=
  match o with
  | XOr => 0 | XAnd => 1 | XCmp (CEq | CNe) => 2 | XCmp _ => 3 | XAdd | XSub => 4 | XMul | XDiv | XMod => 5
  end%nat.
Fixpoint cws (t : ctext) : ctext := match t with KSp :: r => cws r | _ => t end.
(* Two minus signs without a space between them are one token, the decrement operator. *)
Fixpoint q_un (fuel : nat) (t : ctext) : option (xx * ctext) :=
  match fuel with
  | O => None
  | S f =>
      match cws t with
      | KOp XSub :: KOp XSub :: r => match cws r with KName d :: r' => Some (XDec d, r') | _ => None end
      | KOp XSub :: r => match q_un f r with Some (c, r') => Some (XNeg c, r') | None => None end
      | KNot :: r => match q_un f r with Some (c, r') => Some (XNotE c, r') | None => None end
      | KInt z :: r => Some (XI z, r)
      | KReal q :: r => Some (XR q, r)
      | KName d :: r => Some (XVar d, r)
      | KFirst d :: r => Some (XFirst d, r)
      | KLast d :: r => Some (XLast d, r)
      | KLP :: r =>
          match q_lev f 0 r with
          | Some (c, r') => match cws r' with KRP :: r'' => Some (c, r'') | _ => None end
          | None => None
          end
      | _ => None
      end
  end
with q_lev (fuel : nat) (k : nat) (t : ctext) : option (xx * ctext) :=
  match fuel with
  | O => None
  | S f => if (6 <=? k)%nat then q_un f t
           else match q_lev f (S k) t with Some (c, r) => q_rest f k c r | None => None end
  end
with q_rest (fuel : nat) (k : nat) (l : xx) (t : ctext) : option (xx * ctext) :=
  match fuel with
  | O => None
  | S f =>
      match cws t with
      | KOp XSub :: KOp XSub :: _ => None
      | KOp o :: r =>
          if (level o =? k)%nat
          then match q_lev f (S k) r with Some (c, r') => q_rest f k (XBin o l c) r' | None => None end
          else Some (l, t)
      | _ => Some (l, t)
      end
  end.
Definition cparse (t : ctext) : option xx :=
  match q_lev (10 * List.length t + 10) 0 t with
  | Some (c, r) => match cws r with [] => Some c | _ => None end
  | None => None
  end.

Section Run.
  Variable rnd : Q -> Q.                   (* rounding of results to double *)
  Variable vars : string -> option Z.      (* the idx_t variables *)
  Variable gsize : string -> Z.            (* sizes of the whole domain *)

  (* Values: int or (wide) idx_t, double, bool *)
  Inductive xval := VInt (wide : bool) (z : Z) | VDbl (q : Q) | VBool (b : bool).
  Definition in_long (z : Z) : bool := (- 2 ^ 63 <=? z) && (z <? 2 ^ 63).
  Definition mk_int (wide : bool) (z : Z) : option xval :=
    if (if wide then in_long z else in_int z) then Some (VInt wide z) else None.
  Definition dbl (v : xval) : option Q :=
    match v with VInt _ z => Some (rnd (inject_Z z)) | VDbl q => Some q | VBool _ => None end.
  Definition cmp_z (c : cmp) (x y : Z) : bool :=
    match c with CEq => x =? y | CNe => negb (x =? y) | CLt => x <? y | CGe => y <=? x | CGt => y <? x | CLe => x <=? y end.
  Definition cmp_q (c : cmp) (x y : Q) : bool :=
    match c with
    | CEq => Qeq_bool x y | CNe => negb (Qeq_bool x y) | CLt => negb (Qle_bool y x) | CGe => Qle_bool y x
    | CGt => negb (Qle_bool x y) | CLe => Qle_bool x y
    end.
  Definition x_bin (o : xop) (a b : xval) : option xval :=
    match a, b with
    | VInt w1 x, VInt w2 y =>
        let w := w1 || w2 in
        match o with
        | XAdd => mk_int w (x + y) | XSub => mk_int w (x - y) | XMul => mk_int w (x * y)
        | XDiv => if y =? 0 then None else mk_int w (Z.quot x y)
        | XMod => if y =? 0 then None else if w && (x =? - 2 ^ 63) && (y =? -1) then None else mk_int w (Z.rem x y)
        | XCmp c => Some (VBool (cmp_z c x y))
        | _ => None
        end
    | _, _ =>
        match dbl a, dbl b with
        | Some x, Some y =>
            match o with
            | XAdd => Some (VDbl (rnd (x + y))) | XSub => Some (VDbl (rnd (x - y))) | XMul => Some (VDbl (rnd (x * y)))
            | XDiv => if Qeq_bool y 0 then None else Some (VDbl (rnd (x / y)))
            | XCmp c => Some (VBool (cmp_q c x y))
            | _ => None
            end
        | _, _ => None
        end
    end.
  (* FIRST_INDEX is the int literal 0 and LAST_INDEX the idx_t size minus 1 (kernel/lib/yask_stencil.hpp:64-65). *)
  Fixpoint xev (c : xx) : option xval :=
    match c with
    | XI z => if in_int z then Some (VInt false z) else mk_int true z
    | XR q => Some (VDbl (rnd q))
    | XVar d => match vars d with Some z => Some (VInt true z) | None => None end
    | XFirst _ => Some (VInt false 0)
    | XLast d => mk_int true (gsize d - 1)
    | XDec d => match vars d with Some z => mk_int true (z - 1) | None => None end
    | XNeg a => match xev a with Some (VInt w z) => mk_int w (- z) | Some (VDbl q) => Some (VDbl (- q)) | _ => None end
    | XNotE a => match xev a with Some (VBool b) => Some (VBool (negb b)) | _ => None end
    | XBin XAnd a b => match xev a with
                       | Some (VBool true) => match xev b with Some (VBool y) => Some (VBool y) | _ => None end
                       | Some (VBool false) => Some (VBool false)
                       | _ => None
                       end
    | XBin XOr a b => match xev a with
                      | Some (VBool true) => Some (VBool true)
                      | Some (VBool false) => match xev b with Some (VBool y) => Some (VBool y) | _ => None end
                      | _ => None
                      end
    | XBin o a b => match xev a, xev b with Some x, Some y => x_bin o x y | _, _ => None end
    end.
End Run.

(* A decremented variable must not occur a second time: the value would depend on the order of evaluation. *)
Fixpoint uses (d : string) (c : xx) : nat :=
  match c with
  | XVar e | XDec e => if String.eqb d e then 1 else 0
  | XNeg a | XNotE a => uses d a
  | XBin _ a b => uses d a + uses d b
  | _ => 0
  end%nat.
Fixpoint decs (c : xx) : list string :=
  match c with XDec d => [d] | XNeg a | XNotE a => decs a | XBin _ a b => decs a ++ decs b | _ => [] end.

(* A call of a printed function with the values of idxs. *)
Definition var_of (vars : list (string * nat)) (idxs : list Z) (d : string) : option Z :=
  match find (fun p => String.eqb (fst p) d) vars with Some p => nth_error idxs (snd p) | None => None end.
Definition call_fun (rnd : Q -> Q) (gsize : string -> Z) (f : cfun) (idxs : list Z) : option bool :=
  match cparse (f_ret f) with
  | Some c =>
      if forallb (fun d => Nat.eqb (uses d c) 1) (decs c)
      then match xev rnd (var_of (f_vars f) idxs) gsize c with Some (VBool b) => Some b | _ => None end
      else None
  | None => None
  end.

(* The value of a numerical expression: sums and products from left to right, modulo of the truncated operands with the
   sign of the divisor; no value if a divisor is zero. *)
Definition qtrunc (q : Q) : Z := Z.quot (Qnum q) (Zpos (Qden q)).
Definition oq2 (f : Q -> Q -> Q) (a b : option Q) : option Q := match a, b with Some x, Some y => Some (f x y) | _, _ => None end.
Section Value.
  Variable rnd : Q -> Q.
  Variable w : string -> itype -> Z.       (* index values *)
  Fixpoint num (e : expr) : option Q :=
    match e with
    | E (LConst q) _ => Some q
    | E (LIndex d t) _ => Some (inject_Z (w d t))
    | E LNeg [a] => match num a with Some v => Some (- v)%Q | None => None end
    | E (LBin OSub) [a; b] => oq2 (fun x y => rnd (x - y)%Q) (num a) (num b)
    | E (LBin ODiv) [a; b] =>
        match num a, num b with
        | Some x, Some y => if Qeq_bool y 0 then None else Some (rnd (x / y)%Q)
        | _, _ => None
        end
    | E (LBin OMod) [a; b] =>
        match num a, num b with
        | Some x, Some y => if qtrunc y =? 0 then None else Some (inject_Z (qtrunc x mod qtrunc y))
        | _, _ => None
        end
    | E (LComm OAdd) (a :: l) => fold_left (fun s x => oq2 (fun p q => rnd (p + q)%Q) s (num x)) l (num a)
    | E (LComm OMul) (a :: l) => fold_left (fun s x => oq2 (fun p q => rnd (p * q)%Q) s (num x)) l (num a)
    | _ => None
    end.
  Definition compares (c : cmp) (x y : Q) : Prop :=
    match c with
    | CEq => (x == y)%Q | CNe => ~ (x == y)%Q | CLt => (x < y)%Q | CGe => (y <= x)%Q | CGt => (y < x)%Q | CLe => (x <= y)%Q
    end.
  (* The condition is true or false; all its parts must have a value. *)
  Inductive truth : bexpr -> bool -> Prop :=
  | t_cmp : forall c l r x y b, num l = Some x -> num r = Some y -> (b = true <-> compares c x y) -> truth (BCmp c l r) b
  | t_not : forall a b, truth a b -> truth (BNot a) (negb b)
  | t_and : forall l r x y, truth l x -> truth r y -> truth (BAnd l r) (x && y)
  | t_or : forall l r x y, truth l x -> truth r y -> truth (BOr l r) (x || y).
End Value.

(* The value of each kind of index: the first index of the whole domain is 0. *)
Definition index_val (ix gsize : string -> Z) (d : string) (t : itype) : Z :=
  match t with FirstI => 0 | LastI => gsize d - 1 | _ => ix d end.

(* A monotone rounding that keeps the integers of up to 53 bits, as that of doubles. *)
Definition dbl_rounding (rnd : Q -> Q) : Prop :=
  (forall a b, a <= b -> rnd a <= rnd b)%Q /\ forall z, - 2 ^ 53 <= z <= 2 ^ 53 -> (rnd (inject_Z z) == inject_Z z)%Q.

(* Kinds of numerical expressions: integer constants only, with index values, with other constants. *)
Inductive kind := K32 | K64 | KR.
Definition kjoin (a b : kind) : kind :=
  match a, b with KR, _ | _, KR => KR | K64, _ | _, K64 => K64 | _, _ => K32 end.
Fixpoint kind_of (e : expr) : kind :=
  match e with
  | E (LConst q) _ => match q_int q with Some _ => K32 | None => KR end
  | E (LIndex _ FirstI) _ => K32
  | E (LIndex _ _) _ => K64
  | E _ l => fold_left (fun k x => kjoin k (kind_of x)) l K32
  end.
Definition within (k : kind) (v : Q) : Prop :=
  match k with K32 => (Qabs v < inject_Z (2 ^ 31))%Q | K64 => (Qabs v < inject_Z (2 ^ 53))%Q | KR => True end.

(* Constants that keep their value when printed.  A domain condition: an int, or a double that has a decimal form of six
   digits after the point from 0.0001 to 100000, and of seven digits otherwise.  A step condition: an int, or a double
   that the closest numbers of 16 digits are read as. *)
Definition short_const (rnd : Q -> Q) (q : Q) : Prop :=
  (Qabs q < inject_Z (2 ^ 31))%Q /\
  (q_int q <> None \/
   (((1 # 10000) <= q /\ q < 100000) /\ exists m, rnd (inject_Z m * Qpower 10 (-6)) == q /\
      Qabs (q - inject_Z m * Qpower 10 (-6)) < (1 # 2) * Qpower 10 (-6))%Q \/
   (~ ((1 # 10000) <= q /\ q < 100000) /\ exists m j, (10 ^ 6 <= m < 10 ^ 7)%Z /\ rnd (inject_Z m * Qpower 10 j) == Qabs q /\
      Qabs (Qabs q - inject_Z m * Qpower 10 j) < (1 # 2) * Qpower 10 (j - 1))%Q).
Definition long_const (rnd : Q -> Q) (q : Q) : Prop :=
  (Qabs q < inject_Z (2 ^ 31))%Q /\ (q_int q <> None \/ forall p, nearest16 (Qabs q) p -> (rnd p == Qabs q)%Q).

(* Expressions whose printed form has their value: no negation right below a negation, no negated negative constant, no
   quotient of two integers, modulo only of integers with a dividend of at least 0 and a positive divisor, and integer
   results in range. *)
Section Printable.
  Variable rnd : Q -> Q.
  Variable w : string -> itype -> Z.
  Variable const_ok : Q -> Prop.
  Variable declared : string -> itype -> Prop.
  Definition sized (e : expr) : Prop := forall v, num rnd w e = Some v -> within (kind_of e) v.
  Fixpoint printable_num (e : expr) : Prop :=
    sized e /\
    match e with
    | E (LConst q) l => l = [] /\ const_ok q
    | E (LIndex d t) l => l = [] /\ declared d t
    | E LNeg [a] => printable_num a /\ match a with E LNeg _ => False | E (LConst q) _ => (0 <= q)%Q | _ => True end
    | E (LBin OSub) [a; b] => printable_num a /\ printable_num b
    | E (LBin ODiv) [a; b] => printable_num a /\ printable_num b /\ kjoin (kind_of a) (kind_of b) = KR
    | E (LBin OMod) [a; b] =>
        printable_num a /\ printable_num b /\ kjoin (kind_of a) (kind_of b) <> KR /\
        (forall v, num rnd w a = Some v -> (0 <= v)%Q) /\ (forall v, num rnd w b = Some v -> (0 < v)%Q)
    | E (LComm o) l =>
        l <> [] /\ fold_right (fun x P => printable_num x /\ P) True l /\ forall k, sized (E (LComm o) (firstn k l))
    | _ => False
    end.
  Fixpoint printable_cond (b : bexpr) : Prop :=
    match b with
    | BCmp _ l r => printable_num l /\ printable_num r
    | BNot a => printable_cond a
    | BAnd l r | BOr l r => printable_cond l /\ printable_cond r
    end.
End Printable.

(* The indices that may occur: those of the stencil dims in a domain condition, the step index in a step condition; the
   first and last index of a stencil dim in both. *)
Definition domain_decl (dims : list string) (d : string) (t : itype) : Prop := In d dims.
Definition step_decl (dims : list string) (step_dim : string) (d : string) (t : itype) : Prop :=
  match t with FirstI | LastI => In d dims | _ => d = step_dim end.
