(* Meaning of expressions: values in any number system, and the expression a pointer stands for. *)
From Coq Require Import String QArith.
From Verif Require Import Base Expr_Model.
Open Scope Z_scope.

(* n is q rounded towards zero *)
Definition truncates (q : Q) (n : Z) : Prop :=
  ((0 <= q -> inject_Z n <= q /\ q < inject_Z (n + 1)) /\ (q <= 0 -> inject_Z (n - 1) < q /\ q <= inject_Z n))%Q.

(* A rounding of exact results that keeps all integers up to B (2^53 for doubles; any B if results are exact). *)
Definition rounding (rnd : Q -> Q) (B : Z) : Prop :=
  (forall a b, a == b -> rnd a == rnd b)%Q /\ (forall z, - B <= z <= B -> (rnd (inject_Z z) == inject_Z z)%Q).

(* Values of the leaves and functions. *)
Record leaves := mkLeaves {
  v_code : string -> Q; v_var : string -> Q; v_idx : string -> itype -> Z; v_fun : string -> list Q -> Q }.

(* [means rnd w e v]: e evaluates to v.  Division by zero and modulo by a number that is not positive have no value. *)
Inductive means (rnd : Q -> Q) (w : leaves) : expr -> Q -> Prop :=
| m_const : forall q, means rnd w (E (LConst q) []) q
| m_code : forall s, means rnd w (E (LCode s) []) (v_code w s)
| m_var : forall s, means rnd w (E (LVar s) []) (v_var w s)
| m_index : forall d t, means rnd w (E (LIndex d t) []) (inject_Z (v_idx w d t))
| m_neg : forall e v, means rnd w e v -> means rnd w (E LNeg [e]) (- v)%Q
| m_sub : forall a b x y, means rnd w a x -> means rnd w b y -> means rnd w (E (LBin OSub) [a; b]) (rnd (x - y)%Q)
| m_div : forall a b x y, means rnd w a x -> means rnd w b y -> ~ (y == 0)%Q ->
    means rnd w (E (LBin ODiv) [a; b]) (rnd (x / y)%Q)
| m_mod : forall a b x y m n, means rnd w a x -> means rnd w b y -> truncates x m -> truncates y n -> 0 < n ->
    means rnd w (E (LBin OMod) [a; b]) (rnd (inject_Z (m mod n)))
| m_add0 : means rnd w (E (LComm OAdd) []) 0%Q
| m_add : forall l e s v, means rnd w (E (LComm OAdd) l) s -> means rnd w e v ->
    means rnd w (E (LComm OAdd) (l ++ [e])) (rnd (s + v)%Q)
| m_mul0 : means rnd w (E (LComm OMul) []) 1%Q
| m_mul : forall l e s v, means rnd w (E (LComm OMul) l) s -> means rnd w e v ->
    means rnd w (E (LComm OMul) (l ++ [e])) (rnd (s * v)%Q)
| m_fun : forall f l vs, Forall2 (means rnd w) l vs -> means rnd w (E (LFunc f) l) (v_fun w f vs).

(* A number system: + and * are associative and commutative with units; nothing is assumed about the rest. *)
Record nsys (V : Type) := mkNsys {
  n_const : Q -> V; n_code : string -> V; n_var : string -> V; n_idx : string -> itype -> V; n_fun : string -> list V -> V;
  n_neg : V -> V; n_sub : V -> V -> V; n_div : V -> V -> V; n_mod : V -> V -> V;
  n_add : V -> V -> V; n_zero : V; n_mul : V -> V -> V; n_one : V; n_bad : V }.
Arguments n_const {V}. Arguments n_code {V}. Arguments n_var {V}. Arguments n_idx {V}. Arguments n_fun {V}.
Arguments n_neg {V}. Arguments n_sub {V}. Arguments n_div {V}. Arguments n_mod {V}. Arguments n_add {V}.
Arguments n_zero {V}. Arguments n_mul {V}. Arguments n_one {V}. Arguments n_bad {V}.

Definition comm_monoid {V} (op : V -> V -> V) (unit : V) : Prop :=
  (forall a b, op a b = op b a) /\ (forall a b c, op a (op b c) = op (op a b) c) /\ (forall a, op unit a = a).
Definition lawful {V} (N : nsys V) : Prop :=
  comm_monoid (n_add N) (n_zero N) /\ comm_monoid (n_mul N) (n_one N) /\
  (forall a b, (a == b)%Q -> n_const N a = n_const N b).

(* Value of an expression. *)
Fixpoint value {V} (N : nsys V) (e : expr) : V :=
  match e with
  | E (LConst q) _ => n_const N q
  | E (LCode s) _ => n_code N s
  | E (LVar s) _ => n_var N s
  | E (LIndex d t) _ => n_idx N d t
  | E LNeg [a] => n_neg N (value N a)
  | E (LBin OSub) [a; b] => n_sub N (value N a) (value N b)
  | E (LBin ODiv) [a; b] => n_div N (value N a) (value N b)
  | E (LBin OMod) [a; b] => n_mod N (value N a) (value N b)
  | E (LComm OAdd) l => fold_right (fun x s => n_add N (value N x) s) (n_zero N) l
  | E (LComm OMul) l => fold_right (fun x s => n_mul N (value N x) s) (n_one N) l
  | E (LFunc f) l => n_fun N f (map (value N) l)
  | _ => n_bad N
  end.

(* The expression a pointer stands for. *)
Inductive stands (h : heap) : Z -> expr -> Prop :=
| st_node : forall a l ps es, h a = Some (l, ps) -> Forall2 (stands h) ps es -> stands h a (E l es).

(* Nodes have as many operand pointers as their class asks for. *)
Definition nodes_ok (h : heap) : Prop := forall a l ps, h a = Some (l, ps) ->
  match l with
  | LConst _ | LCode _ | LVar _ | LIndex _ _ => ps = []
  | LNeg => List.length ps = 1%nat
  | LBin _ => List.length ps = 2%nat
  | LComm _ | LFunc _ => True
  end.

(* No object has the class NegExpr, or none has the class SubExpr. *)
Definition no_clash (h : heap) : Prop :=
  (forall a ps, h a <> Some (LNeg, ps)) \/ (forall a ps, h a <> Some (LBin OSub, ps)).

(* Every modulo in the expression is by a constant of at least 1. *)
Fixpoint mods_pos (e : expr) : Prop :=
  match e with
  | E (LBin OMod) [a; b] => mods_pos a /\ match b with E (LConst q) [] => (1 <= q)%Q | _ => False end
  | E (LBin OMod) _ => False
  | E _ l => fold_right (fun x P => mods_pos x /\ P) True l
  end.

(* Nodes have as many operands as their class asks for. *)
Fixpoint arity_ok (e : expr) : Prop :=
  match e with
  | E l ops =>
      match l with
      | LConst _ | LCode _ | LVar _ | LIndex _ _ => ops = []
      | LNeg => List.length ops = 1%nat
      | LBin _ => List.length ops = 2%nat
      | LComm _ | LFunc _ => True
      end /\ fold_right (fun x P => arity_ok x /\ P) True ops
  end.

(* No operand of a sum is a sum, and no operand of a product is a product. *)
Fixpoint flat (e : expr) : Prop :=
  match e with
  | E l ops => (forall c l', l = LComm c -> ~ In (E (LComm c) l') ops) /\ fold_right (fun x P => flat x /\ P) True ops
  end.
