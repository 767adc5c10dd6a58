(* What merging vars promises (include/aux/yk_var_api.hpp:1345-1397, yk_solution_api.hpp:1021-1061). *)
From Verif Require Import Base Resize_Model Fuse_Model.
Open Scope Z_scope.

Notation dims_of b := (rv_dims (b_var b)).

(* Same number and names of dims, in the same order, and same folding. *)
Definition compatible (b o : base) : Prop :=
  b_dn b = b_dn o /\ map r_vvl (dims_of b) = map r_vvl (dims_of o).

(* Same allocation in each dim, same domain size and padding in each domain dim. *)
Definition same_sizes (b o : base) : Prop :=
  Forall2 (fun x y => r_alloc x = r_alloc y /\
    (r_domain x = true -> r_dom x = r_dom y /\ r_lpad x = r_lpad y /\ r_rpad x = r_rpad y)) (dims_of b) (dims_of o).

(* A var that exists: a size, an offset and a name for each dim. *)
Definition shaped (b : base) : Prop :=
  length (b_dn b) = length (dims_of b) /\ NoDup (b_dn b) /\
  length (b_rofs b) = length (dims_of b) /\ length (b_lofs b) = length (dims_of b).

(* Its allocation is made of pads and domain; only domain dims have pads. *)
Definition allocated (b : base) : Prop :=
  Forall (fun d => r_alloc d = r_lpad d + r_dom d + r_rpad d /\ (r_domain d = false -> r_lpad d = 0 /\ r_rpad d = 0)) (dims_of b).

(* Whether a dim is a domain dim depends on its name only. *)
Definition kinds_agree (b o : base) : Prop :=
  forall i x y, nth_error (dims_of b) i = Some x -> nth_error (dims_of o) i = Some y ->
    nth_error (b_dn b) i = nth_error (b_dn o) i -> r_domain x = r_domain y.

(* Two handles that cannot be told apart. *)
Definition same_var (m : mem) (h k : nat) : Prop := base_of m h = base_of m k /\ base_of m h <> None.

(* A call that does not give another YkVarBase to one of the two handles. *)
Definition keeps (h k : nat) (p : nat * call) : Prop :=
  match snd p with CFuse _ => fst p <> h /\ fst p <> k | _ => True end.

(* A var whose size is fixed by the user: the solution leaves it alone. *)
Definition left_alone (b : base) : Prop := b_user b = true /\ b_fixed b = true.

(* The halos of a var in dim [n] are at most [mx]. *)
Definition halos_within (n mx : Z) (b : base) : Prop :=
  forall i d, nth_error (b_dn b) i = Some n -> nth_error (dims_of b) i = Some d -> r_lh d <= mx /\ r_rh d <= mx.

(* In dim [n] a var has the size and position of the rank. *)
Definition sized_as (o : ropt) (b : base) : Prop :=
  forall i d, nth_error (b_dn b) i = Some (o_name o) -> nth_error (dims_of b) i = Some d ->
    r_dom d = o_size o /\ nth_error (b_rofs b) i = Some (o_rofs o) /\ nth_error (b_lofs b) i = Some 0.

(* No solution var is given the data of a var that the user made (before each call). *)
Fixpoint solution_sources (x : ctx) (m : mem) (l : list (nat * call)) : Prop :=
  match l with
  | [] => True
  | p :: l =>
      match snd p with
      | CFuse src => In (fst p) (x_orig x) -> forall b, base_of m src = Some b -> b_user b = false
      | _ => True
      end /\ solution_sources x (snd (run_call m (fst p) (snd p))) l
  end.

(* The vars of a solution when it has been made. *)
Definition solution_ok (x : ctx) (m : mem) : Prop :=
  (forall h, In h (x_orig x) -> In h (map snd (x_all x))) /\
  (forall h, In h (map snd (x_all x)) -> exists b, base_of m h = Some b) /\
  Forall shaped (m_bases m) /\
  (forall h b, In h (x_orig x) -> base_of m h = Some b -> b_user b = false).
