(* Specification vocabulary for the comparison of a solution with a reference: which elements are to be
   compared, when two vars are laid over the same points, and how far apart two numbers may be. *)
From Coq Require Import String QArith Qabs.
From Verif Require Import Base Var_Model Var_Spec Compare_Model.
Local Open Scope Z_scope.
Local Open Scope list_scope.

(* The indices of a dim whose elements are results: all slots of the step dim, the domain of the rank, all
   values of a misc dim. *)
Definition result_index (d : vdim) (x : Z) : Prop :=
  if d_step d then 0 <= x < d_dom d
  else if d_domain d then d_rofs d <= x < d_rofs d + d_dom d
  else d_rofs d + d_lofs d <= x < d_rofs d + d_lofs d + d_dom d.

(* Same kind of dim over the same indices; padding and folding may differ. *)
Definition same_place (d e : vdim) : Prop :=
  d_step d = d_step e /\ d_domain d = d_domain e /\ d_dom d = d_dom e /\ d_rofs d = d_rofs e /\
  (d_step d = false -> d_lofs d = d_lofs e).

(* A var of the solution and the var of the reference, both with storage and over the same points.  Vars that
   are no scratch vars have no local offset in domain dims. *)
Definition comparable {V} (v r : vstate V) : Prop :=
  wf_var (st_var v) /\ wf_var (st_var r) /\
  Forall (fun d => 1 <= d_dom d /\ (d_domain d = true -> d_lofs d = 0)) (v_dims (st_var v)) /\
  Forall2 same_place (v_dims (st_var v)) (v_dims (st_var r)) /\
  (exists m, st_mem v = Some m) /\ (exists m, st_mem r = Some m).

(* Same names and kinds of dims, same sizes, padding and folding. *)
Definition same_layout {V} (v r : cvar V) : Prop :=
  c_names v = c_names r /\ v_vec (st_var (c_st v)) = v_vec (st_var (c_st r)) /\
  v_foldp (st_var (c_st v)) = v_foldp (st_var (c_st r)) /\
  Forall2 (fun d e => d_domain d = d_domain e /\ d_dom d = d_dom e /\ d_lpad d = d_lpad e /\ d_rpad d = d_rpad e /\
                      d_vlen d = d_vlen e)
          (v_dims (st_var (c_st v))) (v_dims (st_var (c_st r))).

(* The number of points at which the elements of the two vars, read through the API, are not accepted. *)
Inductive mismatches {V} (tol : V -> V -> bool) (v r : vstate V) : list (list Z) -> Z -> Prop :=
| mis_nil : mismatches tol v r [] 0
| mis_same : forall p l n a b, mismatches tol v r l n ->
    get_element true v p = Ok a -> get_element true r p = Ok b -> tol a b = true ->
    mismatches tol v r (p :: l) n
| mis_other : forall p l n a b, mismatches tol v r l n ->
    get_element true v p = Ok a -> get_element true r p = Ok b -> tol a b = false ->
    mismatches tol v r (p :: l) (n + 1).

(* All elements in the domain of the rank, at all steps that have been allocated, are accepted. *)
Definition all_accepted {V} (tol : V -> V -> bool) (v r : vstate V) : Prop :=
  forall p a b,
    Forall2 (fun d x => d_domain d = true -> d_rofs d <= x < d_rofs d + d_dom d) (v_dims (st_var v)) p ->
    get_element true v p = Ok a -> get_element true r p = Ok b -> tol a b = true.

(* What is asked of the rounding of a floating-point type: [rep] are the finite numbers of the type. *)
Definition fp_le (a b : fp) : Prop :=
  match a, b with
  | Fin x, Fin y => (x <= y)%Q
  | Inf true, Inf _ | Inf true, Fin _ | Fin _, Inf false | Inf false, Inf false => True
  | _, _ => False
  end.
Definition fp_neg (a : fp) : fp :=
  match a with Fin x => Fin (- x)%Q | Inf s => Inf (negb s) | NaN => NaN end.
Definition rounding (rep : Q -> Prop) (rnd : Q -> fp) : Prop :=
  (forall x, rep x -> fp_le (rnd x) (Fin x) /\ fp_le (Fin x) (rnd x)) /\
  (forall x y, (x <= y)%Q -> fp_le (rnd x) (rnd y)) /\
  (forall x, fp_le (rnd (- x)%Q) (fp_neg (rnd x)) /\ fp_le (fp_neg (rnd x)) (rnd (- x)%Q)).

(* Equal numbers of a floating-point type: NaN is equal to nothing. *)
Inductive fp_same : fp -> fp -> Prop :=
| same_fin : forall x y, (x == y)%Q -> fp_same (Fin x) (Fin y)
| same_inf : forall s, fp_same (Inf s) (Inf s).
