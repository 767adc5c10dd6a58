(* Specification vocabulary for vars: what a well-formed allocation is, which indices are
   valid, and when two index tuples denote the same element. *)
From Verif Require Import Base Var_Model.

(* Invariants that YkVarBase::resize and the var constructors establish for each dim. *)
Definition wf_dim (d : vdim) : Prop :=
  0 <= d_lpad d /\ 0 <= d_rpad d /\ 0 <= d_dom d /\ 1 <= d_vlen d /\
  (d_domain d = false -> d_lpad d = 0 /\ d_rpad d = 0 /\ d_vlen d = 1) /\
  (d_step d = true -> d_domain d = false /\ 1 <= d_dom d /\ d_rofs d = 0) /\
  (d_dom d + d_lpad d + d_rpad d) mod d_vlen d = 0.

Definition wf_var (v : yvar) : Prop :=
  Forall wf_dim (v_dims v) /\
  Permutation (v_perm v) (seq 0 (length (v_dims v))) /\
  (v_vec v = true ->
     NoDup (v_foldp v) /\
     (forall j, In j (v_foldp v) -> (j < length (v_dims v))%nat) /\
     (forall j, (j < length (v_dims v))%nat -> nth j (map d_vlen (v_dims v)) 1 <> 1 -> In j (v_foldp v))).

(* Index valid in a dim; any step index is acceptable when [any_step]. *)
Definition valid_index (any_step : bool) (d : vdim) (x : Z) : Prop :=
  (any_step = true /\ d_step d = true) \/
  d_rofs d + d_lofs d - d_lpad d <= x < d_rofs d + d_lofs d + d_dom d + d_rpad d.

Definition valid_indices (any_step : bool) (v : yvar) (idxs : list Z) : Prop :=
  Forall2 (valid_index any_step) (v_dims v) idxs.

(* Same element: equal in all non-step dims and congruent modulo the allocation in the step dim. *)
Definition same_in_dim (d : vdim) (x y : Z) : Prop :=
  if d_step d then exists k, x = y + k * d_dom d else x = y.

Fixpoint same_elem (ds : list vdim) (a b : list Z) : Prop :=
  match ds, a, b with
  | [], [], [] => True
  | d :: ds', x :: a', y :: b' => same_in_dim d x y /\ same_elem ds' a' b'
  | _, _, _ => False
  end.

(* The element in lane position [o] of the vector at rank-relative vector index [vi], in one dim;
   [p] is the pair (vi, o).  The step dim has no lanes. *)
Definition elem_of_vec (d : vdim) (p : Z * Z) : Z :=
  if d_step d then fst p else d_rofs d + fst p * d_vlen d + snd p.

(* Steps written in order: non-decreasing for dir = 1, non-increasing for dir = -1. *)
Fixpoint steps_in_order {V} (dir : Z) (h : list (Z * V)) : Prop :=
  match h with
  | [] => True
  | w :: r => Forall (fun w' => 0 <= dir * (fst w' - fst w)) r /\ steps_in_order dir r
  end.
