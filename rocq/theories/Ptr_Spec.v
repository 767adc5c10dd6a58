(* Which element a point of an equation denotes, and what the compiler may assume about its vars. *)
From Verif Require Import Base Layout_Model Var_Model Var_Spec Ptr_Model.
Open Scope Z_scope.

(* Global index, in one dim, of the element in lane position [l] of a point: [x] is the vector index of
   the loop (the step itself in the step dim). *)
Definition point_elem (d : vdim) (a : parg) (x l : Z) : Z :=
  match a with
  | AOfs o => if d_step d then x + o else d_rofs d + (x * d_vlen d + o) + l
  | AConst c | AExpr c => if d_step d then c else d_rofs d + c
  end.

(* In all dims. *)
Fixpoint point_elems (ds : list vdim) (args : list parg) (cur lanes : list Z) : list Z :=
  match ds, args, cur, lanes with
  | d :: ds, a :: args, x :: cur, l :: lanes => point_elem d a x l :: point_elems ds args cur lanes
  | _, _, _, _ => []
  end.

(* The args of an aligned point: multiples of the vector length in the domain dims. *)
Definition aligned_args (ds : list vdim) (args : list parg) : Prop :=
  Forall2 (fun d a => match a with
                      | AOfs o => o mod d_vlen d = 0
                      | _ => True
                      end) ds args.

(* Positions in a vector. *)
Definition lanes_ok (ds : list vdim) (lanes : list Z) : Prop :=
  Forall2 (fun d l => 0 <= l < d_vlen d) ds lanes.

(* What resizing guarantees: pads and offsets are whole vectors. *)
Definition whole_vectors (ds : list vdim) : Prop :=
  Forall (fun d => d_step d = false -> d_lpad d mod d_vlen d = 0 /\ d_lofs d mod d_vlen d = 0) ds.

(* Misc dims with a size fixed by the compiler have that size in the kernel. *)
Definition misc_fixed (c : pcfg) (pv : pvar) : Prop :=
  p_inner_misc c = true ->
  forall k d, nth_error (v_dims (pv_var pv)) k = Some d ->
    d_step d = false -> d_domain d = false ->
    d_dom d = nth k (pv_max pv) 0 - nth k (pv_min pv) 0 + 1.

(* The inner loop is in a domain dim, which the var may lack. *)
Definition loop_in_domain (c : pcfg) (pv : pvar) : Prop :=
  forall d, nth_error (v_dims (pv_var pv)) (p_loop c) = Some d -> d_domain d = true.

(* Indices after [n] iterations: only the inner-loop dim moves. *)
Definition advance (k n : nat) (cur cur' : list Z) : Prop :=
  length cur' = length cur /\
  forall j, (j < length cur)%nat ->
    nth j cur' 0 = nth j cur 0 + (if Nat.eqb j k then Z.of_nat n else 0).
