(* Pointers, strides and offsets written by the compiler for reads and writes of whole vectors in the
   inner loop (src/compiler/lib/Cpp.cpp, src/compiler/lib/Eqs.cpp).  The storage behind them is that of
   Var_Model.

   Simplifications.  The expressions in the generated C++ code are evaluated directly; positions are
   counted in vectors from the start of the storage.  A dim of a var is its position in the list of
   dims, so an index has the same position in the list of current indices.  Misc indices must have been
   used with a constant, so that the smallest and largest value are known (Var.cpp:330-360). *)
From Verif Require Import Base Layout_Model Var_Model.
Open Scope Z_scope.

(* An arg of a VarPoint: offset from the index of its dim (_offsets), constant (_consts), or any other
   expression, of which the value is kept (src/compiler/lib/VarPoint.hpp:60-80). *)
Inductive parg := AOfs (o : Z) | AConst (c : Z) | AExpr (e : Z).

(* Settings: _use_many_ptrs, _use_offsets, _inner_misc (src/compiler/lib/Settings.hpp:50-70) and the
   positions of _inner_layout_dim and _inner_loop_dim in the var (a number too large if the var does not
   have the dim). *)
Record pcfg := mkP {
  p_many : bool; p_offsets : bool; p_inner_misc : bool; p_layout : nat; p_loop : nat }.

(* A var as seen by compiler and kernel: get_min_indices(), get_max_indices() (only used in misc dims)
   and is_scratch() (src/compiler/lib/Var.hpp:60-140). *)
Record pvar := mkPv { pv_var : yvar; pv_min : list Z; pv_max : list Z; pv_scratch : bool }.

(* Dim at a position. *)
Definition dimk (pv : pvar) (k : nat) : vdim :=
  nth k (v_dims (pv_var pv)) (mkDim false false 0 0 0 0 0 1).

(* MISC_INDEX: neither step nor domain dim. *)
Definition is_misc (d : vdim) : bool := negb (d_step d) && negb (d_domain d).

(* Arg of the dim at a position. *)
Definition argk (args : list parg) (k : nat) : parg := nth k args (AConst 0).

(* Checks of the args of a point on the right-hand side (Eqs.cpp:540-581). *)
Definition check_rhs (pv : pvar) (args : list parg) : bool :=
  forallb (fun k =>
    match argk args k with
    | AOfs _ => negb (is_misc (dimk pv k))
    | AConst _ => is_misc (dimk pv k)
    | AExpr _ => false
    end) (seq 0 (length (v_dims (pv_var pv)))).

(* make_norm_str() (Settings.cpp:326-350). *)
Definition norm_str (d : vdim) (o : Z) : Z :=
  if 0 <? o then Z.quot o (d_vlen d) else - Z.quot (- o) (d_vlen d).

(* make_norm_arg_str() for one dim (VarPoint.cpp:160-189); [x] is the current vector index. *)
Definition norm_arg (d : vdim) (a : parg) (x : Z) : Z :=
  match a with
  | AOfs o => if o =? 0 then x else if 1 <? d_vlen d then x + norm_str d o else x + o
  | AConst c => c
  | AExpr e => e
  end.

(* make_norm_arg_str() for all dims (VarPoint.cpp:191-207). *)
Definition norm_args (pv : pvar) (args : list parg) (cur : list Z) : list Z :=
  map (fun k => norm_arg (dimk pv k) (argk args k) (nth k cur 0))
      (seq 0 (length (v_dims (pv_var pv)))).

(* Loop in layout order of print_strides() (Cpp.cpp:266-301): is the stride fixed, and the product of
   the sizes. *)
Fixpoint stride_scan (c : pcfg) (pv : pvar) (k : nat) (p : list nat) (found fixed : bool) (prod : Z)
    : bool * Z :=
  match p with
  | [] => (fixed, prod)
  | j :: r =>
      let '(fixed', prod') :=
        if found then
          if is_misc (dimk pv j) && p_inner_misc c
          then (fixed, prod * (nth j (pv_max pv) 0 - nth j (pv_min pv) 0 + 1))
          else (false, prod)
        else (fixed, prod) in
      stride_scan c pv k r (found || (j =? k)%nat) fixed' prod'
  end.

(* Value of the stride variable (Cpp.cpp:254-313); _vec_strides: yk_var.cpp:358. *)
Definition stride (c : pcfg) (pv : pvar) (k : nat) : Z :=
  let '(fixed, prod) := stride_scan c pv k (v_perm (pv_var pv)) false true 1 in
  if fixed then prod
  else gl_stride (v_perm (pv_var pv)) (map d_vec_alloc (v_dims (pv_var pv))) k.

(* Value of the offset variable (Cpp.cpp:315-357). *)
Definition ofs_val (c : pcfg) (pv : pvar) (k : nat) : Z :=
  let d := dimk pv k in
  let ofs := if pv_scratch pv && d_domain d then d_lofs d
             else if is_misc d then nth k (pv_min pv) 0
             else 0 in
  if p_offsets c && negb (is_misc d) then ofs - d_lpad d else ofs.

(* Value of the index-invariant pointer offset (Cpp.cpp:232-236,366-374). *)
Definition ptr_ofs (c : pcfg) (pv : pvar) : Z :=
  fold_left (fun acc k => if d_step (dimk pv k) then acc else acc - ofs_val c pv k * stride c pv k)
            (seq 0 (length (v_dims (pv_var pv)))) 0.

(* make_var_base_point() (Cpp.cpp:129-145). *)
Definition var_base_point (c : pcfg) (pv : pvar) (args : list parg) : list parg :=
  map (fun k => if d_step (dimk pv k) then argk args k else AExpr (ofs_val c pv k))
      (seq 0 (length (v_dims (pv_var pv)))).

(* print_var_base_ptr() of a folded var (Cpp.cpp:178-218). *)
Definition var_base_ptr (c : pcfg) (pv : pvar) (args : list parg) (cur : list Z) : Z :=
  vec_ptr_norm (pv_var pv) (norm_args pv (var_base_point c pv args) cur).

(* get_var_base_ptr_offset() of a fully vectorized point (Cpp.cpp:693-740). *)
Definition base_ptr_offset (c : pcfg) (pv : pvar) (args : list parg) (cur : list Z) : Z :=
  fold_left (fun acc k => if d_step (dimk pv k) then acc
                          else acc + norm_arg (dimk pv k) (argk args k) (nth k cur 0) * stride c pv k)
            (v_perm (pv_var pv)) (ptr_ofs c pv).

(* use_domain in make_inner_loop_base_point() and get_inner_loop_ptr_offset()
   (Cpp.cpp:155-156,768-769). *)
Definition use_domain (c : pcfg) (pv : pvar) (k : nat) : bool :=
  d_domain (dimk pv k) && (negb (p_many c) || (k =? p_layout c)%nat).

(* make_inner_loop_base_point() (Cpp.cpp:147-175). *)
Definition loop_base_point (c : pcfg) (pv : pvar) (args : list parg) : list parg :=
  map (fun k => if use_domain c pv k then AOfs 0
                else if is_misc (dimk pv k) then AConst (nth k (pv_min pv) 0)
                else argk args k)
      (seq 0 (length (v_dims (pv_var pv)))).

(* The inner-loop pointer at its creation (print_inner_loop_prefix, Cpp.cpp:376-417). *)
Definition loop_ptr0 (c : pcfg) (pv : pvar) (args : list parg) (cur : list Z) : Z :=
  var_base_ptr c pv args cur + base_ptr_offset c pv (loop_base_point c pv args) cur.

(* ... and after [n] iterations (print_end_inner_loop, Cpp.cpp:668-690). *)
Fixpoint loop_ptr (c : pcfg) (pv : pvar) (args : list parg) (cur : list Z) (n : nat) : Z :=
  match n with
  | O => loop_ptr0 c pv args cur
  | S n => loop_ptr c pv args cur n + stride c pv (p_loop c)
  end.

(* get_inner_loop_ptr_offset() (Cpp.cpp:745-818).  An arg in a domain dim without an entry in the
   offsets makes the compiler read through a null pointer (common/tuple.hpp:285-294). *)
Definition loop_ptr_offset (c : pcfg) (pv : pvar) (args : list parg) : res Z :=
  rfold (fun acc k =>
    if use_domain c pv k then
      match argk args k with
      | AOfs ofs =>
          if ofs =? 0 then Ok acc
          else let nas := if 1 <? d_vlen (dimk pv k) then norm_str (dimk pv k) ofs else ofs in
               Ok (acc + nas * stride c pv k)
      | _ => UB
      end
    else if is_misc (dimk pv k) then
      match argk args k with
      | AConst a | AExpr a => Ok (acc + (a - nth k (pv_min pv) 0) * stride c pv k)
      | AOfs _ => UB
      end
    else Ok acc) (v_perm (pv_var pv)) 0.

(* Position of the vector read or written for a point in iteration [n] of an inner loop that starts at
   the indices [cur] (Cpp.cpp:948-1003,1104-1148).  A point that has no offset in the inner-loop dim has
   no pointer and uses get_vec_ptr_norm() (read_vec_norm, yk_var.hpp:497-520). *)
Definition vec_pos (c : pcfg) (pv : pvar) (args : list parg) (cur : list Z) (n : nat) : res Z :=
  let loop_ofs := match nth_error (v_dims (pv_var pv)) (p_loop c), argk args (p_loop c) with
                  | Some _, AOfs _ => true
                  | _, _ => false
                  end in
  if loop_ofs then
    rbind (loop_ptr_offset c pv args) (fun o => Ok (loop_ptr c pv args cur n + o))
  else
    Ok (vec_ptr_norm (pv_var pv)
          (norm_args pv args (set_nth (p_loop c) (nth (p_loop c) cur 0 + Z.of_nat n) cur))).

(* Index of an arg without a map of index names (make_arg_str(nullptr), VarPoint.cpp:120-148): the name
   of the index stands for the vector index of the loop. *)
Definition raw_arg (a : parg) (x : Z) : Z :=
  match a with AOfs o => x + o | AConst c => c | AExpr e => e end.

(* print_unaligned_vec_read() (Cpp.cpp:1092-1107): the address given to load_unaligned_from(), in
   elements.  make_point_call_vec() is called for element access without the map of index names: its
   assertion (Cpp.cpp:97-104) stops a compiler that was built with assertions, which is the default
   (src/compiler/Makefile:65-75). *)
Definition unaligned_pos (asserts : bool) (pv : pvar) (args : list parg) (cur : list Z) : res Z :=
  if asserts then Throw
  else Ok (vec_elem_index (pv_var pv)
             (map (fun k => raw_arg (argk args k) (nth k cur 0))
                  (seq 0 (length (v_dims (pv_var pv)))))).
