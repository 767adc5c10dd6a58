(* src/kernel/lib/yk_var.hpp, yk_var.cpp, yk_var_apis.cpp: addressing and element access of
   element vars (YkElemVar) and folded vars (YkVecVar).
   Simplifications: idx_t is an unbounded integer (the 'unsigned' divisions at
   yk_var.hpp:349-350 are only used on non-negative values, which the theorems state);
   dirty flags, device copies and tracing are not part of this file. *)
From Verif Require Import Base Idiv_Model Layout_Model.

(* One dim of a var: the entries of YkVarBaseCore, yk_var.hpp:88-118. *)
Record vdim := mkDim {
  d_step : bool;      (* _step_dim_mask *)
  d_domain : bool;    (* _domain_dim_mask *)
  d_dom : Z;          (* _domains *)
  d_lpad : Z;         (* _actl_left_pads *)
  d_rpad : Z;         (* _actl_right_pads *)
  d_rofs : Z;         (* _rank_offsets *)
  d_lofs : Z;         (* _local_offsets *)
  d_vlen : Z          (* _var_vec_lens *)
}.

Record yvar := mkVar {
  v_dims : list vdim;
  v_perm : list nat;      (* order of the layout class, last one has unit stride *)
  v_vec : bool;           (* YkVecVar or YkElemVar *)
  v_foldp : list nat;     (* _vec_fold_posns, yk_var.hpp:1756-1762 *)
  v_fold_fi : bool        (* FIRST_FOLD_INDEX_IS_UNIT_STRIDE, YaskKernel.cpp:185 *)
}.

(* _allocs, yk_var.cpp:254-324 *)
Definition d_alloc (d : vdim) : Z :=
  if d_domain d then d_dom d + (d_lpad d + d_rpad d) else d_dom d.

(* yk_var.hpp:121-126 *)
Definition get_first_local_index (d : vdim) : Z := d_rofs d + d_lofs d - d_lpad d.
Definition get_last_local_index (d : vdim) : Z := d_rofs d + d_lofs d + d_dom d + d_rpad d - 1.

(* yk_var.hpp:130-145 *)
Definition wrap_step (t n : Z) : Z := imod_flr t n.

Definition map2 {A B C} (f : A -> B -> C) (l : list A) (r : list B) : list C :=
  map (fun p => f (fst p) (snd p)) (combine l r).

(* ---- element vars ---- *)

(* YkElemVarCore::_get_adj_idx, yk_var.hpp:174-205, with is_global = true *)
Definition elem_adj_idx (d : vdim) (x : Z) : Z :=
  if d_step d then wrap_step x (d_dom d)
  else x + d_lpad d - d_lofs d - d_rofs d.

(* YkElemVarCore::_get_elem_ptr, yk_var.hpp:210-221: offset from _elems. *)
Definition elem_index (v : yvar) (idxs : list Z) : Z :=
  gl_layout (v_perm v) (map d_alloc (v_dims v)) (map2 elem_adj_idx (v_dims v) idxs).

(* ---- folded vars ---- *)

(* YkVecVarCore::_get_adj_idx, yk_var.hpp:320-357 *)
Definition vec_adj (d : vdim) (x : Z) : Z := x + d_lpad d - (d_rofs d + d_lofs d).
Definition vec_adj_idx (d : vdim) (x : Z) : Z :=
  if d_step d then wrap_step x (d_dom d) else vec_adj d x / d_vlen d.
Definition vec_elem_ofs (d : vdim) (x : Z) : Z :=
  if d_step d then 0 else vec_adj d x mod d_vlen d.

(* _vec_allocs, yk_var.cpp:345 *)
Definition d_vec_alloc (d : vdim) : Z := Z.quot (d_alloc d) (d_vlen d).

(* Fold lengths > 1 in folding order (_fold_gt1) and VLEN, YaskKernel.cpp:184-211 *)
Definition fold_lens (v : yvar) : list Z :=
  map (fun j => nth j (map d_vlen (v_dims v)) 1) (v_foldp v).
Definition VLEN (v : yvar) : Z := zprod (fold_lens v).

(* VEC_FOLD_LAYOUT, YaskKernel.cpp:189-214 *)
Definition fold_perm (v : yvar) : list nat :=
  let s := seq 0 (length (v_foldp v)) in if v_fold_fi v then rev s else s.
Definition vec_fold_layout (v : yvar) (fold_ofs : list Z) : Z :=
  gl_layout (fold_perm v) (fold_lens v) fold_ofs.

(* _get_fold_ofs, yk_var.hpp:360-374 *)
Definition get_fold_ofs (v : yvar) (elem_ofs : list Z) : list Z :=
  map (fun j => nth j elem_ofs 0) (v_foldp v).

(* YkVecVarCore::get_elem_ptr, yk_var.hpp:378-409: offset in reals from the first vector. *)
Definition vec_elem_index (v : yvar) (idxs : list Z) : Z :=
  let vec_idxs := map2 vec_adj_idx (v_dims v) idxs in
  let elem_ofs := map2 vec_elem_ofs (v_dims v) idxs in
  let i := vec_fold_layout v (get_fold_ofs v elem_ofs) in
  gl_layout (v_perm v) (map d_vec_alloc (v_dims v)) vec_idxs * VLEN v + i.

(* get_vec_ptr_norm, yk_var.hpp:445-495: index of the vector; indices are rank-relative and
   divided by the vector lengths.  _vec_left_pads: yk_var.cpp:344,
   _vec_local_offsets: yk_var_apis.cpp:214-217. *)
Definition vec_norm_adj_idx (d : vdim) (vi : Z) : Z :=
  if d_step d then wrap_step vi (d_dom d)
  else vi + Z.quot (d_lpad d) (d_vlen d) - Z.quot (d_lofs d) (d_vlen d).
Definition vec_ptr_norm (v : yvar) (vec_idxs : list Z) : Z :=
  gl_layout (v_perm v) (map d_vec_alloc (v_dims v)) (map2 vec_norm_adj_idx (v_dims v) vec_idxs).

(* get_elem_ptr of either kind *)
Definition get_elem_ptr (v : yvar) (idxs : list Z) : Z :=
  if v_vec v then vec_elem_index v idxs else elem_index v idxs.

(* number of reals in the storage *)
Definition storage_size (v : yvar) : Z :=
  if v_vec v then zprod (map d_vec_alloc (v_dims v)) * VLEN v else zprod (map d_alloc (v_dims v)).

(* ---- index checking ---- *)

(* One dim of YkVarBase::check_indices, yk_var.cpp:507-553 (normalize = false):
   (ok, clipped index). *)
Definition check_index (step_wrap check_step : bool) (d : vdim) (idx : Z) : bool * Z :=
  if d_step d && (negb check_step || step_wrap) then (true, idx)
  else
    let first_ok := get_first_local_index d in
    let last_ok := get_last_local_index d in
    if (first_ok <=? idx) && (idx <=? last_ok) then (true, idx)
    else
      let c := if idx <? first_ok then first_ok else idx in
      let c := if last_ok <? idx then last_ok else c in
      (false, c).

(* YkVarBase::check_indices, yk_var.cpp:485-556; result: all_ok and clipped_indices. *)
Definition check_indices (v : yvar) (step_wrap strict check_step : bool) (idxs : list Z)
  : res (bool * list Z) :=
  if negb (Nat.eqb (length idxs) (length (v_dims v))) then Throw
  else
    let r := map2 (check_index step_wrap check_step) (v_dims v) idxs in
    let all_ok := forallb fst r in
    if strict && negb all_ok then Throw
    else Ok (all_ok, map snd r).

(* ---- element API ---- *)
Section Elems.
  Variable V : Type.
  Variable vadd : V -> V -> V.

  (* A var with (maybe) storage. *)
  Record vstate := mkState { st_var : yvar; st_mem : option (Z -> V) }.

  Definition mem_upd (m : Z -> V) (a : Z) (x : V) : Z -> V := fun b => if b =? a then x else m b.

  (* access outside the allocation is undefined behaviour *)
  Definition in_storage (v : yvar) (a : Z) : bool := (0 <=? a) && (a <? storage_size v).

  (* yk_var_apis.cpp:375-391 *)
  Definition get_element (step_wrap : bool) (s : vstate) (idxs : list Z) : res V :=
    match st_mem s with
    | None => Throw
    | Some m =>
        rbind (check_indices (st_var s) step_wrap true true idxs) (fun _ =>
        let a := get_elem_ptr (st_var s) idxs in
        if in_storage (st_var s) a then Ok (m a) else UB)
    end.

  (* yk_var_apis.cpp:392-421 *)
  Definition set_element (step_wrap : bool) (s : vstate) (x : V) (idxs : list Z) (strict : bool)
    : res (vstate * Z) :=
    match st_mem s with
    | None => Throw
    | Some m =>
        rbind (check_indices (st_var s) step_wrap strict false idxs) (fun r =>
        if fst r then
          let a := get_elem_ptr (st_var s) idxs in
          if in_storage (st_var s) a then Ok (mkState (st_var s) (Some (mem_upd m a x)), 1) else UB
        else Ok (s, 0))
    end.

  (* yk_var_apis.cpp:422-457 *)
  Definition add_to_element (step_wrap : bool) (s : vstate) (x : V) (idxs : list Z) (strict : bool)
    : res (vstate * Z) :=
    match st_mem s with
    | None => if strict then Throw else Ok (s, 0)
    | Some m =>
        rbind (check_indices (st_var s) step_wrap strict true idxs) (fun r =>
        if fst r then
          let a := get_elem_ptr (st_var s) idxs in
          if in_storage (st_var s) a
          then Ok (mkState (st_var s) (Some (mem_upd m a (vadd (m a) x))), 1) else UB
        else Ok (s, 0))
    end.
End Elems.
Arguments mkState {V} _ _.
Arguments st_var {V} _.
Arguments st_mem {V} _.
Arguments mem_upd {V} _ _ _.
Arguments get_element {V} _ _ _.
Arguments set_element {V} _ _ _ _ _.
Arguments add_to_element {V} _ _ _ _ _ _.

(* ---- valid steps ---- *)

(* YkVarBase::update_valid_step, yk_var.cpp:559-575, on the step dim (first dim). *)
Definition set_lofs (d : vdim) (n : Z) : vdim :=
  mkDim (d_step d) (d_domain d) (d_dom d) (d_lpad d) (d_rpad d) (d_rofs d) n (d_vlen d).
Definition update_valid_step (d : vdim) (t : Z) : vdim :=
  if t <? get_first_local_index d then set_lofs d t
  else if get_last_local_index d <? t then set_lofs d (t - d_dom d + 1)
  else d.
(* yk_var.hpp:814-817 *)
Definition init_valid_steps (d : vdim) : vdim := set_lofs d 0.

(* One evaluation of a stage that writes step t of a var: the value goes to the slot of t
   (yk_var.hpp:900-902) and the valid steps are updated (stencil_calc.cpp:326-328).
   Seen at one fixed non-step index, so the memory is indexed by slot. *)
Definition write_step {V} (s : vdim * (Z -> V)) (w : Z * V) : vdim * (Z -> V) :=
  (update_valid_step (fst s) (fst w),
   mem_upd (snd s) (wrap_step (fst w) (d_dom (fst s))) (snd w)).
Definition write_steps {V} (s : vdim * (Z -> V)) (h : list (Z * V)) : vdim * (Z -> V) :=
  fold_left write_step h s.

(* read_vec_norm, yk_var.hpp:504-514: the VLEN reals at the vector's address; lane l is the
   l-th real. *)
Definition read_vec_norm {V} (v : yvar) (m : Z -> V) (vec_idxs : list Z) : list V :=
  map (fun l => m (vec_ptr_norm v vec_idxs * VLEN v + l)) (zseq (VLEN v)).
