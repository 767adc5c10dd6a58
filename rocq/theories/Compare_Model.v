(* src/kernel/lib/yk_var.cpp, realv.hpp, context.cpp and src/kernel/yask_main.cpp: the comparison of the vars
   of a solution with those of a reference solution, on which '-validate' bases its answer.
   Simplifications: the messages about single mismatches and the copy from the device are not modelled; both
   vars hold elements of the same type, so that numbers of bytes are compared as numbers of elements. *)
From Verif Require Import Base Idiv_Model Layout_Model ParFor_Model Var_Model Tuple_Model.
From Coq Require Import String QArith Qabs.
Local Open Scope Z_scope.
Local Open Scope list_scope.

(* ---- within_tolerance, realv.hpp:977-995 ---- *)

(* A floating-point number: the finite ones are exact rationals. *)
Inductive fp := Fin (q : Q) | Inf (neg : bool) | NaN.

Section Fp.
  (* rounding of an exact result to the type 'T' *)
  Variable rnd : Q -> fp.

  (* operator ==, C++ on the type 'T' *)
  Definition fp_eq (a b : fp) : bool :=
    match a, b with
    | Fin x, Fin y => Qeq_bool x y
    | Inf x, Inf y => Bool.eqb x y
    | _, _ => false
    end.
  (* operator < *)
  Definition fp_lt (a b : fp) : bool :=
    match a, b with
    | Fin x, Fin y => negb (Qle_bool y x)
    | Inf true, Inf false => true
    | Inf true, Fin _ => true
    | Fin _, Inf false => true
    | _, _ => false
    end.
  (* fabs() *)
  Definition fp_abs (a : fp) : fp :=
    match a with Fin x => Fin (Qabs x) | Inf _ => Inf false | NaN => NaN end.
  (* operator - *)
  Definition fp_sub (a b : fp) : fp :=
    match a, b with
    | Fin x, Fin y => rnd (x - y)%Q
    | Inf s, Fin _ => Inf s
    | Fin _, Inf s => Inf (negb s)
    | Inf s, Inf t => if Bool.eqb s t then NaN else Inf s
    | _, _ => NaN
    end.
  (* operator *: sign of infinity times a finite number from the sign of the number *)
  Definition fp_mul (a b : fp) : fp :=
    match a, b with
    | Fin x, Fin y => rnd (x * y)%Q
    | Inf s, Fin y | Fin y, Inf s =>
        if Qeq_bool y 0 then NaN else Inf (xorb s (negb (Qle_bool 0 y)))
    | Inf s, Inf t => Inf (xorb s t)
    | _, _ => NaN
    end.

  (* realv.hpp:977-995; 'adiff' is a double, to which 'T' converts without rounding *)
  Definition within_tolerance (epsilon val ref : fp) : bool :=
    if fp_eq val ref then true
    else
      let adiff := fp_abs (fp_sub val ref) in
      let eps := if fp_lt (Fin 1) (fp_abs ref) then fp_abs (fp_mul ref epsilon) else epsilon in
      fp_lt adiff eps.
End Fp.

(* ---- YkVarBase::compare, yk_var.cpp:399-477 ---- *)
Section Compare.
  Variable V : Type.
  Variable tol : V -> V -> bool.     (* within_tolerance(val, ref, epsilon) *)
  Variable c : omp_cfg.              (* threads of visit_all_points_in_parallel() *)
  Variable fi : bool.                (* first dim of a tuple is the inner one *)

  (* a var with the names of its dims *)
  Record cvar := mkC { c_names : list string; c_st : vstate V }.

  (* get_allocs(), yk_var.hpp:905-910 *)
  Definition get_allocs (v : cvar) : tuple :=
    mkTuple (combine (c_names v) (map d_alloc (v_dims (st_var (c_st v))))) fi.

  (* get_dim_tuple(): names and sizes of the generic var; resize() sets the latter to _vec_allocs,
     yk_var.cpp:345-348 *)
  Definition get_dim_tuple (v : cvar) : tuple :=
    let y := st_var (c_st v) in
    mkTuple (combine (c_names v) (map (if v_vec y then d_vec_alloc else d_alloc) (v_dims y))) fi.

  (* yk_var.hpp:803-806 *)
  Definition are_dims_and_sizes_same (a b : cvar) : bool :=
    (storage_size (st_var (c_st a)) =? storage_size (st_var (c_st b))) &&
    tuple_eq (get_dim_tuple a) (get_dim_tuple b).

  (* "Convert to API index", yk_var.cpp:434-437 *)
  Definition api_index (d : vdim) (val : Z) : Z :=
    if d_step d then val else val + (d_rofs d + d_lofs d).

  (* "Don't compare points outside the domain", yk_var.cpp:439-448 *)
  Definition index_compared (d : vdim) (x : Z) : bool :=
    if d_domain d then
      let first_ok := d_rofs d in
      let last_ok := first_ok + d_dom d - 1 in
      negb ((x <? first_ok) || (last_ok <? x))
    else true.

  (* read_elem(), yk_var.hpp:1569-1577 and 1824-1832: no check of the indices; without storage or outside of it, undefined
     behaviour.  The slot 'asi' of a step is found again from the step index of the point, which is the slot
     itself here. *)
  Definition read_elem (s : vstate V) (idxs : list Z) : res V :=
    match st_mem s with
    | None => UB
    | Some m =>
        let a := get_elem_ptr (st_var s) idxs in
        if in_storage (st_var s) a then Ok (m a) else UB
    end.

  (* The visitor, yk_var.cpp:423-468: errs after visiting 'pt' *)
  Definition compare_point (v r : cvar) (errs : Z) (pt : list Z) : res Z :=
    let ds := v_dims (st_var (c_st v)) in
    let opt := map2 api_index ds pt in
    if negb (forallb (fun b => b) (map2 index_compared ds opt)) then Ok errs
    else
      rbind (read_elem (c_st v) opt) (fun te =>
      rbind (read_elem (c_st r) opt) (fun re =>
      Ok (if negb (tol te re) then errs + 1 else errs))).

  (* yk_var.cpp:399-477; the increments are in a critical section, so their order is of no importance *)
  Definition compare (v : cvar) (ref : option cvar) : res Z :=
    match ref with
    | None => Ok (product (get_allocs v))
    | Some r =>
        if negb (are_dims_and_sizes_same v r) then Ok (product (get_allocs v))
        else
          rbind (tuple_visit_in_parallel c (get_allocs v)) (fun visits =>
          rfold (compare_point v r) (map fst visits) 0)
    end.

  (* StencilContext::compare_data, context.cpp:1529-1547, on the output vars of the two solutions *)
  Definition compare_data (vs rs : list cvar) : res Z :=
    if negb (Nat.eqb (List.length vs) (List.length rs)) then Ok 1
    else rfold (fun errs p => rbind (compare (fst p) (Some (snd p))) (fun n => Ok (errs + n)))
               (combine vs rs) 0.

  (* The answer of one rank, yask_main.cpp:612-640: 'TEST PASSED' *)
  Definition test_passed (vs rs : list cvar) : res bool :=
    rbind (compare_data vs rs) (fun errs => Ok (errs =? 0)).
End Compare.
Arguments mkC {V} _ _.
Arguments c_names {V} _.
Arguments c_st {V} _.
