(* src/kernel/lib/yk_var.hpp lines 567-619, 709-718, 1084-1447: access to slices of a var and
   reductions over slices, on the host.
   Simplifications: idx_t is an unbounded integer; conversions between float and double are the
   identity; data races cannot occur because each visit has its own element and buffer entry
   (proved), so visits are done in list order; reduction arithmetic is exact (rationals)
   and the worker of each visit is an arbitrary function.  Device offload is not modelled. *)
From Coq Require Import QArith Qcanon.
From Verif Require Import Base Idiv_Model ParFor_Model Tuple_Model Layout_Model Var_Model.
Open Scope Z_scope.

(* _has_step_dim; the step dim, if any, is dim 0 (step_posn, yk_var.hpp:60). *)
Definition has_step (v : yvar) : bool :=
  match v_dims v with [] => false | d :: _ => d_step d end.

(* get_slice_range, yk_var.hpp:709-718 *)
Definition get_slice_range (first last : list Z) : list Z :=
  map2 (fun f l => Z.max 0 (l + 1 - f)) first last.

Definition set_last (x : Z) (l : list Z) : list Z := set_nth (length l - 1) x l.
Definition set_head (x : Z) (l : list Z) : list Z := set_nth 0 x l.

(* The inner loop 'for (i = 0; i < ni; i++)' of the visitor lambda, yk_var.hpp:1184-1203:
   (point, buffer offset) pairs. *)
Definition slice_inner (start : list Z) (ndims_left ni tofs : Z) (vis : list Z * Z)
  : list (list Z * Z) :=
  let pt := map2 Z.add start (fst vis) in
  map (fun i =>
         (if ndims_left =? 0 then pt else set_last (nth (length pt - 1) pt 0 + i) pt,
          tofs + snd vis * ni + i))
      (zseq ni).

(* Body of _visit_elements_in_slice after clipping, yk_var.hpp:1118-1219 *)
Definition slice_visits (c : omp_cfg) (v : yvar) (first last : list Z) : res (list (list Z * Z)) :=
  let range := get_slice_range first last in
  let ne := zprod range in
  if ne <=? 0 then Ok []
  else
    let hs := has_step v in
    let first_t := if hs then nth 0 first 0 else 0 in
    let last_t := if hs then nth 0 last 0 else 0 in
    let range := if hs then set_head 1 range else range in
    let ndims := Z.of_nat (length (v_dims v)) in
    let ndims_left := if hs then ndims - 1 else ndims in
    let tsz := zprod range in
    let ip := (length (v_dims v) - 1)%nat in
    let inner := negb (ndims_left =? 0) &&
                 (yask_get_num_threads c <=? Z.quot tsz (nth ip range 0)) in
    let ni := if inner then nth ip range 0 else 1 in
    let range := if inner then set_last 1 range else range in
    rconcat (map (fun t =>
        let start := if hs then set_head t first else first in
        let tofs := (t - first_t) * tsz in
        rbind (indices_visit_in_parallel c false range) (fun vis =>
        Ok (concat (map (slice_inner start ndims_left ni tofs) vis))))
      (zrange first_t (last_t + 1))).

(* Checks at the start of _visit_elements_in_slice, yk_var.hpp:1092-1132: clipped indices, or
   an exception; [buf_size] None stands for IDX_MAX.  Then the visits and the count. *)
Definition visit_elements_in_slice (c : omp_cfg) (v : yvar) (step_wrap strict : bool)
  (buf_size : option Z) (in_first in_last : list Z) : res (list (list Z * Z) * Z) :=
  rbind (check_indices v step_wrap strict true in_first) (fun f =>
  rbind (check_indices v step_wrap strict true in_last) (fun l =>
  let first := snd f in
  let last := snd l in
  let ne := zprod (get_slice_range first last) in
  if ne <=? 0 then Ok ([], 0)
  else if match buf_size with Some n => n <? ne | None => false end then Throw
  else rbind (slice_visits c v first last) (fun vis => Ok (vis, ne)))).

(* set_dirty_in_slice, yk_var.cpp:579-587, as far as valid steps are concerned
   (set_dirty: yk_var.cpp:128-140). *)
Definition with_head_dim (v : yvar) (d : vdim) : yvar :=
  mkVar (match v_dims v with [] => [] | _ :: r => d :: r end) (v_perm v) (v_vec v) (v_foldp v) (v_fold_fi v).
Definition set_dirty_in_slice (v : yvar) (first last : list Z) : yvar :=
  match v_dims v with
  | [] => v
  | d :: _ =>
      if d_step d
      then with_head_dim v (fold_left update_valid_step (zrange (nth 0 first 0) (nth 0 last 0 + 1)) d)
      else v
  end.

Section Slices.
  Variable V : Type.

  (* one read or write of a var element; UB outside the storage *)
  Definition elem_at (v : yvar) (pt : list Z) : res Z :=
    let a := get_elem_ptr v pt in if in_storage v a then Ok a else UB.

  (* GetElem, yk_var.hpp:1230-1252.  The buffer is a function on [0, buf_size). *)
  Fixpoint do_get (v : yvar) (m : Z -> V) (buf_size : Z) (vis : list (list Z * Z)) (buf : Z -> V)
    : res (Z -> V) :=
    match vis with
    | [] => Ok buf
    | (pt, bofs) :: r =>
        rbind (elem_at v pt) (fun a =>
        if (0 <=? bofs) && (bofs <? buf_size)
        then do_get v m buf_size r (mem_upd buf bofs (m a)) else UB)
    end.

  (* _get_elements_in_slice, yk_var.hpp:1222-1265 *)
  Definition get_elements_in_slice (c : omp_cfg) (step_wrap : bool) (s : vstate V)
    (buf : Z -> V) (buf_size : Z) (first last : list Z) : res ((Z -> V) * Z) :=
    match st_mem s with
    | None => Throw
    | Some m =>
        rbind (visit_elements_in_slice c (st_var s) step_wrap true (Some buf_size) first last) (fun r =>
        rbind (do_get (st_var s) m buf_size (fst r) buf) (fun b => Ok (b, snd r)))
    end.

  (* SetElem, yk_var.hpp:1275-1297 *)
  Fixpoint do_set (v : yvar) (buf : Z -> V) (buf_size : Z) (vis : list (list Z * Z)) (m : Z -> V)
    : res (Z -> V) :=
    match vis with
    | [] => Ok m
    | (pt, bofs) :: r =>
        if (0 <=? bofs) && (bofs <? buf_size) then
          rbind (elem_at v pt) (fun a => do_set v buf buf_size r (mem_upd m a (buf bofs)))
        else UB
    end.

  (* _set_elements_in_slice, yk_var.hpp:1267-1312 *)
  Definition set_elements_in_slice (c : omp_cfg) (step_wrap : bool) (s : vstate V)
    (buf : Z -> V) (buf_size : Z) (first last : list Z) : res (vstate V * Z) :=
    match st_mem s with
    | None => Throw
    | Some m =>
        rbind (visit_elements_in_slice c (st_var s) step_wrap true (Some buf_size) first last) (fun r =>
        rbind (do_set (st_var s) buf buf_size (fst r) m) (fun m' =>
        Ok (mkState (set_dirty_in_slice (st_var s) first last) (Some m'), snd r)))
    end.

  (* SetElem of _set_elements_in_slice_same, yk_var.hpp:1322-1337 *)
  Fixpoint do_set_same (v : yvar) (x : V) (vis : list (list Z * Z)) (m : Z -> V) : res (Z -> V) :=
    match vis with
    | [] => Ok m
    | (pt, _) :: r => rbind (elem_at v pt) (fun a => do_set_same v x r (mem_upd m a x))
    end.

  (* _set_elements_in_slice_same, yk_var.hpp:1314-1360 *)
  Definition set_elements_in_slice_same (c : omp_cfg) (step_wrap : bool) (s : vstate V)
    (x : V) (first last : list Z) (strict : bool) : res (vstate V * Z) :=
    match st_mem s with
    | None => Throw
    | Some m =>
        rbind (visit_elements_in_slice c (st_var s) step_wrap strict None first last) (fun r =>
        rbind (do_set_same (st_var s) x (fst r) m) (fun m' =>
        Ok (mkState (set_dirty_in_slice (st_var s) first last) (Some m'), snd r)))
    end.
End Slices.
Arguments do_get {V} _ _ _ _ _.
Arguments do_set {V} _ _ _ _ _.
Arguments do_set_same {V} _ _ _ _.
Arguments get_elements_in_slice {V} _ _ _ _ _ _ _.
Arguments set_elements_in_slice {V} _ _ _ _ _ _ _.
Arguments set_elements_in_slice_same {V} _ _ _ _ _ _ _.

(* ---- reductions ---- *)

(* yk_var_api.hpp:965-977 *)
Definition yk_sum_reduction := 1.
Definition yk_sum_squares_reduction := 2.
Definition yk_product_reduction := 4.
Definition yk_max_reduction := 8.
Definition yk_min_reduction := 16.
Definition in_mask (mask b : Z) : bool := negb (Z.land mask b =? 0).

(* numeric_limits<double>::min() and max(): 2^-1022 and (2 - 2^-52) * 2^1023. *)
Definition DBL_MIN : Qc := Q2Qc (1 # (2 ^ 1022)).
Definition DBL_MAX : Qc := Q2Qc (inject_Z ((2 ^ 53 - 1) * 2 ^ 971)).

(* red_res, yk_var.hpp:567-582 *)
Record red_res := mkRed {
  r_mask : Z; r_nred : Z; r_sum : Qc; r_sum_sq : Qc; r_prod : Qc; r_max : Qc; r_min : Qc }.
Definition red_init (mask nred : Z) : red_res := mkRed mask nred 0%Qc 0%Qc 1%Qc DBL_MIN DBL_MAX.

(* std::max(a, b) is (a < b) ? b : a and std::min(a, b) is (b < a) ? b : a. *)
Definition qltb (a b : Qc) : bool := match (a ?= b)%Qc with Lt => true | _ => false end.
Definition qmax (a b : Qc) : Qc := if qltb a b then b else a.
Definition qmin (a b : Qc) : Qc := if qltb b a then b else a.

(* RedElem::visit, yk_var.hpp:1377-1407 *)
Definition red_visit (r : red_res) (x : Qc) : red_res :=
  let mask := r_mask r in
  mkRed mask (r_nred r)
    (if in_mask mask yk_sum_reduction then (r_sum r + x)%Qc else r_sum r)
    (if in_mask mask yk_sum_squares_reduction then (r_sum_sq r + x * x)%Qc else r_sum_sq r)
    (if in_mask mask yk_product_reduction then (r_prod r * x)%Qc else r_prod r)
    (if in_mask mask yk_max_reduction then qmax (r_max r) x else r_max r)
    (if in_mask mask yk_min_reduction then qmin (r_min r) x else r_min r).

(* The join loop, yk_var.hpp:1435-1443; note '_sum_sq += resp->_sum'. *)
Definition red_join (p r : red_res) : red_res :=
  mkRed (r_mask p) (r_nred p) (r_sum p + r_sum r)%Qc (r_sum_sq p + r_sum r)%Qc
        (r_prod p * r_prod r)%Qc (qmax (r_max p) (r_max r)) (qmin (r_min p) (r_min r)).

(* values read by the visits *)
Fixpoint slice_values (v : yvar) (m : Z -> Qc) (vis : list (list Z * Z)) : res (list (Z * Qc)) :=
  match vis with
  | [] => Ok []
  | (pt, bofs) :: r =>
      rbind (elem_at v pt) (fun a => rbind (slice_values v m r) (fun l => Ok ((bofs, m a) :: l)))
  end.

(* _reduce_elements_in_slice, yk_var.hpp:1363-1447; [thr bofs] is the thread number passed to the
   visit with that offset (in [0, nthr): yk_var.hpp:1391). *)
Definition reduce_elements_in_slice (c : omp_cfg) (thr : Z -> Z) (step_wrap : bool)
  (s : vstate Qc) (mask : Z) (first last : list Z) (strict : bool) : res red_res :=
  match st_mem s with
  | None => Throw
  | Some m =>
      let nthr := yask_get_num_threads c in
      rbind (visit_elements_in_slice c (st_var s) step_wrap strict None first last) (fun r =>
      rbind (slice_values (st_var s) m (fst r)) (fun vals =>
      let rrv := map (fun i =>
                   fold_left red_visit (map snd (filter (fun bx => thr (fst bx) =? i) vals)) (red_init mask 0))
                   (zseq nthr) in
      Ok (fold_left red_join rrv (red_init mask (snd r)))))
  end.

(* Accessors, yk_var.hpp:590-618; note that get_sum_squares returns _sum and that get_min
   checks the sum bit. *)
Definition get_sum (r : red_res) : res Qc :=
  if in_mask (r_mask r) yk_sum_reduction then Ok (r_sum r) else Throw.
Definition get_sum_squares (r : red_res) : res Qc :=
  if in_mask (r_mask r) yk_sum_squares_reduction then Ok (r_sum r) else Throw.
Definition get_product (r : red_res) : res Qc :=
  if in_mask (r_mask r) yk_product_reduction then Ok (r_prod r) else Throw.
Definition get_max (r : red_res) : res Qc :=
  if in_mask (r_mask r) yk_max_reduction then Ok (r_max r) else Throw.
Definition get_min (r : red_res) : res Qc :=
  if in_mask (r_mask r) yk_sum_reduction then Ok (r_min r) else Throw.
