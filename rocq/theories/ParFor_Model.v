(* src/common/common_utils.hpp lines 115-352: division of work and parallel loops.
   Simplifications: the calls made by different threads are collected in one list (their
   relative order is not specified by OpenMP and no theorem depends on it);
   an 'omp parallel' region entered after omp_set_num_threads(n) is assumed to
   run exactly n threads; thread numbers passed to the visitor are dropped. *)
From Verif Require Import Base Idiv_Model.

(* common_utils.hpp:123-130 *)
Definition div_equally_size_n (num nparts n : Z) : Z :=
  let p := Z.quot num nparts in
  let rem := Z.rem num nparts in
  p + (if n <? rem then 1 else 0).

(* common_utils.hpp:145-154 *)
Definition div_equally_cumu_size_n (num nparts n : Z) : Z :=
  if n <? 0 then 0
  else
    let p := Z.quot num nparts * (n + 1) in
    let rem := Z.rem num nparts in
    p + (if n <? rem then n + 1 else rem).

(* common_utils.hpp:160-165: vector p(nparts, num/nparts), then p[i]++ for i < num % nparts. *)
Definition div_equally_all_sizes (num nparts : Z) : list Z :=
  map (fun i => Z.quot num nparts + (if i <? Z.rem num nparts then 1 else 0)) (zseq nparts).

(* The canonical loop 'for (i = b; i < e; i += stride) visitor(i, min(i + stride, e))',
   common_utils.hpp:226-229, 237-240, 253-257, 319-332, 347-351.
   Out of fuel stands for a loop that has not ended. *)
Fixpoint for_loop (fuel : nat) (i e stride : Z) : res (list (Z * Z)) :=
  if i <? e then
    match fuel with
    | O => OutOfFuel
    | S fuel' =>
        rbind (for_loop fuel' (i + stride) e stride)
              (fun r => Ok ((i, Z.min (i + stride) e) :: r))
    end
  else Ok [].

(* Enough fuel for any stride >= 1. *)
Definition loop (b e stride : Z) : res (list (Z * Z)) :=
  for_loop (Z.to_nat (e - b)) b e stride.

(* What OpenMP and the YASK globals report. *)
Record omp_cfg := {
  has_openmp : bool;        (* _OPENMP defined, :224 *)
  omp_num_threads : Z;      (* omp_get_num_threads(), :235 *)
  max_active_levels : Z;    (* omp_get_max_active_levels(), :244 *)
  ynt0 : Z;                 (* yask_num_threads[0] *)
  ynt1 : Z                  (* yask_num_threads[1] *)
}.

Fixpoint rconcat {A} (l : list (res (list A))) : res (list A) :=
  match l with
  | [] => Ok []
  | r :: rest => rbind r (fun a => rbind (rconcat rest) (fun b => Ok (a ++ b)))
  end.

(* One outer thread of the nested region, common_utils.hpp:274-333. *)
Definition nested_thread (niter nthr0 stride e : Z) (n0 : Z) : res (list (Z * Z)) :=
  let tbegin := div_equally_cumu_size_n niter nthr0 (n0 - 1) * stride in
  let tend := div_equally_cumu_size_n niter nthr0 n0 * stride in
  let tend := Z.min tend e in
  if tend <=? tbegin then Ok []
  else if tend - tbegin <=? stride then Ok [(tbegin, tend)]
  else loop tbegin tend stride.

(* common_utils.hpp:199-337 *)
Definition yask_parallel_for (c : omp_cfg) (b e stride : Z) : res (list (Z * Z)) :=
  if e <=? b then Ok []
  else
    let niter := CEIL_DIV (e - b) stride in
    if niter =? 1 then Ok [(b, e)]
    else if negb (has_openmp c) then loop b e stride
    else if 1 <? omp_num_threads c then loop b e stride
    else if (max_active_levels c <? 2) || (ynt0 c <=? 0) || (ynt1 c <=? 1) || (niter <=? ynt0 c)
    then loop b e stride
    else rconcat (map (nested_thread niter (ynt0 c) stride e) (zseq (ynt0 c))).

(* common_utils.hpp:340-352 *)
Definition yask_for (b e stride : Z) : res (list (Z * Z)) :=
  if e <=? b then Ok [] else loop b e stride.
