(* Thread budget: src/kernel/lib/settings.cpp:1044-1060 set_max_threads, 1063-1084
   get_num_comp_threads, 1090-1108 set_num_outer_threads, 1114-1130 set_num_inner_threads.
   int is Z (all values are bounded by the inputs); `/` truncates. *)
From Verif Require Import Base.

(* 1063-1084: (return value, outer_threads, inner_threads) *)
Definition get_num_comp_threads (max_threads num_inner_threads num_outer_threads : Z) : Z * Z * Z :=
  let mt := Z.max max_threads 1 in
  let it := Z.max num_inner_threads 1 in
  let it := Z.min it mt in
  let max_ot := Z.max (Z.quot mt it) 1 in
  let ot := num_outer_threads in
  let ot := if ot <=? 0 then max_ot else ot in
  let ot := Z.min ot max_ot in
  (it * ot, ot, it).

(* 1044-1060: (return value, yask_num_threads[0], yask_num_threads[1]) *)
Definition set_max_threads (max_threads : Z) : Z * Z * Z :=
  let mt := Z.max max_threads 1 in (mt, mt, 0).

(* 1090-1108: (return value, yask_num_threads[0], yask_num_threads[1]) *)
Definition set_num_outer_threads (max_threads num_inner_threads num_outer_threads : Z) : Z * Z * Z :=
  let '(_, ot, it) := get_num_comp_threads max_threads num_inner_threads num_outer_threads in (ot, ot, it).

(* 1114-1130 *)
Definition set_num_inner_threads (max_threads num_inner_threads num_outer_threads : Z) : Z :=
  let '(_, _, it) := get_num_comp_threads max_threads num_inner_threads num_outer_threads in it.
