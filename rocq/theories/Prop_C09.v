(* C09: Parallel loops execute every iteration exactly once. *)
From Verif Require Import Base Cover_Spec Cover_Proofs Idiv_Model Idiv_Proofs ParFor_Model ParFor_Proofs.

(* Full property: for EVERY thread configuration [c], every begin <= end and stride >= 1, the
   sub-ranges handed to the user function cover [b, e) exactly once.  This is false (see
   C09_parallel_for_refuted): in the nested branch the offset [begin] is not added.
   What holds: it is true unless the nested branch is entered with begin <> 0. *)
Theorem C09_parallel_for_partial : forall (c : omp_cfg) (b e stride : Z),
  1 <= stride -> b <= e ->
  b = 0 \/ has_openmp c = false \/ 1 < omp_num_threads c \/ max_active_levels c < 2 \/
    ynt0 c <= 0 \/ ynt1 c <= 1 \/ e - b <= ynt0 c * stride ->
  exists calls, yask_parallel_for c b e stride = Ok calls /\
    exact_cover in_iv calls (in_iv (b, e)) /\
    Forall (fun r => b <= fst r < snd r /\ snd r <= e /\ snd r - fst r <= stride) calls.
Proof. exact parallel_for_cover. Qed.
Print Assumptions C09_parallel_for_partial.

Example C09_parallel_for_ex :
  yask_parallel_for {| has_openmp := true; omp_num_threads := 1; max_active_levels := 2;
                       ynt0 := 2; ynt1 := 3 |} 0 23 4
  = Ok [(0, 4); (4, 8); (8, 12); (12, 16); (16, 20); (20, 23)].
Proof. vm_compute. reflexivity. Qed.

(* Finding: nested parallel loop over [100, 108) with stride 1, 2 outer and 2 inner threads
   visits 0..7 instead of 100..107. *)
Theorem C09_parallel_for_refuted : exists (c : omp_cfg) (b e stride : Z),
  1 <= stride /\ b <= e /\
  exists calls, yask_parallel_for c b e stride = Ok calls /\
    hits in_iv calls b = 0%nat /\ in_iv (b, e) b = true /\
    hits in_iv calls 0 = 1%nat /\ in_iv (b, e) 0 = false.
Proof. exact parallel_for_nested_wrong. Qed.
Print Assumptions C09_parallel_for_refuted.

Theorem C09_sequential_for : forall (b e stride : Z), 1 <= stride -> b <= e ->
  exists calls, yask_for b e stride = Ok calls /\
    exact_cover in_iv calls (in_iv (b, e)) /\
    Forall (fun r => b <= fst r < snd r /\ snd r <= e /\ snd r - fst r <= stride) calls.
Proof. exact yask_for_cover. Qed.
Print Assumptions C09_sequential_for.

Example C09_sequential_for_ex : yask_for (-5) 3 3 = Ok [(-5, -2); (-2, 1); (1, 3)].
Proof. vm_compute. reflexivity. Qed.
