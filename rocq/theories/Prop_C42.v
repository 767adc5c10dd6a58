(* C42: Tuple layout and point enumeration are exact. *)
From Coq Require Import String.
From Verif Require Import Base MixedRadix Visit_Spec ParFor_Model Tuple_Model Tuple_Proofs.

(* [mr_pos (inner sizes) (inner offsets)] is the row-major position with the inner dim fastest. *)
Theorem C42_layout : forall (fi : bool) (sizes : list Z), Forall (fun s => 0 < s) sizes ->
  (forall offs, in_sizes sizes offs ->
     let inner l := if fi then l else rev l in
     layout_vals fi sizes offs = mr_pos (inner sizes) (inner offs) /\
     0 <= layout_vals fi sizes offs < zprod sizes /\
     unlayout_vals fi sizes (layout_vals fi sizes offs) = Ok offs) /\
  (forall i, 0 <= i < zprod sizes ->
     exists offs, unlayout_vals fi sizes i = Ok offs /\ in_sizes sizes offs /\
                  layout_vals fi sizes offs = i).
Proof. exact layout_bijection. Qed.
Print Assumptions C42_layout.

Example C42_layout_ex :
  layout_vals true [4; 3; 2] [1; 2; 1] = 1 + 4 * (2 + 3 * 1) /\
  layout_vals false [4; 3; 2] [1; 2; 1] = 1 + 2 * (2 + 3 * 1) /\
  unlayout_vals false [4; 3; 2] 11 = Ok [1; 2; 1].
Proof. vm_compute. auto. Qed.

(* Indices (kernel): the same list of numbered points is visited sequentially and, for
   every thread configuration, by all threads together; zero sizes included. *)
Theorem C42_indices_visit : forall (fi : bool) (sizes : list Z), Forall (fun s => 0 <= s) sizes ->
  let inner l := if fi then l else rev l in
  exists visits : list (list Z * Z),
    (forall St visitor st,
       indices_visit_all_points St visitor fi sizes st = run_visitor St visitor visits st) /\
    (forall c, 1 <= omp_num_threads c -> indices_visit_in_parallel c fi sizes = Ok visits) /\
    NoDup (map fst visits) /\
    (forall p, In p (map fst visits) <-> in_sizes sizes p) /\
    (forall p i, In (p, i) visits -> i = mr_pos (inner sizes) (inner p)) /\
    map snd visits = zseq (zprod sizes).
Proof. exact indices_visit_complete. Qed.
Print Assumptions C42_indices_visit.

Example C42_indices_visit_ex :
  indices_visit_in_parallel (Build_omp_cfg true 1 2 2 2) false [2; 3] =
  Ok [([0; 0], 0); ([0; 1], 1); ([0; 2], 2); ([1; 0], 3); ([1; 1], 4); ([1; 2], 5)].
Proof. vm_compute. reflexivity. Qed.

(* Tuple.  Full statement: as C42_indices_visit, i.e. with [0 <= s] instead of [0 < s].
   Missing: tuples with a zero size, where it is false (C42_tuple_visit_refuted). *)
Theorem C42_tuple_visit_partial : forall t : tuple, Forall (fun s => 0 < s) (vals t) ->
  let inner l := if first_inner t then l else rev l in
  exists visits : list (list Z * Z),
    (forall St visitor st,
       tuple_visit_all_points St visitor t st = run_visitor St visitor visits st) /\
    (forall c, 1 <= omp_num_threads c -> tuple_visit_in_parallel c t = Ok visits) /\
    NoDup (map fst visits) /\
    (forall p, In p (map fst visits) <-> in_sizes (vals t) p) /\
    (forall p i, In (p, i) visits -> i = mr_pos (inner (vals t)) (inner p)) /\
    map snd visits = zseq (zprod (vals t)).
Proof. exact tuple_visit_complete. Qed.
Print Assumptions C42_tuple_visit_partial.

Example C42_tuple_visit_partial_ex :
  fst (tuple_visit_all_points _ recorder (mkTuple [("x"%string, 2); ("y"%string, 2)] true) [])
  = [([0; 0], 0); ([1; 0], 1); ([0; 1], 2); ([1; 1], 3)].
Proof. vm_compute. reflexivity. Qed.

(* With a zero size the visitor is called on a point outside the (empty) box. *)
Theorem C42_tuple_visit_refuted : exists t : tuple,
  Forall (fun s => 0 <= s) (vals t) /\
  exists p, In p (map fst (fst (tuple_visit_all_points _ recorder t []))) /\
            ~ in_sizes (vals t) p.
Proof.
  exists (mkTuple [("x"%string, 3); ("y"%string, 0)] true).
  split; [repeat constructor; vm_compute; discriminate|].
  exists [0; 0]. split; [vm_compute; auto|].
  intros H. apply in_sizes_pos in H. vm_compute in H. inversion H; subst. inversion H3; discriminate.
Qed.
Print Assumptions C42_tuple_visit_refuted.
