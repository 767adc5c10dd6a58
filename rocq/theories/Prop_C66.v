(* C66: Validation compares every result with the reference exactly once. *)
From Coq Require Import String QArith Qabs Lqa.
From Verif Require Import Base ParFor_Model Var_Model Var_Spec Tuple_Model Compare_Model Compare_Spec Compare_Proofs Compare_Examples.
Local Open Scope Z_scope.
Local Open Scope list_scope.

(* The number returned by compare(): every allocated step slot, point of the rank's domain and value of misc
   dims is one point of [pts], no other point is, and the points that are not accepted are counted. *)
Theorem C66_each_result_compared_once :
  forall V (tol : V -> V -> bool) c fi (v r : cvar V), 1 <= omp_num_threads c ->
  List.length (c_names v) = List.length (v_dims (st_var (c_st v))) ->
  comparable (c_st v) (c_st r) -> are_dims_and_sizes_same V fi v r = true ->
  exists pts n, NoDup pts /\ (forall p, In p pts <-> Forall2 result_index (v_dims (st_var (c_st v))) p) /\
    mismatches tol (c_st v) (c_st r) pts n /\ compare V tol c fi v (Some r) = Ok n.
Proof. exact compare_counts. Qed.
Print Assumptions C66_each_result_compared_once.

(* The answer 'TEST PASSED' for output vars prepared alike, in terms of what get_element() returns. *)
Theorem C66_passed_iff_all_accepted :
  forall V (tol : V -> V -> bool) c fi (vs rs : list (cvar V)), 1 <= omp_num_threads c ->
  Forall2 (fun v r => List.length (c_names v) = List.length (v_dims (st_var (c_st v))) /\
                      comparable (c_st v) (c_st r) /\ same_layout v r) vs rs ->
  exists b, test_passed V tol c fi vs rs = Ok b /\
    (b = true <-> Forall2 (fun v r => all_accepted tol (c_st v) (c_st r)) vs rs).
Proof. exact passed_spec. Qed.
Print Assumptions C66_passed_iff_all_accepted.

(* Vars with other dims or sizes are never taken for equal, nor is a missing reference. *)
Theorem C66_other_sizes_do_not_pass :
  forall V (tol : V -> V -> bool) c fi (v r : cvar V),
  List.length (c_names v) = List.length (v_dims (st_var (c_st v))) ->
  List.length (c_names r) = List.length (v_dims (st_var (c_st r))) ->
  wf_var (st_var (c_st v)) ->
  Forall (fun d => 1 <= d_dom d) (v_dims (st_var (c_st v))) ->
  c_names v <> c_names r \/
  v_vec (st_var (c_st v)) = v_vec (st_var (c_st r)) /\
  map (if v_vec (st_var (c_st v)) then d_vec_alloc else d_alloc) (v_dims (st_var (c_st v))) <>
  map (if v_vec (st_var (c_st v)) then d_vec_alloc else d_alloc) (v_dims (st_var (c_st r))) ->
  exists n, 0 < n /\ compare V tol c fi v (Some r) = Ok n /\ compare V tol c fi v None = Ok n.
Proof. exact compare_incompatible. Qed.
Print Assumptions C66_other_sizes_do_not_pass.

Theorem C66_other_number_of_vars_does_not_pass :
  forall V (tol : V -> V -> bool) c fi (vs rs : list (cvar V)), List.length vs <> List.length rs ->
  test_passed V tol c fi vs rs = Ok false.
Proof. exact other_number. Qed.
Print Assumptions C66_other_number_of_vars_does_not_pass.

(* What is accepted is equal, or finite and closer than epsilon or, for references above one, than epsilon
   times the reference - without any allowance for the rounding of the difference and of the product.  So
   NaN is never accepted, and infinity only for infinity of the same sign. *)
Theorem C66_accepted_is_close :
  forall rep rnd, rounding rep rnd -> forall eps, rep eps -> (0 < eps)%Q ->
  forall a b, within_tolerance rnd (Fin eps) a b = true ->
    fp_same a b \/
    exists x y, a = Fin x /\ b = Fin y /\
      ((Qabs (x - y) < eps)%Q \/ (1 < Qabs y)%Q /\ (Qabs (x - y) < Qabs y * eps)%Q).
Proof. exact within_sound'. Qed.
Print Assumptions C66_accepted_is_close.

(* What is equal, or close by a margin of two numbers of the type, is accepted. *)
Theorem C66_close_is_accepted :
  forall rep rnd, rounding rep rnd -> forall eps, rep eps -> (0 < eps)%Q ->
  forall a b,
    fp_same a b \/
    (exists x y q1 q2, a = Fin x /\ b = Fin y /\ rep q1 /\ rep q2 /\
      (Qabs (x - y) <= q1)%Q /\ (q1 < q2)%Q /\
      ((q2 <= eps)%Q /\ (Qabs y <= 1)%Q \/ (q2 <= Qabs y * eps)%Q /\ (1 < Qabs y)%Q)) ->
    within_tolerance rnd (Fin eps) a b = true.
Proof. exact close_accepted. Qed.
Print Assumptions C66_close_is_accepted.

Example C66_each_result_compared_once_ex :
  comparable (c_st C66_new) (c_st C66_ref) /\ are_dims_and_sizes_same Z false C66_new C66_ref = true /\
  compare Z Z.eqb C66_threads false C66_new (Some C66_ref) = Ok 3 /\
  get_element true (c_st C66_new) [9; 11; -1] = Ok 1 /\ get_element true (c_st C66_ref) [9; 11; -1] = Ok 0.
Proof. split; [exact C66_ex_comparable|]. vm_compute. auto. Qed.

Example C66_passed_ex :
  same_layout C66_new C66_ref /\
  test_passed Z Z.eqb C66_threads false [C66_ref; C66_new] [C66_ref; C66_ref] = Ok false /\
  test_passed Z (fun a b => a - b <=? 1) C66_threads false [C66_ref; C66_new] [C66_ref; C66_ref] = Ok true.
Proof. split; [repeat constructor|]. vm_compute. auto. Qed.

(* A var with less padding. *)
Example C66_other_sizes_ex :
  let r := mkC C66_names (mkState (mkVar [mkDim true false 2 0 0 0 7 1; mkDim false true 3 2 2 10 0 1;
                                          mkDim false false 2 0 0 0 (-1) 1] [0; 2; 1]%nat false [] false)
                                  (Some (fun _ : Z => 0))) in
  map d_alloc (v_dims C66_var) <> map d_alloc (v_dims (st_var (c_st r))) /\
  compare Z Z.eqb C66_threads false C66_new (Some r) = Ok 32.
Proof. split; [vm_compute; discriminate|]. vm_compute. reflexivity. Qed.

Example C66_other_number_ex :
  test_passed Z Z.eqb C66_threads false [C66_ref; C66_ref] [C66_ref] = Ok false.
Proof. vm_compute. reflexivity. Qed.

(* Rounding down in magnitude to multiples of 1/4 with overflow at 100. *)
Example C66_tolerance_ex :
  rounding C66_rep C66_rnd /\ C66_rep (1 # 2) /\
  within_tolerance C66_rnd (Fin (1 # 2)) (Fin (9 # 8)) (Fin (3 # 4)) = true /\
  within_tolerance C66_rnd (Fin (1 # 2)) (Fin (-9)) (Fin (-6)) = false /\
  within_tolerance C66_rnd (Fin (1 # 2)) (Fin (-9)) (Fin (-7)) = true /\
  within_tolerance C66_rnd (Fin (1 # 2)) NaN NaN = false /\
  within_tolerance C66_rnd (Fin (1 # 2)) (Inf true) (Inf true) = true /\
  within_tolerance C66_rnd (Fin (1 # 2)) (Fin 3) (Inf false) = false.
Proof. split; [exact C66_rounding|]. split; [exact C66_half|]. vm_compute. auto 10. Qed.

