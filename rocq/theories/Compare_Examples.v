(* Concrete vars and a concrete rounding for the theorems on validation. *)
From Coq Require Import String QArith Qabs Qround Lqa.
From Verif Require Import Base ParFor_Model Var_Model Var_Spec Tuple_Model Compare_Model Compare_Spec.
Local Open Scope Z_scope.
Local Open Scope list_scope.

(* u(t, x, m): two slots, domain 10..12 with pads of 2 and 3, misc -1..0; x has unit stride.  The elements
   differ at three points of the domain and in the padding. *)
Definition C66_var : yvar :=
  mkVar [mkDim true false 2 0 0 0 7 1; mkDim false true 3 2 3 10 0 1; mkDim false false 2 0 0 0 (-1) 1]
        [0; 2; 1]%nat false [] false.
Definition C66_names : list string := ["t"%string; "x"%string; "m"%string].
Definition C66_new : cvar Z := mkC C66_names (mkState C66_var (Some (fun a => if a mod 7 =? 5 then 1 else 0))).
Definition C66_ref : cvar Z := mkC C66_names (mkState C66_var (Some (fun _ => 0))).
Definition C66_threads : omp_cfg :=
  {| has_openmp := true; omp_num_threads := 1; max_active_levels := 1; ynt0 := 3; ynt1 := 1 |}.

Lemma C66_ex_wf : wf_var C66_var.
Proof.
  split; [|split].
  - repeat constructor; cbn; try lia; intros; try discriminate; auto; lia.
  - cbn. apply perm_skip. apply perm_swap.
  - discriminate.
Qed.
Lemma C66_ex_comparable : comparable (c_st C66_new) (c_st C66_ref).
Proof.
  split; [exact C66_ex_wf|]. split; [exact C66_ex_wf|]. split.
  { repeat constructor; cbn; try lia; intros; try discriminate; auto. }
  split.
  { repeat constructor; cbn; auto. }
  split; eexists; reflexivity.
Qed.


(* Rounding down in magnitude to multiples of 1/4 and overflow at 100. *)
Definition C66_quarter (x : Q) : Q := (Qfloor (x * 4) # 4)%Q.
Definition C66_rnd (x : Q) : fp :=
  if Qle_bool 0 x
  then (if Qle_bool 100 x then Inf false else Fin (C66_quarter x))
  else (if Qle_bool 100 (- x) then Inf true else Fin (- C66_quarter (- x))%Q).

Definition C66_rep (x : Q) : Prop := (Qabs x < 100)%Q /\ exists k, (x == (k # 4))%Q.

Lemma C66_floor_le : forall x y, (x <= y)%Q -> (C66_quarter x <= C66_quarter y)%Q.
Proof.
  intros x y H. unfold C66_quarter. assert (L : (x * 4 <= y * 4)%Q) by lra. apply Qfloor_resp_le in L.
  unfold Qle. cbn [Qnum Qden]. nia.
Qed.
Lemma C66_quarter_nonneg : forall x, (0 <= x)%Q -> (0 <= C66_quarter x)%Q.
Proof.
  intros x H. apply (C66_floor_le 0%Q x) in H. assert (E : (C66_quarter 0 == 0)%Q) by reflexivity. lra.
Qed.
Lemma C66_quarter_id : forall x k, (x == (k # 4))%Q -> (C66_quarter x == x)%Q.
Proof.
  intros x k E. unfold C66_quarter. assert (E' : (x * 4 == inject_Z k)%Q).
  { rewrite E. unfold Qeq, inject_Z. cbn. lia. }
  rewrite E'. rewrite Qfloor_Z. symmetry. exact E.
Qed.
Lemma C66_quarter_ext : forall x y, (x == y)%Q -> (C66_quarter x == C66_quarter y)%Q.
Proof. intros x y E. unfold C66_quarter. rewrite E. reflexivity. Qed.

Lemma C66_cases : forall x,
  (100 <= x)%Q /\ C66_rnd x = Inf false \/ (0 <= x < 100)%Q /\ C66_rnd x = Fin (C66_quarter x) \/
  (-100 < x < 0)%Q /\ C66_rnd x = Fin (- C66_quarter (- x))%Q \/ (x <= -100)%Q /\ C66_rnd x = Inf true.
Proof.
  intros x. unfold C66_rnd. destruct (Qle_bool 0 x) eqn:E.
  - apply Qle_bool_iff in E. destruct (Qle_bool 100 x) eqn:F.
    + apply Qle_bool_iff in F. auto.
    + right. left. split; [|reflexivity]. split; [assumption|]. apply Qnot_le_lt. intros N. apply Qle_bool_iff in N. congruence.
  - assert (x < 0)%Q by (apply Qnot_le_lt; intros N; apply Qle_bool_iff in N; congruence).
    destruct (Qle_bool 100 (- x)) eqn:F.
    + apply Qle_bool_iff in F. right. right. right. split; [lra|reflexivity].
    + right. right. left. split; [|reflexivity].
      assert (- x < 100)%Q by (apply Qnot_le_lt; intros N; apply Qle_bool_iff in N; congruence). lra.
Qed.

Lemma C66_half : C66_rep (1 # 2).
Proof. split; [reflexivity|]. exists 2. reflexivity. Qed.

Lemma C66_rounding : rounding C66_rep C66_rnd.
Proof.
  split; [|split].
  - intros x (L & k & E).
    assert (B : (-100 < x < 100)%Q) by (pose proof (proj1 (Qabs_Qlt_condition x 100) L); lra).
    destruct (C66_cases x) as [(A & ->)|[(A & ->)|[(A & ->)|(A & ->)]]]; cbn [fp_le]; try lra.
    + rewrite (C66_quarter_id x k E). lra.
    + assert (E' : (- x == (- k # 4))%Q) by (rewrite E; reflexivity).
      rewrite (C66_quarter_id (- x)%Q (- k) E'). lra.
  - intros x y H.
    destruct (C66_cases x) as [(A & ->)|[(A & ->)|[(A & ->)|(A & ->)]]];
    destruct (C66_cases y) as [(B & ->)|[(B & ->)|[(B & ->)|(B & ->)]]]; cbn [fp_le]; auto; try lra.
    + apply C66_floor_le. assumption.
    + pose proof (C66_quarter_nonneg (- x)%Q ltac:(lra)). pose proof (C66_quarter_nonneg y ltac:(lra)). lra.
    + pose proof (C66_floor_le (- y)%Q (- x)%Q ltac:(lra)). lra.
  - intros x.
    destruct (C66_cases x) as [(A & ->)|[(A & ->)|[(A & ->)|(A & ->)]]];
    destruct (C66_cases (- x)%Q) as [(B & ->)|[(B & ->)|[(B & ->)|(B & ->)]]]; cbn [fp_le fp_neg negb]; auto; try lra.
    + assert (Z1 : (x == 0)%Q) by lra. assert (Z2 : (- x == 0)%Q) by lra.
      rewrite (C66_quarter_ext _ _ Z1), (C66_quarter_ext _ _ Z2).
      assert (E : (C66_quarter 0 == 0)%Q) by reflexivity. lra.
    + assert (Z1 : (- - x == x)%Q) by lra. rewrite (C66_quarter_ext _ _ Z1). lra.
Qed.
