(* C64: the printed C++ of a condition is true where the condition is true. *)
From Coq Require Import String QArith Qabs.
From Verif Require Import Base Expr_Model Expr_Spec Print_Model Print_Spec Cond_Model Cond_Spec CondEval_Proofs Cond_Examples.
Open Scope Z_scope.

(* The printed function is_in_valid_domain, called with the indices of a point in the order of the stencil dims, is
   defined and returns whether the condition is true there, for every condition, point, domain size and rounding like that
   of doubles.  Partial: the condition is [printable_cond]; the refutations below show what happens without its parts. *)
Theorem C64_domain_partial : forall rnd dims ix gsize cond b, dbl_rounding rnd -> NoDup dims ->
  printable_cond rnd (index_val ix gsize) (short_const rnd) (domain_decl dims) cond ->
  truth rnd (index_val ix gsize) cond b ->
  exists f, valid_domain dims cond = Ok f /\ call_fun rnd gsize f (map ix dims) = Some b.
Proof. exact domain_fun_ok. Qed.
Print Assumptions C64_domain_partial.

(* The printed function is_in_valid_step, called with a step index, returns whether the step condition is true. *)
Theorem C64_step_partial : forall rnd dims step_dim ix gsize cond b, dbl_rounding rnd ->
  printable_cond rnd (index_val ix gsize) (long_const rnd) (step_decl dims step_dim) cond ->
  truth rnd (index_val ix gsize) cond b ->
  exists f, valid_step step_dim cond = Ok f /\ call_fun rnd gsize f [ix step_dim] = Some b.
Proof. exact step_fun_ok. Qed.
Print Assumptions C64_step_partial.

(* "t % 2 == 1" is true at step -1 (a run backwards in time), but the C++ operator gives -1: the equation is skipped. *)
Theorem C64_modulo_refuted : exists cond f, valid_step "t" cond = Ok f /\
  truth idq (index_val (fun _ => -1) hundred) cond true /\ call_fun idq hundred f [-1] = Some false.
Proof.
  exists odd_step. eexists. split; [vm_compute; reflexivity|]. split; [apply odd_true; reflexivity|]. vm_compute. reflexivity.
Qed.
Print Assumptions C64_modulo_refuted.

(* "x / 2 == 1" is false at x = 3, where the value is 3/2, but the C++ division of integers gives 1. *)
Theorem C64_division_refuted : exists cond f, valid_domain ["t"; "x"]%string cond = Ok f /\
  truth idq (index_val (fun _ => 3) hundred) cond false /\ call_fun idq hundred f [3; 3] = Some true.
Proof.
  exists (BCmp CEq (div_ (ix_ "x") (num_ 2)) (num_ 1)). eexists. split; [vm_compute; reflexivity|]. split.
  - apply (t_cmp _ _ _ _ _ (3 # 2) 1); [vm_compute; reflexivity|reflexivity|]. split; [discriminate|]. intros C. vm_compute in C. discriminate C.
  - vm_compute. reflexivity.
Qed.
Print Assumptions C64_division_refuted.

(* The constants of a domain condition are printed with six digits after the point: "x < last_x * 0.333251953125" is false
   at x = 1365 in a domain of 4097 points, but the printed condition is true there.  The printer of step conditions keeps
   the constant. *)
Theorem C64_precision_refuted : exists q f p,
  valid_domain ["t"; "x"]%string (BCmp CLt (ix_ "x") (mul_ (last_ "x") (num_ q))) = Ok f /\
  truth idq (index_val (fun _ => 1365) (fun _ => 4097)) (BCmp CLt (ix_ "x") (mul_ (last_ "x") (num_ q))) false /\
  call_fun idq (fun _ => 4097) f [1365; 1365] = Some true /\ fmt_step q = Ok [KReal p] /\ (p == q)%Q.
Proof.
  exists (1365 # 4096)%Q. do 2 eexists. split; [vm_compute; reflexivity|]. split.
  - eapply t_cmp; [vm_compute; reflexivity|vm_compute; reflexivity|]. split; [discriminate|]. intros C. vm_compute in C. discriminate C.
  - split; [vm_compute; reflexivity|]. split; [vm_compute; reflexivity|]. vm_compute. reflexivity.
Qed.
Print Assumptions C64_precision_refuted.

(* "-(-x) > 3" is true at x = 4, but its text is "(--x > 3)": the variable is decremented and the condition is false. *)
Theorem C64_negation_refuted : exists cond f, valid_domain ["t"; "x"]%string cond = Ok f /\
  f_ret f = [KLP; KOp XSub; KOp XSub; KName "x"; KSp; KOp (XCmp CGt); KSp; KInt 3; KRP] /\
  truth idq (index_val (fun _ => 4) hundred) cond true /\ call_fun idq hundred f [4; 4] = Some false.
Proof.
  exists (BCmp CGt (neg_ (neg_ (ix_ "x"))) (num_ 3)). eexists. split; [vm_compute; reflexivity|]. split; [reflexivity|]. split.
  - apply (t_cmp _ _ _ _ _ 4 3); [vm_compute; reflexivity|reflexivity|]. split; reflexivity.
  - vm_compute. reflexivity.
Qed.
Print Assumptions C64_negation_refuted.

(* A product of integer constants is a product of ints: "x < 100000 * 100000" is undefined. *)
Theorem C64_overflow_refuted : exists cond f, valid_domain ["t"; "x"]%string cond = Ok f /\
  truth idq (index_val (fun _ => 4) hundred) cond true /\ call_fun idq hundred f [4; 4] = None.
Proof.
  exists (BCmp CLt (ix_ "x") (mul_ (num_ 100000) (num_ 100000))). eexists. split; [vm_compute; reflexivity|]. split.
  - apply (t_cmp _ _ _ _ _ 4 (inject_Z 10000000000)); [reflexivity|vm_compute; reflexivity|]. split; reflexivity.
  - vm_compute. reflexivity.
Qed.
Print Assumptions C64_overflow_refuted.

(* A constant that is no int, as in "x < 3000000000": its conversion to int in the printer is undefined. *)
Theorem C64_range_refuted : exists cond, valid_domain ["t"; "x"]%string cond = UB /\
  truth idq (index_val (fun _ => 4) hundred) cond true.
Proof.
  exists (BCmp CLt (ix_ "x") (num_ 3000000000)). split; [vm_compute; reflexivity|].
  apply (t_cmp _ _ _ _ _ 4 (inject_Z 3000000000)); [reflexivity|reflexivity|]. split; reflexivity.
Qed.
Print Assumptions C64_range_refuted.

(* "x / 2.5 % 2 == 1": modulo is documented to convert its operands to integers, but the C++ operator has no value for a
   double. *)
Theorem C64_modulo_real_refuted : exists cond f, valid_domain ["t"; "x"]%string cond = Ok f /\
  truth idq (index_val (fun _ => 4) hundred) cond true /\ call_fun idq hundred f [4; 4] = None.
Proof.
  exists (BCmp CEq (mod_ (div_ (ix_ "x") (num_ (5 # 2))) (num_ 2)) (num_ 1)). eexists. split; [vm_compute; reflexivity|]. split.
  - apply (t_cmp _ _ _ _ _ 1 1); [vm_compute; reflexivity|reflexivity|]. split; reflexivity.
  - vm_compute. reflexivity.
Qed.
Print Assumptions C64_modulo_real_refuted.

(* The interior of a domain without some points: all hypotheses hold, and the printed code agrees; its text. *)
Example C64_interior : dbl_rounding idq /\ NoDup ["t"; "x"; "y"]%string /\
  printable_cond idq (index_val (at_x 32) hundred) (short_const idq) (domain_decl ["t"; "x"; "y"]%string) interior /\
  truth idq (index_val (at_x 32) hundred) interior true /\
  exists f, valid_domain ["t"; "x"; "y"]%string interior = Ok f /\ call_fun idq hundred f (map (at_x 32) ["t"; "x"; "y"]%string) = Some true /\
    call_fun idq hundred f [7; 29; 7] = Some false /\ call_fun idq hundred f [7; 33; 7] = Some false /\
    call_fun idq hundred f [7; 79; 7] = Some true /\ call_fun idq hundred f [7; 80; 7] = Some false.
Proof.
  split; [exact idq_ok|]. split; [repeat constructor; cbn; intuition discriminate|]. split; [exact interior_ok|].
  split; [exact interior_true|]. eexists. split; [vm_compute; reflexivity|]. repeat (split; [vm_compute; reflexivity|]). vm_compute; reflexivity.
Qed.
Example C64_odd_steps :
  printable_cond idq (index_val (fun _ => 5) hundred) (long_const idq) (step_decl ["t"; "x"]%string "t") odd_step /\
  truth idq (index_val (fun _ => 5) hundred) odd_step true /\
  exists f, valid_step "t" odd_step = Ok f /\ call_fun idq hundred f [5] = Some true /\ call_fun idq hundred f [4] = Some false.
Proof.
  split; [exact odd_ok|]. split; [apply odd_true; reflexivity|]. eexists. split; [vm_compute; reflexivity|].
  split; [vm_compute; reflexivity|]. vm_compute; reflexivity.
Qed.
Example C64_text : btext fmt_domain (BCmp CLt (mul_ (ix_ "x") (num_ (1 # 8))) (num_ (-5))) =
  Ok [KLP; KLP; KName "x"; KSp; KOp XMul; KSp; KReal (125000 # 1000000); KRP; KSp; KOp (XCmp CLt); KSp; KOp XSub; KInt 5; KRP].
Proof. vm_compute. reflexivity. Qed.
