(* Concrete conditions for Cond_Model. *)
From Coq Require Import String QArith Qabs.
From Verif Require Import Base Expr_Model Expr_Spec Print_Model Print_Spec Dec_Proofs Cond_Model Cond_Spec.
Open Scope Z_scope.

Definition idq (q : Q) : Q := q.
Lemma idq_ok : dbl_rounding idq.
Proof. split; [auto|]. intros; reflexivity. Qed.

Definition ix_ (d : string) := E (LIndex d DomainI) [].
Definition st_ (d : string) := E (LIndex d StepI) [].
Definition first_ (d : string) := E (LIndex d FirstI) [].
Definition last_ (d : string) := E (LIndex d LastI) [].
Definition num_ (q : Q) := E (LConst q) [].
Definition add_ a b := E (LComm OAdd) [a; b].
Definition mul_ a b := E (LComm OMul) [a; b].
Definition sub_ a b := E (LBin OSub) [a; b].
Definition div_ a b := E (LBin ODiv) [a; b].
Definition mod_ a b := E (LBin OMod) [a; b].
Definition neg_ a := E LNeg [a].

(* The interior of the doc of yc_equation_node::set_cond (include/aux/yc_node_api.hpp:186) in one dim, without some points *)
Definition interior : bexpr :=
  BAnd (BCmp CGe (ix_ "x") (add_ (first_ "x") (num_ 20)))
       (BAnd (BCmp CLe (ix_ "x") (sub_ (last_ "x") (num_ 20)))
             (BNot (BOr (BCmp CEq (mod_ (ix_ "x") (num_ 4)) (num_ 1)) (BCmp CLt (mul_ (ix_ "x") (num_ (1 # 8))) (num_ (61 # 16)))))).
Definition at_x (x : Z) (d : string) : Z := if String.eqb d "x" then x else 7.
Definition hundred (d : string) : Z := 100.

Ltac sz := let v := fresh in let H := fresh in
  intros v H; vm_compute in H; injection H as <-; vm_compute; first [reflexivity|exact I].
Ltac szk := let k := fresh "k" in intros k; destruct k as [|[|[|k]]];
  [intros ? C; vm_compute in C; discriminate C|sz|sz|sz].
Ltac short_int := split; [vm_compute; reflexivity|left; vm_compute; discriminate].

Lemma short_8 : short_const idq (1 # 8).
Proof.
  split; [reflexivity|]. right. left. split; [split; [discriminate|reflexivity]|]. exists 125000. split; [reflexivity|]. vm_compute. reflexivity.
Qed.
Lemma short_61 : short_const idq (61 # 16).
Proof.
  split; [reflexivity|]. right. left. split; [split; [discriminate|reflexivity]|]. exists 3812500. split; [reflexivity|]. vm_compute. reflexivity.
Qed.
Ltac value := let v := fresh in let H := fresh in intros v H; vm_compute in H; injection H as <-; vm_compute; first [reflexivity|discriminate].
Ltac pn dec con :=
  lazymatch goal with
  | |- printable_num _ _ _ _ (ix_ _) => split; [sz|split; [reflexivity|dec]]
  | |- printable_num _ _ _ _ (st_ _) => split; [sz|split; [reflexivity|dec]]
  | |- printable_num _ _ _ _ (first_ _) => split; [sz|split; [reflexivity|dec]]
  | |- printable_num _ _ _ _ (last_ _) => split; [sz|split; [reflexivity|dec]]
  | |- printable_num _ _ _ _ (num_ _) => split; [sz|split; [reflexivity|con]]
  | |- printable_num _ _ _ _ (add_ _ _) => split; [sz|split; [discriminate|split; [split; [pn dec con|split; [pn dec con|exact I]]|szk]]]
  | |- printable_num _ _ _ _ (mul_ _ _) => split; [sz|split; [discriminate|split; [split; [pn dec con|split; [pn dec con|exact I]]|szk]]]
  | |- printable_num _ _ _ _ (sub_ _ _) => split; [sz|split; [pn dec con|pn dec con]]
  | |- printable_num _ _ _ _ (mod_ _ _) => split; [sz|split; [pn dec con|split; [pn dec con|split; [discriminate|split; value]]]]
  end.
Ltac pc dec con :=
  lazymatch goal with
  | |- printable_cond _ _ _ _ (BCmp _ _ _) => split; pn dec con
  | |- printable_cond _ _ _ _ (BNot ?a) => change (printable_cond idq (index_val (at_x 32) hundred) (short_const idq) (domain_decl ["t"; "x"; "y"]%string) a); pc dec con
  | |- printable_cond _ _ _ _ (BAnd _ _) => split; pc dec con
  | |- printable_cond _ _ _ _ (BOr _ _) => split; pc dec con
  end.
Lemma interior_ok : printable_cond idq (index_val (at_x 32) hundred) (short_const idq) (domain_decl ["t"; "x"; "y"]%string) interior.
Proof.
  unfold interior.
  pc ltac:(right; left; reflexivity) ltac:(first [exact short_8|exact short_61|short_int]).
Qed.
Lemma interior_true : truth idq (index_val (at_x 32) hundred) interior true.
Proof.
  assert (T : forall c l r x y b, num idq (index_val (at_x 32) hundred) l = Some x -> num idq (index_val (at_x 32) hundred) r = Some y ->
    cmp_q c x y = b -> truth idq (index_val (at_x 32) hundred) (BCmp c l r) b).
  { intros c l r x y b H1 H2 <-. eapply t_cmp; [exact H1|exact H2|].
    destruct c; cbn [cmp_q compares]; rewrite ?negb_true_iff, ?Qle_bool_iff, ?Qeq_bool_iff; try tauto.
    - split; [intros H E; apply Qeq_bool_iff in E; congruence|]. intros H. destruct (Qeq_bool x y) eqn:E; auto. apply Qeq_bool_iff in E. contradiction.
    - split; intros H; [destruct (Qlt_le_dec x y) as [K|K]; auto; apply Qle_bool_iff in K; congruence|].
      destruct (Qle_bool y x) eqn:E; auto. apply Qle_bool_iff in E. exfalso. apply (Qlt_irrefl x). eapply Qlt_le_trans; eauto.
    - split; intros H; [destruct (Qlt_le_dec y x) as [K|K]; auto; apply Qle_bool_iff in K; congruence|].
      destruct (Qle_bool x y) eqn:E; auto. apply Qle_bool_iff in E. exfalso. apply (Qlt_irrefl y). eapply Qlt_le_trans; eauto. }
  apply (t_and _ _ _ _ true true); [eapply T; reflexivity|]. apply (t_and _ _ _ _ true true); [eapply T; reflexivity|].
  apply (t_not _ _ _ false). apply (t_or _ _ _ _ false false); eapply T; reflexivity.
Qed.

Definition odd_step : bexpr := BCmp CEq (mod_ (st_ "t") (num_ 2)) (num_ 1).
Lemma odd_ok : printable_cond idq (index_val (fun _ => 5) hundred) (long_const idq) (step_decl ["t"; "x"]%string "t") odd_step.
Proof. unfold odd_step. pc ltac:(reflexivity) ltac:(short_int). Qed.
Lemma odd_true t : t mod 2 = 1 -> truth idq (index_val (fun _ => t) hundred) odd_step true.
Proof.
  intros H. eapply t_cmp; [|reflexivity|].
  - cbn [num mod_ st_ num_ index_val]. replace (qtrunc (inject_Z t)) with t by (unfold qtrunc; cbn [Qnum Qden inject_Z]; rewrite Z.quot_1_r; reflexivity).
    change (qtrunc 2) with 2. rewrite H. reflexivity.
  - cbn. split; reflexivity.
Qed.
