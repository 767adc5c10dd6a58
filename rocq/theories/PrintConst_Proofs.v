(* Printed constants: what is read back. *)
From Coq Require Import String QArith Qabs Qpower Lqa.
From Verif Require Import Base Expr_Model Expr_Spec Print_Model Print_Spec Print_Proofs Dec_Proofs Double_Proofs PrintEval_Proofs.
Open Scope Z_scope.

Lemma int_digits z : Z.abs z < 2 ^ 31 -> digits16 (inject_Z z).
Proof.
  intros H. exists z, 0. split; [assert (2 ^ 31 < 10 ^ 16) by reflexivity; lia|]. change (Qpower 10 0) with 1%Q. ring.
Qed.

Theorem constants : forall q, (Qabs q < inject_Z (2 ^ 31))%Q -> exists t c p,
  format_real q = Ok t /\ parse t = Some c /\ lit_val c = Some p /\ nearest16 q p.
Proof.
  intros q H. destruct (format_ok q H) as (t & c & p & F & U & L & _ & K). exists t, c, p.
  split; [exact F|]. split; [apply parse_u; exact U|]. split; [exact L|].
  destruct (q_int q) as [z|] eqn:Eq; [|apply K].
  destruct K as [-> _]. pose proof (q_int_some q z Eq) as Ez.
  assert (Hz : Z.abs z < 2 ^ 31).
  { rewrite <- Ez in H. rewrite Qabs_inject in H. rewrite <- Zlt_Qlt in H. exact H. }
  split; [apply int_digits; auto|]. intros p' _. assert (E : (inject_Z z - q == 0)%Q) by (rewrite Ez; ring).
  rewrite E. change (Qabs 0) with 0%Q. apply Qabs_nonneg.
Qed.

Theorem constants_back : forall q d, (Qabs q < inject_Z (2 ^ 31))%Q -> double q -> digits16 d -> reads_as d q ->
  (~ power2 q \/ (d == q)%Q) -> exists t c p,
  format_real q = Ok t /\ parse t = Some c /\ lit_val c = Some p /\ reads_as p q.
Proof.
  intros q d H Dq Dd R K. destruct (constants q H) as (t & c & p & A1 & A2 & A3 & A4).
  exists t, c, p. repeat (split; [assumption|]).
  assert (X : (p == q)%Q -> reads_as p q).
  { intros E. split; [auto|]. intros f Df. destruct (Qeq_dec f q) as [|Ne]; [left; auto|right].
    assert (E1 : (q - p == 0)%Q) by (rewrite E; ring). rewrite E1. change (Qabs 0) with 0%Q.
    assert (E2 : (f - p == f - q)%Q) by (rewrite E; ring). rewrite E2. apply Qabs_pos_lt || idtac.
    destruct (Qlt_le_dec 0 (Qabs (f - q))) as [|C]; [auto|]. exfalso. apply Ne.
    pose proof (Qle_Qabs (f - q)). pose proof (Qle_Qabs (- (f - q))) as G. rewrite Qabs_opp in G. lra. }
  assert (Dcomp : (d == q)%Q -> (p == q)%Q).
  { intros E. destruct Dd as (m & j & D1 & D2). apply (dec_exact q p); auto. exists m, j. split; auto. rewrite <- E. exact D2. }
  destruct (Qeq_dec q 0) as [E0|N0].
  - apply X. apply (dec_exact q p); auto. exists 0, 0. split; [discriminate|]. rewrite E0. reflexivity.
  - destruct K as [K|K]; [|apply X; auto]. apply (read_back q p d); auto.
Qed.
