(* C39: Recognised index offsets are exact. *)
From Coq Require Import String QArith.
From Verif Require Import Base Expr_Model Expr_Spec Expr_Proofs.
Open Scope Z_scope.

(* An expression classified as 'dim + k' evaluates to the index of dim plus k, for every index and every rounding that keeps
   the integers up to B; it does have a value if its nodes are well formed and its modulo nodes are by constants >= 1. *)
Theorem C39_offset : forall rnd w B dim i e k,
  rounding rnd B -> Z.abs i + 2 ^ 33 <= B -> v_idx w dim DomainI = i -> v_idx w dim StepI = i ->
  is_offset_from rnd dim e = Ok (Some k) ->
  (forall v, means rnd w e v -> (v == inject_Z (i + k))%Q) /\ (arity_ok e -> mods_pos e -> exists v, means rnd w e v).
Proof. exact off_all. Qed.
Print Assumptions C39_offset.

(* An expression classified as a constant evaluates to it. *)
Theorem C39_const : forall rnd w B e c, rounding rnd B -> is_const_val e = true -> get_int_val rnd e = Ok c ->
  forall v, means rnd w e v -> (v == inject_Z c)%Q.
Proof. exact (fun rnd w B e c R C G v M => proj1 (int_means rnd w B R e c v C G M)). Qed.
Print Assumptions C39_const.

(* The expression put in place of the classified one has the same value, and is classified in the same way. *)
Theorem C39_replaced : forall rnd w B dim ty k e, rounding rnd B -> Z.abs (v_idx w dim ty) + Z.abs k <= B ->
  offset_expr dim ty k = Ok e -> exists v, means rnd w e v /\ (v == inject_Z (v_idx w dim ty + k))%Q.
Proof. exact offset_expr_means. Qed.
Print Assumptions C39_replaced.

Theorem C39_replaced_again : forall rnd dim ty k e, ty = DomainI \/ ty = StepI -> - 2 ^ 31 <= k < 2 ^ 31 ->
  offset_expr dim ty k = Ok e -> is_offset_from rnd dim e = Ok (Some k).
Proof. exact offset_expr_round. Qed.
Print Assumptions C39_replaced_again.

(* -5 + (x - 4 / 2) + 7 % 4 *)
Definition C39_ex : expr :=
  E (LComm OAdd) [E (LConst (-5)) []; E (LBin OSub) [E (LIndex "x"%string DomainI) []; E (LBin ODiv) [E (LConst 4) []; E (LConst 2) []]];
                  E (LBin OMod) [E (LConst 7) []; E (LConst 4) []]].
Example C39_ex_class : is_offset_from (fun q => q) "x"%string C39_ex = Ok (Some (-4)).
Proof. vm_compute. reflexivity. Qed.
Example C39_ex_hyps : rounding (fun q => q) (2 ^ 53) /\ arity_ok C39_ex /\ mods_pos C39_ex.
Proof. split; [split; [intros a b H; exact H|intros; reflexivity]|]. split; cbn; repeat split; discriminate. Qed.
Example C39_ex_no : is_offset_from (fun q => q) "x"%string (E (LBin OSub) [E (LConst 3) []; E (LIndex "x"%string DomainI) []]) = Ok None.
Proof. reflexivity. Qed.
(* x + 1/2 is refused with an error *)
Example C39_ex_half : is_offset_from (fun q => q) "x"%string (E (LComm OAdd) [E (LIndex "x"%string DomainI) []; E (LConst (1 # 2)) []]) = Throw.
Proof. reflexivity. Qed.
Example C39_ex_replaced : exists e, offset_expr "x"%string DomainI (-4) = Ok e /\ is_offset_from (fun q => q) "x"%string e = Ok (Some (-4)).
Proof. eexists. split; reflexivity. Qed.
