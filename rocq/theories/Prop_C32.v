(* C32: Equations reading from the future are rejected in both directions. *)
From Verif Require Import Base Deps_Model Deps_Spec Eqs_Model Eqs_Spec Eqs_Proofs.

(* Whatever is accepted: every equation of a non-scratch var writes the next step of the one step direction d', at the
   current point, and in the forward direction reads no later step. *)
(* Full statement: also d' = -1 -> -1 <= s, and also for reads through scratch vars; false, see below. *)
Theorem C32_accepted_partial : forall scr fd d eqs d' g, analyze_eqs scr fd d eqs = Ok (d', g) ->
  (d <> 0 -> d' = d) /\ forall e, In e eqs -> scr (p_var (e_lhs e)) = false ->
    legal_lhs scr d' e /\ (scr (p_var (e_lhs e)) = false -> (d' = 1 \/ d' = -1) /\ (d' = 1 -> forall r s, In r (e_rhs e) -> p_step r = Some s -> s <= 1)).
Proof. exact accepted_spec. Qed.
Print Assumptions C32_accepted_partial.
Definition C32_eqs (l r : Z) : list eqn := [mkEqn (mkPt 1 (Some l) [0] []) [mkPt 1 (Some r) [0] []] None None []].
Example C32_accepted_ex : exists g, analyze_eqs (fun _ => false) true 0 (C32_eqs 1 (-3)) = Ok (1, g).
Proof. eexists. vm_compute. reflexivity. Qed.

(* a forward equation that reads a later step *)
Theorem C32_forward : forall scr fd d eqs e r s, d = 0 \/ d = 1 -> In e eqs -> scr (p_var (e_lhs e)) = false ->
  p_step (e_lhs e) = Some 1 -> In r (e_rhs e) -> p_step r = Some s -> 1 < s -> forall x, analyze_eqs scr fd d eqs <> Ok x.
Proof. exact forward_rejects. Qed.
Print Assumptions C32_forward.
Example C32_forward_ex : analyze_eqs (fun _ => false) true 0 (C32_eqs 1 2) = Throw.
Proof. reflexivity. Qed.

(* u(t-1) = u(t-2): the test for the backward direction compares the step direction with -11 *)
Theorem C32_backward_refuted : exists scr eqs e r g, In e eqs /\ scr (p_var (e_lhs e)) = false /\
  p_step (e_lhs e) = Some (-1) /\ In r (e_rhs e) /\ p_step r = Some (-2) /\ analyze_eqs scr true 0 eqs = Ok (-1, g).
Proof.
  exists (fun _ => false), (C32_eqs (-1) (-2)). eexists. eexists. eexists. split; [left; reflexivity|]. split; [reflexivity|]. split; [reflexivity|]. split; [left; reflexivity|]. split; [reflexivity|]. vm_compute. reflexivity.
Qed.
Print Assumptions C32_backward_refuted.

(* s(x) = u(t+2, x); u(t+1, x) = s(x): the equation of a scratch var is not tested, so u(t+1) is computed from u(t+2) *)
Theorem C32_scratch_refuted : exists scr eqs i j e e' r r' s g,
  nth_error eqs i = Some e /\ nth_error eqs j = Some e' /\ scr (p_var (e_lhs e)) = false /\ p_step (e_lhs e) = Some 1 /\
  In r (e_rhs e) /\ same_value scr r (e_lhs e') /\ In r' (e_rhs e') /\ p_var r' = p_var (e_lhs e) /\ p_step r' = Some s /\ 1 < s /\
  analyze_eqs scr true 0 eqs = Ok (1, g).
Proof.
  exists (fun v => v =? 9), [mkEqn (mkPt 9 None [0] []) [mkPt 1 (Some 2) [0] []] None None []; mkEqn (mkPt 1 (Some 1) [0] []) [mkPt 9 None [0] []] None None []], 1%nat, 0%nat.
  eexists. eexists. eexists. eexists. exists 2. eexists. split; [reflexivity|]. split; [reflexivity|]. split; [reflexivity|]. split; [reflexivity|].
  split; [left; reflexivity|]. split; [repeat split; cbn; discriminate|]. split; [left; reflexivity|]. split; [reflexivity|]. split; [reflexivity|]. split; [lia|]. vm_compute. reflexivity.
Qed.
Print Assumptions C32_scratch_refuted.
