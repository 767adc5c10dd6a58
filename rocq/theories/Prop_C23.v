(* C23: Writing an element affects that element only. *)
From Verif Require Import Base Var_Model Var_Spec Var_Proofs.

(* Both kinds of vars, any prior contents [m], any values, any addition; [sw] is the
   -step_wrap setting (accept any step index). *)
Theorem C23_element_access : forall V (vadd : V -> V -> V) (sw : bool) (v : yvar) (m : Z -> V),
  wf_var v ->
  let s := mkState v (Some m) in
  (* a write *)
  (forall x idxs strict, valid_indices true v idxs ->
     exists s', set_element sw s x idxs strict = Ok (s', 1) /\ st_var s' = v /\
       (valid_indices sw v idxs -> get_element sw s' idxs = Ok x) /\
       (forall b, valid_indices sw v b -> same_elem (v_dims v) idxs b -> get_element sw s' b = Ok x) /\
       (forall b, ~ same_elem (v_dims v) idxs b -> get_element sw s' b = get_element sw s b)) /\
  (* an atomic add *)
  (forall x idxs strict, valid_indices sw v idxs ->
     exists s' old, add_to_element vadd sw s x idxs strict = Ok (s', 1) /\ st_var s' = v /\
       get_element sw s idxs = Ok old /\ get_element sw s' idxs = Ok (vadd old x) /\
       (forall b, ~ same_elem (v_dims v) idxs b -> get_element sw s' b = get_element sw s b)) /\
  (* invalid indices *)
  (forall x idxs strict, length idxs = length (v_dims v) -> ~ valid_indices true v idxs ->
     set_element sw s x idxs strict = if strict then Throw else Ok (s, 0)) /\
  (forall x idxs strict, length idxs = length (v_dims v) -> ~ valid_indices sw v idxs ->
     add_to_element vadd sw s x idxs strict = if strict then Throw else Ok (s, 0)) /\
  (forall idxs, ~ valid_indices sw v idxs -> get_element sw s idxs = Throw).
Proof. exact element_rw. Qed.
Print Assumptions C23_element_access.

Definition C23_var : yvar :=
  mkVar [mkDim true false 2 0 0 0 0 1; mkDim false true 8 4 4 40 0 4; mkDim false true 6 2 2 (-7) 0 2]
        [0; 1; 2]%nat true [1; 2]%nat true.

Example C23_ex :
  wf_var C23_var /\
  valid_indices false C23_var [1; 39; -2] /\ ~ valid_indices true C23_var [1; 35; -2] /\
  let s := mkState C23_var (Some (fun a => a)) in
  exists s', set_element false s 77 [1; 39; -2] true = Ok (s', 1) /\
    get_element false s' [1; 39; -2] = Ok 77 /\
    get_element false s' [0; 39; -2] = get_element false s [0; 39; -2] /\
    set_element false s 77 [1; 35; -2] false = Ok (s, 0) /\
    set_element false s 77 [1; 35; -2] true = Throw.
Proof.
  split.
  { split; [|split].
    - repeat constructor; cbn; try lia; intros; try discriminate; auto; lia.
    - cbn. apply Permutation_refl.
    - intros _. cbn. split; [repeat constructor; cbn; intuition lia|].
      split; [intros j H; intuition lia|].
      intros j Hj H. destruct j as [|[|[|j]]]; cbn in *; try lia; auto. }
  split.
  { unfold valid_indices; cbn [v_dims C23_var]; repeat apply Forall2_cons; try apply Forall2_nil; unfold valid_index; cbn; right; lia. }
  split.
  { intros H. inversion H as [|? ? ? ? _ H1]; subst. inversion H1 as [|? ? ? ? H2 _]; subst.
    destruct H2 as [(_ & E)|H2]; [discriminate|]. cbn in H2. lia. }
  cbn zeta. eexists. vm_compute. auto.
Qed.
