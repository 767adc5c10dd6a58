(* C22: Valid-step window tracks writes. *)
From Verif Require Import Base Var_Model Var_Spec Var_Proofs.

(* One write: the window keeps its length, contains the step, and no shift that would contain
   the step is shorter. *)
Theorem C22_window_update : forall d t, d_step d = true -> wf_dim d ->
  let first dd := get_first_local_index dd in
  let last dd := get_last_local_index dd in
  let d' := update_valid_step d t in
  wf_dim d' /\ d_dom d' = d_dom d /\ last d' - first d' + 1 = d_dom d /\
  first d' <= t <= last d' /\
  (forall f, f <= t < f + d_dom d -> Z.abs (first d' - first d) <= Z.abs (f - first d)).
Proof. exact update_valid_step_spec. Qed.
Print Assumptions C22_window_update.

(* Any history of step evaluations. *)
Theorem C22_window_after_history : forall V (h : list (Z * V)) (s : vdim * (Z -> V)) t x,
  d_step (fst s) = true -> wf_dim (fst s) ->
  let d' := fst (write_steps s (h ++ [(t, x)])) in
  d_dom d' = d_dom (fst s) /\
  get_last_local_index d' - get_first_local_index d' + 1 = d_dom (fst s) /\
  get_first_local_index d' <= t <= get_last_local_index d'.
Proof. exact window_after. Qed.
Print Assumptions C22_window_after_history.

(* A value not overwritten by a step sharing its slot is still there. *)
Theorem C22_last_write_readable : forall V (h1 h2 : list (Z * V)) t x s, 1 <= d_dom (fst s) ->
  (forall w, In w h2 -> forall k, fst w <> t + k * d_dom (fst s)) ->
  snd (write_steps s (h1 ++ (t, x) :: h2)) (wrap_step t (d_dom (fst s))) = x.
Proof. exact last_write. Qed.
Print Assumptions C22_last_write_readable.

(* When the steps advance in one direction, being in the window is enough: the value read at any
   valid step is the last one written at that step. *)
Theorem C22_valid_steps_hold_their_values :
  forall V (dir : Z) (h1 h2 : list (Z * V)) t x (s : vdim * (Z -> V)),
  dir = 1 \/ dir = -1 -> d_step (fst s) = true -> wf_dim (fst s) ->
  steps_in_order dir (h1 ++ (t, x) :: h2) ->
  (forall w, In w h2 -> fst w <> t) ->
  let s' := write_steps s (h1 ++ (t, x) :: h2) in
  get_first_local_index (fst s') <= t <= get_last_local_index (fst s') ->
  snd s' (wrap_step t (d_dom (fst s))) = x.
Proof. exact retained_step. Qed.
Print Assumptions C22_valid_steps_hold_their_values.

Definition C22_dim : vdim := mkDim true false 3 0 0 0 0 1.
Example C22_ex :
  d_step C22_dim = true /\ wf_dim C22_dim /\
  let h := [(-1, 10); (-2, 20); (-2, 21); (-3, 30); (-4, 40)] in
  steps_in_order (-1) h /\
  let s' := write_steps (C22_dim, fun _ => 0) h in
  (get_first_local_index (fst s'), get_last_local_index (fst s')) = (-4, -2) /\
  map (fun t => snd s' (wrap_step t 3)) [-4; -3; -2] = [40; 30; 21].
Proof.
  split; [reflexivity|]. split.
  { repeat split; cbn; try lia; discriminate. }
  cbn zeta. split; [repeat (constructor; cbn; try lia)|]. vm_compute. auto.
Qed.

(* FALSE of the code: the API says that the step index given to set_element "will be used to
   update the current valid step indices".  The write outside the window is accepted (returns 1)
   but the window does not move, so the element just written cannot be read. *)
Theorem C22_set_element_moves_window_refuted :
  exists (v : yvar) (idxs : list Z) (s s' : vstate Z),
    wf_var v /\ s = mkState v (Some (fun _ => 0)) /\
    set_element false s 42 idxs true = Ok (s', 1) /\
    get_element false s' idxs = Throw.
Proof.
  pose (v := mkVar [mkDim true false 2 0 0 0 0 1; mkDim false true 4 0 0 0 0 1] [0; 1]%nat false [] false).
  exists v, [5; 1], (mkState v (Some (fun _ => 0))),
    (mkState v (Some (mem_upd (fun _ => 0) 5 42))).
  split.
  { split; [|split].
    - repeat constructor; cbn; try lia; intros; try discriminate; auto; lia.
    - cbn. apply Permutation_refl.
    - discriminate. }
  split; [reflexivity|]. split; vm_compute; reflexivity.
Qed.
Print Assumptions C22_set_element_moves_window_refuted.
