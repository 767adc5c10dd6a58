(* C50: the auto-tuner only tries legal sizes and stops. *)
From Verif Require Import Base Adjust_Model Adjust_Spec Tuner_Model Tuner_Spec Tuner3_Proofs.

(* For every sequence of measurements: no error occurs, and after [callbacks_bound] call-backs the tuner is done. *)
Theorem C50_stops : forall e req k os, tuner_settings e req -> adjust_settings (t_a e) req = Ok k -> Forall measured os ->
  exists s, run_tuner e os (new_tuner e k req) = Ok s /\ (callbacks_bound e req <= Z.of_nat (length os) -> u_done s = true).
Proof. exact tuner_stops. Qed.
Print Assumptions C50_stops.

(* The size being tried lies within the enclosing tile and is a whole number of folds or all of the enclosing tile; so were
   all sizes tried before, and none is tried twice. *)
Theorem C50_legal : forall e req k os s, tuner_settings e req -> adjust_settings (t_a e) req = Ok k -> Forall measured os ->
  run_tuner e os (new_tuner e k req) = Ok s -> forall g, u_done s = false -> u_target s = Some g ->
  nested (z_d (get_outer g (u_k s))) (a_fold (t_a e)) (z_d (get_t g (u_k s))) /\
  NoDup (map fst (u_results s)) /\ ~ In (get_t g (u_k s)) (map fst (u_results s)) /\
  forall b, In b (map fst (u_results s)) -> nested (z_d (get_outer g (u_k s))) (a_fold (t_a e)) (z_d b).
Proof. exact tuner_legal. Qed.
Print Assumptions C50_legal.

(* What one call-back may do: ask for more data on the same size; note the result and try a new size that has enough points
   and leaves enough tiles; or go on with the next target (or stop), leaving the best size that was tried in force. *)
Theorem C50_call_back : forall e req k os o s, tuner_settings e req -> adjust_settings (t_a e) req = Ok k -> Forall measured os -> measured o ->
  run_tuner e os (new_tuner e k req) = Ok s -> forall g, u_done s = false -> u_target s = Some g ->
  exists s', eval e o s = Ok s' /\
    let tried := u_results s ++ [(get_t g (u_k s), o_rate o)] in
    (u_k s' = u_k s /\ u_results s' = u_results s /\ u_done s' = false /\ u_target s' = Some g /\ u_ti s' = u_ti s) \/
    (let new := get_t g (u_k s') in
     u_results s' = tried /\ u_done s' = false /\ u_target s' = Some g /\ u_ti s' = u_ti s /\
     z_d (get_outer g (u_k s')) = z_d (get_outer g (u_k s)) /\
     u_minp s <= zprod (z_d new) /\ u_minb s <= Z.quot (zprod (z_d (get_outer g (u_k s)))) (zprod (z_d new))) \/
    (best_of tried (get_t g (u_k s')) /\ (u_done s' = true \/ u_ti s' = S (u_ti s) /\ u_results s' = [])).
Proof. exact tuner_step. Qed.
Print Assumptions C50_call_back.

Definition C50_z : sizes := mkSizes 0 [0; 0].
Definition C50_req : kset := mkKset (mkSizes 0 [12; 10]) C50_z (mkSizes 0 [5; 0]) C50_z C50_z C50_z C50_z C50_z C50_z C50_z C50_z 1.
Definition C50_e : tenv := mkTenv (mkAenv [4; 1] 1 1 false 8 false false) [TBlock; TPico] 2 6 true.
(* Rates that favour blocks of 4 x 10 points (with 6 threads, at least 3 blocks and at least 40 points are asked for) *)
Definition C50_rate (s : tstate) : Z :=
  match u_target s with Some g => 100 - Z.abs (nth 0 (z_d (get_t g (u_k s))) 0 - 4) - Z.abs (nth 1 (z_d (get_t g (u_k s))) 0 - 10) | None => 1 end.
Fixpoint C50_play (n : nat) (s : tstate) : list obs * res tstate :=
  match n with
  | O => ([], Ok s)
  | S n' =>
      let o := mkObs 1 (C50_rate s) false true true in
      match eval C50_e o s with
      | Ok s' => let '(os, r) := C50_play n' s' in (o :: os, r)
      | x => ([o], x)
      end
  end.
Definition C50_k : kset := match adjust_settings (t_a C50_e) C50_req with Ok k => k | _ => C50_req end.
Example C50_hyp_ex : tuner_settings C50_e C50_req /\ adjust_settings (t_a C50_e) C50_req = Ok C50_k /\ callbacks_bound C50_e C50_req = 121000.
Proof.
  split; [|split; [vm_compute; reflexivity|vm_compute; reflexivity]].
  constructor; [split; [discriminate|repeat constructor; lia]|split; [repeat constructor; lia|reflexivity]|repeat constructor|cbn; lia|repeat constructor; discriminate].
Qed.
Example C50_ex :
  z_d (k_block C50_k) = [8; 8] /\
  (exists os s, C50_play 200 (new_tuner C50_e C50_k C50_req) = (os, Ok s) /\ u_done s = true /\ map z_d [k_block (u_k s); k_pico (u_k s)] = [[4; 10]; [4; 10]]) /\
  exists os s, C50_play 5 (new_tuner C50_e C50_k C50_req) = (os, Ok s) /\ u_target s = Some TPico /\ (length (u_results s) = 2)%nat /\ u_done s = false /\ z_d (k_pico (u_k s)) = [4; 9].
Proof.
  split; [vm_compute; reflexivity|]. split; (eexists; eexists; split; [vm_compute; reflexivity|]; repeat split; vm_compute; reflexivity).
Qed.

(* Refuted: the search ends properly whatever is measured.  If no time passes in any trial of the first target, the best
   size is a tuple without dims, and looking up a dim in it dereferences a null pointer. *)
Theorem C50_zero_time_refuted : exists e req k os, tuner_settings e req /\ adjust_settings (t_a e) req = Ok k /\
  Forall (fun o => 1 <= o_steps o /\ o_rate o = 0) os /\ run_tuner e os (new_tuner e k req) = UB.
Proof.
  exists C50_e, C50_req, C50_k, (repeat (mkObs 500 0 false true true) 10). split; [apply C50_hyp_ex|]. split; [apply C50_hyp_ex|].
  split; [apply Forall_forall; intros o Ho; apply repeat_spec in Ho; subst o; cbn; lia|]. vm_compute. reflexivity.
Qed.
Print Assumptions C50_zero_time_refuted.
