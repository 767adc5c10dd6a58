(* What is asked of the auto-tuner. *)
From Verif Require Import Base Adjust_Model Tuner_Model.

(* One size per domain dim at every level; sizes of the rank and of the fold are positive; the step size of nano-blocks is
   not negative.  The sizes themselves may be anything. *)
Record tuner_settings (e : tenv) (req : kset) : Prop := mkTunerSettings {
  ts_rank : z_d (k_rank req) <> [] /\ Forall (fun x => 1 <= x) (z_d (k_rank req));
  ts_fold : Forall (fun x => 1 <= x) (a_fold (t_a e)) /\ length (a_fold (t_a e)) = length (z_d (k_rank req));
  ts_len : Forall (fun s => length (z_d s) = length (z_d (k_rank req)))
             [k_mega req; k_block req; k_micro req; k_nano req; k_pico req; k_rktile req; k_mgtile req; k_bktile req; k_mctile req; k_nntile req];
  ts_nano : 0 <= z_t (k_nano req);
  ts_targets : Forall (fun g => g <> TUnknown) (t_targets e) }.

(* Between two call-backs at least one step was done and some time passed. *)
Record measured (o : obs) : Prop := mkMeasured { ms_steps : 1 <= o_steps o; ms_rate : 0 < o_rate o }.

(* [x] is the best of the measurements [l]. *)
Definition best_of (l : list (sizes * Z)) (x : sizes) : Prop := exists r, In (x, r) l /\ forall y, In y l -> snd y <= r.

(* A bound on the number of call-backs until the tuner is done. *)
Definition callbacks_bound (e : tenv) (req : kset) : Z := 1000 + 500 * Z.of_nat (length (t_targets e)) * zprod (z_d (k_rank req)).
