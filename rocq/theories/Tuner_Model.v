(* The auto-tuner.  src/kernel/lib/auto_tuner.hpp:45-144, auto_tuner.cpp:53-507.
   Times and rates are doubles in the code; here each call-back delivers the rate and the results of comparing times, so
   nothing is assumed about clocks or rounding.  Rates are only compared, so they are numbers in Z with the same order;
   0 stays 0.  Messages, counters for messages, update_tb_info and alloc_scratch_data (498-503) are left out. *)
From Verif Require Import Base Idiv_Model Tuple_Model Adjust_Model.

(* 77-129: the strings in _tuner_targets *)
Inductive target := TMega | TBlock | TMicro | TNano | TPico | TUnknown.

Record tenv := mkTenv {
  t_a : aenv;
  t_targets : list target;    (* _tuner_targets *)
  t_radius : Z;               (* _tuner_radius *)
  t_threads : Z;              (* outer threads, get_num_comp_threads *)
  t_fi : bool }.              (* first_inner of neighborhood_sizes *)

(* auto_tuner.hpp:45-111 and the settings that are read and changed: [u_k] = *_settings, [u_req] = *req_opts.
   A tuple without dims (never assigned) is None. *)
Record tstate := mkTstate {
  u_k : kset; u_req : kset;
  u_done : bool;
  u_target : option target;   (* targetp, and with it outerp; None = null *)
  u_ti : nat;                 (* targeti *)
  u_minb : Z; u_minp : Z;     (* min_blks, min_pts *)
  u_results : list (sizes * Z);
  u_best : option sizes; u_rate : Z;
  u_center : option sizes; u_radius : Z; u_neigh : Z; u_found : bool;
  u_csteps : Z; u_warm : bool }.

(* What one call-back sees: steps done since the last one; cumulative rate (0 if no time passed); rate < best * 0.8;
   cumulative time >= trial_secs; cumulative time >= max(warmup_secs, trial_secs). *)
Record obs := mkObs { o_steps : Z; o_rate : Z; o_slow : bool; o_long : bool; o_warm : bool }.

Definition warmup_steps : Z := 1000.   (* auto_tuner.hpp:67 *)
Definition trial_steps : Z := 500.     (* auto_tuner.hpp:69 *)
Definition min_dist : Z := 1.          (* auto_tuner.hpp:72 *)

(* *targetp *)
Definition get_t (g : target) (k : kset) : sizes :=
  match g with TMega => k_mega k | TBlock => k_block k | TMicro => k_micro k | TNano => k_nano k | TPico => k_pico k | TUnknown => k_rank k end.
(* *outerp, 80-122 *)
Definition get_outer (g : target) (k : kset) : sizes :=
  match g with TMega => k_rank k | TBlock => k_mega k | TMicro => k_block k | TNano => k_micro k | TPico => k_nano k | TUnknown => k_rank k end.
Definition with_levels (k : kset) (mg bk mc nn pc : sizes) : kset :=
  mkKset (k_rank k) mg bk mc nn pc (k_rktile k) (k_mgtile k) (k_bktile k) (k_mctile k) (k_nntile k) (k_posn k).
(* *targetp = v *)
Definition set_t (g : target) (v : sizes) (k : kset) : kset :=
  match g with
  | TMega => with_levels k v (k_block k) (k_micro k) (k_nano k) (k_pico k)
  | TBlock => with_levels k (k_mega k) v (k_micro k) (k_nano k) (k_pico k)
  | TMicro => with_levels k (k_mega k) (k_block k) v (k_nano k) (k_pico k)
  | TNano => with_levels k (k_mega k) (k_block k) (k_micro k) v (k_pico k)
  | TPico => with_levels k (k_mega k) (k_block k) (k_micro k) (k_nano k) v
  | TUnknown => k
  end.
(* 472-481 *)
Definition reset_others (g : target) (k req : kset) : kset :=
  set_t g (get_t g k) (with_levels k (k_mega req) (k_block req) (k_micro req) (k_nano req) (k_pico req)).

(* settings.hpp:190-196 *)
Definition num_pts (s : sizes) : Z := zprod (z_d s).

(* hpp:92-106 AutoTunerState::init *)
Definition zeros (s : sizes) : sizes := mkSizes 0 (map (fun _ => 0) (z_d s)).
Definition init_search (radius : Z) (warm : bool) (s : tstate) : tstate :=
  mkTstate (u_k s) (u_req s) (u_done s) (u_target s) (u_ti s) (u_minb s) (u_minp s)
    [] (option_map zeros (u_best s)) 0 (option_map zeros (u_center s)) radius 0 false 0 warm.
Definition with_k (k : kset) (s : tstate) : tstate :=
  mkTstate k (u_req s) (u_done s) (u_target s) (u_ti s) (u_minb s) (u_minp s) (u_results s) (u_best s) (u_rate s) (u_center s) (u_radius s)
    (u_neigh s) (u_found s) (u_csteps s) (u_warm s).
Definition with_req (k : kset) (s : tstate) : tstate :=
  mkTstate (u_k s) k (u_done s) (u_target s) (u_ti s) (u_minb s) (u_minp s) (u_results s) (u_best s) (u_rate s) (u_center s) (u_radius s)
    (u_neigh s) (u_found s) (u_csteps s) (u_warm s).
Definition with_target (g : option target) (i : nat) (s : tstate) : tstate :=
  mkTstate (u_k s) (u_req s) (u_done s) g i (u_minb s) (u_minp s) (u_results s) (u_best s) (u_rate s) (u_center s) (u_radius s)
    (u_neigh s) (u_found s) (u_csteps s) (u_warm s).
Definition with_mins (b p : Z) (s : tstate) : tstate :=
  mkTstate (u_k s) (u_req s) (u_done s) (u_target s) (u_ti s) b p (u_results s) (u_best s) (u_rate s) (u_center s) (u_radius s)
    (u_neigh s) (u_found s) (u_csteps s) (u_warm s).
Definition with_best (rs : list (sizes * Z)) (b : option sizes) (r : Z) (f : bool) (s : tstate) : tstate :=
  mkTstate (u_k s) (u_req s) (u_done s) (u_target s) (u_ti s) (u_minb s) (u_minp s) rs b r (u_center s) (u_radius s)
    (u_neigh s) f (u_csteps s) (u_warm s).
Definition with_place (c : option sizes) (r n : Z) (f : bool) (s : tstate) : tstate :=
  mkTstate (u_k s) (u_req s) (u_done s) (u_target s) (u_ti s) (u_minb s) (u_minp s) (u_results s) (u_best s) (u_rate s) c r
    n f (u_csteps s) (u_warm s).
Definition with_steps (n : Z) (s : tstate) : tstate :=
  mkTstate (u_k s) (u_req s) (u_done s) (u_target s) (u_ti s) (u_minb s) (u_minp s) (u_results s) (u_best s) (u_rate s) (u_center s) (u_radius s)
    (u_neigh s) (u_found s) n (u_warm s).
Definition with_done (d : bool) (s : tstate) : tstate :=
  mkTstate (u_k s) (u_req s) d (u_target s) (u_ti s) (u_minb s) (u_minp s) (u_results s) (u_best s) (u_rate s) (u_center s) (u_radius s)
    (u_neigh s) (u_found s) (u_csteps s) (u_warm s).

(* 465-507; a null targetp is dereferenced by nobody here: 'assert(targetp)' *)
Definition tune_adjust (e : tenv) (s : tstate) : res tstate :=
  match u_target s with
  | None => UB
  | Some g => rbind (adjust_settings (t_a e) (reset_others g (u_k s) (u_req s))) (fun k => Ok (with_k k s))
  end.

(* 438-462 *)
Definition apply_best (e : tenv) (s : tstate) : res tstate :=
  match u_target s with
  | Some g =>
      if 0 <? u_rate s then
        match u_best s with
        | Some b => let s := with_k (set_t g b (u_k s)) s in tune_adjust e (with_req (set_t g b (u_req s)) s)
        | None => UB
        end
      else Ok s
  | None => Ok s
  end.

(* 53-140; the bool is the result *)
Definition next_target (e : tenv) (s : tstate) : res (tstate * bool) :=
  let i := match u_target s with None => O | Some _ => S (u_ti s) end in
  match nth_error (t_targets e) i with
  | None => Ok (with_target None i (with_mins 1 1 s), false)
  | Some TUnknown => Throw
  | Some g =>
      let out := num_pts (get_outer g (u_k s)) in
      let (mb, mp) :=
        match g with
        | TBlock =>
            if a_offload (t_a e) then (1, 1)
            else let mb := Z.max (Z.quot (t_threads e) 2) 1 in (mb, Z.max (Z.min (Z.quot out mb) 512) 1)
        | _ => (1, 1)
        end in
      let s := init_search (t_radius e) false (with_target (Some g) i (with_mins mb mp s)) in
      let s := with_place (Some (get_t g (u_k s))) (u_radius s) (u_neigh s) (u_found s) s in
      rbind (tune_adjust e s) (fun s => Ok (s, true))
  end.

(* 151-174 *)
Definition clear (e : tenv) (mark_done : bool) (s : tstate) : res tstate :=
  rbind (apply_best e s) (fun s => Ok (init_search (t_radius e) true (with_target None 0 (with_done mark_done s)))).

(* 177-200 *)
Definition check_sizes (s : tstate) (outer bsize : sizes) : bool :=
  if num_pts bsize <? u_minp s then false else negb (Z.quot (num_pts outer) (num_pts bsize) <? u_minb s).

(* 315-356, one dim *)
Definition new_size (fold outer radius sz ofs : Z) : Z :=
  let dist := Z.max fold min_dist * radius in
  let sz := if ofs =? 0 then sz - dist else if ofs =? 2 then (if sz <? dist then dist else sz + dist) else sz in
  Z.min (ROUND_UP (Z.max sz fold) fold) outer.
(* 308-358: None = too far from the center *)
Fixpoint propose (radius mdist : Z) (folds outers center ofs : list Z) : option (list Z) :=
  match folds, outers, center, ofs with
  | f :: folds', o :: outers', c :: center', x :: ofs' =>
      let mdist := if x =? 1 then mdist else mdist + 1 in
      if 3 <? mdist then None
      else match propose radius mdist folds' outers' center' ofs' with
           | None => None
           | Some r => Some (new_size f o radius c x :: r)
           end
  | _, _, _, _ => Some []
  end.

(* results.count(bsize) > 0 *)
Definition sizes_eqb (a b : sizes) : bool := (z_t a =? z_t b) && if list_eq_dec Z.eq_dec (z_d a) (z_d b) then true else false.
Definition known (b : sizes) (rs : list (sizes * Z)) : bool := existsb (fun x => sizes_eqb b (fst x)) rs.
(* results[b] = r *)
Fixpoint store (b : sizes) (r : Z) (rs : list (sizes * Z)) : list (sizes * Z) :=
  match rs with
  | [] => [(b, r)]
  | x :: rs' => if sizes_eqb b (fst x) then (fst x, r) :: rs' else x :: store b r rs'
  end.

(* 293-433: the loop that looks for the next size to try.  Names missing in a tuple without dims: null dereference. *)
Fixpoint search (fuel : nat) (e : tenv) (s : tstate) : res tstate :=
  match fuel with
  | O => OutOfFuel
  | S fuel' =>
      let nd := length (a_fold (t_a e)) in
      if u_neigh s <? 3 ^ Z.of_nat nd then
        rbind (unlayout_vals (t_fi e) (repeat 3 nd) (u_neigh s)) (fun ofs =>
        match u_center s, u_target s with
        | Some c, Some g =>
            let outer := get_outer g (u_k s) in
            let s := with_place (u_center s) (u_radius s) (u_neigh s + 1) (u_found s) s in
            match propose (u_radius s) 0 (a_fold (t_a e)) (z_d outer) (z_d c) ofs with
            | None => search fuel' e s
            | Some ds =>
                let b := mkSizes (z_t c) ds in
                if check_sizes s outer b && negb (known b (u_results s)) then tune_adjust e (with_k (set_t g b (u_k s)) s)
                else search fuel' e s
            end
        | _, _ => UB
        end)
      else
        let stop_gd := negb (u_found s) in
        let s := with_place (u_best s) (u_radius s) 0 false s in
        if negb stop_gd then search fuel' e s
        else
          let s := with_place (u_center s) (Z.quot (u_radius s) 2) (u_neigh s) (u_found s) s in
          if 1 <=? u_radius s then search fuel' e s
          else rbind (apply_best e s) (fun s =>
               rbind (next_target e s) (fun p => if snd p then Ok (fst p) else clear e true (fst p)))
  end.
Definition search_fuel (e : tenv) (s : tstate) : nat := Z.to_nat ((3 ^ Z.of_nat (length (a_fold (t_a e))) + 1) * (Z.max (u_radius s) 0 + 3)).

(* 206-434 *)
Definition eval (e : tenv) (o : obs) (s : tstate) : res tstate :=
  if u_done s then Ok s
  else
    let s := with_steps (u_csteps s + o_steps o) s in
    if u_warm s then
      if negb (o_warm o) && (u_csteps s <? warmup_steps) then Ok s
      else rbind (next_target e (with_target None (u_ti s) s)) (fun p => if snd p then Ok (fst p) else clear e true (fst p))
    else
      let rate_ok := (0 <? o_rate o) && (0 <? u_rate s) && o_slow o || (o_long o || (trial_steps <=? u_csteps s)) in
      if negb rate_ok then Ok s
      else
        match u_target s with
        | None => UB
        | Some g =>
            let cur := get_t g (u_k s) in
            let rs := store cur (o_rate o) (u_results s) in
            let s := if u_rate s <? o_rate o then with_best rs (Some cur) (o_rate o) true s
                     else with_best rs (u_best s) (u_rate s) (u_found s) s in
            let s := with_steps 0 s in
            search (search_fuel e s) e s
        end.

(* A new tuner (151-174 from prepare_solution), and call-backs one after the other *)
Definition new_tuner (e : tenv) (k req : kset) : tstate := mkTstate k req false None 0 1 1 [] None 0 None (t_radius e) 0 false 0 true.
Definition run_tuner (e : tenv) (os : list obs) (s : tstate) : res tstate := rfold (fun s o => eval e o s) os s.
