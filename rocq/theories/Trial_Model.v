(* The performance utility: warm-up runs, choice of the number of steps, trials and their report.
   src/kernel/yask_main.cpp:209-212, 337-425, 434-520; src/kernel/lib/setup.cpp:195;
   src/common/common_utils.hpp:89-90.
   A job is a list with one element per rank.  A barrier or run that the ranks do not all reach
   with the same number of steps never ends or gives garbage: [UB].
   Simplified: times are whole nanoseconds; rates, products and sums are exact instead of double;
   points per second are integers; init_vars, the auto-tuner and sleeps are left out; runs take
   the times given by the oracle [wt] and change nothing that is modelled here. *)
From Verif Require Import Base.

(* yask_main.cpp:48-66: the options that decide how many runs of how many steps are made, with
   the temporal block size asked for at 407-408.  [trial_time] is in nanoseconds. *)
Record opts := mkOpts {
  do_warmup : bool; num_trials : Z; trial_steps : Z; trial_time : Z; block_t : Z }.

(* common_utils.hpp:89-90 *)
Definition ceil_div (n d : Z) : Z := Z.quot (n + d - 1) d.
Definition round_up (n m : Z) : Z := ceil_div n m * m.

(* Do all ranks hold the same value?  (assert_equality_over_ranks, utils.cpp:80-95; also used to
   detect ranks that part.) *)
Definition all_same (l : list Z) : bool :=
  match l with [] => true | x :: r => forallb (Z.eqb x) r end.
Definition all_sameb (l : list bool) : bool :=
  match l with [] => true | x :: r => forallb (Bool.eqb x) r end.

(* A rate in steps per nanosecond, as a fraction.  yask_main.cpp:377: 0 if no time was measured. *)
Record rate := mkRate { r_steps : Z; r_ns : Z }.
Definition mk_rate (steps wtime : Z) : rate :=
  if 0 <? wtime then mkRate steps wtime else mkRate 0 1.

(* ceil(rate * time): yask_main.cpp:385, 398 *)
Definition ceil_steps (r : rate) (ns : Z) : Z := - (- (r_steps r * ns) / r_ns r).

(* sum_over_ranks and division by the number of ranks: yask_main.cpp:391-392, 401-402 *)
Definition average (l : list Z) : list Z :=
  map (fun _ => ceil_div (zsum l) (Z.of_nat (length l))) l.

Fixpoint map2 {A B C} (f : A -> B -> C) (l : list A) (m : list B) : list C :=
  match l, m with a :: l', b :: m' => f a b :: map2 f l' m' | _, _ => [] end.

(* yask_main.cpp:360-393: at most [nruns] warm-up runs, the [n]-th of [ws] steps.  [ts] is the
   trial_steps option of each rank; [wt n] the measured time of run [n] on each rank.  Returns
   the last measured rates and the steps of the runs made. *)
Fixpoint calib (wt : Z -> list Z) (ts : list Z) (nruns : nat) (n : Z) (ws : list Z) (maxw : Z)
    (rates : list rate) (runs : list Z) : res (list rate * list Z) :=
  match nruns with
  | O => Ok (rates, runs)
  | S k =>
    if negb (all_same ws) then UB
    else
      let runs := runs ++ [hd 0 ws] in
      let rates := map2 mk_rate ws (wt n) in
      if forallb (fun t => 0 <? t) ts then Ok (rates, runs)
      else if existsb (fun t => 0 <? t) ts then UB
      else
        let ws := map (fun r => Z.min (ceil_steps r (500000000 * (n + 1))) maxw) rates in
        let ws := average ws in
        if forallb (fun w => w <=? 1) ws then Ok (rates, runs)
        else if existsb (fun w => w <=? 1) ws then UB
        else calib wt ts k (n + 1) ws (maxw * maxw) rates runs
  end.

(* opts.trial_steps is an int: yask_main.cpp:55, 415 *)
Definition to_int (x : Z) : Z := (x + 2147483648) mod 4294967296 - 2147483648.

(* yask_main.cpp:404-413: idx_t(1.2 * tsteps) *)
Definition fit_block (bt tsteps : Z) : Z :=
  if 1 <? bt then
    let req := round_up tsteps bt in
    if req <=? Z.quot (12 * tsteps) 10 then req else tsteps
  else tsteps.

(* yask_main.cpp:396-416 *)
Definition set_steps (os : list opts) (rates : list rate) : list Z :=
  let tsteps := average (map2 (fun o r => ceil_steps r (trial_time o)) os rates) in
  map2 (fun o t => if trial_steps o <=? 0 then to_int (fit_block (block_t o) t) else trial_steps o)
       os tsteps.

(* yask_main.cpp:209-212 and setup.cpp:195: options compared over the ranks. *)
Definition checked (os : list opts) : bool :=
  all_same (map num_trials os) && all_same (map trial_steps os) && all_same (map block_t os).

(* yask_main.cpp:337-339 *)
Definition warm (o : opts) : bool :=
  do_warmup o || ((trial_steps o <=? 0) && (0 <? trial_time o)).

(* yask_main.cpp:337-437: steps of the warm-up runs, number of trials and steps of each trial. *)
Definition plan (wt : Z -> list Z) (os : list opts) : res (list Z * Z * Z) :=
  if negb (checked os) then Throw
  else if negb (all_sameb (map warm os)) then UB
  else
    rbind
      (if forallb warm os then
         rbind (calib wt (map trial_steps os) 3 0 (map (fun _ => 1) os) 10
                      (map (fun _ => mkRate 1 1000000000) os) [])
               (fun '(rates, runs) => Ok (set_steps os rates, runs))
       else Ok (map trial_steps os, []))
      (fun '(ts, runs) =>
         if existsb (fun o => num_trials o <? 1) os then Throw
         else if negb (all_same ts) then UB
         else if existsb (fun t => t <=? 0) ts then Throw
         else Ok (runs, hd 0 (map num_trials os), hd 0 ts)).

(* --- the report --- *)

(* What a trial measured: run_time in nanoseconds and points per second (Stats). *)
Record trial := mkTrial { run_time : Z; pts_ps : Z }.

(* std::sort by time, yask_main.cpp:484-486 (order of equal times: first come first). *)
Fixpoint insert (t : trial) (l : list trial) : list trial :=
  match l with
  | [] => [t]
  | u :: r => if run_time t <? run_time u then t :: l else u :: insert t r
  end.
Definition sort_trials (l : list trial) : list trial := fold_left (fun acc t => insert t acc) l [].

(* yask_main.cpp:495-504; 0 stands for "nothing seen". *)
Definition upd_max (m p : Z) : Z := if (m =? 0) || (m <? p) then p else m.
Definition upd_min (m p : Z) : Z := if (m =? 0) || (p <? m) then p else m.

Record report := mkReport {
  rp_best : trial; rp_mid : trial; rp_rank : Z;      (* 490-492, 545 *)
  rp_min : Z; rp_max : Z;
  rp_ave : Z * Z;                                    (* as a fraction *)
  rp_var : Z * Z }.                                  (* square of the reported std-dev *)

(* yask_main.cpp:481-545.  [None]: no trials, nothing reported. *)
Definition make_report (l : list trial) : option report :=
  match sort_trials l with
  | [] => None
  | (best :: _) as s =>
    let n := Z.of_nat (length s) in
    let r50 := n / 2 in
    let p := map pts_ps s in
    let sum := zsum p in
    let sum2 := zsum (map (fun x => x * x) p) in
    Some (mkReport best (nth (Z.to_nat r50) s best) (r50 + 1)
            (fold_left upd_min p 0) (fold_left upd_max p 0) (sum, n)
            (if 2 <? n then (n * sum2 - sum * sum, n * (n - 1)) else (0, 1)))
  end.
