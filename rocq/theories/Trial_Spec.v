(* What the performance utility should do.  Uses only the records of options and trials. *)
From Verif Require Import Base Trial_Model.

(* The ranks were started with options that make the same choices.  The number of trials, steps
   and the block size are compared by the code itself. *)
Definition same_choices (os : list opts) : Prop :=
  forall a b, In a os -> In b os ->
    do_warmup a = do_warmup b /\ (0 < trial_time a <-> 0 < trial_time b).

(* [d] is the least number of steps that takes [tt] or longer if [w] steps take [t]; none if no
   time was measured. *)
Definition need (w t tt d : Z) : Prop :=
  (t <= 0 -> d = 0) /\ (0 < t -> w * tt <= d * t /\ (d - 1) * t < w * tt).

(* [m] is the mean of [l], rounded up. *)
Definition mean_up (l : list Z) (m : Z) : Prop :=
  let n := Z.of_nat (length l) in n * (m - 1) < zsum l <= n * m.

(* [s] is [m] or, if at most a fifth is added, the least multiple of [b] from [m] on. *)
Definition fitted (b m s : Z) : Prop :=
  (s = m \/ (5 * s <= 6 * m /\ (b | s) /\ m <= s < m + b)) /\
  (1 < b -> forall k, m <= k * b -> 5 * (k * b) <= 6 * m -> (b | s)).

(* The number of trials whose time satisfies a test. *)
Definition count (f : Z -> bool) (l : list trial) : Z :=
  zsum (map (fun t => if f (run_time t) then 1 else 0) l).

(* [x] has rank [k] (from 1) among the times of [l]: fewer than [k] times are below it and at
   least [k] are not above it. *)
Definition has_rank (k x : Z) (l : list trial) : Prop :=
  count (fun t => t <? x) l < k <= count (fun t => t <=? x) l.

(* The 50th percentile by the nearest-rank method: the least time such that half of the times or
   more are not above it. *)
Definition nearest_rank_50 (x : Z) (l : list trial) : Prop :=
  (exists t, In t l /\ run_time t = x) /\
  Z.of_nat (length l) <= 2 * count (fun t => t <=? x) l /\
  forall t, In t l -> Z.of_nat (length l) <= 2 * count (fun u => u <=? run_time t) l ->
            x <= run_time t.

(* The least and the greatest of some numbers. *)
Definition is_min (x : Z) (l : list Z) : Prop := In x l /\ forall y, In y l -> x <= y.
Definition is_max (x : Z) (l : list Z) : Prop := In x l /\ forall y, In y l -> y <= x.

(* [v/d] is the sample variance of [l]: the squares of the distances from the mean, added up and
   divided by one less than their number (everything multiplied by the square of the number). *)
Definition is_variance (v d : Z) (l : list Z) : Prop :=
  let n := Z.of_nat (length l) in
  0 < d /\ v * (n * n * (n - 1)) = d * zsum (map (fun x => (n * x - zsum l) * (n * x - zsum l)) l).

(* After warm-up run [k] (from 0) of [w] steps, each rank would like as many steps as take [k+1] half seconds, at most [cap] of them;
   [m] is the mean of that over the ranks. *)
Definition next_steps (times : list Z) (k w cap m : Z) : Prop :=
  exists ds, length ds = length times /\ mean_up ds m /\
    forall i t, nth_error times i = Some t ->
      exists d, need w t (500000000 * (k + 1)) d /\ nth_error ds i = Some (Z.min d cap).
