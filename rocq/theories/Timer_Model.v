(* YaskTimer: src/common/common_utils.hpp:460-523, src/common/common_utils.cpp:196-243.
   timespec fields are Z; times are reported exactly in nanoseconds instead of as rounded doubles
   of seconds.  The assert()s are compiled out. *)
From Verif Require Import Base.

(* struct timespec, hpp:462-466 *)
Record timespec := mkTs { tv_sec : Z; tv_nsec : Z }.

(* hpp:467: members _begin, _elapsed *)
Record timer := mkTimer { t_begin : timespec; t_elapsed : timespec }.

(* double(s) + double(ns) * 1e-9, in ns *)
Definition nanosecs (t : timespec) : Z := tv_sec t * 1000000000 + tv_nsec t.

(* hpp:477-480 (also the constructor, 473) *)
Definition timer_clear (_ : timer) : timer := mkTimer (mkTs 0 0) (mkTs 0 0).
Definition timer_new : timer := mkTimer (mkTs 0 0) (mkTs 0 0).

(* cpp:196-203 *)
Definition timer_start (ts : timespec) (t : timer) : timer := mkTimer ts (t_elapsed t).

(* cpp:204-229; returns the new state and the duration *)
Definition timer_stop (ts : timespec) (t : timer) : timer * Z :=
  let d_sec := tv_sec ts - tv_sec (t_begin t) in
  let e_sec := tv_sec (t_elapsed t) + d_sec in
  let d_nsec := tv_nsec ts - tv_nsec (t_begin t) in
  let e_nsec := tv_nsec (t_elapsed t) + d_nsec in
  (mkTimer (mkTs 0 0) (mkTs e_sec e_nsec), nanosecs (mkTs d_sec d_nsec)).

(* hpp:509-515 *)
Definition timer_get_elapsed (t : timer) : Z := nanosecs (t_elapsed t).

(* cpp:230-243; [now] is the clock reading *)
Definition timer_since_start (now : timespec) (t : timer) : Z :=
  nanosecs (mkTs (tv_sec now - tv_sec (t_begin t)) (tv_nsec now - tv_nsec (t_begin t))).

(* A history of calls with the clock readings they see. *)
Inductive timer_ev :=
| EStart (ts : timespec)
| EStop (ts : timespec)
| EGet
| ESince (now : timespec)
| EClear.

(* Runs a history; collects the value returned by each call that returns one. *)
Fixpoint timer_run (evs : list timer_ev) (t : timer) : timer * list Z :=
  match evs with
  | [] => (t, [])
  | EStart ts :: r => timer_run r (timer_start ts t)
  | EStop ts :: r => let '(t', d) := timer_stop ts t in let '(t'', o) := timer_run r t' in (t'', d :: o)
  | EGet :: r => let '(t', o) := timer_run r t in (t', timer_get_elapsed t :: o)
  | ESince now :: r => let '(t', o) := timer_run r t in (t', timer_since_start now t :: o)
  | EClear :: r => timer_run r (timer_clear t)
  end.
