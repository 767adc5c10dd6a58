(* What the timer is meant to report: completed intervals and their total length, on absolute
   times in nanoseconds. *)
From Verif Require Import Base Timer_Model.

Definition abs_ns (t : timespec) : Z := tv_sec t * 10 ^ 9 + tv_nsec t.

(* [ok running evs]: no stop and no since-start query without a running interval. *)
Fixpoint proper (running : bool) (evs : list timer_ev) : Prop :=
  match evs with
  | [] => True
  | EStart _ :: r => proper true r
  | EStop _ :: r => running = true /\ proper false r
  | EGet :: r => proper running r
  | ESince _ :: r => running = true /\ proper running r
  | EClear :: r => proper false r
  end.

(* Completed intervals since the last clear, oldest first, given those completed so far. *)
Fixpoint intervals (cur : option timespec) (done : list (timespec * timespec)) (evs : list timer_ev)
  : option timespec * list (timespec * timespec) :=
  match evs with
  | [] => (cur, done)
  | EStart ts :: r => intervals (Some ts) done r
  | EStop ts :: r =>
      match cur with
      | Some b => intervals None (done ++ [(b, ts)]) r
      | None => intervals None done r
      end
  | EClear :: r => intervals None [] r
  | _ :: r => intervals cur done r
  end.

Definition duration (iv : timespec * timespec) : Z := abs_ns (snd iv) - abs_ns (fst iv).
Definition total (evs : list timer_ev) : Z := zsum (map duration (snd (intervals None [] evs))).
