(* Host/device copies of one var: src/kernel/lib/offload.hpp:404-492 (Coherency, the
   USE_OFFLOAD_NO_USM version) and its callers.  Each copy is a map from element index to value.
   [checks] says whether assert() is compiled in; a failing assert aborts (UB). *)
From Verif Require Import Base.

Section Coh.
  Context {V : Type}.
  Variable checks : bool.

  (* offload.hpp:408-413 *)
  Inductive coh_state := not_init | host_mod | dev_mod | in_sync.

  Record cvar := mkC { coh : coh_state; host : Z -> V; dev : Z -> V }.

  (* 433-438 *)
  Definition need_to_update_host (c : coh_state) : bool := match c with dev_mod => true | _ => false end.
  Definition need_to_update_dev (c : coh_state) : bool := match c with host_mod => true | _ => false end.

  (* 444-450 *)
  Definition mod_host (c : coh_state) : res coh_state := match c with dev_mod => Throw | _ => Ok host_mod end.
  (* 453-459 *)
  Definition mod_dev (c : coh_state) : res coh_state := match c with host_mod => Throw | _ => Ok dev_mod end.
  (* 462-471 *)
  Definition mod_both (c : coh_state) : res coh_state :=
    match c with
    | dev_mod | host_mod => Throw
    | in_sync => Ok in_sync
    | not_init => if checks then UB else Ok not_init
    end.
  (* 474-480 *)
  Definition host_copied_to_dev (c : coh_state) : res coh_state := match c with dev_mod => Throw | _ => Ok in_sync end.
  (* 483-489 *)
  Definition dev_copied_to_host (c : coh_state) : res coh_state := match c with host_mod => Throw | _ => Ok in_sync end.

  Definition wr (ws : list (Z * V)) (m : Z -> V) : Z -> V :=
    fold_left (fun m w => fun k => if k =? fst w then snd w else m k) ws m.

  (* Events that can happen to a var, each with its state transition. *)
  Inductive cevent :=
  | HostWrite (ws : list (Z * V))
  | DevWrite (ws : list (Z * V))
  | CopyToDev
  | CopyToHost
  | SetAll (f : Z -> V).   (* yk_var.hpp:1538-1552, 1786-1806; generic_var.cpp:138-208 writes both copies *)

  Definition cstep (s : cvar) (e : cevent) : res cvar :=
    match e with
    | HostWrite ws => rbind (mod_host (coh s)) (fun c => Ok (mkC c (wr ws (host s)) (dev s)))
    | DevWrite ws => rbind (mod_dev (coh s)) (fun c => Ok (mkC c (host s) (wr ws (dev s))))
    | CopyToDev => rbind (host_copied_to_dev (coh s)) (fun c => Ok (mkC c (host s) (host s)))
    | CopyToHost => rbind (dev_copied_to_host (coh s)) (fun c => Ok (mkC c (dev s) (dev s)))
    | SetAll f => rbind (mod_both not_init) (fun c => Ok (mkC c f f))   (* _force_state(not_init) first *)
    end.

  Fixpoint crun (evs : list cevent) (s : cvar) : res cvar :=
    match evs with
    | [] => Ok s
    | e :: r => rbind (cstep s e) (crun r)
    end.

  (* yk_var.cpp:644-656 (storage present) *)
  Definition copy_data_to_device (s : cvar) : res cvar :=
    if need_to_update_dev (coh s) then cstep s CopyToDev else Ok s.
  (* yk_var.cpp:657-669 *)
  Definition copy_data_from_device (s : cvar) : res cvar :=
    if need_to_update_host (coh s) then cstep s CopyToHost else Ok s.

  (* Calls as made by the library. *)
  Inductive api :=
  | ASetHost (ws : list (Z * V))   (* set_element, add_to_element, host slices: yk_var_apis.cpp:404-459, yk_var.hpp:1295-1310, 1341-1358, 2066-2083 *)
  | ASetDev (ws : list (Z * V))    (* the same slices with on_device *)
  | ARun (ws : list (Z * V))       (* run_solution: context.cpp:277 and stencil_calc.cpp:323-324; ws = elements computed *)
  | ASetAll (f : Z -> V)
  | AGetHost (k : Z)               (* get_element, host slices: yk_var_apis.cpp:385, yk_var.hpp:1252-1255 *)
  | AGetDev (k : Z)                (* slices with on_device *)
  | ARunRef (ws : list (Z * V)).   (* run_ref: context.cpp:46-217: host evaluation, no copy and no state change (mod_dev_data = false) *)

  (* New state and the value read, if any. *)
  Definition api_step (s : cvar) (a : api) : res (cvar * option V) :=
    match a with
    | ASetHost ws => rbind (copy_data_from_device s) (fun s1 => rbind (cstep s1 (HostWrite ws)) (fun s2 => Ok (s2, None)))
    | ASetDev ws => rbind (copy_data_to_device s) (fun s1 => rbind (cstep s1 (DevWrite ws)) (fun s2 => Ok (s2, None)))
    | ARun ws => rbind (copy_data_to_device s) (fun s1 => rbind (cstep s1 (DevWrite ws)) (fun s2 => Ok (s2, None)))
    | ASetAll f => rbind (cstep s (SetAll f)) (fun s1 => Ok (s1, None))
    | AGetHost k => rbind (copy_data_from_device s) (fun s1 => Ok (s1, Some (host s1 k)))
    | AGetDev k => rbind (copy_data_to_device s) (fun s1 => Ok (s1, Some (dev s1 k)))
    | ARunRef ws => Ok (mkC (coh s) (wr ws (host s)) (dev s), None)
    end.

  Fixpoint api_run (l : list api) (s : cvar) : res (cvar * list (option V)) :=
    match l with
    | [] => Ok (s, [])
    | a :: r => rbind (api_step s a) (fun so => rbind (api_run r (fst so)) (fun so2 => Ok (fst so2, snd so :: snd so2)))
    end.
End Coh.
