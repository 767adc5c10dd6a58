(* The flags that decide what is exchanged, in a job of several ranks and vars: src/kernel/lib/stencil_calc.cpp:284-330 (marks of a
   rank's own data at the end of calc_micro_block), src/kernel/lib/context.cpp:220-624 (run_solution), 1552-1578 (update_var_info),
   src/kernel/lib/halo.cpp:80-491 (exchange_halos), src/kernel/lib/context.hpp:545-548 (set_all_neighbor_vars_dirty).
   Simplifications: the flags "others", which all ranks that have data to swap set and clear alike, are kept once for all ranks, and
   the steps to swap are given by their slots (both: Dirty_Model for one var); device copies are left out. *)
From Verif Require Import Base Idiv_Model Sched_Spec Loops_Model Tile_Model TileCfg_Spec Rank_Model Exchange_Model Dirty_Model Job_Model Job_Spec JobSetup_Spec.

(* A part of a stage: output_var_ptrs (not those of scratch vars), get_output_step_index (compiler/lib/YaskKernel.cpp:543-560: the step
   plus a constant), is_in_valid_step. *)
Record part_out := mkPo { po_vars : list Z; po_ofs : Z; po_when : Z -> bool }.
(* by var and slot *)
Notation flags := (Z -> Z -> bool).

Section Flags.
  Variables (S : xset) (xs : list xrank) (ranks : list rank_cfg) (dom : Z -> list Z -> Prop) (ord : bool -> list (Z * Z) -> list (list Z)).
  Variable parts : Z -> list part_out. (* of each stage *)
  Notation nd := (j_nd (s_job S)).
  Notation nst := (s_nstages S).
  Notation wf := (s_wf S).

  (* yk_var.cpp:131-146 *)
  Definition var_slot (v t : Z) : Z := match var_at S v with Some x => slot x t | None => 0 end.
  (* stencil_calc.cpp:292-330: the flags set for part [po] at step t *)
  Definition part_marks (po : part_out) (t v u : Z) : bool := existsb (Z.eqb v) (po_vars po) && (var_slot v (t + po_ofs po) =? u).
  (* calc_micro_block: the parts that are evaluated mark their vars (:42-50, :284-287); [regs] = the calls in sections with
     do_mpi_left or do_mpi_right *)
  Definition mark_self (regs : list region) (f : flags) : flags := fun v u =>
    f v u || existsb (fun e => existsb (fun po => po_when po (e_t e) && part_marks po (e_t e) v u) (parts (e_s e))) (concat (concat regs)).
  (* context.cpp:1552-1578 with mark_dirty: all parts of the stages and steps of a pass *)
  Definition mark_others (p : pass) (f : flags) : flags := fun v u =>
    f v u || existsb (fun t => existsb (fun s => existsb (fun po => part_marks po t v u) (parts s)) (match fst p with Some s => [s] | None => zseq nst end))
               (micro_steps (fst (snd p)) (snd (snd p))).

  Context {V : Type}.
  Variables (alloc : Z -> Z) (st : stencil V).
  (* slots of a var: halo.cpp:101-117 *)
  Definition slots (x : xvar) : list Z := match step_alloc x with Some n => zseq n | None => [0] end.
  (* halo.cpp:119-143: the slots to swap, in any order *)
  Definition to_swap (oth : flags) (steps : Z -> list Z) : Prop :=
    forall v x, var_at S v = Some x -> forall u, In u (steps v) <-> In u (slots x) /\ oth v u = true.
  (* halo.cpp:240-246 *)
  Definition mine_dirty (self : nat -> flags) (steps : Z -> list Z) (dirty : Z -> xrank -> bool) : Prop :=
    forall v x s b, var_at S v = Some x -> nth_error xs s = Some b -> dirty v b = existsb (self s v) (steps v).
  (* halo.cpp:468-476; [has]: is there an entry in mpi_data (halo.cpp:107-109)? *)
  Definition cleared (has : xvar -> bool) (steps : Z -> list Z) (f : flags) : flags := fun v u =>
    match var_at S v with Some x => if has x && negb (length (steps v) =? 0)%nat then false else f v u | None => f v u end.
  Definition rank_has (s : nat) (x : xvar) : bool := match nth_error xs s with Some a => has_data S xs a x | None => false end.
  (* one exchange: flags and memories before and after *)
  Definition flag_exchange (self : nat -> flags) (oth : flags) (P M M' : nat -> cell -> V) (self' : nat -> flags) (oth' : flags) : Prop :=
    exists steps dirty, to_swap oth steps /\ mine_dirty self steps dirty /\ code_messages S xs ord steps dirty P M M' /\
      (forall s v u, self' s v u = cleared (rank_has s) steps (self s) v u) /\
      forall v u, oth' v u = cleared (fun x => existsb (fun a => has_data S xs a x) xs) steps oth v u.
  (* one pass on a rank: as Job_Spec.rank_moves, with the marks *)
  Definition flag_moves (p : pass) (r : nat) (f : flags) (m pk m' : cell -> V) (f' : flags) : Prop :=
    forall k, nth_error ranks r = Some k -> exists re ri le li, rank_parts (k_c k) p = Ok (re, ri) /\
      runs_regions (programs (rank_dom nst wf dom k) re) le /\ runs_regions (programs (rank_dom nst wf dom k) ri) li /\
      (forall c, pk c = exec alloc st le m c) /\ (forall c, m' c = exec alloc st li pk c) /\
      forall v u, f' v u = mark_self re f v u.
  Inductive flag_passes : list pass -> (nat -> cell -> V) -> (nat -> flags) -> flags -> (nat -> cell -> V) -> (nat -> flags) -> Prop :=
  | fp_nil : forall M self oth, flag_passes [] M self oth M self
  | fp_cons : forall p ps M self oth P M1 self1 M2 self2 oth2 M3 self3,
      (forall r, flag_moves p r (self r) (M r) (P r) (M1 r) (self1 r)) ->
      flag_exchange self1 (mark_others p oth) P M1 M2 self2 oth2 -> flag_passes ps M2 self2 oth2 M3 self3 -> flag_passes (p :: ps) M self oth M3 self3.
  (* run_solution: all flags "others" are set (context.cpp:234), then the first exchange (:348-350) and the passes *)
  Definition flag_job (first last : Z) (M : nat -> cell -> V) (self : nat -> flags) (M' : nat -> cell -> V) (self' : nat -> flags) : Prop :=
    exists M1 self1 oth1, flag_exchange self (fun _ _ => true) M M M1 self1 oth1 /\ flag_passes (passes nst wf first last) M1 self1 oth1 M' self'.
End Flags.
