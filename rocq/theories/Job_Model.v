(* Model of a job of several MPI ranks: the passes of run_solution and the halo exchanges between them.
   Source: src/kernel/lib/context.cpp:220-624 (StencilContext::run_solution); one pass on one rank is Tile_Model.rank_pass. *)
From Verif Require Import Base Sched_Spec Loops_Model Tile_Model.

(* context.cpp:352-595: the passes of a run, in order: stage (None = all stages of the wave-front), first step, end step.
   Without wave-fronts one pass per step and stage (372-482), else one pass per wave-front (484-595). *)
Definition pass := (option Z * (Z * Z))%type.
Definition passes (nst wf first last : Z) : list pass :=
  let dir := dir_of first last in
  flat_map (fun be => if wf =? 0 then map (fun s => (Some s, be)) (zseq nst) else [(None, be)])
    (step_chunks first (last + dir) (Z.max wf 1 * dir)).

(* What one rank does in a pass. *)
Definition rank_does (c : tcfg) (p : pass) : res (list region) := rank_pass c (fst p) (fst (snd p)) (snd (snd p)).

(* The sections evaluated before the messages are sent (all of the rank unless communication is overlapped) and those
   evaluated while they are under way: 383-425, 448-462; 496-538, 566-578. *)
Definition rank_parts (c : tcfg) (p : pass) : res (list region * list region) :=
  rbind (rank_part c (exterior_sections c) (fst p) (fst (snd p)) (snd (snd p))) (fun a =>
  rbind (rank_part c (interior_sections c) (fst p) (fst (snd p)) (snd (snd p))) (fun b => Ok (a, b))).

(* A job: every rank has its memory [M r].  [moves p r m pk m'] = the pass [p] may turn the memory [m] of rank [r] into
   [m'], and [pk] is the memory after the first sections, when the messages are packed (428-431, 541-544; halo.cpp:150-153).
   [exch P M M'] = an exchange of halos packed from [P] may turn [M] into [M'] (unpacking: 479, 592; halo.cpp:154-157).
   An exchange takes place before the first pass (348-350) and in each pass.  Simplified: the messages themselves
   (see C13 to C15) and the choice of the vars to send (C14) are not part of this relation. *)
Section Job.
  Context {V : Type}.
  Notation mems := (nat -> cell -> V).
  Variables (moves : pass -> nat -> (cell -> V) -> (cell -> V) -> (cell -> V) -> Prop) (exch : mems -> mems -> mems -> Prop).
  Inductive job_passes : list pass -> mems -> mems -> Prop :=
  | jp_nil : forall M, job_passes [] M M
  | jp_cons : forall p ps M P M1 M2 M3, (forall r, moves p r (M r) (P r) (M1 r)) -> exch P M1 M2 -> job_passes ps M2 M3 -> job_passes (p :: ps) M M3.
  Definition job_run (nst wf first last : Z) (M M' : mems) : Prop := exists M1, exch M M M1 /\ job_passes (passes nst wf first last) M1 M'.
End Job.
