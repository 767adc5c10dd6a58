(* What is assumed of a stencil and its parts, and of the flags at the start of a run. *)
From Verif Require Import Base Sched_Spec Loops_Model Tile_Model TileCfg_Spec Rank_Model Exchange_Model Dirty_Spec Job_Model Job_Spec JobSetup_Spec JobFlags_Model.

(* Vars that are written have a step dim (the compiler accepts no others, compiler/lib/Eqs.cpp:417-427), with as many slots as the
   memory; what an instance of a stage writes belongs to a part of the stage that is evaluated in that step. *)
Record outputs_ok {V} (S : xset) (parts : Z -> list part_out) (alloc : Z -> Z) (st : stencil V) : Prop := mkOutputsOk {
  ou_part : forall y e, In e (s_wr st y) ->
    exists po, In po (parts (i_s y)) /\ po_when po (i_t y) = true /\ In (fst (fst e)) (po_vars po) /\ elem_step e = i_t y + po_ofs po;
  ou_step : forall y e x, In e (s_wr st y) -> var_at S (fst (fst e)) = Some x -> exists n, In (XStep n) (v_dims x) /\ 0 < n /\ alloc (fst (fst e)) = n }.
(* is [u] a slot of the var? *)
Definition has_slot (x : xvar) (u : Z) : Prop := forall n, In (XStep n) (v_dims x) -> 0 <= u < n.
(* Where a rank's flag is not set, its neighbours have its values (so do cells that do not exist). *)
Definition flags_ok {V} (S : xset) (xs : list xrank) (ranks : list rank_cfg) (M : nat -> cell -> V) (self : nat -> Z -> Z -> bool) : Prop :=
  forall v x r s u q, var_at S v = Some x -> full_var (j_nd (s_job S)) x = true -> r <> s ->
    keeps ranks (s_nstages S) (s_wf S) (halo_in true S) (halo_in false S) (code_links S xs) r v q -> Job_Spec.owns ranks s q ->
    ~ has_slot x u \/ self s v (if has_step (v_dims x) then u else 0) = false -> M r (v, u, q) = M s (v, u, q).
