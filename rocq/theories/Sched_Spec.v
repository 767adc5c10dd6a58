(* Schedules of point updates, and what a stencil computes under a schedule.  Independent of the models of the code.
   One instance = all equations of one stage evaluated at one point of one step. *)
From Verif Require Import Base Cover_Spec.

Record inst := mkInst { i_t : Z; i_s : Z; i_p : list Z }.

(* A storage cell: var, slot of the step dim, point. *)
Notation cell := (Z * Z * list Z)%type.
(* An element as the user sees it: var, step index, point. *)
Notation elem := (Z * Z * list Z)%type.
(* Vars keep [alloc v] steps; a step is stored in the slot given by its remainder. *)
Definition cell_of (alloc : Z -> Z) (e : elem) : cell := let '(v, u, q) := e in (v, u mod alloc v, q).
Definition elem_step (e : elem) : Z := snd (fst e).

Definition cell_eq_dec : forall a b : cell, {a = b} + {a <> b}.
Proof. intros a b. repeat decide equality. Defined.

(* What a stencil reads and writes at an instance, and the values it writes there. *)
Record stencil (V : Type) := mkStencil {
  s_rd : inst -> list elem;
  s_wr : inst -> list elem;
  s_val : inst -> list V -> cell -> V }.
Arguments s_rd {V}. Arguments s_wr {V}. Arguments s_val {V}.

Section Run.
  Context {V : Type} (alloc : Z -> Z) (st : stencil V).
  Definition rd_cells (i : inst) : list cell := map (cell_of alloc) (s_rd st i).
  Definition wr_cells (i : inst) : list cell := map (cell_of alloc) (s_wr st i).
  (* evaluate one instance *)
  Definition update (m : cell -> V) (i : inst) : cell -> V :=
    fun c => if in_dec cell_eq_dec c (wr_cells i) then s_val st i (map m (rd_cells i)) c else m c.
  (* evaluate a list of instances in order *)
  Definition exec (l : list inst) (m : cell -> V) : cell -> V := fold_left update l m.

  (* one of the two writes a cell that the other reads or writes *)
  Definition conflict (a b : inst) : Prop :=
    exists c, (In c (wr_cells a) /\ (In c (rd_cells b) \/ In c (wr_cells b))) \/ (In c (rd_cells a) /\ In c (wr_cells b)).
End Run.

(* [a] occurs before [b] in [l] *)
Definition before {A} (l : list A) (a b : A) : Prop := exists l1 l2, l = l1 ++ a :: l2 /\ In b l2.

(* The conditions in the property's own words, for steps advancing in direction [dir] (1 or -1). *)
Record respects {V} (alloc : Z -> Z) (st : stencil V) (dir : Z) (l : list inst) : Prop := mkRespects {
  (* every element is written by one instance at most *)
  r_once : forall i j e, In i l -> In j l -> In e (s_wr st i) -> In e (s_wr st j) -> i = j;
  (* what an instance reads has been written before *)
  r_produced : forall i j e, In i l -> In j l -> i <> j -> In e (s_rd st i) -> In e (s_wr st j) -> before l j i;
  (* the slot it reads has not been reused for a later step, nor is an earlier step written into it afterwards *)
  r_kept : forall i j e e', In i l -> In j l -> i <> j -> In e (s_rd st i) -> In e' (s_wr st j) ->
    cell_of alloc e = cell_of alloc e' -> 0 < dir * (elem_step e' - elem_step e) -> before l i j;
  r_fresh : forall i j e e', In i l -> In j l -> i <> j -> In e (s_rd st i) -> In e' (s_wr st j) ->
    cell_of alloc e = cell_of alloc e' -> dir * (elem_step e' - elem_step e) < 0 -> before l j i;
  (* the steps that share a slot are written in step order *)
  r_writes : forall i j e e', In i l -> In j l -> i <> j -> In e (s_wr st i) -> In e' (s_wr st j) ->
    cell_of alloc e = cell_of alloc e' -> 0 < dir * (elem_step e' - elem_step e) -> before l i j }.

(* The plain run: instances in order of step (direction [dir]), then stage, points of one stage in any order. *)
Definition step_order (dir : Z) (a b : inst) : Prop :=
  dir * i_t a < dir * i_t b \/ (i_t a = i_t b /\ i_s a < i_s b).
Definition plain_run (dir : Z) (l : list inst) : Prop := forall a b, In a l -> In b l -> step_order dir a b -> before l a b.

(* Parallel programs.  A task evaluates a set of instances, in any order.  A thread runs a list of tasks one after the
   other; the threads of a region run interleaved; regions run one after the other. *)
Definition runs_task (k : inst -> Prop) (l : list inst) : Prop := NoDup l /\ forall x, In x l <-> k x.
Inductive runs_thread : list (inst -> Prop) -> list inst -> Prop :=
| rt_nil : runs_thread [] []
| rt_cons : forall k ks l r, runs_task k l -> runs_thread ks r -> runs_thread (k :: ks) (l ++ r).
(* [shuffle ls l]: [l] takes the lists [ls] in turns, keeping the order inside each *)
Inductive shuffle {A} : list (list A) -> list A -> Prop :=
| sh_nil : forall ls, Forall (eq []) ls -> shuffle ls []
| sh_cons : forall l1 x r l2 out, shuffle (l1 ++ r :: l2) out -> shuffle (l1 ++ (x :: r) :: l2) (x :: out).
Definition runs_region (ts : list (list (inst -> Prop))) (l : list inst) : Prop :=
  exists ls, Forall2 runs_thread ts ls /\ shuffle ls l.
Inductive runs_regions : list (list (list (inst -> Prop))) -> list inst -> Prop :=
| rr_nil : runs_regions [] []
| rr_cons : forall g gs l r, runs_region g l -> runs_regions gs r -> runs_regions (g :: gs) (l ++ r).
