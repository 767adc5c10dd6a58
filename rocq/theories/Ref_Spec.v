(* The values that logs of evaluations compute, and what they should be.
   The meaning of parts is a [stencil] (Sched_Spec): the instance (t, id, p) is part [id] evaluated at point p in step t. *)
From Verif Require Import Base Cover_Spec Sched_Spec Loops_Model Micro_Model Micro_Spec.

Notation var_of c := (fst (fst c)).
(* the points that a list of writes evaluates, in any order *)
Definition expands (fi : bool) (rofs folds : list Z) (ws : list wr) (pts : list (list Z)) : Prop :=
  exists ls, Forall2 (fun w l => NoDup l /\ forall p, In p l <-> wr_hits fi rofs folds w p = true) ws ls /\ Permutation (concat ls) pts.

Section Values.
  Context {V : Type} (zero : V) (alloc : Z -> Z) (st : stencil V) (hit : list wr -> list (list Z) -> Prop).

  (* A log changes a memory: an initialisation sets a scratch var to zero, an evaluation writes the points of the part. *)
  Definition zeroed (v : Z) (m : cell -> V) : cell -> V := fun c => if var_of c =? v then zero else m c.
  Inductive plays (t : Z) : list event -> (cell -> V) -> (cell -> V) -> Prop :=
  | pl_nil : forall m, plays t [] m m
  | pl_init : forall v l m m', plays t l (zeroed v m) m' -> plays t (EvInit v :: l) m m'
  | pl_part : forall id ws pts l m m', hit ws pts -> plays t l (exec alloc st (map (mkInst t id) pts) m) m' ->
      plays t (EvPart id ws :: l) m m'.
  (* Micro-blocks one after the other.  Each one may find anything in the scratch vars (every thread has its own). *)
  Variable scr : Z -> bool.
  Definition same_vars (m m' : cell -> V) : Prop := forall c, scr (var_of c) = false -> m' c = m c.
  Inductive plays_blocks (t : Z) : list (list event) -> (cell -> V) -> (cell -> V) -> Prop :=
  | pb_nil : forall m, plays_blocks t [] m m
  | pb_cons : forall log logs m m1 m2 m', same_vars m m1 -> plays t log m1 m2 -> plays_blocks t logs m2 m' ->
      plays_blocks t (log :: logs) m m'.
  (* Steps one after the other, and steps made of stages made of micro-blocks. *)
  Inductive plays_steps : list (Z * list event) -> (cell -> V) -> (cell -> V) -> Prop :=
  | ps_nil : forall m, plays_steps [] m m
  | ps_cons : forall t log l m m1 m', plays t log m m1 -> plays_steps l m1 m' -> plays_steps ((t, log) :: l) m m'.
  Inductive plays_stages : list (Z * list (list event)) -> (cell -> V) -> (cell -> V) -> Prop :=
  | pg_nil : forall m, plays_stages [] m m
  | pg_cons : forall t logs l m m1 m', plays_blocks t logs m m1 -> plays_stages l m1 m' -> plays_stages ((t, logs) :: l) m m'.

  (* What a stage should compute, without blocks, spans, storage or order.
     [ord] = scratch parts, [cond q p] = the domain condition of part q holds at p. *)
  Variable cond : mpart -> list Z -> bool.
  Definition at_pt (t : Z) (q : mpart) (p : list Z) : inst := mkInst t (mp_id q) p.
  Definition on (q : mpart) (p : list Z) : bool := mp_valid q && cond q p.
  Definition rds t q p := rd_cells alloc st (at_pt t q p).
  Definition wrs t q p := wr_cells alloc st (at_pt t q p).
  Definition result t (m : cell -> V) q p c := s_val st (at_pt t q p) (map m (rds t q p)) c.
  (* [X] = the memory [m] with scratch vars that have, at every point of the unlimited space, the value of the equation that
     applies there, or zero if none does *)
  Definition scratch_values (t : Z) (ord : list mpart) (m X : cell -> V) : Prop :=
    same_vars m X /\
    (forall q p c, In q ord -> on q p = true -> In c (wrs t q p) -> X c = result t X q p c) /\
    (forall c, scr (var_of c) = true -> (forall q, In q ord -> on q (snd c) = true -> ~ In c (wrs t q (snd c))) -> X c = zero).
  (* [m'] = the memory after the stage: every equation has been applied where its condition holds, nothing else has changed *)
  Definition stage_result (t : Z) (rank : list (Z * Z)) (ord parts : list mpart) (m m' : cell -> V) : Prop :=
    exists X, scratch_values t ord m X /\
    (forall sp p c, In sp parts -> in_box rank p = true -> on sp p = true -> In c (wrs t sp p) -> m' c = result t X sp p c) /\
    (forall c, scr (var_of c) = false ->
       (forall sp p, In sp parts -> in_box rank p = true -> on sp p = true -> ~ In c (wrs t sp p)) -> m' c = m c).

  (* What the compiler and the set-up must provide for a stage. *)
  Record stage_ok (t : Z) (rank : list (Z * Z)) (ord : list mpart) (reqd : mpart -> list mpart) (parts : list mpart) : Prop := mkStageOk {
    (* a part is known by its number; scratch parts write scratch vars, the parts of the stage other vars, at their own point *)
    so_ids : forall q q', In q (ord ++ parts) -> In q' (ord ++ parts) -> mp_id q = mp_id q' -> q = q';
    so_nodup : NoDup ord /\ NoDup parts;
    so_kinds : Forall (fun q => mp_scratch q = true) ord /\ Forall (fun sp => mp_scratch sp = false /\ mp_outs sp = []) parts;
    so_scr_wr : forall q p c, In q ord -> (In c (wrs t q p) <-> exists v, In v (mp_outs q) /\ c = (v, 0, p));
    so_scr_out : forall q v, In q ord -> In v (mp_outs q) -> scr v = true;
    so_wr : forall sp p c, In sp parts -> In c (wrs t sp p) -> scr (var_of c) = false /\ snd c = p;
    (* scratch vars have no steps *)
    so_slot : forall q p c, In q (ord ++ parts) -> In c (rds t q p) -> scr (var_of c) = true -> c = (var_of c, 0, snd c);
    (* the parts required are scratch parts in their order, and the part itself *)
    so_reqd : forall sp, In sp parts -> exists dep, reqd sp = filter dep ord ++ [sp];
    (* a scratch var that is read is written by parts that come before, that are required too, and whose span holds the element
       read, for every micro-block *)
    so_written : forall q p c, In q (ord ++ parts) -> In c (rds t q p) -> scr (var_of c) = true ->
      exists q', In q' ord /\ In (var_of c) (mp_outs q');
    so_before : forall q p c q', In q ord -> In c (rds t q p) -> In q' ord -> In (var_of c) (mp_outs q') -> before ord q' q;
    so_closed : forall sp q p c q', In sp parts -> In q (reqd sp) -> In c (rds t q p) -> In q' ord -> In (var_of c) (mp_outs q') ->
      In q' (reqd sp);
    so_span : forall q p c q' b, In q (ord ++ parts) -> In c (rds t q p) -> In q' ord -> In (var_of c) (mp_outs q') ->
      in_box (span q b) p = true -> in_box (span q' b) (snd c) = true;
    (* at most one equation of a scratch var applies at a point; [mp_sub] = there is a domain condition *)
    so_one : forall q q' v p, In q ord -> In q' ord -> In v (mp_outs q) -> In v (mp_outs q') -> on q p = true -> on q' p = true -> q = q';
    so_uncond : forall q p, In q ord -> mp_sub q = false -> cond q p = true;
    (* the parts of the stage do not write what the stage reads, except at the very point and part that reads it; nor do two of
       them write one element *)
    so_indep : forall sp q p sp' p' c, In sp parts -> In q (reqd sp) -> in_box (span q rank) p = true -> on q p = true ->
      In sp' parts -> in_box rank p' = true -> on sp' p' = true -> In c (rds t q p) -> In c (wrs t sp' p') -> q = sp' /\ p = p';
    so_once : forall sp sp' p c, In sp parts -> In sp' parts -> in_box rank p = true -> on sp p = true -> on sp' p = true ->
      In c (wrs t sp p) -> In c (wrs t sp' p) -> sp = sp' }.
End Values.

(* A stage cut into micro-blocks: loop limits with strides and alignments at least 1, boxes that are not empty and that hold
   every point of the rank exactly once. *)
Definition box_of (ds : list ldim) : list (Z * Z) := map (fun d => (l_begin d, l_end d)) ds.
Definition blocks_ok (n : nat) (rank : list (Z * Z)) (dss : list (list ldim)) : Prop :=
  Forall (fun ds => dims_ok n ds /\ Forall (fun d => l_begin d < l_end d) ds) dss /\ exact_cover in_box (map box_of dss) (in_box rank).
(* [logs] = what the micro-blocks of a stage do *)
Definition block_logs (s : mset) (reqd : mpart -> list mpart) (parts : list mpart) (dss : list (list ldim)) (logs : list (list event)) : Prop :=
  Forall2 (fun ds log => exists done w, stage_micro_block s ds reqd parts = Ok (done, w, log)) dss logs.
(* the settings, and the bounding boxes of the parts in the span of the rank; scratch vars are zeroed before conditional writes
   (option -init_scratch_vars), unless no scratch part has conditions *)
Definition setup_ok (s : mset) (n : nat) (rank : list (Z * Z)) (ord : list mpart) (reqd : mpart -> list mpart) (parts : list mpart)
  (cond reg : mpart -> list Z -> bool) : Prop :=
  mset_ok s n /\ (length (ms_mbs s) = n /\ length (ms_mbt s) = n /\ length (ms_nbs s) = n) /\ parts_ok n reqd parts reg /\
  (forall q p, required reqd parts q -> in_box (span q rank) p = true -> reg q p = cond q p) /\
  (length rank = n /\ Forall (fun d => fst d < snd d) rank) /\
  (ms_init s = true \/ forall q, In q ord -> mp_sub q = false /\ mp_stepc q = false).

(* The steps from [first] to [last], and the stages in the order in which they are evaluated; [stages t] = the parts of each stage
   (the same parts in each step, but whether a part is valid depends on the step). *)
Definition steps_between (first last : Z) : list Z := if first <=? last then zrange first (last + 1) else rev (zrange last (first + 1)).
Definition stage_seq (stages : Z -> list (list mpart)) (first last : Z) : list (Z * list mpart) :=
  flat_map (fun t => map (pair t) (stages t)) (steps_between first last).
(* [ml] = what the micro-blocks of all stages of all steps do, however each stage is cut *)
Definition run_logs (s : mset) (n : nat) (rank : list (Z * Z)) (reqd : Z -> mpart -> list mpart) (seq : list (Z * list mpart)) (ml : list (Z * list (list event))) : Prop :=
  Forall2 (fun x l => fst l = fst x /\ exists dss, blocks_ok n rank dss /\ block_logs s (reqd (fst x)) (snd x) dss (snd l)) seq ml.
