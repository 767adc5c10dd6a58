(* What the equations of a solution mean: the element an equation writes, the elements it reads, and the memory after the equations
   have been applied in each step.  Independent of parts, stages, blocks, spans and storage of scratch vars. *)
From Verif Require Import Base Cover_Spec Deps_Model Eqs_Model Eqs_Spec Parts_Model Halo_Spec Span_Spec Sched_Spec.

Section Meaning.
  Context {V : Type} (zero : V).
  Variable scr : Z -> bool.
  Variable alloc : Z -> Z.                 (* steps kept of a var *)
  Variable vdims : Z -> list Z.            (* domain dims of a var *)
  Variable ddims : list Z.                 (* domain dims of the solution *)
  Variable eqs : list eqn.
  Variable dcond : Z -> list Z -> bool.    (* a domain condition at a point *)
  Variable scond : Z -> Z -> bool.         (* a step condition at a step *)
  Variable val : Z -> Z -> list Z -> list V -> V.  (* right-hand side of an equation, given step, point and the values read *)

  Definition at_step (t : Z) (s : option Z) : Z := match s with Some k => t + k | None => 0 end.
  (* a var without some domain dim has one element for all indices of that dim *)
  Definition rd_elem (t : Z) (p : list Z) (r : pt) : elem :=
    (p_var r, at_step t (p_step r),
     map (fun kx => if existsb (Z.eqb (fst kx)) (vdims (p_var r)) then snd kx + dim_ofs (vdims (p_var r)) (p_dom r) (fst kx) else 0) (combine ddims p)).
  Definition wr_elem (t : Z) (p : list Z) (l : pt) : elem := (p_var l, at_step t (p_step l), p).
  (* the conditions of the equation hold *)
  Definition eq_on (t : Z) (p : list Z) (e : eqn) : bool :=
    (match e_dcond e with Some c => dcond c p | None => true end) && (match e_scond e with Some c => scond c t | None => true end).

  (* the equations to compute: those of the vars that are not scratch vars and that are selected (compiler option -vars) *)
  Variable sel : Z -> bool.
  Definition main (e : eqn) : bool := negb (scr (p_var (e_lhs e))) && sel (p_var (e_lhs e)).
  (* the scratch vars that are needed: read by an equation to compute, or by an equation of a scratch var that is needed *)
  Inductive wanted : Z -> Prop :=
  | wa_main : forall e r, In e eqs -> main e = true -> In r (e_rhs e) -> scr (p_var r) = true -> wanted (p_var r)
  | wa_scr : forall e r, In e eqs -> scr (p_var (e_lhs e)) = true -> wanted (p_var (e_lhs e)) -> In r (e_rhs e) -> scr (p_var r) = true -> wanted (p_var r).

  (* One step from memory [m] to memory [m'].  [dir] = the offset of the step that is written.  [sv v p] = the value of scratch var
     v at point p of the unlimited space.  A read of the step being written sees the new value, any other read the old one. *)
  Variable dir : Z.
  Definition read (t : Z) (m m' : cell -> V) (sv : Z -> list Z -> V) (p : list Z) (r : pt) : V :=
    if scr (p_var r) then sv (p_var r) (snd (rd_elem t p r))
    else match p_step r with
         | Some s => (if s =? dir then m' else m) (cell_of alloc (rd_elem t p r))
         | None => m (cell_of alloc (rd_elem t p r))
         end.
  Definition rhs_value (t : Z) (m m' : cell -> V) (sv : Z -> list Z -> V) (p : list Z) (i : nat) (e : eqn) : V :=
    val (Z.of_nat i) t p (map (read t m m' sv p) (e_rhs e)).
  (* every equation to compute holds at the points of [rank] where its conditions hold, and nothing else is
     changed; the scratch vars that are needed have, at every point, the value of the equation whose conditions hold, or zero *)
  Definition step_applied (t : Z) (rank : list (Z * Z)) (m m' : cell -> V) : Prop :=
    exists sv,
    (forall i e p, nth_error eqs i = Some e -> main e = true -> in_box rank p = true -> eq_on t p e = true ->
       m' (cell_of alloc (wr_elem t p (e_lhs e))) = rhs_value t m m' sv p i e) /\
    (forall c, scr (fst (fst c)) = false ->
       (forall i e p, nth_error eqs i = Some e -> main e = true -> in_box rank p = true -> eq_on t p e = true -> c <> cell_of alloc (wr_elem t p (e_lhs e))) ->
       m' c = m c) /\
    (forall i e p, nth_error eqs i = Some e -> scr (p_var (e_lhs e)) = true -> wanted (p_var (e_lhs e)) -> eq_on t p e = true ->
       sv (p_var (e_lhs e)) p = rhs_value t m m' sv p i e) /\
    (forall v p, scr v = true -> wanted v -> (forall e, In e eqs -> p_var (e_lhs e) = v -> eq_on t p e = false) -> sv v p = zero).
  (* steps one after the other *)
  Fixpoint run_applied (rank : list (Z * Z)) (ts : list Z) (m m' : cell -> V) : Prop :=
    match ts with
    | [] => forall c, scr (fst (fst c)) = false -> m' c = m c
    | t :: r => exists m1, step_applied t rank m m1 /\ run_applied rank r m1 m'
    end.
End Meaning.

(* What is asked of the equations beyond what the compiler checks: no misc dims; every scratch var that is read is written by some
   equation; two equations of the same var never apply at the same point; the steps that are kept do not let a write hit a step
   that is still read, other than by the same equation at the same point. *)
Record system_ok (scr : Z -> bool) (alloc : Z -> Z) (vdims : Z -> list Z) (ddims : list Z) (eqs : list eqn) (dcond : Z -> list Z -> bool) (scond : Z -> Z -> bool) (dir : Z) : Prop := mkSystemOk {
  sy_lhs_dims : forall e, In e eqs -> incl ddims (vdims (p_var (e_lhs e)));
  sy_misc : forall e p, In e eqs -> In p (e_lhs e :: e_rhs e) -> p_misc p = [];
  sy_written : forall e r, In e eqs -> In r (e_rhs e) -> scr (p_var r) = true -> exists e', In e' eqs /\ p_var (e_lhs e') = p_var r;
  sy_excl : forall i j e e' t p, nth_error eqs i = Some e -> nth_error eqs j = Some e' -> p_var (e_lhs e) = p_var (e_lhs e') ->
    eq_on dcond scond t p e = true -> eq_on dcond scond t p e' = true -> i = j;
  sy_room : forall i j e e' r, nth_error eqs i = Some e -> nth_error eqs j = Some e' -> In r (e_rhs e) -> p_var r = p_var (e_lhs e') -> scr (p_var r) = false ->
    exists s, p_step r = Some s /\ (s = dir \/ (s - dir) mod (alloc (p_var r)) <> 0 \/ (i = j /\ Forall (eq 0) (p_dom r))) }.

(* The compiler has accepted the equations and made the parts [ps] and the stages [ss].  [co_same] = parts that share a scratch var
   write the same vars (see C53). *)
Record compiled (scr : Z -> bool) (dims_same halo_same : Z -> Z -> bool) (bundle bundle_scratch : bool) (sel : Z -> bool) (dir d : Z) (eqs : list eqn)
  (vdims : Z -> list Z) (ddims : list Z) (alloc : Z -> Z) (dcond : Z -> list Z -> bool) (scond : Z -> Z -> bool) (eg : group) (ps : parts) (ss : stages) : Prop := mkCompiled {
  co_dir : dir = 1 \/ dir = -1;
  co_d : d = 0 \/ d = dir;
  co_legal : Forall (fun e => legal_lhs scr dir e /\
    (scr (p_var (e_lhs e)) = false -> dir = 1 -> forall r s, In r (e_rhs e) -> p_step r = Some s -> s <= 1)) eqs;
  co_distinct : distinct_lhs eqs;
  co_wf : wf_eqs scr vdims eqs;
  co_system : system_ok scr alloc vdims ddims eqs dcond scond dir;
  co_build : build scr dims_same halo_same bundle bundle_scratch sel d eqs = Ok (eg, ps, ss);
  co_same : same_vars scr eqs (map (c_get (c_items (ps_clus ps))) (g_all (c_grp (ps_clus ps)))) }.
