(* A job as the code sets it up: the ranks of setup_rank() (Rank_Model), the messages of alloc_mpi_data() (Exchange_Model) and the
   tiling of each rank (Tile_Model), and how the elements of vars and the cells of memories correspond. *)
From Verif Require Import Base Sched_Spec Tile_Model TileCfg_Spec Rank_Model Rank_Spec Exchange_Model Exchange_Spec Job_Model Job_Spec.

(* ---- elements ---- *)
(* Var [v] of the solution.  A cell is (var, slot of the step, indices): the domain dims of the solution, then the misc dims of the var. *)
Definition var_at (S : xset) (v : Z) : option xvar := if v <? 0 then None else nth_error (s_vars S) (Z.to_nat v).
(* indices of a point in the order of the dims of the var *)
Fixpoint point_of (m : nat) (ds : list xd) (u : Z) (q : list Z) : list Z :=
  match ds with
  | [] => []
  | XStep _ :: r => u :: point_of m r u q
  | XMisc _ _ :: r => nth m q 0 :: point_of (Datatypes.S m) r u q
  | XDom j _ _ _ :: r => nth j q 0 :: point_of m r u q
  end.
(* and back; a var without step dim has the same element for all [u] *)
Fixpoint step_at (ds : list xd) (p : list Z) (u : Z) : Z :=
  match ds, p with XStep _ :: _, x :: _ => x | _ :: r, _ :: p' => step_at r p' u | _, _ => u end.
Fixpoint dom_at (ds : list xd) (p : list Z) (j : nat) : Z :=
  match ds, p with XDom i _ _ _ :: r, x :: p' => if (i =? j)%nat then x else dom_at r p' j | _ :: r, _ :: p' => dom_at r p' j | _, _ => 0 end.
Fixpoint misc_at (ds : list xd) (p : list Z) : list Z :=
  match ds, p with XMisc _ _ :: r, x :: p' => x :: misc_at r p' | _ :: r, _ :: p' => misc_at r p' | _, _ => [] end.
Definition indices_of (nd : nat) (ds : list xd) (p : list Z) : list Z := map (dom_at ds p) (seq 0 nd) ++ misc_at ds p.
(* [q] has an index for each dim, those of the misc dims in range *)
Fixpoint misc_ok (ds : list xd) (ms : list Z) : bool :=
  match ds, ms with
  | [], [] => true
  | XMisc f n :: r, x :: ms' => (f <=? x) && (x <? f + n) && misc_ok r ms'
  | XMisc _ _ :: _, [] => false
  | _ :: r, _ => misc_ok r ms
  | [], _ :: _ => false
  end.
Definition element (nd : nat) (x : xvar) (q : list Z) : bool := (nd <=? length q)%nat && misc_ok (v_dims x) (skipn nd q).
(* vars with all domain dims, each once, and at most one step dim *)
Definition dom_count (ds : list xd) (j : nat) : nat := length (filter (fun d => match d with XDom i _ _ _ => (i =? j)%nat | _ => false end) ds).
Definition has_step (ds : list xd) : bool := existsb (fun d => match d with XStep _ => true | _ => false end) ds.
Definition full_var (nd : nat) (x : xvar) : bool :=
  forallb (fun j => (dom_count (v_dims x) j =? 1)%nat) (seq 0 nd) && (length (filter (fun d => match d with XStep _ => true | _ => false end) (v_dims x)) <=? 1)%nat.
Definition exchanged_var (S : xset) (v : Z) : bool := match var_at S v with Some x => full_var (j_nd (s_job S)) x | None => false end.
(* left and right halos *)
Definition halo_in (left : bool) (S : xset) (v : Z) (j : nat) : Z :=
  match var_at S v with
  | Some x => match find (fun d => match d with XDom i _ _ _ => (i =? j)%nat | _ => false end) (v_dims x) with
              | Some (XDom _ _ lh rh) => if left then lh else rh | _ => 0 end
  | None => 0
  end.

Section SetUp.
  Variables (S : xset) (given : list rank_in) (xs : list xrank) (ranks : list rank_cfg).
  Notation nd := (j_nd (s_job S)).

  (* the settings of a rank's tiling are those of setup_rank() and update_var_info(); the interior that of alloc_mpi_data() *)
  Definition same_dim (ov : bool) (min_ext : Z) (x : xrank) (j : nat) (d : sdim) : Prop :=
    d_rb d = pos j (o_ofs (xr_o x)) /\ d_rksz d = pos j (o_sizes (xr_o x)) /\ d_nranks d = pos j (j_nranks (s_job S)) /\ d_fold d = pos j (j_fold (s_job S)) /\
    d_first d = is_first x j /\ d_last d = is_last S x j /\ d_halo d = max_halo S j /\
    (ov = true -> d_ib d = int_limit S true xs min_ext x j /\ d_ie d = int_limit S false xs min_ext x j).
  Definition same_rank (x : xrank) (k : rank_cfg) : Prop :=
    length (k_ss k) = nd /\ Z.of_nat (length (k_bbs k)) = s_nstages S /\ wf_steps (k_mg k) (k_bk k) = s_wf S /\
    exists min_ext, 0 <= min_ext /\ forall j d, nth_error (k_ss k) j = Some d -> same_dim (k_ov k) min_ext x j d.

  (* Ranks set up; their tilings meet [tile_hyp]; the domain is inside the overall problem; a var with halos is exchanged at least
     with the nearest neighbours (get_halo_exchange_l1_norm() of a var that is read at an offset is not 0). *)
  Record set_up (dom : Z -> list Z -> Prop) : Prop := mkSetUp {
    su_wf : ranks_wf (s_job S) given;
    su_ready : job_ready S given xs;
    su_aligned : aligned_ranks S xs;
    su_same : Forall2 same_rank xs ranks;
    su_stages : 1 <= s_nstages S;
    su_tile : forall k, In k ranks -> tile_hyp (k_ss k) (k_bbs k) (k_mg k) (k_bk k) (k_ru k) (k_ov k) (k_fr k) (k_fm k) (k_fb k) (k_nt k) (k_c k)
                (rank_dom (s_nstages S) (s_wf S) dom k);
    su_dom : forall s p, dom s p -> length p = nd /\ forall x j, In x xs -> (j < nd)%nat -> 0 <= nth j p 0 < pos j (o_gsz (xr_o x));
    su_l1 : Forall (fun v => 1 <= v_l1 v \/ Forall (fun d => match d with XDom _ _ lh rh => lh = 0 /\ rh = 0 | _ => True end) (v_dims v)) (s_vars S) }.

  (* rank [r] gets elements of var [v] from rank [s] if the two are neighbours within the exchange distance of the var *)
  Definition code_links (v : Z) (r s : nat) (q : list Z) : Prop :=
    exists x a b, var_at S v = Some x /\ element nd x q = true /\ nth_error xs r = Some a /\ nth_error xs s = Some b /\
      next_to (if 0 <? s_wf S then Z.of_nat nd else v_l1 x) a b.

  Context {V : Type}.
  Variable ord : bool -> list (Z * Z) -> list (list Z).
  (* the values of var [v] in a memory; the value of an element of a var without step dim is that of all slots *)
  Definition view (v : Z) (x : xvar) (m : cell -> V) (p : list Z) (u : Z) : V := m (v, step_at (v_dims x) p u, indices_of nd (v_dims x) p).
  (* is slot [u] of var [v] in the message of rank [b]? *)
  Definition sent (x : xvar) (steps : list Z) (dirty : xrank -> bool) (b : xrank) (u : Z) : Prop :=
    dirty b = true /\ if has_step (v_dims x) then In u steps else steps <> [].

  (* What is not sent is up to date (that is what the dirty flags are for, C14). *)
  Definition up_to_date (steps : Z -> list Z) (dirty : Z -> xrank -> bool) (P M : nat -> cell -> V) : Prop :=
    forall v x r s b u q, var_at S v = Some x -> full_var nd x = true -> r <> s -> nth_error xs s = Some b -> ~ sent x (steps v) (dirty v) b u ->
      keeps ranks (s_nstages S) (s_wf S) (halo_in true S) (halo_in false S) code_links r v q -> Job_Spec.owns ranks s q -> M r (v, u, q) = P s (v, u, q).
  (* The messages of an exchange of all vars by the code: each rank sends the slots [steps v] of the vars that are dirty on it.
     Simplified: vars without all the domain dims, which are never written, are left alone. *)
  Definition code_messages (steps : Z -> list Z) (dirty : Z -> xrank -> bool) (P M M' : nat -> cell -> V) : Prop :=
    (forall v x r a, var_at S v = Some x -> full_var nd x = true -> nth_error xs r = Some a ->
      exists st vals', (forall s b p u, nth_error xs s = Some b -> st b p u = view v x (P s) p u) /\
        exchange_rank S (Z -> V) ord xs x (steps v) (dirty v) st (view v x (M r)) a = Ok vals' /\
        forall u q, element nd x q = true -> M' r (v, u, q) = vals' (point_of nd (v_dims x) u q) u) /\
    (forall v u q r, (forall x, var_at S v = Some x -> full_var nd x = true -> element nd x q = false) -> M' r (v, u, q) = M r (v, u, q)).
  (* Exchanges that leave out nothing that is out of date. *)
  Definition code_exchange (P M M' : nat -> cell -> V) : Prop :=
    exists steps dirty, code_messages steps dirty P M M' /\ up_to_date steps dirty P M.
End SetUp.

(* What a stencil reads of an exchanged var: elements, at an offset in at most as many dims as the exchange distance of the var says
   (that is how the compiler finds the distance, C29). *)
Definition reads_in {V} (S : xset) (st : stencil V) : Prop :=
  forall y e x, In e (s_rd st y) -> var_at S (fst (fst e)) = Some x -> full_var (j_nd (s_job S)) x = true ->
    element (j_nd (s_job S)) x (snd e) = true /\
    Z.of_nat (length (filter (fun j => negb (nth j (snd e) 0 =? nth j (i_p y) 0)) (seq 0 (j_nd (s_job S))))) <= v_l1 x.

(* The job with these exchanges. *)
Definition code_job {V} (S : xset) (xs : list xrank) (ranks : list rank_cfg) (dom : Z -> list Z -> Prop) (ord : bool -> list (Z * Z) -> list (list Z))
  (alloc : Z -> Z) (st : stencil V) (first last : Z) : (nat -> cell -> V) -> (nat -> cell -> V) -> Prop :=
  job_run (rank_moves ranks (s_nstages S) (s_wf S) dom alloc st) (code_exchange S xs ranks ord) (s_nstages S) (s_wf S) first last.
