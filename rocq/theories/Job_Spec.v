(* A job of several ranks: what is assumed of the ranks, of the halo exchange and of the values at the start. *)
From Verif Require Import Base Cover_Spec Sched_Spec Tile_Spec Loops_Model Tile_Model TileCfg_Spec Job_Model.

(* The settings of one rank and the configuration they give. *)
Record rank_cfg := mkRankCfg {
  k_ss : list sdim; k_bbs : list (list (Z * Z)); k_mg : Z; k_bk : Z; k_ru : bool; k_ov : bool;
  k_fr : feats; k_fm : feats; k_fb : feats; k_nt : Z; k_c : tcfg }.

(* The points of stage [s] that a rank evaluates: those of the global domain of the stage within its extension. *)
Definition rank_dom (nst wf : Z) (dom : Z -> list Z -> Prop) (k : rank_cfg) (s : Z) (p : list Z) : Prop :=
  dom s p /\ forall j d, nth_error (k_ss k) j = Some d -> near_rank d (angle d * moves nst wf) (nth j p 0).

(* a rank that lies left of another one in a dim *)
Definition left_of (d d' : sdim) : Prop := d_rb d + d_rksz d <= d_rb d' /\ d_last d = false /\ d_first d' = false.

(* [n] domain dims; [nst] stages; wave-fronts of [wf] steps; [h] = halos; [dom] = global domain of each stage.
   The fold is the same
   everywhere; the ranks may differ in all other settings.  Every point of the domain is in one rank, and there is none beyond
   the ranks at the edges. *)
Record job_ok (ranks : list rank_cfg) (n : nat) (h : nat -> Z) (nst wf : Z) (dom : Z -> list Z -> Prop) : Prop := mkJobOk {
  jo_tile : forall k, In k ranks -> tile_hyp (k_ss k) (k_bbs k) (k_mg k) (k_bk k) (k_ru k) (k_ov k) (k_fr k) (k_fm k) (k_fb k) (k_nt k) (k_c k) (rank_dom nst wf dom k);
  jo_same : forall k, In k ranks -> length (k_ss k) = n /\ Z.of_nat (length (k_bbs k)) = nst /\ wf_steps (k_mg k) (k_bk k) = wf /\
    forall j d, nth_error (k_ss k) j = Some d -> d_halo d = h j;
  jo_fold : forall k k' j d d', In k ranks -> In k' ranks -> nth_error (k_ss k) j = Some d -> nth_error (k_ss k') j = Some d' -> d_fold d = d_fold d';
  jo_apart : forall r r' k k', nth_error ranks r = Some k -> nth_error ranks r' = Some k' -> r <> r' ->
    exists j d d', nth_error (k_ss k) j = Some d /\ nth_error (k_ss k') j = Some d' /\ (left_of d d' \/ left_of d' d);
  jo_owned : forall s p, dom s p -> length p = n /\ exists k, In k ranks /\ in_rank (k_ss k) p;
  jo_edges : forall k j d s p, In k ranks -> nth_error (k_ss k) j = Some d -> dom s p ->
    (d_first d = true -> d_rb d <= nth j p 0) /\ (d_last d = true -> nth j p 0 < d_rb d + d_rksz d) }.

(* Vars [ex] are exchanged between ranks; a var has left and right halos.  A stencil writes such vars only, at its own point, and
   reads them within their halos; the other vars it may read anywhere. *)
Record var_halos (n : nat) (h : nat -> Z) (hl hr : Z -> nat -> Z) : Prop := mkVarHalos {
  vh_l : forall v j, (j < n)%nat -> 0 <= hl v j <= h j;
  vh_r : forall v j, (j < n)%nat -> 0 <= hr v j <= h j }.
Record job_stencil {V} (n : nat) (ex : Z -> bool) (hl hr : Z -> nat -> Z) (st : stencil V) : Prop := mkJobStencil {
  js_wr : forall x e, In e (s_wr st x) -> ex (fst (fst e)) = true /\ forall j, (j < n)%nat -> nth j (snd e) 0 = nth j (i_p x) 0;
  js_rd : forall x e, In e (s_rd st x) -> ex (fst (fst e)) = true -> forall j, (j < n)%nat ->
    nth j (i_p x) 0 - hl (fst (fst e)) j <= nth j (snd e) 0 <= nth j (i_p x) 0 + hr (fst (fst e)) j }.

(* With overlapped communication: the interior leaves out the points that a neighbour keeps in its halo or extension
   (alloc.cpp:694-722). *)
Definition interiors_ok (ranks : list rank_cfg) (nst wf : Z) (ex : Z -> bool) (hl hr : Z -> nat -> Z) : Prop :=
  forall k j d v, In k ranks -> k_ov k = true -> nth_error (k_ss k) j = Some d -> ex v = true ->
    let w := angle d * moves nst wf in
    (d_first d = false -> d_rb d + hr v j + w <= d_ib d) /\ (d_last d = false -> d_ie d <= d_rb d + d_rksz d - hl v j - w).

(* The part of var [v] that a rank keeps: its points, its halos, and next to other ranks the wave-front extension. *)
Definition in_halos (nst wf : Z) (hl hr : Z -> nat -> Z) (k : rank_cfg) (v : Z) (q : list Z) : Prop :=
  forall j d, nth_error (k_ss k) j = Some d ->
    let w := angle d * moves nst wf in
    d_rb d - hl v j - (if d_first d then 0 else w) <= nth j q 0 < d_rb d + d_rksz d + hr v j + (if d_last d then 0 else w).

Section Spec.
  Context {V : Type}.
  Variables (ranks : list rank_cfg) (n : nat) (nst wf : Z) (dom : Z -> list Z -> Prop) (ex : Z -> bool) (hl hr : Z -> nat -> Z).
  (* [links v r s q]: rank [r] gets the element [q] of var [v] from rank [s] if it lies in its halos *)
  Variables (links : Z -> nat -> nat -> list Z -> Prop) (alloc : Z -> Z) (st : stencil V).
  Definition owns (r : nat) (q : list Z) : Prop := exists k, nth_error ranks r = Some k /\ in_rank (k_ss k) q.
  Definition keeps (r : nat) (v : Z) (q : list Z) : Prop := 
    exists k, nth_error ranks r = Some k /\ in_halos nst wf hl hr k v q /\ forall s, r <> s -> owns s q -> links v r s q.
  (* whatever a rank reads of another rank comes from one that it gets halos from *)
  Definition reads_linked : Prop := forall r k x e s, nth_error ranks r = Some k -> 0 <= i_s x < nst -> rank_dom nst wf dom k (i_s x) (i_p x) ->
    In e (s_rd st x) -> ex (fst (fst e)) = true -> r <> s -> owns s (snd e) -> links (fst (fst e)) r s (snd e).

  (* A halo exchange (see C13 and C14): points of the rank itself stay; a halo gets the value that the rank that owns the
     point had when the message was packed; halos around the whole domain may be passed on; vars that are not exchanged stay. *)
  Record exchanged (P M M' : nat -> cell -> V) : Prop := mkExchanged {
    xc_own : forall r c, owns r (snd c) -> M' r c = M r c;
    xc_halo : forall r s v u q, r <> s -> ex v = true -> keeps r v q -> owns s q -> M' r (v, u, q) = P s (v, u, q);
    xc_edge : forall r v u q, ex v = true -> keeps r v q -> (forall s, ~ owns s q) ->
      M' r (v, u, q) = M r (v, u, q) \/ exists s, keeps s v q /\ M' r (v, u, q) = P s (v, u, q);
    xc_rest : forall r v u q, ex v = false -> M' r (v, u, q) = M r (v, u, q) }.

  (* A pass on a rank: its parallel programs run in some order, the second one after packing. *)
  Definition rank_moves (p : pass) (r : nat) (m pk m' : cell -> V) : Prop :=
    forall k, nth_error ranks r = Some k -> exists re ri le li, rank_parts (k_c k) p = Ok (re, ri) /\
      runs_regions (programs (rank_dom nst wf dom k) re) le /\ runs_regions (programs (rank_dom nst wf dom k) ri) li /\
      (forall c, pk c = exec alloc st le m c) /\ forall c, m' c = exec alloc st li pk c.
  Definition runs_job (first last : Z) : (nat -> cell -> V) -> (nat -> cell -> V) -> Prop := job_run rank_moves exchanged nst wf first last.

  (* The ranks hold the parts of the global memory [g]: each its own points; around the global domain the halos; and of vars
     that are not exchanged whatever it reads. *)
  Record holds (M : nat -> cell -> V) (g : cell -> V) : Prop := mkHolds {
    ho_own : forall r c, owns r (snd c) -> M r c = g c;
    ho_edge : forall r v u q, ex v = true -> keeps r v q -> (forall s, ~ owns s q) -> M r (v, u, q) = g (v, u, q);
    ho_rest : forall r k x e, nth_error ranks r = Some k -> 0 <= i_s x < nst -> rank_dom nst wf dom k (i_s x) (i_p x) -> In e (s_rd st x) -> ex (fst (fst e)) = false ->
      M r (cell_of alloc e) = g (cell_of alloc e) }.
End Spec.
