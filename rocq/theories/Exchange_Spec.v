(* Which points of a var a rank owns and which ones it may read. *)
From Verif Require Import Base Rank_Model Exchange_Model.

(* Point p (one index per dim of the var) is in the part of the var that lies in the domain of rank r widened by wl to the left
   and wr to the right (functions of the domain dim and the halos of the var). *)
Definition within (wl wr : nat -> Z -> Z) (v : xvar) (r : xrank) (p : list Z) : Prop :=
  Forall2 (fun d x => match d with
                      | XStep _ => True
                      | XMisc first size => first <= x < first + size
                      | XDom j _ lh rh => pos j (o_ofs (xr_o r)) - wl j lh <= x < pos j (o_ofs (xr_o r)) + pos j (o_sizes (xr_o r)) + wr j rh
                      end) (v_dims v) p.
Definition owns (v : xvar) (r : xrank) (p : list Z) : Prop := within (fun _ _ => 0) (fun _ _ => 0) v r p.
(* the halo, widened by the wave-front extension [ext] *)
Definition in_halo (ext : nat -> Z) (v : xvar) (r : xrank) (p : list Z) : Prop := within (fun j lh => lh + ext j) (fun j rh => rh + ext j) v r p.
(* the step index of p *)
Definition step_in (v : xvar) (p : list Z) (steps : list Z) : Prop :=
  Forall2 (fun d x => match d with XStep _ => In x steps | _ => True end) (v_dims v) p.
(* b is next to a, perhaps diagonally, at Manhattan distance at most n *)
Definition next_to (n : Z) (a b : xrank) : Prop :=
  a <> b /\ length (o_coords (xr_o a)) = length (o_coords (xr_o b)) /\
  Forall2 (fun x y => Z.abs (x - y) <= 1) (o_coords (xr_o a)) (o_coords (xr_o b)) /\
  zsum (map (fun e : Z * Z => Z.abs (fst e - snd e)) (combine (o_coords (xr_o a)) (o_coords (xr_o b)))) <= n.

(* A solution that can exist. *)
Definition xvar_ok (J : job) (v : xvar) : Prop :=
  Forall (fun d => match d with
                   | XStep alloc => 1 <= alloc
                   | XMisc _ size => 0 <= size
                   | XDom j vlen lh rh => (j < j_nd J)%nat /\ (vlen = 1 \/ vlen = pos j (j_fold J)) /\ 0 <= lh /\ 0 <= rh
                   end) (v_dims v).
(* The job is set up: setup_rank() and update_var_info() have succeeded on all ranks. *)
Definition job_ready (S : xset) (given : list rank_in) (ranks : list xrank) : Prop :=
  setup_ranks (s_job S) given = Ok (map xr_o ranks) /\
  Forall (fun v => xvar_ok (s_job S) v) (s_vars S) /\ 0 <= s_wf S /\ 0 <= s_nstages S /\
  Forall (fun r => Forall (fun p => 0 <= p) (xr_mp r) /\ Forall (fun p => 0 <= p) (xr_ep r) /\ size_ok S r = true) ranks.
(* A slice is walked in some order that reaches all its points and no other. *)
Definition order_ok (ord : bool -> list (Z * Z) -> list (list Z)) : Prop :=
  forall vec box p, In p (ord vec box) <-> Forall2 (fun r x => fst r <= x < snd r) box p.
(* Ranks whose sizes are all whole vectors begin at a whole number of vectors. *)
Definition aligned_ranks (S : xset) (ranks : list xrank) : Prop :=
  s_force S = true \/
  Forall (fun r => Forall2 (fun n f => (f | n)) (o_sizes (xr_o r)) (j_fold (s_job S)) -> Forall2 (fun n f => (f | n)) (o_ofs (xr_o r)) (j_fold (s_job S))) ranks.
