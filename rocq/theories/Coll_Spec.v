(* When ranks make the same collective calls.  Uses the job, not the functions of the allocation. *)
From Verif Require Import Base Coll_Model.

(* Sizes that make sense. *)
Record job_ok (g : job) : Prop := {
  jo_dom : forall c i, 0 < g_dom g c i;
  jo_halo : forall v i l r, In v (g_vars g) -> nth_error (x_halo v) i = Some (Some (l, r)) -> 0 <= l /\ 0 <= r;
  jo_dims : forall v, In v (g_vars g) -> length (x_halo v) = length (g_num g) }.

(* Coordinates of a rank of the job. *)
Definition rank_at (g : job) (c : list Z) : Prop :=
  length c = length (g_num g) /\ forall i x n, nth_error c i = Some x -> nth_error (g_num g) i = Some n -> 0 <= x < n.

(* A var is exchanged along a dim: some halo and at least two ranks. *)
Definition exchanged (g : job) (v : xvar) (i : nat) : Prop :=
  1 <= x_max v /\ exists l r n, nth_error (x_halo v) i = Some (Some (l, r)) /\ nth_error (g_num g) i = Some n /\ 0 < l + r /\ 2 <= n.

(* Halos on both sides or on none. *)
Definition two_sided (g : job) : Prop :=
  forall v i l r, In v (g_vars g) -> nth_error (x_halo v) i = Some (Some (l, r)) -> (0 < l <-> 0 < r).

(* The next rank in one direction of dim [i]. *)
Definition next_to (c c' : list Z) (i : nat) : Prop :=
  length c' = length c /\ (forall j, j <> i -> nth_error c' j = nth_error c j) /\
  exists x y, nth_error c i = Some x /\ nth_error c' i = Some y /\ (y = x + 1 \/ y = x - 1).

(* Some var is exchanged with a rank next to this one on the same node. *)
Definition has_partner (g : job) (c : list Z) : Prop :=
  exists v i c', In v (g_vars g) /\ exchanged g v i /\ next_to c c' i /\ rank_at g c' /\ g_node g c' <> None.
