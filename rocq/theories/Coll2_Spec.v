(* Exactly when ranks make the same collective calls. *)
From Verif Require Import Base Coll_Model Coll_Spec Share_Spec.

(* Something of the var goes from one rank to another one that it touches: not too far apart, different along some dim of the var,
   and the receiver has a halo on the side of the sender in each such dim. *)
Definition sent (v : xvar) (c c' : list Z) : Prop :=
  zsum (map Z.abs (toward c c')) <= x_max v /\
  (exists i l r, nth_error (x_halo v) i = Some (Some (l, r)) /\ nth_error c i <> nth_error c' i) /\
  forall i l r x y, nth_error (x_halo v) i = Some (Some (l, r)) -> nth_error c i = Some x -> nth_error c' i = Some y ->
    (y = x - 1 -> 0 < r) /\ (y = x + 1 -> 0 < l).

(* The rank sends something to its node. *)
Definition sends_here (g : job) (c : list Z) : Prop :=
  exists v c', In v (g_vars g) /\ rank_at g c' /\ touch c c' /\ g_node g c' <> None /\ sent v c c'.

(* It touches a rank of its node, and some var is exchanged in the job. *)
Definition shares_here (g : job) (c : list Z) : Prop :=
  exists v i c', In v (g_vars g) /\ exchanged g v i /\ rank_at g c' /\ touch c c' /\ g_node g c' <> None.
