(* Where the receive buffers of a rank should be. *)
From Verif Require Import Base Coll_Model Coll_Spec Share_Model.

(* Ranks have different numbers on the node, and the size of a rank in a dim depends on its position in this dim (C11). *)
Record node_ok (g : job) : Prop := {
  no_inj : forall c c' m, rank_at g c -> rank_at g c' -> g_node g c = Some m -> g_node g c' = Some m -> c = c';
  no_dom : forall c c' i, nth_error c i = nth_error c' i -> g_dom g c i = g_dom g c' i }.

(* Two ranks that touch, also across edges and corners, and the way from one to the other. *)
Definition touch (c c' : list Z) : Prop := c <> c' /\ Forall2 (fun x y => Z.abs (x - y) <= 1) c c'.
Definition toward (c c' : list Z) : list Z := map (fun p => snd p - fst p) (combine c c').

(* Two pieces of memory, each with its pad, have no byte in common. *)
Definition apart (pad : Z) (x y : sbuf * Z) : Prop :=
  forall a, ~ (snd x <= a < snd x + b_bytes (fst x) + pad /\ snd y <= a < snd y + b_bytes (fst y) + pad).
