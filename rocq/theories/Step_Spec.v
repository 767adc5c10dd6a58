(* Evaluation of equations over steps, and values lost because a var keeps only some steps. *)
From Verif Require Import Base Eqs_Model Halo_Spec.

(* equation [ev_i] is evaluated for stage [ev_k] at step [ev_t] and point [ev_x] *)
Record event := mkEv { ev_t : Z; ev_k : Z; ev_i : Z; ev_x : Z -> Z }.

Section Steps.
  Variable scr : Z -> bool.
  Variable vdims : Z -> list Z.        (* domain dims of a var *)
  Variable eqs : list eqn.
  Variable dir : Z.                    (* 1 or -1 *)
  Variable stages : list Z.            (* in the order of evaluation *)
  Variable eqs_of : Z -> list Z.       (* equations of a stage *)

  (* the equations evaluated for stage k: its own and those of the scratch vars that are read *)
  Inductive runs (k : Z) : Z -> Prop :=
  | runs_own : forall i, In i (eqs_of k) -> runs k i
  | runs_scr : forall i e r j e', runs k i -> nth_error eqs (Z.to_nat i) = Some e -> In r (e_rhs e) -> scr (p_var r) = true ->
      0 <= j -> nth_error eqs (Z.to_nat j) = Some e' -> p_var (e_lhs e') = p_var r -> runs k j.
  (* point p is accessed for stage k *)
  Definition acc (k : Z) (p : pt) : Prop := exists i e, runs k i /\ nth_error eqs (Z.to_nat i) = Some e /\ In p (e_lhs e :: e_rhs e).
  Definition not_after (k k' : Z) : Prop := exists l1 l2, stages = l1 ++ k :: l2 /\ In k' (k :: l2).

  (* the event writes the element at [x] and misc indices [m] of var v for step [u] *)
  Definition writes (a : event) (v : Z) (m : list Z) (x : Z -> Z) (u : Z) : Prop :=
    exists e s, nth_error eqs (Z.to_nat (ev_i a)) = Some e /\ p_var (e_lhs e) = v /\ p_misc (e_lhs e) = m /\ p_step (e_lhs e) = Some s /\
      u = ev_t a + s /\ forall d, In d (vdims v) -> x d = ev_x a d.

  (* steps in order, for each step the stages in order, for each stage any order; no element is written twice *)
  Definition legal (tr : list event) : Prop :=
    (forall i j a b, (i < j)%nat -> nth_error tr i = Some a -> nth_error tr j = Some b ->
       dir * ev_t a < dir * ev_t b \/ ev_t a = ev_t b /\ not_after (ev_k a) (ev_k b)) /\
    (forall a, In a tr -> In (ev_k a) stages /\ runs (ev_k a) (ev_i a)) /\
    (forall i j a b v m x u, nth_error tr i = Some a -> nth_error tr j = Some b -> writes a v m x u -> writes b v m x u -> i = j).

  (* event number j reads point r of its equation after the value has been replaced by one for a later step, if the var keeps
     n steps *)
  Definition lost (n : Z) (tr : list event) (j : nat) (r : pt) : Prop :=
    exists b e s i a x u, nth_error tr j = Some b /\ nth_error eqs (Z.to_nat (ev_i b)) = Some e /\ In r (e_rhs e) /\ p_step r = Some s /\
      (i < j)%nat /\ nth_error tr i = Some a /\ writes a (p_var r) (p_misc r) x u /\
      (forall d, In d (vdims (p_var r)) -> x d = ev_x b d + dim_ofs (vdims (p_var r)) (p_dom r) d) /\
      0 < dir * (u - (ev_t b + s)) /\ (n | u - (ev_t b + s)).

  (* Sufficient conditions on the read of point r by equation e for stage k, with step offset s:
     it reads the step that is being written; or the previous step of a var that is written in later stages only;
     or the stage also accesses the step being written and
       - the stage also accesses the var at a step further away, or
       - the stage accesses one of the two steps at an offset in some domain dim, or
       - the stage does not write the var, or
       - e writes the var itself. *)
  Definition safe_read (k : Z) (e : eqn) (r : pt) (s : Z) : Prop :=
    let v := p_var r in
    s = dir \/
    (s = 0 /\ forall k' i e', In k' stages -> In i (eqs_of k') -> nth_error eqs (Z.to_nat i) = Some e' -> p_var (e_lhs e') = v -> ~ not_after k' k) \/
    (exists p, acc k p /\ p_var p = v /\ p_step p = Some dir /\
      ((exists p' s', acc k p' /\ p_var p' = v /\ p_step p' = Some s' /\ Z.abs (dir - s) < Z.abs (dir - s')) \/
       (exists p' q, acc k p' /\ p_var p' = v /\ (p_step p' = Some s \/ p_step p' = Some dir) /\ In q (vdims v) /\ dim_ofs (vdims v) (p_dom p') q <> 0) \/
       (forall i e', In i (eqs_of k) -> nth_error eqs (Z.to_nat i) = Some e' -> p_var (e_lhs e') <> v) \/
       (p_var (e_lhs e) = v /\ p_misc (e_lhs e) = p_misc r))).
End Steps.
