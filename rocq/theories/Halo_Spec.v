(* The elements that are read when equations are evaluated at a point, relative to that point. *)
From Verif Require Import Base Eqs_Model.

(* offset in dim [d]; 0 in a dim the var does not have *)
Fixpoint dim_ofs (dims o : list Z) (d : Z) : Z :=
  match dims, o with
  | x :: dims', v :: o' => if d =? x then v else dim_ofs dims' o' d
  | _, _ => 0
  end.

Section Reads.
  Variable scr : Z -> bool.
  Variable vdims : Z -> list Z.      (* domain dims of a var *)
  Variable eqs : list eqn.
  Variable E : Z -> Prop.            (* the equations that are evaluated over the domain *)

  (* [reads v s o]: an element of var v is read at step offset s and offset o, directly by an equation of E or by the
     equations that compute the elements of scratch vars that are read *)
  Inductive reads : Z -> option Z -> (Z -> Z) -> Prop :=
  | reads_eq : forall i e r, E i -> nth_error eqs (Z.to_nat i) = Some e -> In r (e_rhs e) ->
      reads (p_var r) (p_step r) (dim_ofs (vdims (p_var r)) (p_dom r))
  | reads_scratch : forall v s o j e r, reads v s o -> scr v = true -> 0 <= j -> nth_error eqs (Z.to_nat j) = Some e -> p_var (e_lhs e) = v -> In r (e_rhs e) ->
      reads (p_var r) (p_step r)
        (fun d => (if existsb (Z.eqb d) (vdims v) then o d else 0) + dim_ofs (vdims (p_var r)) (p_dom r) d).

  (* offsets of one read and of the read that it leads to, which do not cancel in any dim: one of them is zero, or they go
     in the same direction, or there is only one dim *)
  Definition no_cancel (dims : list Z) (m o : Z -> Z) : Prop :=
    (forall d, m d = 0) \/ (forall d, In d dims -> o d = 0) \/ (forall d, In d dims -> 0 <= m d /\ 0 <= o d) \/
    (forall d, In d dims -> m d <= 0 /\ o d <= 0) \/ (length dims <= 1)%nat.
  Inductive plain_reads : Z -> option Z -> (Z -> Z) -> Prop :=
  | plain_eq : forall i e r, E i -> nth_error eqs (Z.to_nat i) = Some e -> In r (e_rhs e) ->
      plain_reads (p_var r) (p_step r) (dim_ofs (vdims (p_var r)) (p_dom r))
  | plain_scratch : forall v s o j e r, plain_reads v s o -> scr v = true -> 0 <= j -> nth_error eqs (Z.to_nat j) = Some e -> p_var (e_lhs e) = v -> In r (e_rhs e) ->
      no_cancel (vdims (p_var r)) (fun d => if existsb (Z.eqb d) (vdims v) then o d else 0) (dim_ofs (vdims (p_var r)) (p_dom r)) ->
      plain_reads (p_var r) (p_step r)
        (fun d => (if existsb (Z.eqb d) (vdims v) then o d else 0) + dim_ofs (vdims (p_var r)) (p_dom r) d).

  (* number of dims in which a point is outside of the box [lo, hi) *)
  Definition outside (dims : list Z) (lo hi x : Z -> Z) : Z := Z.of_nat (length (filter (fun d => negb ((lo d <=? x d) && (x d <? hi d))) dims)).
  (* number of dims of the list in which an offset is not zero *)
  Definition dist (dims : list Z) (o : Z -> Z) : Z := Z.of_nat (length (filter (fun d => negb (o d =? 0)) dims)).
End Reads.

(* every point has one offset for each domain dim of its var; scratch vars have no step dim *)
Definition wf_pt (vdims : Z -> list Z) (p : pt) : Prop := length (p_dom p) = length (vdims (p_var p)).
Definition wf_eqs (scr : Z -> bool) (vdims : Z -> list Z) (eqs : list eqn) : Prop :=
  (forall v, NoDup (vdims v)) /\ forall e p, In e eqs -> In p (e_lhs e :: e_rhs e) -> wf_pt vdims p /\ (scr (p_var p) = true -> p_step p = None).
