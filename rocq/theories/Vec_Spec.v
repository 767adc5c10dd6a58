(* Specification of vector reads: which element each lane must hold. *)
From Coq Require Import String.
From Verif Require Import Base Tuple_Model Vec_Model.

(* Position of lane [e] in dim [d] of a fold whose dims are listed fastest first. *)
Fixpoint lane_pos (inner : list (string * Z)) (e : Z) (d : string) : Z :=
  match inner with
  | [] => 0
  | (n, s) :: r => if String.eqb n d then e mod s else lane_pos r (e / s) d
  end.
Definition pos_in (fold : tuple) (e : Z) (d : string) : Z :=
  lane_pos (if first_inner fold then dims fold else rev (dims fold)) e d.

(* Elements of the fold along [d]. *)
Inductive fold_len (fold : tuple) (d : string) : Z -> Prop :=
| fl_in : forall s, In (d, s) (dims fold) -> fold_len fold d s
| fl_out : (forall s, ~ In (d, s) (dims fold)) -> fold_len fold d 1.

Definition fold_ok (fold : tuple) : Prop :=
  NoDup (map fst (dims fold)) /\ Forall (fun s => 0 < s) (map snd (dims fold)).

Definition lanes_of (fold : tuple) : Z := zprod (map snd (dims fold)).

(* A read as analyze_eqs accepts it: one argument per dim, offsets in fold (domain) dims. *)
Definition read_ok (fold : tuple) (p : vpoint) : Prop :=
  NoDup (map fst (vp_args p)) /\
  (forall d c, In (d, VConst c) (vp_args p) -> forall s, ~ In (d, s) (dims fold)).

(* [idx] is the element that lane [e] of a read of [p] at point [x] (element indices) denotes. *)
Definition denotes (fold : tuple) (x : string -> Z) (p : vpoint) (e : Z) (idx : list Z) : Prop :=
  Forall2 (fun a i => match snd a with
                      | VConst c => i = c
                      | VOff o => i = x (fst a) + o + pos_in fold e (fst a)
                      end) (vp_args p) idx.

(* Folded storage with dims [dn]: lane [e] of the vector at [vi] is the element
   vi * length + position of the lane, in each dim. *)
Definition folds {V} (fold : tuple) (dn : list string) (vst : list Z -> Z -> V) (mem : list Z -> V) : Prop :=
  forall vi e idx, List.length vi = List.length dn -> 0 <= e < lanes_of fold ->
    Forall2 (fun dv i => exists s, fold_len fold (fst dv) s /\
                                   i = snd dv * s + pos_in fold e (fst dv)) (combine dn vi) idx ->
    vst vi e = mem idx.

(* The point whose vector indices are [xv]. *)
Definition at_vector (fold : tuple) (xv x : string -> Z) : Prop :=
  forall d s, fold_len fold d s -> x d = xv d * s.

(* Vectors that follow each other along [f] follow each other in memory. *)
Definition unit_stride (vpos : (string -> Z) -> Z) (f : string) : Prop :=
  forall v w, (forall d, d <> f -> w d = v d) -> w f = v f + 1 -> vpos w = vpos v + 1.

(* Flat storage with lanes in fold order. *)
Definition flat_folds {V} (fold : tuple) (vpos : (string -> Z) -> Z) (flat : Z -> V)
           (mem : (string -> Z) -> V) : Prop :=
  forall v e idx, 0 <= e < lanes_of fold ->
    (forall d s, fold_len fold d s -> idx d = v d * s + pos_in fold e d) ->
    flat (vpos v * lanes_of fold + e) = mem idx.
