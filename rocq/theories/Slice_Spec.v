(* Specification vocabulary for slices: the box between two corner points (inclusive), its size
   and the position of a point in a C array holding the box (last index has unit stride). *)
From Coq Require Import QArith Qcanon.
From Verif Require Import Base Var_Model Var_Spec.
Open Scope Z_scope.

Fixpoint in_slice (first last p : list Z) : Prop :=
  match first, last, p with
  | [], [], [] => True
  | f :: fs, l :: ls, x :: ps => f <= x <= l /\ in_slice fs ls ps
  | _, _, _ => False
  end.

Fixpoint slice_size (first last : list Z) : Z :=
  match first, last with
  | f :: fs, l :: ls => Z.max 0 (l - f + 1) * slice_size fs ls
  | _, _ => 1
  end.

Fixpoint row_major (first last p : list Z) : Z :=
  match first, last, p with
  | f :: fs, l :: ls, x :: ps => (x - f) * slice_size fs ls + row_major fs ls ps
  | _, _, _ => 0
  end.

(* In one dim: the slice bounds (first, last) reach into the allocated indices. *)
Definition meets_alloc (d : vdim) (fl : Z * Z) : Prop :=
  fst fl <= get_last_local_index d /\ get_first_local_index d <= snd fl.

(* A dim with at least one allocated index. *)
Definition nonempty_dim (d : vdim) : Prop := get_first_local_index d <= get_last_local_index d.

(* The step index, if any, is a valid one. *)
Definition step_in_window (v : yvar) (idxs : list Z) : Prop :=
  match v_dims v, idxs with
  | d :: _, t :: _ => d_step d = true -> get_first_local_index d <= t <= get_last_local_index d
  | _, _ => True
  end.

Definition qsum (l : list Qc) : Qc := fold_right Qcplus 0%Qc l.
Definition qprod (l : list Qc) : Qc := fold_right Qcmult 1%Qc l.

(* [xs] are the values of the elements of the slice, each once, in some order. *)
Definition slice_contents (sw : bool) (s : vstate Qc) (first last : list Z) (xs : list Qc) : Prop :=
  exists pts, NoDup pts /\ (forall p, In p pts <-> in_slice first last p) /\
    Forall2 (fun p x => get_element sw s p = Ok x) pts xs.
