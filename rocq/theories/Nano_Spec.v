(* What a masked vector writes.  Independent of the model of the code. *)
From Verif Require Import Base.

(* Element number of a position inside a vector: mixed-radix number, first dim fastest if [fi], else last dim fastest. *)
Fixpoint radix (folds offs : list Z) : Z :=
  match folds, offs with
  | f :: fs, o :: os => o + f * radix fs os
  | _, _ => 0
  end.
Definition lane (fi : bool) (folds offs : list Z) : Z :=
  if fi then radix folds offs else radix (rev folds) (rev offs).

(* The vector that holds a point, and the position of the point in it; [rofs] = offsets of the rank. *)
Fixpoint vec_of (rofs folds p : list Z) : list Z :=
  match rofs, folds, p with
  | r :: rs, f :: fs, x :: xs => (x - r) / f :: vec_of rs fs xs
  | _, _, _ => []
  end.
Fixpoint offs_of (rofs folds p : list Z) : list Z :=
  match rofs, folds, p with
  | r :: rs, f :: fs, x :: xs => (x - r) mod f :: offs_of rs fs xs
  | _, _, _ => []
  end.

Definition list_eqb (a b : list Z) : bool := if list_eq_dec Z.eq_dec a b then true else false.

(* Evaluating vector [fst c] with mask [snd c] writes point [p]. *)
Definition writes (fi : bool) (rofs folds : list Z) (c : list Z * Z) (p : list Z) : bool :=
  Nat.eqb (length p) (length folds) && list_eqb (fst c) (vec_of rofs folds p) &&
  Z.testbit (snd c) (lane fi folds (offs_of rofs folds p)).
