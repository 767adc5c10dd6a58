(* Byte ranges inside chunks of memory. *)
From Verif Require Import Base.

(* a range: chunk, first byte, number of bytes *)
Definition range : Type := (Z * Z) * Z * Z.
Definition disjoint (a b : range) : Prop :=
  let '(ca, oa, na) := a in let '(cb, ob, nb) := b in ca <> cb \/ oa + na <= ob \/ ob + nb <= oa.
(* [size c] is the number of bytes of chunk [c] *)
Definition inside (size : Z * Z -> Z) (a : range) : Prop := let '(c, o, n) := a in 0 <= o /\ o + n <= size c.
Definition line_aligned (a : range) : Prop := let '(_, o, _) := a in exists q, o = 64 * q.
