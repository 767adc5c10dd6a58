(* What the inner loop of a part has to compute, without buffers and without generated code, and what
   is assumed about the addresses of its vectors. *)
From Verif Require Import Base Buf_Model.
Open Scope Z_scope.

Section Spec.
Context {V : Type}.
Variable loc : nat -> Z -> Z.
Variable f : nat -> V -> list V -> V.
Variable F : Z.                     (* fold length in the inner-loop dim *)

(* Offset of a point in vectors, and the address it has at index [j]. *)
Definition vec_ofs (p : vpt) : Z := match p_ofs p with Some o => o / F | None => 0 end.
Definition cell (p : vpt) (j : Z) : Z := loc (p_key p) (j + vec_ofs p).

(* One index: every equation stores its result at its LHS, reading what was there at the start. *)
Fixpoint plain_eqs (j : Z) (start : Z -> V) (e : nat) (eqs : list (nat * list vpt)) (m : Z -> V) : Z -> V :=
  match eqs with
  | [] => m
  | (w, rs) :: r =>
      let x := f e (m (loc w j)) (map (fun p => start (cell p j)) rs) in
      plain_eqs j start (S e) r (fun b => if b =? loc w j then x else m b)
  end.

(* [n] indices from [j]. *)
Fixpoint plain_loop (n : nat) (j : Z) (eqs : list (nat * list vpt)) (m : Z -> V) : Z -> V :=
  match n with
  | O => m
  | S n => plain_loop n (j + 1) eqs (plain_eqs j m 0 eqs m)
  end.

(* Offsets are multiples of the fold length, as those of aligned vectors are. *)
Definition aligned (reads : list vpt) : Prop :=
  forall p o, In p reads -> p_ofs p = Some o -> (F | o).

(* Every vector an equation reads is one of the aligned reads of the part. *)
Definition all_listed (reads : list vpt) (eqs : list (nat * list vpt)) : Prop :=
  forall w rs, In (w, rs) eqs -> incl rs reads.

(* No equation reads, at the same index, what an equation before it writes. *)
Definition independent (eqs : list (nat * list vpt)) (b n : Z) : Prop :=
  forall e1 e2 w1 rs1 w2 rs2 p j,
    nth_error eqs e1 = Some (w1, rs1) -> nth_error eqs e2 = Some (w2, rs2) -> (e1 < e2)%nat ->
    In p rs2 -> b <= j < b + n -> loc w1 j <> cell p j.

(* A point read at several offsets in the inner-loop dim is never one that an earlier index wrote. *)
Definition not_carried (reads : list vpt) (eqs : list (nat * list vpt)) (b n : Z) : Prop :=
  forall w rs p q i j,
    In (w, rs) eqs -> In p reads -> In q reads -> p_key p = p_key q ->
    p_ofs p <> None -> p_ofs q <> None -> p_ofs p <> p_ofs q ->
    b <= i -> i < j -> j < b + n -> loc w i <> cell p j.

(* Vectors between the first and the last one that some index reads with the same other args. *)
Definition in_reach (reads : list vpt) (b n : Z) (x : nat * Z) : Prop :=
  exists j p q, b <= j < b + n /\ In p reads /\ In q reads /\
    p_key p = fst x /\ p_key q = fst x /\
    j + vec_ofs p <= snd x <= j + vec_ofs q.
End Spec.
