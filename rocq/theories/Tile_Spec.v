(* What a stencil must satisfy for temporal tiling to apply, and the instances a run has to evaluate.  Independent of the models of the code. *)
From Verif Require Import Base Cover_Spec Sched_Spec.

(* [n] domain dims, halos [h].  An instance writes only at its own point, and reads the vars that are written within the halos. *)
Record halo_stencil {V} (n : nat) (h : nat -> Z) (st : stencil V) : Prop := mkHaloStencil {
  hs_wr : forall x e, In e (s_wr st x) -> forall j, (j < n)%nat -> nth j (snd e) 0 = nth j (i_p x) 0;
  hs_rd : forall x y e e', In e (s_rd st x) -> In e' (s_wr st y) -> fst (fst e) = fst (fst e') ->
    forall j, (j < n)%nat -> Z.abs (nth j (snd e) 0 - nth j (i_p x) 0) <= h j }.

(* Inside one stage of one step no point reads a slot that another point writes. *)
Definition stage_indep {V} (alloc : Z -> Z) (st : stencil V) : Prop :=
  forall x y e e', i_t x = i_t y -> i_s x = i_s y -> x <> y -> In e (s_rd st x) -> In e' (s_wr st y) -> cell_of alloc e <> cell_of alloc e'.

(* Steps [first] to [last], either way; [nst] stages; [dom s p] = stage [s] is to be evaluated at [p]. *)
Definition between (first last t : Z) : Prop := first <= t <= last \/ last <= t <= first.
Definition to_do (nst : Z) (dom : Z -> list Z -> Prop) (first last : Z) (x : inst) : Prop :=
  between first last (i_t x) /\ 0 <= i_s x < nst /\ dom (i_s x) (i_p x).
Definition direction (first last : Z) : Z := if first <=? last then 1 else -1.
