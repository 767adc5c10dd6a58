(* What adjusted tile sizes must look like. *)
From Verif Require Import Base.

(* One dim: [asked] is the size asked for (0 or less = no wish), [outer] the size of the enclosing tile, [mult] the unit,
   [r] the size to be used: the smallest multiple of the unit that is not smaller than what was asked for, limited to the
   enclosing tile; all of the enclosing tile when there is no wish. *)
Record fits (outer mult asked r : Z) : Prop := mkFits {
  ft_in : 1 <= r <= outer;
  ft_unit : r = outer \/ (mult | r);
  ft_min : 1 <= asked -> (asked <= r \/ r = outer) /\ forall m, (mult | m) -> asked <= m -> r <= m;
  ft_def : asked <= 0 -> r = outer }.
(* All dims. *)
Definition all_fit (outer mults asked rs : list Z) : Prop :=
  length rs = length outer /\
  forall j o m a r, nth_error outer j = Some o -> nth_error mults j = Some m -> nth_error asked j = Some a -> nth_error rs j = Some r -> fits o m a r.
(* Sizes nested in an enclosing tile, in units of [mults] unless they are all of it. *)
Definition nested (outer mults rs : list Z) : Prop :=
  length rs = length outer /\
  forall j o m r, nth_error outer j = Some o -> nth_error mults j = Some m -> nth_error rs j = Some r -> 1 <= r <= o /\ (r = o \/ (m | r)).

(* The number of tiles of size [r] needed to cover [o] points. *)
Definition tiles_needed (o r c : Z) : Prop := (c - 1) * r < o <= c * r.
