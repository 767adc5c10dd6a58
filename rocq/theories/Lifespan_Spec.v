(* Lifespans of scratch vars. *)
From Verif Require Import Base.

(* var [v] is accessed in stage number [i] *)
Definition accessed (acc : list (list Z)) (v i : Z) : Prop := 0 <= i /\ exists vs, nth_error acc (Z.to_nat i) = Some vs /\ In v vs.

(* [u] and [v] are in use at the same time: an access of one lies between two accesses of the other *)
Definition overlap (acc : list (list Z)) (u v : Z) : Prop :=
  exists i j k, i <= j <= k /\ ((accessed acc u i /\ accessed acc u k /\ accessed acc v j) \/ (accessed acc v i /\ accessed acc v k /\ accessed acc u j)).
