(* Specification: when a list of boxes represents a set of points. *)
From Verif Require Import Base Cover_Spec.

Definition holds (cond : option (list Z -> bool)) (p : list Z) : bool :=
  match cond with None => true | Some f => f p end.

(* Points of [dom] at which the condition (if any) holds. *)
Definition region (dom : list (Z * Z)) (cond : option (list Z -> bool)) (p : list Z) : bool :=
  in_box dom p && holds cond p.

(* The boxes are disjoint and hold exactly the points of [R]; [overall] contains all
   of [R]; [num] is the number of points of [R]. *)
Definition represents (boxes : list (list (Z * Z))) (overall : list (Z * Z)) (num : Z)
           (R : list Z -> bool) : Prop :=
  exact_cover in_box boxes R /\
  (forall p, R p = true -> in_box overall p = true) /\
  (forall pts, NoDup pts -> (forall p, In p pts <-> R p = true) -> num = Z.of_nat (List.length pts)).
