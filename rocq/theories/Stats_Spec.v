(* Numbers of points and steps. *)
From Verif Require Import Base ParFor_Model Bbox_Model Stats_Model.

(* the set [P] has [n] points *)
Definition card (P : list Z -> bool) (n : Z) : Prop := exists pts, NoDup pts /\ (forall p, In p pts <-> P p = true) /\ n = Z.of_nat (length pts).
(* steps from [first] to [last], in either direction *)
Definition num_steps (fl : Z * Z) : Z := Z.abs (snd fl - fst fl) + 1.

(* the boxes of a part are those that the search of C16 finds in the box [dom] *)
Definition found (n : nat) (q : wpart) (cond : option (list Z -> bool)) (dom : dbox) : Prop :=
  dom <> [] /\ length dom = n /\ Forall (fun d => fst d <= snd d) dom /\ exists c pb, 1 <= omp_num_threads c /\ part_find_bbs c cond dom = Ok pb /\ wp_bbs q = pb_list pb.
