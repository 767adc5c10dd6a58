(* What is given to setup_rank(): at least one rank, one non-negative size and a positive fold length per domain dim. *)
From Verif Require Import Base Rank_Model.

Definition ranks_wf (J : job) (ranks : list rank_in) : Prop :=
  ranks <> [] /\
  length (j_gsz J) = j_nd J /\ length (j_nranks J) = j_nd J /\ length (j_fold J) = j_nd J /\
  Forall (fun g => 0 <= g) (j_gsz J) /\ Forall (fun f => 1 <= f) (j_fold J) /\
  Forall (fun r => length (k_coords r) = j_nd J /\ length (k_sizes r) = j_nd J /\ Forall (fun z => 0 <= z) (k_sizes r)) ranks.

