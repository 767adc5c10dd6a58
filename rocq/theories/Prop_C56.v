From Verif Require Import Base Cover_Spec Nano_Model Nano_Spec Nano3_Proofs.

(* stencil_calc.hpp:444-862 with the generated calc_vectors(): for any range of a nano-block, any fold of up to 63 points in up
   to 8 domain dims, any rank offset and any pico-block sizes, the full and the masked vectors that are evaluated write every
   point of the nano-block exactly once and no point outside of it.  (From 9 dims on, n_choose_k_set overruns its work array,
   property C45.) *)
Theorem C56_nano_block_exactly_once : forall fuel fi inner ds,
  Forall (fun d => 1 <= nd_fold d /\ 1 <= nd_pico d /\ nd_begin d <= nd_end d) ds ->
  zprod (map nd_fold ds) <= 63 ->
  (inner < length ds)%nat -> (length ds <= 8)%nat -> (length ds <= fuel)%nat ->
  exists out, calc_nano_block_opt fuel fi inner ds = Ok out /\
    exact_cover (writes fi (map nd_rofs ds) (map nd_fold ds)) out (in_box (map (fun d => (nd_begin d, nd_end d)) ds)).
Proof. exact nano_block_cover. Qed.
Print Assumptions C56_nano_block_exactly_once.

(* 4x2 folds, range 3..14 by 1..2 (one row, inside one vector in y): no full vector, two masked rows in the middle, two corners;
   the unselected range in y is inverted, [1, 0) *)
Definition ex_ds : list ndim := [mkNdim 3 14 0 4 8; mkNdim 1 2 0 2 2].
Example C56_ex :
  calc_nano_block_opt 8 true 1 ex_ds = Ok [([1; 0], 240); ([2; 0], 240); ([0; 0], 128); ([3; 0], 48)] /\
  Forall (fun d => 1 <= nd_fold d /\ 1 <= nd_pico d /\ nd_begin d <= nd_end d) ex_ds /\ zprod (map nd_fold ex_ds) <= 63 /\
  hits (writes true [0; 0] [4; 2]) [([1; 0], 240); ([2; 0], 240); ([0; 0], 128); ([3; 0], 48)] [13; 1] = 1%nat /\
  hits (writes true [0; 0] [4; 2]) [([1; 0], 240); ([2; 0], 240); ([0; 0], 128); ([3; 0], 48)] [14; 1] = 0%nat.
Proof. vm_compute. repeat split; try discriminate; repeat constructor; discriminate. Qed.

(* full vectors, edges and corners, with a negative rank offset and the last dim fastest in the vector *)
Example C56_ex2 :
  match calc_nano_block_opt 3 false 0 [mkNdim (-3) 6 (-1) 2 2; mkNdim 1 9 0 4 4] with
  | Ok out => map (fun p => hits (writes false [-1; 0] [2; 4]) out p) [[-4; 3]; [-3; 1]; [5; 8]; [6; 8]; [2; 5]] = [0%nat; 1%nat; 1%nat; 0%nat; 1%nat] /\
              length out = 15%nat
  | _ => False
  end.
Proof. vm_compute. split; reflexivity. Qed.
