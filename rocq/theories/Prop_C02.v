(* C02: Wave-front temporal tiling visits every point of every step once, in dependence order, and gives the untiled result. *)
From Verif Require Import Base Cover_Spec Loops_Model Tile_Model Sched_Spec Tile_Spec TileCfg_Spec Tile4_Proofs Tile5_Proofs Tile_Examples.

(* One rank, all tile sizes, depths [mg_t], stages and halos.  [l] = any order in which the threads may evaluate the points.
   Next to another rank the points of the extension are evaluated too, as far as later stages need them ([in_reach]).
   Instances of which one writes what the other reads or writes keep their step order; the memory is left as by any run that
   goes step by step and stage by stage over the same points. *)
Theorem C02_once_in_order_same_values : forall ss bbs mg_t ru fr fm fb nt c dom,
  settings_ok ss bbs mg_t 0 false fr fm fb nt -> setup ss bbs mg_t 0 ru false fr fm fb nt = Ok c -> inside ss bbs mg_t dom ->
  forall first last, exists regs, run_solution c first last = Ok regs /\
  forall l, runs_regions (programs dom regs) l ->
    NoDup l /\
    (forall x, In x l <-> to_do (Z.of_nat (length bbs)) dom first last x /\ in_reach ss (Z.of_nat (length bbs)) mg_t first x) /\
    forall V (alloc : Z -> Z) (st : stencil V), halo_stencil (length ss) (halo_of ss) st ->
      (forall a b, In a l -> In b l -> step_order (direction first last) a b -> conflict alloc st a b -> before l a b) /\
      (stage_indep alloc st -> forall r, Permutation r l -> plain_run (direction first last) r -> forall m cl, exec alloc st l m cl = exec alloc st r m cl).
Proof. exact wavefront. Qed.
Print Assumptions C02_once_in_order_same_values.

(* The points of the rank itself are in reach at every step and stage. *)
Theorem C02_own_points : forall ss nst wf first x, Forall (fun d => 1 <= d_fold d /\ 0 <= d_halo d) ss -> 1 <= nst -> 0 <= i_s x < nst ->
  in_rank ss (i_p x) -> in_reach ss nst wf first x.
Proof. exact own_reach. Qed.
Print Assumptions C02_own_points.

(* Whatever a point in reach depends on inside the same wave-front is in reach as well: [k] stages earlier, up to [k] halos away. *)
Theorem C02_needed_points : forall ss nst wf first x y, 0 < wf -> Forall (fun d => 1 <= d_fold d /\ 0 <= d_halo d) ss ->
  in_reach ss nst wf first x -> Z.abs (i_t x - first) / wf = Z.abs (i_t y - first) / wf ->
  let k := Z.abs (i_t x - first) * nst + i_s x - (Z.abs (i_t y - first) * nst + i_s y) in
  0 <= k -> (forall j, (j < length ss)%nat -> Z.abs (nth j (i_p y) 0 - nth j (i_p x) 0) <= halo_of ss j * k) ->
  (forall j d, nth_error ss j = Some d -> (d_first d = true -> d_rb d <= nth j (i_p y) 0) /\ (d_last d = true -> nth j (i_p y) 0 < d_rb d + d_rksz d)) ->
  in_reach ss nst wf first y.
Proof. exact reach_needs. Qed.
Print Assumptions C02_needed_points.

(* Without neighbours, a tiled and an untiled run of the same steps leave the same memory. *)
Theorem C02_equals_untiled : forall ss bbs mg_t bk_t ru overlap fr fm fb nt c dom ru0 fr0 fm0 fb0 nt0 c0,
  tile_hyp ss bbs mg_t bk_t ru overlap fr fm fb nt c dom -> settings_ok ss bbs 0 0 false fr0 fm0 fb0 nt0 -> setup ss bbs 0 0 ru0 false fr0 fm0 fb0 nt0 = Ok c0 ->
  (forall d, In d ss -> d_first d = true /\ d_last d = true) ->
  forall first last regs regs0 l l0, run_solution c first last = Ok regs -> runs_regions (programs dom regs) l -> run_solution c0 first last = Ok regs0 -> runs_regions (programs dom regs0) l0 ->
    (forall x, In x l <-> In x l0) /\
    forall V (alloc : Z -> Z) (st : stencil V), halo_stencil (length ss) (halo_of ss) st -> stage_indep alloc st -> forall m cl, exec alloc st l m cl = exec alloc st l0 m cl.
Proof. exact untiled. Qed.
Print Assumptions C02_equals_untiled.

(* 20 points in mega-blocks of 8, three steps per wave-front, halo 1; the second rank of two has a left extension of 2. *)
Definition C02_d : sdim := mkSdim 1 1 0 20 1 true true 0 20 8 8 8 8 8 8.
Definition C02_d2 : sdim := mkSdim 1 1 20 20 2 false true 20 40 8 8 8 8 8 8.
Definition C02_regs (d : sdim) (bb : Z * Z) (mg_t first last : Z) : list region :=
  match setup [d] [[bb]] mg_t 0 false false f_nest f_omp f_nest 1 with Ok c => match run_solution c first last with Ok r => r | _ => [] end | _ => [] end.
Definition C02_boxes (rs : list region) : list (Z * list (Z * Z)) := map (fun e => (e_t e, e_box e)) (concat (concat rs)).
Lemma C02_settings : forall d bb mg_t, 0 <= mg_t -> d = C02_d \/ d = C02_d2 -> settings_ok [d] [[bb]] mg_t 0 false f_nest f_omp f_nest 1.
Proof.
  intros d bb mg_t Hm Hd. constructor; [split; [discriminate|]; constructor; [|constructor]|split; [discriminate|]; repeat constructor|lia|lia|discriminate|repeat split; discriminate].
  destruct Hd as [-> | ->]; constructor; cbn; intros; try lia; discriminate.
Qed.
Example C02_once_ex :
  settings_ok [C02_d] [[(0, 20)]] 3 0 false f_nest f_omp f_nest 1 /\ inside [C02_d] [[(0, 20)]] 3 (dom1 0 20) /\
  halo_stencil 1 (halo_of [C02_d]) (sum3 1) /\ stage_indep (fun _ => 2) (sum3 1) /\
  C02_boxes (C02_regs C02_d (0, 20) 3 0 2) =
    [(0, [(0, 8)]); (1, [(0, 7)]); (2, [(0, 6)]); (0, [(8, 16)]); (1, [(7, 15)]); (2, [(6, 14)]); (0, [(16, 20)]); (1, [(15, 20)]); (2, [(14, 20)])] /\
  runs_regions (programs (dom1 0 20) (C02_regs C02_d (0, 20) 3 0 2)) (seq1 (C02_regs C02_d (0, 20) 3 0 2)).
Proof.
  split; [apply C02_settings; auto; lia|]. split; [apply dom1_inside; [reflexivity|]; intros i Hi; unfold near_rank; cbn; lia|]. split; [apply sum3_halo; cbn; lia|]. split; [apply sum3_indep|].
  split; [vm_compute; reflexivity|]. apply seq1_runs. vm_compute. reflexivity.
Qed.
Example C02_extension_ex :
  settings_ok [C02_d2] [[(0, 40)]] 3 0 false f_nest f_omp f_nest 1 /\
  C02_boxes (C02_regs C02_d2 (0, 40) 3 5 3) =
    [(5, [(18, 26)]); (4, [(19, 25)]); (3, [(20, 24)]); (5, [(26, 34)]); (4, [(25, 33)]); (3, [(24, 32)]); (5, [(34, 40)]); (4, [(33, 40)]); (3, [(32, 40)])] /\
  in_reach [C02_d2] 1 3 5 (mkInst 4 0 [19]) /\ ~ in_reach [C02_d2] 1 3 5 (mkInst 4 0 [18]).
Proof.
  split; [apply C02_settings; auto; lia|]. split; [vm_compute; reflexivity|]. split.
  - intros j d E. destruct j as [|[|j]]; try discriminate. injection E as <-. vm_compute. split; congruence.
  - intros H. specialize (H 0%nat _ eq_refl). vm_compute in H. destruct H as (H & _). apply H. reflexivity.
Qed.
