(* C12: Interior and exterior sections of overlapped halo exchange partition the work. *)
From Verif Require Import Base Cover_Spec Loops_Model Tile_Model Sched_Spec Tile_Spec TileCfg_Spec Tile4_Proofs Tile5_Proofs Tile_Examples.

(* [ss] = settings with overlapped communication, [ss0] = the same rank without.  The borders [d_ib], [d_ie] of the interior are
   arbitrary where the rank has neighbours, so the interior may be empty and any set of sides may have an exterior.
   Both runs evaluate the same instances, each once, and leave the same memory. *)
Theorem C12_same_points_once : forall ss ss0 bbs mg_t bk_t ru fr fm fb nt c c0 dom,
  tile_hyp ss bbs mg_t bk_t ru true fr fm fb nt c dom -> tile_hyp ss0 bbs mg_t bk_t ru false fr fm fb nt c0 dom ->
  Forall2 (fun d d0 => d_fold d = d_fold d0 /\ d_halo d = d_halo d0 /\ d_rb d = d_rb d0 /\ d_rksz d = d_rksz d0 /\ d_first d = d_first d0 /\ d_last d = d_last d0) ss ss0 ->
  forall first last, exists regs regs0, run_solution c first last = Ok regs /\ run_solution c0 first last = Ok regs0 /\
  forall l l0, runs_regions (programs dom regs) l -> runs_regions (programs dom regs0) l0 ->
    NoDup l /\ (forall x, In x l <-> In x l0) /\
    forall V (alloc : Z -> Z) (st : stencil V), halo_stencil (length ss) (halo_of ss) st -> stage_indep alloc st -> forall m cl, exec alloc st l m cl = exec alloc st l0 m cl.
Proof. exact overlapped. Qed.
Print Assumptions C12_same_points_once.

(* The middle rank of three in the first dim: exteriors on both sides, then the interior. *)
Definition C12_d (ib ie : Z) : sdim := mkSdim 1 1 20 20 3 false false ib ie 20 20 20 20 20 20.
Definition C12_e : sdim := mkSdim 1 1 0 4 1 true true 0 4 4 4 4 4 4 4.
Definition C12_regs (ov : bool) (ib ie : Z) (mg_t : Z) : list region :=
  match setup [C12_d ib ie; C12_e] [[(0, 60); (0, 4)]] mg_t 0 false ov f_nest f_omp f_nest 1 with Ok c => match run_solution c 0 1 with Ok r => r | _ => [] end | _ => [] end.
Definition C12_boxes (rs : list region) : list (Z * list (Z * Z)) := map (fun e => (e_t e, e_box e)) (concat (concat rs)).
Definition C12_dom (s : Z) (p : list Z) : Prop := s = 0 /\ exists i j, p = [i; j] /\ 19 <= i < 41 /\ 0 <= j < 4.
Lemma C12_hyp : forall ov ib ie, exists c, tile_hyp [C12_d ib ie; C12_e] [[(0, 60); (0, 4)]] 2 0 false ov f_nest f_omp f_nest 1 c C12_dom.
Proof.
  intros ov ib ie. eexists. apply no_tb; [|reflexivity|].
  - constructor; [split; [discriminate|]; constructor; [|constructor; [|constructor]]; constructor; cbn; intros; try lia; discriminate|split; [discriminate|]; repeat constructor|lia|lia|discriminate|repeat split; discriminate].
  - intros s p (-> & i & j & -> & Hi & Hj). split; [reflexivity|]. intros k d E. destruct k as [|[|[|k]]]; try discriminate; injection E as <-; (split; [try change (near_rank (C12_d ib ie) 1 i); unfold near_rank; cbn; lia|]); exists [(0, 60); (0, 4)]; (split; [reflexivity|cbn; lia]).
Qed.
Example C12_ex :
  (exists c, tile_hyp [C12_d 24 36; C12_e] [[(0, 60); (0, 4)]] 2 0 false true f_nest f_omp f_nest 1 c C12_dom) /\
  (exists c, tile_hyp [C12_d 24 36; C12_e] [[(0, 60); (0, 4)]] 2 0 false false f_nest f_omp f_nest 1 c C12_dom) /\
  C12_boxes (C12_regs true 24 36 2) =
    [(0, [(19, 25); (0, 4)]); (1, [(20, 24); (0, 4)]); (0, [(35, 41); (0, 4)]); (1, [(36, 40); (0, 4)]); (0, [(25, 35); (0, 4)]); (1, [(24, 36); (0, 4)])] /\
  (* no interior *)
  C12_boxes (C12_regs true 32 28 2) = [(0, [(19, 33); (0, 4)]); (1, [(20, 32); (0, 4)]); (0, [(33, 41); (0, 4)]); (1, [(32, 40); (0, 4)])] /\
  C12_boxes (C12_regs false 24 36 2) = [(0, [(19, 41); (0, 4)]); (1, [(20, 40); (0, 4)])].
Proof. split; [apply C12_hyp|]. split; [apply C12_hyp|]. vm_compute. auto. Qed.
