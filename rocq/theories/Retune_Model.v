(* Temporal tiling after the auto-tuner has changed sizes.  src/kernel/lib/auto_tuner.cpp:488-499: adjust_settings, then
   update_tb_info (setup.cpp:863-1020) only; what update_var_info (setup.cpp:705-787) derived from the sizes in force at
   prepare_solution (wave-front steps, angles, shifts, extensions) stays. *)
From Verif Require Import Base Idiv_Model Loops_Model Tile_Model Adjust_Model.

(* The settings of the dims with the sizes of [k] *)
Fixpoint size_dims (ss : list sdim) (mg bk mc rkt mgt bkt : list Z) : list sdim :=
  match ss, mg, bk, mc, rkt, mgt, bkt with
  | s :: ss', a :: mg', b :: bk', c :: mc', x :: rkt', y :: mgt', z :: bkt' =>
      mkSdim (d_fold s) (d_halo s) (d_rb s) (d_rksz s) (d_nranks s) (d_first s) (d_last s) (d_ib s) (d_ie s) a b c x y z ::
      size_dims ss' mg' bk' mc' rkt' mgt' bkt'
  | _, _, _, _, _, _, _ => []
  end.
Definition dims_of (ss : list sdim) (k : kset) : list sdim :=
  size_dims ss (z_d (k_mega k)) (z_d (k_block k)) (z_d (k_micro k)) (z_d (k_rktile k)) (z_d (k_mgtile k)) (z_d (k_bktile k)).

(* setup.cpp:863-1020 on one dim, new sizes [s]; [t] = values in force *)
Definition retune_dim (nst bk_t tb : Z) (round_up : bool) (t : tdim) (s : sdim) : tdim :=
  let ta := tb_angle bk_t round_up s in
  mkTdim (t_fold t) (t_rb t) (t_re t) (t_lx t) (t_rx t) (t_wa t) (t_wsp t) (t_ib t) (t_ie t)
    ta (tb_width (tb_shifts nst tb) ta s) (mb_angle bk_t round_up s)
    (d_rksz s) (d_mgsz s) (d_bksz s) (d_mcsz s) (d_rktile s) (d_mgtile s) (d_bktile s).
Definition retune (c : tcfg) (ss : list sdim) (bk_t : Z) (round_up : bool) : tcfg :=
  let nst := c_nst c in
  let tb := tb_steps nst (c_wf c) bk_t round_up ss in
  mkTcfg (map (fun x => retune_dim nst bk_t tb round_up (fst x) (snd x)) (combine (c_dims c) ss)) (c_bbs c) (c_wf c) tb
    (c_overlap c) (c_fr c) (c_fm c) (c_fb c) (c_nt c).
