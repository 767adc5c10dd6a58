(* Temporal tiling: which box of which stage is evaluated at which step, in which order.
   src/kernel/lib/context.cpp:220-624 run_solution, 631-831 calc_mega_block, 838-1003 calc_block, 1011-1174 calc_micro_block,
   1181-1355 shift_mega_block, 1365-1525 shift_micro_block; src/kernel/lib/setup.cpp:666-805 update_var_info (angles and
   extensions), 863-1020 update_tb_info.
   An event = StencilPartBase::calc_micro_block called for the parts of one stage on one box at one step; the parts restrict
   the box to the points where their conditions hold (see Bbox_Model).
   The result is a list of parallel regions, run one after the other; a region is the list of the blocks of one OpenMP loop
   over a mega-block (yask_mega_block_loops.hpp), which run concurrently; a block is the list of its events in order.
   Not modelled here: halo exchange, dirty flags, timers, hooks, the auto-tuner (settings do not change during a run). *)
From Verif Require Import Base Idiv_Model Loops_Model Scan_Model Combo_Model.

Record event := mkEv { e_t : Z; e_s : Z; e_box : list (Z * Z) }.
Notation region := (list (list event)).

(* One domain dim: settings and the values derived from them. *)
Record tdim := mkTdim {
  t_fold : Z;                                        (* fold_pts *)
  t_rb : Z; t_re : Z;                                (* rank_bb *)
  t_lx : Z; t_rx : Z;                                (* left_wf_exts, right_wf_exts *)
  t_wa : Z; t_wsp : Z;                               (* wf_angles, wf_shift_pts *)
  t_ib : Z; t_ie : Z;                                (* mpi_interior *)
  t_ta : Z; t_tw : Z; t_ma : Z;                      (* tb_angles, tb_widths, mb_angles *)
  t_rksz : Z; t_mgsz : Z; t_bksz : Z; t_mcsz : Z;    (* rank, mega-block, block, micro-block sizes *)
  t_rktile : Z; t_mgtile : Z; t_bktile : Z }.        (* rank, mega-block and block tile sizes *)

Record tcfg := mkTcfg {
  c_dims : list tdim;
  c_bbs : list (list (Z * Z));                       (* bounding box of each stage *)
  c_wf : Z; c_tb : Z;                                (* wf_steps, tb_steps *)
  c_overlap : bool;                                  (* mpi_interior.bb_valid *)
  c_fr : feats; c_fm : feats; c_fb : feats;          (* options of the rank, mega-block and block loops *)
  c_nt : Z }.                                        (* OpenMP threads, for manual loops *)
Definition c_nst (c : tcfg) : Z := Z.of_nat (length (c_bbs c)).

(* sequence of results *)
Fixpoint rmap {A B} (f : A -> res B) (l : list A) : res (list B) :=
  match l with
  | [] => Ok []
  | a :: r => rbind (f a) (fun b => rbind (rmap f r) (fun bs => Ok (b :: bs)))
  end.

(* context.cpp:332-344, 655-673, 1046-1064: start and stop of each iteration of a step loop *)
Definition step_chunks (b e stride : Z) : list (Z * Z) :=
  map (fun i => let start := b + i * stride in
                (start, if 0 <? stride then Z.min (start + stride) e else Z.max (start + stride) e))
      (zseq (CEIL_DIV (Z.abs (e - b)) (Z.abs stride))).

(* 1046-1073: step_dir and the steps of calc_micro_block *)
Definition dir_of (b e : Z) : Z := if b <=? e then 1 else -1.
Definition micro_steps (b e : Z) : list Z := map fst (step_chunks b e (dir_of b e)).

(* context.hpp:279-283 does_exterior_exist; ext_bb = setup.cpp:1090-1092 *)
Definition ext_b (d : tdim) : Z := t_rb d - t_lx d.
Definition ext_e (d : tdim) : Z := t_re d + t_rx d.
Definition ext_left (d : tdim) : bool := ext_b d <? t_ib d.
Definition ext_right (d : tdim) : bool := t_ie d <? ext_e d.

(* MpiSection: everything, interior only, or one exterior side of dim number [j] *)
Inductive section := SecAll | SecInt | SecExt (j : nat) (lft : bool).

(* 1200-1337, one dim of shift_mega_block when a stage is given: shift, trim to the box of the stage, the extensions and
   the MPI section.  [wf] = wf_steps > 0.  The check of does_exterior_exist at 1283-1286 never fires, because run_solution
   skips the sections that do not exist. *)
Definition shift1 (wf : bool) (sec : section) (j : nat) (k : Z) (d : tdim) (bb base : Z * Z) : Z * Z :=
  let sh := t_wa d * k in
  let rs := Z.max (fst base - sh) (fst bb) in
  let re := Z.min (snd base - sh) (snd bb) in
  let rs := if (rs <? t_rb d) && negb (t_lx d =? 0) then Z.max rs (t_rb d - t_lx d + sh) else rs in
  let re := if (t_re d <? re) && negb (t_rx d =? 0) then Z.min re (t_re d + t_rx d - sh) else re in
  let ib := t_ib d + (if wf && ext_left d then t_wsp d - sh else 0) in
  let ie := t_ie d + (if wf && ext_right d then sh - t_wsp d else 0) in
  match sec with
  | SecAll => (rs, re)
  | SecInt => (Z.max rs ib, Z.min re ie)
  | SecExt dim lft =>
      if Nat.eqb j dim then (if lft then (rs, Z.min re ib) else (Z.max (Z.max rs ie) ib, re))
      else if Nat.ltb j dim then (Z.max rs ib, Z.min re ie)
      else (rs, re)
  end.

(* 1181-1355 with a stage: loop over the dims, stops at the first empty one; [old] = begin and end in 'idxs' before *)
Fixpoint shift_mega (wf : bool) (sec : section) (j : nat) (k : Z) (ds : list tdim) (bbs base old : list (Z * Z))
  : bool * list (Z * Z) :=
  match ds, bbs, base, old with
  | d :: ds', bb :: bbs', b :: base', o :: old' =>
      let r := shift1 wf sec j k d bb b in
      if snd r <=? fst r then (false, o :: old')
      else let '(ok, l) := shift_mega wf sec (S j) k ds' bbs' base' old' in (ok, r :: l)
  | _, _, _, _ => (true, [])
  end.
(* without a stage: shift only *)
Definition shift_only (k : Z) (ds : list tdim) (base : list (Z * Z)) : list (Z * Z) :=
  map (fun x => (fst (snd x) - t_wa (fst x) * k, snd (snd x) - t_wa (fst x) * k)) (combine ds base).

(* 1386-1506, one dim of shift_micro_block; [one] = (nphases == 1), [bridge] = phase > 0 and this dim is bridged;
   [mb], [adj], [blk], [mega] = base ranges of micro-block, adjusted block, block, mega-block; [ix] = range in 'idxs'.
   None = nothing to do. *)
Definition micro1 (one bridge : bool) (k : Z) (d : tdim) (mb adj blk mega ix : Z * Z) : option (Z * Z) :=
  let first := fst blk <=? fst mega in
  let last := snd mega <=? snd blk in
  let oneb := first && last in
  let stop0 := if negb one && negb oneb then Z.min (fst blk + t_tw d) (snd blk) else snd blk in
  let start := if first then fst ix else fst blk + t_ta d * k in
  let stop := if (one || oneb) && last then snd ix else stop0 - t_ta d * k in
  let next := if last then snd ix else snd blk + t_ta d * k in
  let ss := if bridge then Z.max stop start else start in
  let se := if bridge then next else stop in
  if se <=? ss then None
  else
    let firstm := fst mb <=? fst adj in
    let lastm := snd adj <=? snd mb in
    let sh := if firstm && lastm then 0 else t_ma d * k in
    let ms := if firstm then ss else fst mb - sh in
    let me := if lastm then se else snd mb - sh in
    let ms := Z.max (Z.max ms (fst ix)) ss in
    let me := Z.min (Z.min me (snd ix)) se in
    if me <=? ms then None else Some (ms, me).

(* 1365-1525; [j] = number of the dim, for the bridge mask *)
Fixpoint shift_micro (one : bool) (phase mask : Z) (j : nat) (k : Z) (ds : list tdim) (mb adj blk mega ix : list (Z * Z))
  : option (list (Z * Z)) :=
  match ds, mb, adj, blk, mega, ix with
  | d :: ds', m :: mb', a :: adj', b :: blk', g :: mega', x :: ix' =>
      match micro1 one ((0 <? phase) && Z.testbit mask (Z.of_nat j)) k d m a b g x with
      | None => None
      | Some r => option_map (cons r) (shift_micro one phase mask (S j) k ds' mb' adj' blk' mega' ix')
      end
  | _, _, _, _, _, _ => Some []
  end.

(* zip with the dims *)
Fixpoint zip3 {A B C D} (f : A -> B -> C -> D) (a : list A) (b : list B) (c : list C) : list D :=
  match a, b, c with
  | x :: a', y :: b', z :: c' => f x y z :: zip3 f a' b' c'
  | _, _, _ => []
  end.
Definition set_tile (t : Z) (d : ldim) : ldim := mkLdim (l_begin d) (l_end d) (l_stride d) (l_align d) (l_aofs d) t.
Definition ranges (lds : list ldim) : list (Z * Z) := map (fun d => (l_begin d, l_end d)) lds.

Section Cfg.
  Variable c : tcfg.
  Definition wfb : bool := 0 <? c_wf c.
  Definition tbb : bool := 0 <? c_tb c.
  Definition stage_bb (s : Z) : list (Z * Z) := nth (Z.to_nat s) (c_bbs c) [].
  (* the selected stage, or all *)
  Definition sel_stages (sel : option Z) : list Z := match sel with Some s => [s] | None => zseq (c_nst c) end.

  (* 1067-1172: the events of one micro-block [mb]; the shift number counts the stages of all steps.
     [mega0] = rank_idxs.start/stop, [msn] = mega_block_shift_num *)
  Definition micro_event (sec : section) (one : bool) (phase mask msn k t s : Z) (mb adj blk mega mega0 : list (Z * Z)) : list event :=
    match shift_mega wfb sec 0 (msn + k) (c_dims c) (stage_bb s) mega0 mega0 with
    | (false, _) => []
    | (true, ix) =>
        match shift_micro one phase mask 0 k (c_dims c) mb adj blk mega ix with
        | None => []
        | Some box => [mkEv t s box]
        end
    end.
  Fixpoint micro_events (sec : section) (one : bool) (phase mask msn k : Z) (todo : list (Z * Z)) (mb adj blk mega mega0 : list (Z * Z)) : list event :=
    match todo with
    | [] => []
    | (t, s) :: rest => micro_event sec one phase mask msn k t s mb adj blk mega mega0 ++
                        micro_events sec one phase mask msn (k + 1) rest mb adj blk mega mega0
    end.
  Definition todo_of (sel : option Z) (b e : Z) : list (Z * Z) :=
    flat_map (fun t => map (fun s => (t, s)) (sel_stages sel)) (micro_steps b e).

  (* calc_block, 854-958: loop dims of the block loops; [mlds] = the mega-block loop dims, [blk] = this block.
     872-892, 917-952: strides, tiles; with temporal blocking the range is extended by the width of the block *)
  Definition block_dim (d : tdim) (md : ldim) (blk : Z * Z) : ldim :=
    let w := if tbb then snd blk - fst blk else 0 in
    let l := set_tile (t_bktile d) (set_strides_from_inner (t_fold d) (t_mcsz d) (create_inner (t_fold d) md (fst blk) (snd blk))) in
    adjust_from_settings (t_fold d) (t_bksz d) (t_bktile d) (t_mcsz d) (set_range (l_begin l) (l_end l + w) l).

  (* 838-1003: events of one block in order.  [b], [e] = step range *)
  Definition calc_block (sec : section) (sel : option Z) (msn nphases phase b e : Z) (mega0 : list (Z * Z)) (mlds : list ldim)
    (blk : list (Z * Z)) : res (list event) :=
    let lds := zip3 block_dim (c_dims c) mlds blk in
    let shape_events := fun mask =>
      rbind (run_loops true (c_nt c) None [(c_fb c, lds)]) (fun mbs =>
      Ok (flat_map (fun mb => micro_events sec (nphases =? 1) phase mask msn 0 (todo_of sel b e) mb (ranges lds) blk (ranges mlds) mega0) mbs)) in
    if tbb then
      let n := Z.of_nat (length (c_dims c)) in
      rbind (n_choose_k n phase) (fun nshapes =>
      rbind (rmap (fun shape => rbind (n_choose_k_set (Z.to_nat n) n phase shape) shape_events) (zseq nshapes)) (fun ls =>
      Ok (concat ls)))
    else shape_events 0.

  (* the mega-block loop dims for one stage or layer: 687-704, 751-771.  [lds] = dims left by the previous one,
     [rng] = begin and end written by shift_mega_block *)
  Definition mega_dim (d : tdim) (ld : ldim) (r : Z * Z) : ldim :=
    let l := set_tile (t_mgtile d) (set_strides_from_inner (t_fold d) (t_bksz d) ld) in
    adjust_from_settings (t_fold d) (t_mgsz d) (t_mgtile d) (t_bksz d) (set_range (fst r) (snd r) l).

  (* 679-739: without temporal blocking, one stage of one step after the other *)
  Fixpoint mega_plain (sec : section) (mega0 : list (Z * Z)) (lds : list ldim) (k : Z) (todo : list (Z * Z * Z)) : res (list region) :=
    match todo with
    | [] => Ok []
    | (b, e, s) :: rest =>
        let '(ok, rng) := shift_mega wfb sec 0 k (c_dims c) (stage_bb s) mega0 (ranges lds) in
        let lds' := zip3 mega_dim (c_dims c) lds rng in
        rbind (if ok then
                 rbind (run_loops true (c_nt c) None [(c_fm c, lds')]) (fun blks =>
                 rbind (rmap (calc_block sec (Some s) k 1 0 b e mega0 lds') blks) (fun r => Ok [r]))
               else Ok []) (fun r =>
        rbind (mega_plain sec mega0 lds' (k + 1) rest) (fun rs => Ok (r ++ rs)))
    end.

  (* 743-815: with temporal blocking, one layer of tb_steps steps after the other, in phases *)
  Fixpoint mega_tb (sec : section) (mega0 : list (Z * Z)) (lds : list ldim) (msn : Z) (chunks : list (Z * Z)) : res (list region) :=
    match chunks with
    | [] => Ok []
    | (b, e) :: rest =>
        let lds' := zip3 mega_dim (c_dims c) lds (shift_only msn (c_dims c) mega0) in
        let n := Z.of_nat (length (c_dims c)) in
        rbind (rmap (fun phase =>
                 rbind (run_loops true (c_nt c) None [(c_fm c, lds')]) (fun blks =>
                 rmap (calc_block sec None msn (n + 1) phase b e mega0 lds') blks)) (zseq (n + 1))) (fun r =>
        rbind (mega_tb sec mega0 lds' (msn + Z.abs (e - b) * c_nst c) rest) (fun rs => Ok (r ++ rs)))
    end.

  (* 631-678: [mega0] = start and stop of this mega-block, [rlds] = the rank loop dims *)
  Definition calc_mega_block (sec : section) (sel : option Z) (b e : Z) (rlds : list ldim) (mega0 : list (Z * Z)) : res (list region) :=
    let lds := zip3 (fun d ld m => create_inner (t_fold d) ld (fst m) (snd m)) (c_dims c) rlds mega0 in
    let chunks := step_chunks b e (Z.max (c_tb c) 1 * dir_of b e) in
    if tbb then mega_tb sec mega0 lds 0 chunks
    else mega_plain sec mega0 lds 0 (flat_map (fun be => map (fun s => (fst be, snd be, s)) (sel_stages sel)) chunks).

  (* 246-322: the rank loop dims *)
  Definition rank_dim (d : tdim) : ldim :=
    let e := if wfb && (t_rx d =? 0) then ext_e d + t_wsp d else ext_e d in
    adjust_from_settings (t_fold d) (t_rksz d) (t_rktile d) (t_mgsz d)
      (mkLdim (ext_b d) e (t_mgsz d) (t_fold d) (t_rb d) (t_rktile d)).

  (* 378-446, 489-550: the MPI sections in order; [j] = number of the first dim in [ds] *)
  Fixpoint exteriors (j : nat) (ds : list tdim) : list section :=
    match ds with
    | [] => []
    | d :: ds' => (if ext_left d then [SecExt j true] else []) ++ (if ext_right d then [SecExt j false] else []) ++ exteriors (S j) ds'
    end.
  Definition exterior_sections : list section := if c_overlap c then exteriors 0 (c_dims c) else [SecAll].
  Definition interior_sections : list section := if c_overlap c then [SecInt] else [].

  (* the rank loops for each of the sections *)
  Definition rank_part (secs : list section) (sel : option Z) (b e : Z) : res (list region) :=
    let rlds := map rank_dim (c_dims c) in
    rbind (rmap (fun sec =>
             rbind (run_loops true (c_nt c) None [(c_fr c, rlds)]) (fun megas =>
             rbind (rmap (calc_mega_block sec sel b e rlds) megas) (fun r => Ok (concat r)))) secs) (fun rs =>
    Ok (concat rs)).
  (* one pass of the rank loops *)
  Definition rank_pass (sel : option Z) (b e : Z) : res (list region) := rank_part (exterior_sections ++ interior_sections) sel b e.

  (* 220-624 *)
  Definition run_solution (first last : Z) : res (list region) :=
    let dir := dir_of first last in
    let e := last + dir in
    if zprod (map (fun d => ext_e d - ext_b d) (c_dims c)) <? 1 then Ok []
    else
      rbind (rmap (fun be =>
               if c_wf c =? 0 then rbind (rmap (fun s => rank_pass (Some s) (fst be) (snd be)) (zseq (c_nst c))) (fun r => Ok (concat r))
               else rank_pass None (fst be) (snd be))
             (step_chunks first e (Z.max (c_wf c) 1 * dir))) (fun rs => Ok (concat rs)).
End Cfg.

(* Settings of one dim, after adjust_settings and setup_rank. *)
Record sdim := mkSdim {
  d_fold : Z; d_halo : Z;                            (* fold_pts, max_halos (setup.cpp:699-703) *)
  d_rb : Z; d_rksz : Z; d_nranks : Z; d_first : bool; d_last : bool;
  d_ib : Z; d_ie : Z;
  d_mgsz : Z; d_bksz : Z; d_mcsz : Z; d_rktile : Z; d_mgtile : Z; d_bktile : Z }.

(* setup.cpp:709-728: wf_steps and num_wf_shifts; [mg_t], [bk_t] = step sizes of mega-block and block *)
Definition wf_steps (mg_t bk_t : Z) : Z := Z.max mg_t bk_t.
Definition wf_shifts (nst wf : Z) : Z := if 0 <? wf then nst * wf - 1 else 0.

(* 738-752 *)
Definition wf_angle (s : sdim) : Z :=
  if (d_mgsz s <? d_rksz s) || (1 <? d_nranks s) then ROUND_UP (d_halo s) (d_fold s) else 0.
(* 761-769: the rank must be at least as large as halo and extension *)
Definition wf_fits (nst wf : Z) (s : sdim) : bool :=
  negb ((1 <? d_nranks s) && (d_rksz s <? d_halo s + wf_angle s * wf_shifts nst wf)).

(* 895-919: angles of blocks and micro-blocks; zero unless temporal blocking was requested (867-872) *)
Definition tb_angle0 (round_up : bool) (s : sdim) : Z := if round_up then ROUND_UP (d_halo s) (d_fold s) else d_halo s.
Definition mb_angle (bk_t : Z) (round_up : bool) (s : sdim) : Z :=
  if (0 <? bk_t) && (d_mcsz s <? d_bksz s) then tb_angle0 round_up s else 0.
Definition tb_angle (bk_t : Z) (round_up : bool) (s : sdim) : Z :=
  if (0 <? bk_t) && (d_bksz s <? d_mgsz s) then tb_angle0 round_up s else 0.
(* 880-944: tb_steps *)
Definition tb_steps (nst wf bk_t : Z) (round_up : bool) (ss : list sdim) : Z :=
  if 0 <? bk_t then
    Z.min bk_t (fold_left (fun m s =>
      let a := tb_angle bk_t round_up s in
      if 0 <? a then Z.min m (Z.quot (d_bksz s - d_fold s + a * 2) (a * 2 * nst)) else m) ss (Z.min bk_t wf))
  else bk_t.
(* 947-955 *)
Definition tb_shifts (nst tb : Z) : Z := if 0 <? tb then nst * tb - 1 else 0.
(* 989-1014: base width of the phase-0 trapezoid *)
Definition tb_width (nsh a : Z) (s : sdim) : Z :=
  if (0 <? nsh) && (0 <? a) then
    Z.max (ROUND_UP (CEIL_DIV (d_bksz s) 2 + nsh * a) (d_fold s)) (d_fold s + 2 * (nsh * a))
  else d_bksz s.

Definition setup_dim (nst wf bk_t tb : Z) (round_up : bool) (s : sdim) : tdim :=
  let wa := wf_angle s in
  let shifts := wa * wf_shifts nst wf in
  let ta := tb_angle bk_t round_up s in
  mkTdim (d_fold s) (d_rb s) (d_rb s + d_rksz s)
    (if d_first s then 0 else shifts) (if d_last s then 0 else shifts) wa shifts (d_ib s) (d_ie s)
    ta (tb_width (tb_shifts nst tb) ta s) (mb_angle bk_t round_up s)
    (d_rksz s) (d_mgsz s) (d_bksz s) (d_mcsz s) (d_rktile s) (d_mgtile s) (d_bktile s).

(* update_var_info and update_tb_info together: the configuration run_solution uses, or an exception *)
Definition setup (ss : list sdim) (bbs : list (list (Z * Z))) (mg_t bk_t : Z) (round_up overlap : bool) (fr fm fb : feats) (nt : Z) : res tcfg :=
  let nst := Z.of_nat (length bbs) in
  let wf := wf_steps mg_t bk_t in
  if forallb (wf_fits nst wf) ss then
    let tb := tb_steps nst wf bk_t round_up ss in
    Ok (mkTcfg (map (setup_dim nst wf bk_t tb round_up) ss) bbs wf tb overlap fr fm fb nt)
  else Throw.
