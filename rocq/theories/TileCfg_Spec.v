(* Conditions on the settings, as used by the theorems on temporal tiling. *)
From Verif Require Import Base Cover_Spec Sched_Spec Loops_Model Tile_Model.

(* One dim: sizes as adjust_settings leaves them (positive; blocks not smaller than a fold); a rank that is not the first
   or last one is not alone; the MPI interior is all of the rank when there is no neighbour. *)
Record dim_settings (overlap : bool) (s : sdim) : Prop := mkDimSettings {
  ds_fold : 1 <= d_fold s;
  ds_halo : 0 <= d_halo s;
  ds_sizes : 1 <= d_rksz s /\ 1 <= d_mgsz s /\ 1 <= d_bksz s /\ 1 <= d_mcsz s;
  ds_blk : d_fold s <= d_bksz s;
  ds_first : d_first s = false -> 1 < d_nranks s;
  ds_last : d_last s = false -> 1 < d_nranks s;
  ds_alone : overlap = true -> d_nranks s <= 1 -> d_ib s <= d_rb s /\ d_rb s + d_rksz s <= d_ie s }.

(* All settings.  The rank and block loops visit their blocks in increasing order (no serpentine, square-wave or tiled
   paths); the mega-block loop, which runs blocks in parallel, may use any path the loop generator accepts. *)
Definition plain_path (f : feats) : Prop := f_serp f = false /\ f_square f = false /\ f_tile f = false.
Definition accepted_path (n : nat) (f : feats) : Prop := adj_feats n false f <> None.
Record settings_ok (ss : list sdim) (bbs : list (list (Z * Z))) (mg_t bk_t : Z) (overlap : bool) (fr fm fb : feats) (nt : Z) : Prop := mkSettingsOk {
  so_dims : ss <> [] /\ Forall (dim_settings overlap) ss;
  so_bbs : bbs <> [] /\ Forall (fun bb => length bb = length ss) bbs;
  so_steps : 0 <= mg_t /\ 0 <= bk_t;
  so_nt : 0 < nt;
  so_tiles : f_tile fm = true -> Forall (fun d => 1 <= d_mgtile d) ss;
  so_paths : accepted_path (length ss) fr /\ accepted_path (length ss) fm /\ accepted_path (length ss) fb /\ plain_path fr /\ plain_path fb }.

(* Distance in points that the wave-front moves per stage, and how many moves are left after stage [s] of step [t]:
   a wave-front is [wf] steps of [nst] stages, counted from [first]. *)
Definition angle (d : sdim) : Z := (d_halo d + d_fold d - 1) / d_fold d * d_fold d.
Definition moves_left (nst wf first t s : Z) : Z := if 0 <? wf then nst * wf - 1 - ((Z.abs (t - first) mod wf) * nst + s) else 0.
Definition moves (nst wf : Z) : Z := if 0 <? wf then nst * wf - 1 else 0.
(* [p] lies in the rank or, next to another rank, at most [w] points outside *)
Definition near_rank (d : sdim) (w p : Z) : Prop :=
  d_rb d - (if d_first d then 0 else w) <= p < d_rb d + d_rksz d + (if d_last d then 0 else w).

(* The points of stage [s] that this rank evaluates: inside the box of the stage, and inside the rank and its extension. *)
Definition inside (ss : list sdim) (bbs : list (list (Z * Z))) (wf : Z) (dom : Z -> list Z -> Prop) : Prop :=
  forall s p, dom s p -> length p = length ss /\ forall j d, nth_error ss j = Some d ->
    near_rank d (angle d * moves (Z.of_nat (length bbs)) wf) (nth j p 0) /\
    exists bb, nth_error bbs (Z.to_nat s) = Some bb /\ fst (nth j bb (0, 0)) <= nth j p 0 < snd (nth j bb (0, 0)).
(* The extension shrinks with every stage: the points of the neighbours that are needed for later stages. *)
Definition in_reach (ss : list sdim) (nst wf first : Z) (x : inst) : Prop :=
  forall j d, nth_error ss j = Some d -> near_rank d (angle d * moves_left nst wf first (i_t x) (i_s x)) (nth j (i_p x) 0).
Definition halo_of (ss : list sdim) (j : nat) : Z := match nth_error ss j with Some d => d_halo d | None => 0 end.

(* What a micro-block call does: the points of its box where the stage is to be evaluated. *)
Definition event_task (dom : Z -> list Z -> Prop) (e : event) (x : inst) : Prop :=
  i_t x = e_t e /\ i_s x = e_s e /\ in_box (e_box e) (i_p x) = true /\ dom (i_s x) (i_p x).
Definition programs (dom : Z -> list Z -> Prop) (regs : list region) : list (list (list (inst -> Prop))) := map (map (map (event_task dom))) regs.

(* Temporal blocking needs room in the last block of a mega-block.  [W] = width of a mega-block, [S] = distance between
   blocks, [need] = twice the distance the sides of the block move. *)
Definition last_block_room (W S need : Z) : Prop := W <= S \/ W mod S = 0 \/ need <= W mod S.
(* The rank loop covers [T] points: the rank, the moves, and the left extension; the mega-blocks are the whole of it,
   or [d_mgsz] each with a remainder. *)
Definition rank_width (nst wf : Z) (d : sdim) : Z :=
  let w := if (d_mgsz d <? d_rksz d) || (1 <? d_nranks d) then angle d * moves nst wf else 0 in
  d_rksz d + w + (if d_first d then 0 else w).
Definition tb_room (nst wf tb ta : Z) (d : sdim) : Prop :=
  d_bksz d < d_mgsz d ->
  (d_fold d | d_mgsz d) /\
  let S := (d_bksz d + d_fold d - 1) / d_fold d * d_fold d in
  let need := 2 * ta * (nst * tb - 1) in
  if d_rksz d <=? d_mgsz d then last_block_room (rank_width nst wf d) S need
  else last_block_room (d_mgsz d) S need /\ last_block_room (rank_width nst wf d mod d_mgsz d) S need.
(* the points of the rank itself *)
Definition in_rank (ss : list sdim) (p : list Z) : Prop := forall j d, nth_error ss j = Some d -> d_rb d <= nth j p 0 < d_rb d + d_rksz d.

(* Everything the theorems assume of a prepared solution.  With temporal blocking: at most 8 domain dims, and room in the
   last blocks. *)
Record tile_hyp (ss : list sdim) (bbs : list (list (Z * Z))) (mg_t bk_t : Z) (ru overlap : bool) (fr fm fb : feats) (nt : Z) (c : tcfg) (dom : Z -> list Z -> Prop) : Prop := mkTileHyp {
  th_s : settings_ok ss bbs mg_t bk_t overlap fr fm fb nt;
  th_c : setup ss bbs mg_t bk_t ru overlap fr fm fb nt = Ok c;
  th_in : inside ss bbs (wf_steps mg_t bk_t) dom;
  th_tb : 0 < c_tb c -> (length ss <= 8)%nat /\ Forall (fun d => tb_room (Z.of_nat (length bbs)) (wf_steps mg_t bk_t) (c_tb c) (tb_angle bk_t ru d) d) ss }.

