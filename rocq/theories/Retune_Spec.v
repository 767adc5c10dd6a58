(* The dims of a rank as prepare_solution sets them up, apart from the tile sizes. *)
From Verif Require Import Base Loops_Model Tile_Model TileCfg_Spec Adjust_Model.

Record rank_dim_ok (fold rank : Z) (overlap : bool) (s : sdim) : Prop := mkRankDimOk {
  rd_fold : d_fold s = fold;
  rd_rank : d_rksz s = rank;
  rd_one : fold <= rank;
  rd_halo : 0 <= d_halo s;
  rd_first : d_first s = false -> 1 < d_nranks s;
  rd_last : d_last s = false -> 1 < d_nranks s;
  rd_alone : overlap = true -> d_nranks s <= 1 -> d_ib s <= d_rb s /\ d_rb s + d_rksz s <= d_ie s }.
Definition rank_dims (folds : list Z) (rank : sizes) (overlap : bool) (ss : list sdim) : Prop :=
  length ss = length (z_d rank) /\
  forall j s, nth_error ss j = Some s -> rank_dim_ok (nth j folds 0) (nth j (z_d rank) 0) overlap s.

(* Boxes, threads and loop paths: any, except that no loop is tiled and the rank and block loops visit in order. *)
Record loops_ok (n : nat) (bbs : list (list (Z * Z))) (fr fm fb : feats) (nt : Z) : Prop := mkLoopsOk {
  lk_bbs : bbs <> [] /\ Forall (fun bb => length bb = n) bbs;
  lk_nt : 0 < nt;
  lk_paths : accepted_path n fr /\ accepted_path n fm /\ accepted_path n fb /\ plain_path fr /\ plain_path fb /\ f_tile fm = false }.

(* Room for temporal blocks in a configuration, as in C03; nothing if there is no temporal blocking. *)
Definition has_room (ss : list sdim) (bbs : list (list (Z * Z))) (mg_t bk_t : Z) (ru : bool) (c : tcfg) : Prop :=
  0 < c_tb c -> (length ss <= 8)%nat /\ Forall (fun d => tb_room (Z.of_nat (length bbs)) (Z.max mg_t bk_t) (c_tb c) (tb_angle bk_t ru d) d) ss.
