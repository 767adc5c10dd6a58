(* From the settings to the conditions of the tiling theorem. *)
From Coq Require Import ZifyBool Bool.
From Verif Require Import Base Cover_Spec Idiv_Model Idiv_Proofs Loops_Model Loops_Spec LoopsTop_Proofs Scan_Model Scan_Proofs Combo_Model
  Tile_Model Sched_Spec Sched_Proofs Sched2_Proofs Tile_Spec TileCfg_Spec TileLoops_Proofs TileGeo_Proofs TileSteps_Proofs Tile_Proofs Tile2_Proofs.

Lemma angle_RU : forall d, 1 <= d_fold d -> 0 <= d_halo d -> ROUND_UP (d_halo d) (d_fold d) = angle d.
Proof. intros d Hf Hh. unfold ROUND_UP, angle. rewrite CEIL_DIV_spec by lia. reflexivity. Qed.
Lemma angle_ge : forall d, 1 <= d_fold d -> 0 <= d_halo d -> d_halo d <= angle d /\ (d_fold d | angle d).
Proof. intros d Hf Hh. rewrite <- angle_RU by assumption. split; [apply (ROUND_UP_bounds (d_halo d) (d_fold d)); lia|apply ROUND_UP_div]. Qed.

(* cuts of an aligned range *)
Lemma cut_aligned : forall d b, good true d -> (Z.min (l_align d) (l_stride d) | l_begin d - l_aofs d) -> is_cut d b ->
  fst b < snd b /\ exists i, 0 <= i /\ fst b = l_begin d + i * l_stride d /\ (snd b = fst b + l_stride d \/ (snd b = l_end d /\ l_end d <= fst b + l_stride d)).
Proof.
  intros d b G A C. split; [apply (is_cut_in d b G C)|]. destruct G as (G1 & G2 & G3), C as (i & Hi & ->). specialize (G3 eq_refl). set (a := Z.min (l_align d) (l_stride d)) in *.
  assert (Ab : aligned_begin true d = l_begin d).
  { unfold aligned_begin, adj_align. fold a. rewrite round_down_flr_spec by lia. destruct A as (q & A). rewrite A. rewrite Z.div_mul by lia. lia. }
  pose proof (nit_bounds true d G2) as N. rewrite Ab in N. exists i. split; [lia|]. cbn [fst snd]. unfold cutd, cut. rewrite Ab.
  destruct (i <=? 0) eqn:E1.
  - assert (i = 0) by lia. subst i. split; [lia|]. destruct (0 + 1 <=? 0) eqn:E2; [lia|]. destruct (num_iters true d <=? 0 + 1) eqn:E3; [right; split; [reflexivity|]; nia|left; lia].
  - destruct (num_iters true d <=? i) eqn:E2; [lia|]. split; [lia|]. destruct (i + 1 <=? 0) eqn:E3; [lia|]. destruct (num_iters true d <=? i + 1) eqn:E4; [right; split; [reflexivity|]; nia|left; lia].
Qed.

Lemma tb_fold_le : forall nst bk_t ru ss m0, fold_left (fun m s => let a := tb_angle bk_t ru s in if 0 <? a then Z.min m (Z.quot (d_bksz s - d_fold s + a * 2) (a * 2 * nst)) else m) ss m0 <= m0 /\
  (forall s, In s ss -> 0 < tb_angle bk_t ru s -> fold_left (fun m s => let a := tb_angle bk_t ru s in if 0 <? a then Z.min m (Z.quot (d_bksz s - d_fold s + a * 2) (a * 2 * nst)) else m) ss m0
     <= Z.quot (d_bksz s - d_fold s + tb_angle bk_t ru s * 2) (tb_angle bk_t ru s * 2 * nst)).
Proof.
  intros nst bk_t ru ss. induction ss as [|s ss IH]; intros m0; [cbn; split; [lia|intros s []]|]. cbn [fold_left].
  destruct (IH (let a := tb_angle bk_t ru s in if 0 <? a then Z.min m0 (Z.quot (d_bksz s - d_fold s + a * 2) (a * 2 * nst)) else m0)) as (A & B). cbv zeta in *.
  split; [destruct (0 <? tb_angle bk_t ru s); lia|]. intros s' [->|I] Hp; [|apply B; assumption]. replace (0 <? tb_angle bk_t ru s') with true in * by lia. lia.
Qed.

Section Setup.
  Variables (ss : list sdim) (bbs : list (list (Z * Z))) (mg_t bk_t : Z) (ru overlap : bool) (fr fm fb : feats) (nt : Z) (c : tcfg) (dom : Z -> list Z -> Prop).
  Notation nst := (Z.of_nat (length bbs)).
  Notation wf := (wf_steps mg_t bk_t).
  Notation tb := (tb_steps nst wf bk_t ru ss).
  Hypothesis Hs : settings_ok ss bbs mg_t bk_t overlap fr fm fb nt.
  Hypothesis Hc : setup ss bbs mg_t bk_t ru overlap fr fm fb nt = Ok c.
  Hypothesis Hin : inside ss bbs wf dom.
  Hypothesis Htb : 0 < tb -> (length ss <= 8)%nat /\ Forall (fun d => tb_room nst wf tb (tb_angle bk_t ru d) d) ss.

  Definition sd0 : sdim := mkSdim 0 0 0 0 0 false false 0 0 0 0 0 0 0 0.
  Notation S j := (nth j ss sd0).
  Notation sdm := (setup_dim nst wf bk_t tb ru).
  Lemma c_eq : c = mkTcfg (map sdm ss) bbs wf tb overlap fr fm fb nt /\ forallb (wf_fits nst wf) ss = true.
  Proof using Hc. unfold setup in Hc. destruct (forallb (wf_fits nst wf) ss); [|discriminate]. injection Hc as <-. split; reflexivity. Qed.

  Lemma angle_ta : forall d, In d ss -> d_bksz d < d_mgsz d -> 0 < bk_t -> d_halo d <= tb_angle bk_t ru d.
  Proof using Hs. clear Hc Hin Htb.
    intros d Hd Hb Hk. destruct (so_dims _ _ _ _ _ _ _ _ _ Hs) as (_ & F). rewrite Forall_forall in F. destruct (F d Hd) as [F1 F2 F3 F5 F6 F7 F8].
    unfold tb_angle, tb_angle0. replace (0 <? bk_t) with true by lia. replace (d_bksz d <? d_mgsz d) with true by lia. cbn [andb]. destruct ru; [|lia].
    rewrite angle_RU by assumption. apply angle_ge; assumption.
  Qed.
  Lemma nst1 : 1 <= nst.
  Proof using Hs. clear Hc Hin Htb. destruct (so_bbs _ _ _ _ _ _ _ _ _ Hs) as (H & _). destruct bbs; [congruence|cbn [length]; lia]. Qed.
  Lemma wf0 : 0 <= wf.
  Proof using Hs. clear Hc Hin Htb. destruct (so_steps _ _ _ _ _ _ _ _ _ Hs). unfold wf_steps. lia. Qed.
  Lemma tb_pos : 0 < tb -> 0 < bk_t /\ 0 < wf.
  Proof using Hs. clear Hc Hin Htb. destruct (so_steps _ _ _ _ _ _ _ _ _ Hs). unfold tb_steps, wf_steps. destruct (0 <? bk_t) eqn:E; lia. Qed.
  Lemma tb_bound : forall d, In d ss -> 0 < tb -> 0 <= tb_angle bk_t ru d -> 2 * tb_angle bk_t ru d * (nst * tb - 1) <= d_bksz d - d_fold d.
  Proof using Hs. clear Hc Hin Htb.
    intros d Hd T Ta. destruct (so_dims _ _ _ _ _ _ _ _ _ Hs) as (_ & F). rewrite Forall_forall in F. destruct (F d Hd) as [F1 F2 F3 F5 F6 F7 F8].
    destruct (Z.eq_dec (tb_angle bk_t ru d) 0) as [E|E]; [rewrite E; lia|]. pose proof nst1 as N1. pose proof (tb_pos T) as (Bk & _).
    assert (L : tb <= Z.quot (d_bksz d - d_fold d + tb_angle bk_t ru d * 2) (tb_angle bk_t ru d * 2 * nst)).
    { unfold tb_steps at 1. replace (0 <? bk_t) with true by lia. pose proof (proj2 (tb_fold_le nst bk_t ru ss (Z.min bk_t wf)) d Hd ltac:(lia)). cbv zeta in *. lia. }
    set (a := tb_angle bk_t ru d) in *. pose proof (Z.mul_quot_le (d_bksz d - d_fold d + a * 2) (a * 2 * nst) ltac:(lia) ltac:(nia)) as Q.
    assert (a * 2 * nst * tb <= d_bksz d - d_fold d + a * 2) by (eapply Z.le_trans; [|exact (proj2 Q)]; apply Z.mul_le_mono_nonneg_l; [nia|exact L]). lia.
  Qed.
  Lemma wa_cases : forall d, In d ss -> (wf_angle d = angle d \/ (wf_angle d = 0 /\ d_rksz d <= d_mgsz d /\ d_nranks d <= 1)) /\ 0 <= angle d /\ d_halo d <= angle d /\ (d_fold d | wf_angle d) /\ 0 <= wf_angle d.
  Proof using Hs. clear Hc Hin Htb.
    intros d Hd. destruct (so_dims _ _ _ _ _ _ _ _ _ Hs) as (_ & F). rewrite Forall_forall in F. destruct (F d Hd) as [F1 F2 F3 F5 F6 F7 F8].
    destruct (angle_ge d F1 F2) as (A & B). unfold wf_angle. rewrite angle_RU by assumption. destruct ((d_mgsz d <? d_rksz d) || (1 <? d_nranks d)) eqn:E.
    - repeat split; try lia; auto.
    - repeat split; try lia. apply Z.divide_0_r.
  Qed.
  Lemma Sin : forall j, (j < length ss)%nat -> In (S j) ss.
  Proof. intros j Hj. apply nth_In. exact Hj. Qed.
  Lemma Dn : forall j, (j < length ss)%nat -> nth j (map sdm ss) td0 = sdm (S j).
  Proof. intros j Hj. rewrite (nth_indep _ td0 (sdm sd0)) by (rewrite map_length; exact Hj). apply map_nth. Qed.
  Lemma nsh0 : 0 <= wf_shifts nst wf.
  Proof using Hs. clear Hc Hin Htb. pose proof nst1. pose proof wf0. unfold wf_shifts. destruct (0 <? wf) eqn:E; nia. Qed.

  Lemma last_room : 0 < tb -> forall M, cuts c (rlds c) M -> last_wide c (tb_shifts nst tb) M.
  Proof.
    intros T M (LM & CM) j ld msn b Hj LI Hm Wd Hb Cb Fb Sb. destruct c_eq as (Ec & _). rewrite Ec in *. cbn [c_dims] in *. rewrite map_length in *.
    destruct (Htb T) as (_ & TR). pose proof (Sin j Hj) as Ij. rewrite Forall_forall in TR. specialize (TR _ Ij).
    destruct (so_dims _ _ _ _ _ _ _ _ _ Hs) as (_ & F). rewrite Forall_forall in F. destruct (F _ Ij) as [F1 F2 F3 F5 F6 F7 F8].
    destruct (wa_cases _ Ij) as (Wc & _ & _ & Wf & W0). specialize (CM j Hj).
    assert (Rn : nth j (rlds (mkTcfg (map sdm ss) bbs wf tb overlap fr fm fb nt)) ld0 = rank_dim (mkTcfg (map sdm ss) bbs wf tb overlap fr fm fb nt) (sdm (S j))).
    { unfold rlds. cbn [c_dims]. rewrite map_map. rewrite (nth_indep _ ld0 (rank_dim (mkTcfg (map sdm ss) bbs wf tb overlap fr fm fb nt) (sdm sd0))) by (rewrite map_length; exact Hj). rewrite (map_nth (fun x => rank_dim _ (sdm x))). reflexivity. }
    rewrite Rn in CM. clear Rn. rewrite (Dn j Hj) in *. set (d := S j) in *. set (m := nth j M iv0) in *.
    unfold rank_dim, wfb in CM. cbn [c_wf setup_dim t_fold t_rksz t_rktile t_mgsz t_rx t_wsp t_rb t_re t_lx] in CM. unfold ext_e, ext_b in CM. cbn [setup_dim t_rx t_wsp t_rb t_re t_lx] in CM.
    pose proof (tb_pos T) as (Bk & Wp). replace (0 <? wf) with true in CM by lia. cbn [andb] in CM.
    set (sh := wf_angle d * wf_shifts nst wf) in *. assert (Hsh : 0 <= sh) by (pose proof nsh0; nia).
    assert (Ew : forall x, (if (if d_last d then 0 else sh) =? 0 then x + (if d_last d then 0 else sh) + sh else x + (if d_last d then 0 else sh)) = x + sh).
    { intros x. destruct (d_last d); [cbn [Z.eqb]; lia|]. destruct (sh =? 0) eqn:E; lia. }
    rewrite Ew in CM. clear Ew. cbn [setup_dim t_wa t_bksz t_mgsz t_ta t_mgtile t_fold] in *.
    unfold tb_room in TR. specialize (TR Hb). destruct TR as (Dm & TR). cbv zeta in TR.
    assert (Esh : rank_width nst wf d = d_rksz d + sh + (if d_first d then 0 else sh)).
    { unfold rank_width. assert (X : (if (d_mgsz d <? d_rksz d) || (1 <? d_nranks d) then angle d * moves nst wf else 0) = sh).
      { unfold sh, wf_angle, moves, wf_shifts. destruct ((d_mgsz d <? d_rksz d) || (1 <? d_nranks d)); [rewrite angle_RU by assumption; reflexivity|lia]. }
      rewrite X. reflexivity. }
    assert (Dsh : (d_fold d | sh)) by (unfold sh; apply Z.divide_mul_l; exact Wf).
    set (rl := if d_first d then 0 else sh) in *. assert (Drl : (d_fold d | rl) /\ 0 <= rl) by (unfold rl; destruct (d_first d); split; try lia; [apply Z.divide_0_r|exact Dsh]). destruct Drl as (Drl & Hrl).
    (* the mega-block starts at a fold and has one of the widths *)
    assert (RD : (d_fold d | fst m - d_rb d) /\ ((d_rksz d <= d_mgsz d /\ snd m - fst m = rank_width nst wf d) \/
      (d_mgsz d < d_rksz d /\ (snd m - fst m = d_mgsz d \/ (snd m - fst m = rank_width nst wf d mod d_mgsz d))))).
    { unfold adjust_from_settings in CM. cbn [l_begin l_end l_stride l_align l_aofs l_tile] in CM. destruct (d_rksz d <=? d_mgsz d) eqn:E.
      - apply cut_single in CM; [| |].
        + rewrite CM. cbn [fst snd l_begin l_end]. split; [replace (d_rb d - rl - d_rb d) with (- rl) by lia; apply Z.divide_opp_r; exact Drl|]. left. lia.
        + split; cbn [l_begin l_end l_stride l_align]; [lia|]. split; [|lia]. pose proof (ROUND_UP_ge (d_rb d + d_rksz d + sh - (d_rb d - rl)) (d_fold d) ltac:(lia) ltac:(lia)). lia.
        + cbn [l_begin l_end l_stride l_align]. apply RU2; lia.
      - assert (Dmin : Z.min (d_fold d) (d_mgsz d) = d_fold d) by (pose proof (Z.divide_pos_le (d_fold d) (d_mgsz d) ltac:(lia) Dm); lia).
        apply cut_aligned in CM; [|split; cbn [l_begin l_end l_stride l_align]; [lia|split; lia]|].
        2:{ cbn [l_begin l_end l_stride l_align l_aofs]. rewrite Dmin. replace (d_rb d - rl - d_rb d) with (- rl) by lia. apply Z.divide_opp_r. exact Drl. }
        cbn [l_begin l_end l_stride l_align l_aofs] in CM. destruct CM as (Lm & i & Hi & Ef & Es). split.
        + rewrite Ef. replace (d_rb d - rl + i * d_mgsz d - d_rb d) with (i * d_mgsz d - rl) by lia. apply Z.divide_sub_r; [apply Z.divide_mul_r; exact Dm|exact Drl].
        + right. split; [lia|]. destruct Es as [Es|(Es & Le)]; [left; lia|]. rewrite Es, Ef. destruct (Z.eq_dec (d_rb d + d_rksz d + sh) (fst m + d_mgsz d)) as [Q|Q]; [left; lia|right].
          rewrite Esh. assert (Lt : fst m < d_rb d + d_rksz d + sh) by lia. apply Zmod_unique with i; lia. }
    clear CM. destruct RD as (Dm0 & RW). destruct LI as (La & Lo). cbn [setup_dim t_fold t_rb] in La, Lo.
    set (SS := ROUND_UP (d_bksz d) (d_fold d)) in *. assert (ES : (d_bksz d + d_fold d - 1) / d_fold d * d_fold d = SS) by (unfold SS, ROUND_UP; rewrite CEIL_DIV_spec by lia; reflexivity).
    rewrite ES in TR. assert (HS : d_bksz d <= SS /\ d_fold d <= SS) by (split; [apply (ROUND_UP_bounds (d_bksz d) (d_fold d)); lia|apply ROUND_UP_ge; lia]).
    assert (Room : last_block_room (snd m - fst m) SS (2 * tb_angle bk_t ru d * (nst * tb - 1))).
    { destruct RW as [(R1 & R2)|(R1 & R2)].
      - replace (d_rksz d <=? d_mgsz d) with true in TR by lia. rewrite R2. exact TR.
      - replace (d_rksz d <=? d_mgsz d) with false in TR by lia. destruct TR as (TR1 & TR2). destruct R2 as [->| ->]; assumption. }
    assert (Ets : tb_shifts nst tb = nst * tb - 1) by (unfold tb_shifts; replace (0 <? tb) with true by lia; reflexivity). rewrite Ets.
    assert (Tp : 0 <= tb_angle bk_t ru d) by (pose proof (angle_ta d Ij Hb Bk); lia). pose proof (tb_bound d Ij T Tp) as TBd.
    clear TR RW. unfold mega_dim in Cb. cbn [setup_dim t_fold t_bksz t_mgtile t_mgsz] in Cb. unfold adjust_from_settings, set_range, set_tile, set_strides_from_inner in Cb. cbn [l_begin l_end l_stride l_align l_aofs l_tile fst snd] in Cb.
    replace (d_mgsz d <=? d_bksz d) with false in Cb by lia. rewrite La, Lo, Wd in Cb. fold SS in Cb.
    set (st := if snd m - fst m <? SS then SS * 2 else SS) in *. assert (Hst : SS <= st) by (unfold st; destruct (snd m - fst m <? SS); lia).
    apply cut_aligned in Cb.
    2:{ split; cbn [l_begin l_end l_stride l_align]; [|lia]. destruct (Z_lt_le_dec (fst m) (snd m)) as [Q|Q]; [lia|exfalso].
        destruct Cb as (i & Hi & _). unfold num_iters, aligned_begin, adj_align in Hi. cbn [l_begin l_end l_stride l_align l_aofs] in Hi.
        rewrite Z.min_l in Hi by lia. rewrite round_down_flr_spec in Hi by lia.
        assert (X : (d_fold d | fst m - wf_angle d * msn - d_rb d)) by (replace (fst m - wf_angle d * msn - d_rb d) with ((fst m - d_rb d) - wf_angle d * msn) by lia; apply Z.divide_sub_r; [exact Dm0|apply Z.divide_mul_l; exact Wf]).
        destruct X as (q & X). rewrite X, Z.div_mul in Hi by lia. rewrite ceil_idiv_flr_spec in Hi by lia.
        assert ((snd m - wf_angle d * msn - (q * d_fold d + d_rb d) + st - 1) / st <= 0); [|lia]. apply Z.lt_succ_r. apply Z.div_lt_upper_bound; lia. }
    2:{ cbn [l_begin l_end l_stride l_align l_aofs]. rewrite Z.min_l by lia. replace (fst m - wf_angle d * msn - d_rb d) with ((fst m - d_rb d) - wf_angle d * msn) by lia. apply Z.divide_sub_r; [exact Dm0|apply Z.divide_mul_l; exact Wf]. }
    cbn [l_begin l_end l_stride l_align l_aofs] in Cb. destruct Cb as (Lb & i & Hi & Ef & Es). assert (Hi1 : 1 <= i) by nia.
    assert (Le : snd b <= fst b + st) by lia. assert (Wb : snd b - fst b = snd m - fst m - i * st) by lia.
    assert (Est : st = SS). { unfold st in *. destruct (snd m - fst m <? SS) eqn:E; [|reflexivity]. nia. }
    rewrite Est in *. clear Est st Hst. destruct (Z.eq_dec (snd b - fst b) SS) as [Q|Q]; [lia|].
    assert (Em : (snd m - fst m) mod SS = snd b - fst b) by (symmetry; apply Zmod_unique with i; lia).
    destruct Room as [R|[R|R]]; [nia|lia|lia].
  Qed.

  Lemma setup_cfg_ok : cfg_ok c (halo_of ss) dom.
  Proof.
    pose proof last_room as LR. destruct c_eq as (Ec & Ff). rewrite Ec in *. cbn [c_nst] in *.
    assert (En : c_nst (mkTcfg (map sdm ss) bbs wf tb overlap fr fm fb nt) = nst) by reflexivity.
    pose proof nst1 as N1. pose proof wf0 as W0. pose proof nsh0 as S0.
    destruct (so_paths _ _ _ _ _ _ _ _ _ Hs) as (P1 & P2 & P3 & P4 & P5). destruct (so_dims _ _ _ _ _ _ _ _ _ Hs) as (NE & F). rewrite Forall_forall in F.
    destruct (so_bbs _ _ _ _ _ _ _ _ _ Hs) as (_ & Fb). rewrite Forall_forall in Fb.
    constructor; try rewrite En; cbn [c_dims c_wf c_tb c_nt c_fr c_fm c_fb]; try rewrite map_length.
    - destruct ss; [congruence|cbn; lia].
    - exact N1.
    - intros s Hs'. unfold stage_bb. cbn [c_bbs]. apply Fb. apply nth_In. lia.
    - exact W0.
    - unfold tbb. cbn [c_tb]. intros T. split; [apply tb_pos; lia|]. destruct Htb as (H8 & _); [lia|exact H8].
    - intros j Hj. rewrite (Dn j Hj). pose proof (Sin j Hj) as Ij. destruct (F _ Ij) as [F1 F2 F3 F5 F6 F7 F8]. destruct (wa_cases _ Ij) as (Wc & A0 & Ah & Wd & Wn).
      assert (Hh : halo_of ss j = d_halo (S j)) by (unfold halo_of; rewrite (nth_error_nth' ss sd0 Hj); reflexivity). rewrite Hh.
      unfold setup_dim. constructor; cbn [t_fold t_rb t_re t_wa t_mgsz t_bksz t_mcsz t_rktile t_mgtile t_bktile t_wsp t_lx t_rx t_rksz t_ta t_ma c_wf c_overlap c_tb c_fr c_fm c_fb]; try lia.
      + destruct P4 as (_ & _ & Q1). destruct P5 as (_ & _ & Q2). pose proof (so_tiles _ _ _ _ _ _ _ _ _ Hs) as Ht. split; [congruence|]. split; [|congruence].
        intros Ft. specialize (Ht Ft). rewrite Forall_forall in Ht. exact (Ht _ Ij).
      + intros Ov Ex. destruct (Z_le_gt_dec (d_nranks (S j)) 1) as [Q|Q]; [exfalso|lia]. destruct (F8 Ov Q) as (I1 & I2).
        unfold ext_left, ext_right, ext_b, ext_e in Ex. cbn [t_rb t_re t_lx t_rx t_ib t_ie] in Ex.
        destruct (d_first (S j)) eqn:Q1; [|specialize (F6 eq_refl); lia]. destruct (d_last (S j)) eqn:Q2; [|specialize (F7 eq_refl); lia]. lia.
      + unfold tbb. cbn [c_tb]. intros T. destruct (tb_pos ltac:(lia)) as (Bk & _). split.
        * destruct (Z_lt_le_dec (d_bksz (S j)) (d_mgsz (S j))) as [Q|Q]; [left|right; exact Q]. apply angle_ta; assumption.
        * destruct (Z_lt_le_dec (d_mcsz (S j)) (d_bksz (S j))) as [Q|Q]; [left|right; exact Q]. unfold mb_angle, tb_angle0. replace (0 <? bk_t) with true by lia. replace (d_mcsz (S j) <? d_bksz (S j)) with true by lia. cbn [andb].
          destruct ru; [rewrite angle_RU by assumption; exact Ah|lia].
    - intros Z0 j Hj. rewrite (Dn j Hj). unfold setup_dim. cbn [t_lx t_rx]. unfold wf_shifts. rewrite Z0. cbn [Z.ltb Z.compare]. rewrite Z.mul_0_r. destruct (d_first (S j)), (d_last (S j)); split; reflexivity.
    - apply (so_nt _ _ _ _ _ _ _ _ _ Hs).
    - split; assumption.
    - assumption.
    - split; assumption.
    - unfold tbb. cbn [c_tb]. intros T j Hj. rewrite (Dn j Hj). cbv zeta. cbn [setup_dim t_bksz t_mgsz t_ta t_tw]. intros Hb. pose proof (Sin j Hj) as Ij. destruct (F _ Ij) as [F1 F2 F3 F5 F6 F7 F8].
      destruct (tb_pos ltac:(lia)) as (Bk & _). pose proof (angle_ta _ Ij Hb Bk) as Ta. pose proof (tb_bound _ Ij ltac:(lia) ltac:(lia)) as B.
      assert (Ets : tb_shifts nst tb = nst * tb - 1) by (unfold tb_shifts; rewrite T; reflexivity). rewrite Ets. split; [|lia].
      unfold tb_width. destruct ((0 <? nst * tb - 1) && (0 <? tb_angle bk_t ru (S j))) eqn:E; [lia|]. assert (X : nst * tb - 1 = 0 \/ tb_angle bk_t ru (S j) = 0) by nia. destruct X as [X|X]; rewrite X; lia.
    - unfold tbb. cbn [c_tb]. intros T. apply LR. lia.
    - intros s p Hp. destruct (Hin s p Hp) as (Lp & Hq). split; [exact Lp|]. intros j Hj. rewrite (Dn j Hj). destruct (Hq j (S j) (nth_error_nth' ss sd0 Hj)) as (Nr & bb & Eb & Hbb).
      pose proof (Sin j Hj) as Ij. destruct (F _ Ij) as [F1 F2 F3 F5 F6 F7 F8]. destruct (wa_cases _ Ij) as (Wc & A0 & Ah & Wd & Wn).
      split.
      + unfold near_rank in Nr. unfold ext_b, ext_e. cbn [setup_dim t_rb t_re t_lx t_rx]. change (moves nst wf) with (wf_shifts nst wf) in Nr.
        destruct (d_first (S j)) eqn:Q1; destruct (d_last (S j)) eqn:Q2; try (assert (Qa : wf_angle (S j) = angle (S j)) by (destruct Wc as [Wc|(_ & _ & Wc)]; [exact Wc|first [specialize (F6 eq_refl)|specialize (F7 eq_refl)]; lia]); rewrite Qa); lia.
      + unfold stage_bb. cbn [c_bbs]. rewrite (nth_error_nth _ _ _ Eb). exact Hbb.
  Qed.

  Lemma reach_iff : forall first last x, in_run c dom first last x <-> to_do nst dom first last x /\ in_reach ss nst wf first x.
  Proof.
    intros first last x. unfold in_run, to_do, in_reach, between. pose proof setup_cfg_ok as CO.
    assert (G : 0 <= i_s x < nst -> dom (i_s x) (i_p x) -> ((forall j, (j < length (c_dims c))%nat -> ext_in (nth j (c_dims c) td0) (shift_of c first (i_t x) (i_s x)) (nth j (i_p x) 0)) <->
       forall j d, nth_error ss j = Some d -> near_rank d (angle d * moves_left nst wf first (i_t x) (i_s x)) (nth j (i_p x) 0))).
    { intros Hsx Hd. destruct (Hin _ _ Hd) as (_ & Hq). pose proof (shift_le c (halo_of ss) dom first CO (i_t x) (i_s x)) as Sh.
      destruct c_eq as (Ec & _). rewrite Ec in Sh |- *. specialize (Sh Hsx). cbn [c_dims c_wf] in Sh |- *.
      change (c_nst (mkTcfg (map sdm ss) bbs wf tb overlap fr fm fb nt)) with nst in Sh.
      assert (El : moves_left nst wf first (i_t x) (i_s x) = wf_shifts nst wf - shift_of (mkTcfg (map sdm ss) bbs wf tb overlap fr fm fb nt) first (i_t x) (i_s x)).
      { unfold moves_left, wf_shifts, shift_of. cbn [c_wf]. change (c_nst (mkTcfg (map sdm ss) bbs wf tb overlap fr fm fb nt)) with nst. destruct (0 <? wf); lia. }
      rewrite El. clear El CO. set (k := shift_of _ _ _ _) in *. rewrite map_length.
      destruct (so_dims _ _ _ _ _ _ _ _ _ Hs) as (_ & F). rewrite Forall_forall in F.
      assert (P : forall j, (j < length ss)%nat -> (ext_in (sdm (S j)) k (nth j (i_p x) 0) <-> near_rank (S j) (angle (S j) * (wf_shifts nst wf - k)) (nth j (i_p x) 0))).
      { intros j Hj. destruct (Hq j (S j) (nth_error_nth' ss sd0 Hj)) as (Nr & _). pose proof (Sin j Hj) as Ij. destruct (F _ Ij) as [F1 F2 F3 F5 F6 F7 F8]. destruct (wa_cases _ Ij) as (Wc & A0 & Ah & Wd & Wn).
        unfold near_rank, ext_in in *. cbn [setup_dim t_rb t_re t_lx t_rx t_wa]. change (moves nst wf) with (wf_shifts nst wf) in Nr. clear -Nr F6 F7 Wc A0 Sh.
        set (p := nth j (i_p x) 0) in *. set (nsh := wf_shifts nst wf) in *. clearbody p nsh k. generalize dependent (S j). intros d Nr F6 F7 Wc A0.
        assert (Q : (d_first d = false -> wf_angle d = angle d) /\ (d_last d = false -> wf_angle d = angle d)).
        { split; intros Q; destruct Wc as [Wc|(_ & _ & Wc)]; auto; [specialize (F6 Q)|specialize (F7 Q)]; lia. }
        destruct Q as (Qa & Qb). clear Wc F6 F7. destruct (d_first d), (d_last d); try rewrite (Qa eq_refl); try rewrite (Qb eq_refl); clear Qa Qb; (split; [intros (X1 & X2)|intros X; split; intros Y; try lia; try nia]).
        - lia.
        - destruct (Z.eq_dec (angle d * nsh) 0) as [Z0|Z0]; [|nia]. assert (angle d * (nsh - k) = 0) by nia. nia.
        - destruct (Z.eq_dec (angle d * nsh) 0) as [Z0|Z0]; [|nia]. assert (angle d * (nsh - k) = 0) by nia. nia.
        - destruct (Z.eq_dec (angle d * nsh) 0) as [Z0|Z0]; [|nia]. assert (angle d * (nsh - k) = 0) by nia. nia. }
      split.
      - intros H j d E. assert (Hj : (j < length ss)%nat) by (apply nth_error_Some; congruence). specialize (H j Hj). rewrite (Dn j Hj) in H. apply P in H; [|exact Hj].
        rewrite (nth_error_nth _ _ sd0 E) in H. exact H.
      - intros H j Hj. rewrite (Dn j Hj). apply P; [exact Hj|]. apply H. apply nth_error_nth'. exact Hj. }
    assert (En : c_nst c = nst) by (destruct c_eq as (-> & _); reflexivity). rewrite En. tauto.
  Qed.
End Setup.
