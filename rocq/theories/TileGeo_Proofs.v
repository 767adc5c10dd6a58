(* Temporal tiling in one dim: which points a shifted range holds, and how ranges at different shifts are related. *)
From Coq Require Import ZifyBool.
From Verif Require Import Base Loops_Model Tile_Model.

Definition pt_in (r : Z * Z) (p : Z) : Prop := fst r <= p < snd r.

(* the borders of the interior at shift [k] *)
Definition int_b (wf : bool) (d : tdim) (k : Z) : Z := t_ib d + (if wf && ext_left d then t_wsp d - t_wa d * k else 0).
Definition int_e (wf : bool) (d : tdim) (k : Z) : Z := t_ie d + (if wf && ext_right d then t_wa d * k - t_wsp d else 0).
Definition sec_in (wf : bool) (sec : section) (j : nat) (k : Z) (d : tdim) (p : Z) : Prop :=
  match sec with
  | SecAll => True
  | SecInt => int_b wf d k <= p < int_e wf d k
  | SecExt dim lft =>
      if Nat.eqb j dim then (if lft then p < int_b wf d k else int_e wf d k <= p /\ int_b wf d k <= p)
      else if Nat.ltb j dim then int_b wf d k <= p < int_e wf d k else True
  end.
(* the part of an extension that is still evaluated at shift [k] *)
Definition ext_in (d : tdim) (k p : Z) : Prop :=
  (t_lx d <> 0 -> t_rb d - t_lx d + t_wa d * k <= p) /\ (t_rx d <> 0 -> p < t_re d + t_rx d - t_wa d * k).

Lemma shift1_in : forall wf sec j k d bb base p, 0 <= t_wa d * k -> (t_lx d <> 0 -> t_wa d * k <= t_lx d) -> (t_rx d <> 0 -> t_wa d * k <= t_rx d) ->
  (pt_in (shift1 wf sec j k d bb base) p <->
   fst base <= p + t_wa d * k < snd base /\ pt_in bb p /\ ext_in d k p /\ sec_in wf sec j k d p).
Proof.
  intros wf sec j k d bb base p H0 HL HR. unfold shift1, sec_in, ext_in, pt_in.
  fold (int_b wf d k). fold (int_e wf d k). generalize dependent (t_wa d * k). intros sh H0 HL HR. cbv zeta.
  generalize (int_b wf d k) (int_e wf d k). intros ib ie.
  set (rs := Z.max (fst base - sh) (fst bb)). set (re := Z.min (snd base - sh) (snd bb)).
  assert (E1 : forall q, (if (rs <? t_rb d) && negb (t_lx d =? 0) then Z.max rs (t_rb d - t_lx d + sh) else rs) <= q <->
    rs <= q /\ (t_lx d <> 0 -> t_rb d - t_lx d + sh <= q)) by (intros q; destruct ((rs <? t_rb d) && negb (t_lx d =? 0)) eqn:E; lia).
  assert (E2 : forall q, q < (if (t_re d <? re) && negb (t_rx d =? 0) then Z.min re (t_re d + t_rx d - sh) else re) <->
    q < re /\ (t_rx d <> 0 -> q < t_re d + t_rx d - sh)) by (intros q; destruct ((t_re d <? re) && negb (t_rx d =? 0)) eqn:E; lia).
  revert E1 E2. generalize (if (rs <? t_rb d) && negb (t_lx d =? 0) then Z.max rs (t_rb d - t_lx d + sh) else rs).
  generalize (if (t_re d <? re) && negb (t_rx d =? 0) then Z.min re (t_re d + t_rx d - sh) else re).
  intros re' rs' E1 E2. specialize (E1 p). specialize (E2 p). subst rs re.
  destruct sec as [| |dim lft]; [cbn [fst snd]; lia|cbn [fst snd]; lia|].
  destruct (Nat.eqb j dim) eqn:E; [destruct lft; cbn [fst snd]; lia|]. destruct (Nat.ltb j dim) eqn:E'; cbn [fst snd]; lia.
Qed.

(* the part of dim [d] a block [blk] of the mega-block range [mega] is responsible for at shift [k] *)
Definition z_start (k : Z) (d : tdim) (blk mega ix : Z * Z) : Z := if fst blk <=? fst mega then fst ix else fst blk + t_ta d * k.
Definition z_stop (one : bool) (k : Z) (d : tdim) (blk mega ix : Z * Z) : Z :=
  let oneb := (fst blk <=? fst mega) && (snd mega <=? snd blk) in
  if (one || oneb) && (snd mega <=? snd blk) then snd ix
  else (if negb one && negb oneb then Z.min (fst blk + t_tw d) (snd blk) else snd blk) - t_ta d * k.
Definition z_next (k : Z) (d : tdim) (blk mega ix : Z * Z) : Z := if snd mega <=? snd blk then snd ix else snd blk + t_ta d * k.
Definition zone (one bridge : bool) (k : Z) (d : tdim) (blk mega ix : Z * Z) (p : Z) : Prop :=
  if bridge then z_start k d blk mega ix <= p /\ z_stop one k d blk mega ix <= p < z_next k d blk mega ix
  else z_start k d blk mega ix <= p < z_stop one k d blk mega ix.
Definition mb_sh (k : Z) (d : tdim) (mb adj : Z * Z) : Z :=
  if (fst mb <=? fst adj) && (snd adj <=? snd mb) then 0 else t_ma d * k.
Definition mb_in (k : Z) (d : tdim) (mb adj : Z * Z) (p : Z) : Prop :=
  (fst adj < fst mb -> fst mb <= p + mb_sh k d mb adj) /\ (snd mb < snd adj -> p + mb_sh k d mb adj < snd mb).

Lemma micro1_in : forall one bridge k d mb adj blk mega ix p,
  (exists r, micro1 one bridge k d mb adj blk mega ix = Some r /\ pt_in r p) <->
  (pt_in ix p /\ zone one bridge k d blk mega ix p /\ mb_in k d mb adj p).
Proof.
  intros one bridge k d mb adj blk mega ix p. unfold micro1, zone, mb_in. cbv zeta.
  fold (z_start k d blk mega ix). fold (z_stop one k d blk mega ix). fold (z_next k d blk mega ix). fold (mb_sh k d mb adj).
  generalize (z_start k d blk mega ix) (z_stop one k d blk mega ix) (z_next k d blk mega ix) (mb_sh k d mb adj). intros zs zt zn sh.
  unfold pt_in. split.
  - intros (r & E & H). 
    destruct ((if bridge then zn else zt) <=? (if bridge then Z.max zt zs else zs)) eqn:E1; [discriminate|].
    match goal with H : (if ?b then _ else _) = _ |- _ => destruct b eqn:E2; [discriminate|] end. injection E as <-. cbn [fst snd] in H.
    destruct bridge; destruct (fst mb <=? fst adj) eqn:E3; destruct (snd adj <=? snd mb) eqn:E4; lia.
  - intros (H1 & H2 & H3 & H4).
    set (ss := if bridge then Z.max zt zs else zs). set (se := if bridge then zn else zt).
    assert (A : ss <= p < se) by (subst ss se; destruct bridge; lia). clearbody ss se. clear H2.
    destruct (se <=? ss) eqn:E1; [lia|].
    destruct (fst mb <=? fst adj) eqn:E3; destruct (snd adj <=? snd mb) eqn:E4;
    (match goal with |- exists r, (if ?b then _ else _) = _ /\ _ => destruct b eqn:E2; [exfalso; lia|] end; eexists; split; [reflexivity|cbn [fst snd]; lia]).
Qed.

Section Geo.
  Variables (d : tdim) (h : Z).
  Hypothesis Hh : 0 <= h.

  (* mega-blocks: the base coordinate never moves right *)
  Lemma mega_order : forall k1 k2 p q (M M' : Z * Z), h <= t_wa d -> k2 <= k1 -> Z.abs (q - p) <= h * (k1 - k2) ->
    p + t_wa d * k1 < snd M -> fst M' <= q + t_wa d * k2 -> snd M <= fst M' -> False.
  Proof. intros. nia. Qed.

  (* sections *)
  Lemma int_b_order : forall wf k1 k2 p q, (ext_left d = true -> h <= t_wa d) -> (wf = false -> k1 = k2) -> ext_left d = true -> k2 <= k1 ->
    Z.abs (q - p) <= h * (k1 - k2) -> p < int_b wf d k1 -> int_b wf d k2 <= q -> False.
  Proof.
    intros wf k1 k2 p q Ha W L Hk N A B. specialize (Ha L). unfold int_b in *. rewrite L, andb_true_r in *. destruct wf; [nia|].
    specialize (W eq_refl). nia.
  Qed.
  Lemma int_e_order : forall wf k1 k2 p q, (ext_right d = true -> h <= t_wa d) -> (wf = false -> k1 = k2) -> ext_right d = true -> k2 <= k1 ->
    Z.abs (q - p) <= h * (k1 - k2) -> int_e wf d k1 <= p -> q < int_e wf d k2 -> False.
  Proof.
    intros wf k1 k2 p q Ha W L Hk N A B. specialize (Ha L). unfold int_e in *. rewrite L, andb_true_r in *. destruct wf; [nia|].
    specialize (W eq_refl). nia.
  Qed.

  (* blocks, several phases *)
  Variable mega : Z * Z.
  Definition blk_ok (b : Z * Z) : Prop := fst mega <= fst b /\ fst b < snd b /\ snd b <= snd mega.
  Definition apart (b b' : Z * Z) : Prop := b = b' \/ snd b <= fst b' \/ snd b' <= fst b.
  Definition one_blk (b : Z * Z) : Prop := fst b = fst mega /\ snd b = snd mega.

  Lemma zone_base : forall k1 k2 b b' br ix1 ix2 p q, blk_ok b -> blk_ok b' -> apart b b' -> (h <= t_ta d \/ (one_blk b /\ one_blk b')) ->
    0 <= k2 -> k2 <= k1 -> Z.abs (q - p) <= h * (k1 - k2) -> pt_in ix2 q ->
    zone false false k1 d b mega ix1 p -> zone false br k2 d b' mega ix2 q -> br = false /\ b' = b.
  Proof.
    intros k1 k2 (s, e) (s', e') br (i1, j1) (i2, j2) p q (B1 & B2 & B3) (B1' & B2' & B3') Ap Ha K0 K12 N Hq Z1 Z2.
    unfold zone, z_start, z_stop, z_next, pt_in, one_blk, apart in *. destruct mega as (ms, me). cbn [fst snd orb andb negb] in *.
    destruct Ha as [Ha|((-> & ->) & (-> & ->))].
    2:{ rewrite !Z.leb_refl in Z2. cbn in Z2. split; [destruct br; [lia|reflexivity]|reflexivity]. }
    destruct Ap as [E|[L|L]].
    - injection E as <- <-. split; [|reflexivity]. destruct br; [|reflexivity]. exfalso.
      destruct (s <=? ms) eqn:E1, (me <=? e) eqn:E2; cbn [andb negb] in *; nia.
    - exfalso. destruct (s' <=? ms) eqn:E1; [lia|]. destruct (me <=? e) eqn:E2; [lia|]. rewrite andb_false_r in Z1. cbn [andb negb] in Z1. cbv iota in Z1.
      assert (Y1 : p < e - t_ta d * k1) by (destruct (s <=? ms); cbn [andb negb] in Z1; lia). assert (Y2 : s' + t_ta d * k2 <= q) by (destruct br; lia). nia.
    - exfalso. destruct (s <=? ms) eqn:E1; [lia|]. destruct (me <=? e') eqn:E2; [lia|]. rewrite !andb_false_r in Z2. cbn [andb negb] in Z2. cbv iota in Z2.
      assert (Y1 : s + t_ta d * k1 <= p) by lia.
      assert (Y2 : q < e' + t_ta d * k2) by (clear Z1; destruct br; [lia|]; assert (0 <= t_ta d * k2) by nia; destruct (s' <=? ms); cbn [andb negb] in Z2; lia). nia.
  Qed.
  Lemma zone_bridge : forall nsh k1 k2 b b' ix1 ix2 p q, blk_ok b -> blk_ok b' -> apart b b' -> (h <= t_ta d \/ (one_blk b /\ one_blk b')) ->
    0 <= k2 -> k2 <= k1 -> k1 <= nsh -> Z.abs (q - p) <= h * (k1 - k2) ->
    (fst mega < fst b' -> 2 * t_ta d * nsh <= t_tw d /\ 2 * t_ta d * nsh <= snd b' - fst b') ->
    zone false true k1 d b mega ix1 p -> zone false true k2 d b' mega ix2 q -> b' = b.
  Proof.
    intros nsh k1 k2 (s, e) (s', e') (i1, j1) (i2, j2) p q (B1 & B2 & B3) (B1' & B2' & B3') Ap Ha K0 K12 Kn N Wd Z1 Z2.
    unfold zone, z_start, z_stop, z_next, pt_in, one_blk, apart in *. destruct mega as (ms, me). cbn [fst snd orb andb negb] in *.
    destruct Ha as [Ha|((-> & ->) & (-> & ->))]; [|reflexivity].
    destruct Ap as [E|[L|L]]; [congruence| |]; exfalso.
    - destruct (s' <=? ms) eqn:E1; [lia|]. destruct (me <=? e) eqn:E2; [lia|]. cbn [andb negb] in Z2. cbv iota in Z2.
      specialize (Wd ltac:(lia)). assert (2 * t_ta d * k1 <= 2 * t_ta d * nsh) by nia.
      assert (Y : s' + 2 * t_ta d * nsh - t_ta d * k2 <= q) by lia. nia.
    - destruct (s <=? ms) eqn:E1; [lia|]. destruct (me <=? e') eqn:E2; [lia|]. nia.
  Qed.

  (* some block and phase holds every point *)
  Lemma zone_some : forall k (b ix : Z * Z) p, pt_in ix p ->
    (fst b = fst mega \/ fst b + t_ta d * k <= p) -> (snd b = snd mega \/ p < snd b + t_ta d * k) ->
    exists br, zone false br k d b mega ix p.
  Proof.
    intros k (s, e) (i, j) p Hp S E. unfold zone, z_start, z_stop, z_next, pt_in in *. destruct mega as (ms, me). cbn [fst snd orb andb negb] in *.
    set (st := if (s <=? ms) && (me <=? e) && (me <=? e) then j else (if negb ((s <=? ms) && (me <=? e)) then Z.min (s + t_tw d) e else e) - t_ta d * k).
    assert (A : (if s <=? ms then i else s + t_ta d * k) <= p) by (destruct (s <=? ms) eqn:E1; lia).
    destruct (Z_lt_le_dec p st) as [L|L]; [exists false; lia|exists true]. split; [exact A|]. split; [exact L|].
    destruct (me <=? e) eqn:E2; lia.
  Qed.
  (* a single phase: the blocks of one stage, no shift *)
  Lemma zone_one : forall b p, blk_ok b -> (zone true false 0 d b mega mega p <-> pt_in b p).
  Proof.
    intros (s, e) p (B1 & B2 & B3). unfold zone, z_start, z_stop, pt_in in *. destruct mega as (ms, me). cbn [fst snd orb andb negb] in *.
    destruct (s <=? ms) eqn:E1, (me <=? e) eqn:E2; cbn [andb negb]; lia.
  Qed.

  (* micro-blocks *)
  Lemma mb_order : forall k1 k2 (m m' adj : Z * Z) p q, h <= t_ma d -> k2 <= k1 -> Z.abs (q - p) <= h * (k1 - k2) ->
    fst adj <= fst m -> fst m < snd m -> fst m' < snd m' -> snd m' <= snd adj -> snd m <= fst m' ->
    mb_in k1 d m adj p -> mb_in k2 d m' adj q -> False.
  Proof.
    intros k1 k2 (s, e) (s', e') (a, z) p q Ha Hk N A1 A2 A3 A4 L (_ & M1) (M2 & _). unfold mb_sh in *. cbn [fst snd] in *.
    destruct ((s <=? a) && (z <=? e)) eqn:E1; [lia|]. destruct ((s' <=? a) && (z <=? e')) eqn:E2; [lia|].
    specialize (M1 ltac:(lia)). specialize (M2 ltac:(lia)). nia.
  Qed.
  Lemma mb_zero : forall (m adj : Z * Z) p, fst adj <= fst m -> snd m <= snd adj -> pt_in adj p -> (mb_in 0 d m adj p <-> pt_in m p).
  Proof.
    intros (s, e) (a, z) p A B P. unfold mb_in, mb_sh, pt_in in *. cbn [fst snd] in *. rewrite Z.mul_0_r.
    destruct ((s <=? a) && (z <=? e)) eqn:E; lia.
  Qed.
End Geo.
