(* A whole run: coverage, order, and the values left in memory. *)
From Coq Require Import ZifyBool Bool.
From Verif Require Import Base Cover_Spec Idiv_Model Idiv_Proofs Loops_Model Loops_Spec LoopsTop_Proofs Scan_Model Combo_Model
  Tile_Model Sched_Spec Sched_Proofs Sched2_Proofs Tile_Spec TileCfg_Spec TileLoops_Proofs TileGeo_Proofs TileSteps_Proofs Tile_Proofs.

Record cfg_ok (c : tcfg) (h : nat -> Z) (dom : Z -> list Z -> Prop) : Prop := mkCfgOk {
  k_n : (0 < length (c_dims c))%nat;
  k_nst : 1 <= c_nst c;
  k_bb : forall s, 0 <= s < c_nst c -> length (stage_bb c s) = length (c_dims c);
  k_wf : 0 <= c_wf c;
  k_tb : tbb c = true -> 0 < c_wf c /\ (length (c_dims c) <= 8)%nat;
  k_dim : forall j, (j < length (c_dims c))%nat -> dim_ok c (wf_shifts (c_nst c) (c_wf c)) (nth j (c_dims c) td0) (h j);
  k_ext0 : c_wf c = 0 -> forall j, (j < length (c_dims c))%nat -> t_lx (nth j (c_dims c) td0) = 0 /\ t_rx (nth j (c_dims c) td0) = 0;
  k_nt : 0 < c_nt c;
  k_fr : adj_feats (length (c_dims c)) false (c_fr c) <> None /\ plain (c_fr c);
  k_fm : adj_feats (length (c_dims c)) false (c_fm c) <> None;
  k_fb : adj_feats (length (c_dims c)) false (c_fb c) <> None /\ plain (c_fb c);
  k_tw : tbb c = true -> forall j, (j < length (c_dims c))%nat -> let d := nth j (c_dims c) td0 in t_bksz d < t_mgsz d ->
    2 * t_ta d * tb_shifts (c_nst c) (c_tb c) <= t_tw d /\ 2 * t_ta d * tb_shifts (c_nst c) (c_tb c) <= t_bksz d;
  k_lw : tbb c = true -> forall M, cuts c (rlds c) M -> last_wide c (tb_shifts (c_nst c) (c_tb c)) M;
  k_dom : forall s p, dom s p -> length p = length (c_dims c) /\ forall j, (j < length (c_dims c))%nat ->
    ext_b (nth j (c_dims c) td0) <= nth j p 0 < ext_e (nth j (c_dims c) td0) /\ pt_in (nth j (stage_bb c s) iv0) (nth j p 0) }.

(* number of shifts of the wave-front at a step and stage *)
Definition shift_of (c : tcfg) (first t s : Z) : Z := if 0 <? c_wf c then (Z.abs (t - first) mod c_wf c) * c_nst c + s else 0.
(* what is to be done: the steps, the stages, the points of each stage; less and less of the extensions *)
Definition in_run (c : tcfg) (dom : Z -> list Z -> Prop) (first last : Z) (x : inst) : Prop :=
  (first <= i_t x <= last \/ last <= i_t x <= first) /\ 0 <= i_s x < c_nst c /\ dom (i_s x) (i_p x) /\
  forall j, (j < length (c_dims c))%nat -> ext_in (nth j (c_dims c) td0) (shift_of c first (i_t x) (i_s x)) (nth j (i_p x) 0).

Section Run.
  Variables (c : tcfg) (h : nat -> Z) (dom : Z -> list Z -> Prop) (first last : Z).
  Hypothesis Ok1 : cfg_ok c h dom.
  Notation n := (length (c_dims c)).
  Notation D j := (nth j (c_dims c) td0).
  Notation nst := (c_nst c).
  Notation nsh := (wf_shifts nst (c_wf c)).
  Notation tsh := (tb_shifts nst (c_tb c)).
  Definition Kf (t s : Z) : Z := Z.abs (t - first) * nst + s.
  Notation dir := (dir_of first (last + dir_of first last)).

  Lemma dir_dir : dir_of first (last + dir_of first last) = dir_of first last.
  Proof using. unfold dir_of. destruct (first <=? last) eqn:E; [destruct (first <=? last + 1) eqn:F|destruct (first <=? last + -1) eqn:F]; lia. Qed.
  Lemma dir_abs : Z.abs (last + dir_of first last - first) = Z.abs (last - first) + 1.
  Proof using. unfold dir_of. destruct (first <=? last) eqn:E; lia. Qed.

  Lemma enum_todo : forall b e u0 d, (d = 1 \/ d = -1) -> b = first + u0 * d -> 0 <= u0 -> dir_of b e = d -> enum c Kf (u0 * nst) (todo_of c None b e).
  Proof.
    intros b e u0 d Hd Eb Hu Ed. unfold todo_of. rewrite micro_steps_eq, Ed. pose proof (k_nst _ _ _ Ok1) as Hn. clear Ok1.
    assert (Z1 : forall a k, 0 <= k <= nst -> Kf a 0 + k <= Kf a 0 + nst -> forall t, enum c Kf (Kf t 0) (map (fun s => (t, s)) (zseq k))).
    { intros _ k Hk _ t. replace k with (Z.of_nat (Z.to_nat k)) in * by lia. generalize dependent (Z.to_nat k). intros m. induction m as [|m IH]; intros Hm; [exact I|].
      replace (Z.of_nat (S m)) with (Z.of_nat m + 1) by lia. rewrite zseq_succ by lia. rewrite map_app. apply enum_app. split; [apply IH; lia|].
      rewrite map_length, zseq_length. cbn [map enum]. unfold Kf. lia. }
    cbn [sel_stages]. remember (Z.abs (e - b)) as L eqn:EL. assert (HL : 0 <= L) by lia. clear EL. replace L with (Z.of_nat (Z.to_nat L)) by lia. clear HL.
    induction (Z.to_nat L) as [|m IH]; [exact I|]. replace (Z.of_nat (S m)) with (Z.of_nat m + 1) by lia. rewrite zseq_succ by lia.
    rewrite map_app, flat_map_app. apply enum_app. split; [exact IH|]. cbn [map flat_map]. rewrite app_nil_r.
    assert (Len : Z.of_nat (length (flat_map (fun t => map (fun s => (t, s)) (zseq nst)) (map (fun i => b + i * d) (zseq (Z.of_nat m))))) = Z.of_nat m * nst).
    { clear -Hn. assert (G : forall l : list Z, Z.of_nat (length (flat_map (fun t => map (fun s => (t, s)) (zseq nst)) l)) = Z.of_nat (length l) * nst).
      { induction l as [|t l IH]; [reflexivity|]. cbn [flat_map length]. rewrite app_length, map_length, zseq_length. lia. }
      rewrite G, map_length, zseq_length. lia. }
    rewrite Len. replace (u0 * nst + Z.of_nat m * nst) with (Kf (b + Z.of_nat m * d) 0); [apply (Z1 0 nst); lia|].
    unfold Kf. replace (Z.abs (b + Z.of_nat m * d - first)) with (u0 + Z.of_nat m) by (destruct Hd as [Hd|Hd]; rewrite Hd in *; lia). lia.
  Qed.
  Lemma enum_some : forall t s, 0 <= s < nst -> enum c Kf (Kf t s) [(t, s)].
  Proof using. intros t s Hs. cbn. lia. Qed.

  Definition Qc (i : Z) (t s : Z) (p : list Z) : Prop :=
    let w := Z.max (c_wf c) 1 in
    i * w <= Z.abs (t - first) < (i + 1) * w /\ (first <= t <= last \/ last <= t <= first) /\ 0 <= s < nst /\ prk c SecAll (shift_of c first t s) s p.

  Lemma run_good : exists regs, run_solution c first last = Ok regs /\
    good_regs c h Kf dom regs (fun t s p => (first <= t <= last \/ last <= t <= first) /\ 0 <= s < nst /\ prk c SecAll (shift_of c first t s) s p).
  Proof.
    pose proof Ok1 as [Kn Kns Kbb Kwf Ktb Kdim Kext Knt Kfr Kfm Kfb Ktw Klw Kdom].
    unfold run_solution. cbv zeta.
    assert (HV : zprod (map (fun d => ext_e d - ext_b d) (c_dims c)) <? 1 = false).
    { assert (Fp : Forall (fun x => 0 < x) (map (fun d => ext_e d - ext_b d) (c_dims c))).
      { apply Forall_map. apply Forall_nth' with td0. intros j Hj. destruct (Kdim j Hj) as [Oh Of Ork Owa Osz _ Owsp Olx Orx Owf Oext Otb]. unfold ext_e, ext_b.
        assert (0 <= nsh) by (unfold wf_shifts; destruct (0 <? c_wf c) eqn:E; nia). nia. }
      pose proof (zprod_pos _ Fp). lia. }
    rewrite HV. set (w := Z.max (c_wf c) 1). assert (Hw : 1 <= w) by lia.
    set (e := last + dir_of first last). assert (Ed : dir_of first e = dir_of first last) by apply dir_dir.
    assert (Hd : dir_of first last = 1 \/ dir_of first last = -1) by (unfold dir_of; destruct (first <=? last); lia).
    assert (Hnsh : 0 <= nsh) by (unfold wf_shifts; destruct (0 <? c_wf c) eqn:E; nia).
    assert (Hts : tbb c = true -> c_tb c * nst <= tsh + 1) by (intros T; unfold tb_shifts, tbb in *; rewrite T; lia).
    assert (HD : forall s p, dom s p -> forall j, (j < n)%nat -> ext_b (D j) <= nth j p 0 < ext_e (D j)) by (intros s p Hp j Hj; apply (Kdom s p Hp); exact Hj).
    pose proof (rank_pass_good c h nsh Kf dom Kn Kbb Hnsh Kdim Knt (proj1 Kfr) Kfm (proj1 Kfb) (proj2 Kfr) (proj2 Kfb) (fun T => proj2 (Ktb T)) tsh Ktw Hts HD Klw) as RP.
    rewrite <- Ed.
    assert (CI : forall b' e', In (b', e') (step_chunks first e (w * dir_of first e)) -> exists i, 0 <= i /\ i * w < Z.abs (last - first) + 1 /\
       b' = first + (i * w) * dir_of first last /\ dir_of b' e' = dir_of first last /\ Z.abs (e' - b') = Z.min w (Z.abs (last - first) + 1 - i * w)).
    { intros b' e' H. destruct (chunk_In _ _ _ _ _ Hw H) as (i & H1 & H2 & H3 & H4 & H5). unfold e in H2, H4. rewrite dir_abs in H2, H4. fold e in H3, H4. rewrite Ed in *.
      exists i. split; [exact H1|]. split; [exact H2|]. split; [exact H3|]. split; [exact H5|]. rewrite H3, H4. destruct Hd as [-> | ->]; lia. }
    assert (TI : forall b' e' i t s sel, b' = first + (i * w) * dir_of first last -> 0 <= i -> i * w < Z.abs (last - first) + 1 -> dir_of b' e' = dir_of first last ->
       Z.abs (e' - b') = Z.min w (Z.abs (last - first) + 1 - i * w) ->
       (In (t, s) (todo_of c sel b' e') <-> (i * w <= Z.abs (t - first) < (i + 1) * w /\ (first <= t <= last \/ last <= t <= first)) /\ In s (sel_stages c sel))).
    { intros b' e' i t s sel Eb Hi Hi2 Edd El. rewrite todo_In, Edd, El. split; (intros (X & Hs); split; [|exact Hs]).
      - destruct X as (u & Hu & ->). unfold dir_of in *. destruct (first <=? last) eqn:Q; subst b'; nia.
      - destruct X as (X1 & X2). exists (Z.abs (t - first) - i * w). unfold dir_of in *. destruct (first <=? last) eqn:Q; subst b'; nia. }
    (* one chunk of steps *)
    assert (CH : forall be, In be (step_chunks first e (w * dir_of first e)) -> exists r,
       (if c_wf c =? 0 then rbind (rmap (fun s => rank_pass c (Some s) (fst be) (snd be)) (zseq nst)) (fun r => Ok (concat r)) else rank_pass c None (fst be) (snd be)) = Ok r /\
       good_regs c h Kf dom r (Qc (Z.abs (fst be - first) / w))).
    { intros (b', e') H. destruct (CI b' e' H) as (i & H1 & H2 & H3 & H4 & H5). cbn [fst snd].
      assert (Ei : Z.abs (b' - first) / w = i). { replace (Z.abs (b' - first)) with (i * w) by (destruct Hd as [X|X]; rewrite X in *; nia). apply Z.div_mul. lia. }
      rewrite Ei. clear Ei. destruct (c_wf c =? 0) eqn:W0.
      - assert (Ew : w = 1) by lia. assert (El : Z.abs (e' - b') = 1) by lia.
        destruct (rmap_good _ _ (fun s => rank_pass c (Some s) b' e') (fun s r => good_regs c h Kf dom r (fun t s' p => In (t, s') [(b', s)] /\ prk c SecAll 0 s' p)) (zseq nst)) as (rs & E & F).
        { intros s Hs. apply zseq_In in Hs. destruct (RP (Some s) b' e' (Kf b' s)) as (r & E & G).
          - intros T. destruct (Ktb T). lia.
          - rewrite todo_one by exact El. apply enum_some. exact Hs.
          - rewrite todo_one by exact El. cbn [length]. lia.
          - intros _. rewrite todo_one by exact El. cbn [length]. lia.
          - exists r. split; [exact E|]. rewrite todo_one in G by exact El. eapply gr_iff; [|exact G]. intros t s' p. split; intros ([X|[]] & P); (split; [left; exact X|]); injection X as <- <-; rewrite Z.sub_diag in *; exact P. }
        rewrite E. cbn [rbind]. eexists. split; [reflexivity|]. eapply gr_iff; [|apply (gr_concat _ _ _ _ _ _ _ _ F)].
        + intros t s' p. unfold Qc, shift_of. replace (0 <? c_wf c) with false by lia. fold w. split.
          * intros (s & Hs & [X|[]] & P). injection X as <- <-. apply zseq_In in Hs. split; [destruct Hd as [Y|Y]; rewrite Y in *; nia|]. split; [unfold dir_of in *; destruct (first <=? last) eqn:Q; nia|]. split; [exact Hs|exact P].
          * intros (X1 & X2 & Hs & P). exists s'. split; [apply zseq_In; exact Hs|]. split; [left|exact P]. f_equal. unfold dir_of in *; destruct (first <=? last) eqn:Q; nia.
        + apply pairs_impl with (P := fun x y => x < y).
          2:{ clear. unfold zseq. generalize (Z.to_nat nst). intros N. generalize 0%nat at 1. revert N. induction N as [|N IH]; intros a; [exact I|].
              cbn [seq map]. split; [|apply IH]. intros y Hy. apply in_map_iff in Hy. destruct Hy as (z & <- & Hz). apply in_seq in Hz. lia. }
          intros s1 s2 _ _ Hlt t s p t' s' q ([X|[]] & _) ([Y|[]] & _) HK _. injection X as <- <-. injection Y as <- <-. unfold Kf in HK. lia.
      - assert (Ew : w = c_wf c) by lia. assert (Wp : 0 < c_wf c) by lia.
        destruct (RP None b' e' ((i * w) * nst)) as (r & E & G).
        + reflexivity.
        + apply (enum_todo b' e' (i * w) (dir_of first last)); try assumption. nia.
        + rewrite todo_len, sel_all_len, H5. unfold wf_shifts. destruct (0 <? c_wf c) eqn:X; [|lia]. assert (Z.min w (Z.abs (last - first) + 1 - i * w) * nst <= c_wf c * nst) by nia. lia.
        + intros WF. unfold wfb in WF. lia.
        + exists r. split; [exact E|]. eapply gr_iff; [|exact G]. intros t s p. unfold Qc, shift_of. fold w. replace (0 <? c_wf c) with true by lia.
          assert (Ek : i * w <= Z.abs (t - first) < (i + 1) * w -> Kf t s - i * w * nst = (Z.abs (t - first) mod c_wf c) * nst + s).
          { intros X. rewrite <- Ew. assert (M : Z.abs (t - first) mod w = Z.abs (t - first) - i * w) by (symmetry; apply Zmod_unique with i; lia). rewrite M. unfold Kf. lia. }
          rewrite (TI b' e' i t s None H3 H1 H2 H4 H5). cbn [sel_stages]. rewrite zseq_In. split.
          * intros (((X1 & X2) & X3) & P). rewrite (Ek X1) in P. tauto.
          * intros (X1 & X2 & X3 & P). rewrite <- (Ek X1) in P. tauto. }
    match goal with |- exists r, rbind (rmap ?f ?l) _ = _ /\ _ => destruct (rmap_good _ _ f (fun be r => good_regs c h Kf dom r (Qc (Z.abs (fst be - first) / w))) l CH) as (rs & E & F) end.
    rewrite E. cbn [rbind]. eexists. split; [reflexivity|]. eapply gr_iff; [|apply (gr_concat _ _ _ _ _ _ _ _ F)].
    - intros t s p. split.
      + intros (be & Hbe & X1 & X2 & X3 & P). tauto.
      + intros (X1 & X2 & P). set (i := Z.abs (t - first) / w).
        assert (Hi : i * w <= Z.abs (t - first) < (i + 1) * w) by (pose proof (Z.div_mod (Z.abs (t - first)) w ltac:(lia)); pose proof (Z.mod_pos_bound (Z.abs (t - first)) w ltac:(lia)); nia).
        assert (Hi0 : 0 <= i) by (apply Z.div_pos; lia).
        pose (g := fun k => let start := first + k * (w * dir_of first e) in (start, if 0 <? w * dir_of first e then Z.min (start + w * dir_of first e) e else Z.max (start + w * dir_of first e) e)).
        assert (Hin : In (g i) (step_chunks first e (w * dir_of first e))).
        { unfold step_chunks. apply in_map_iff. exists i. split; [reflexivity|]. apply zseq_In. split; [exact Hi0|].
          assert (Ea : Z.abs (w * dir_of first e) = w) by (rewrite Ed; destruct Hd as [-> | ->]; lia). rewrite Ea. unfold e. rewrite dir_abs.
          pose proof (CEIL_DIV_bounds (Z.abs (last - first) + 1) w ltac:(lia) ltac:(lia)) as C. nia. }
        exists (g i). split; [exact Hin|]. assert (Ei : Z.abs (fst (g i) - first) / w = i).
        { cbn [g fst]. rewrite Ed. replace (Z.abs (first + i * (w * dir_of first last) - first)) with (i * w) by (destruct Hd as [-> | ->]; nia). apply Z.div_mul. lia. }
        rewrite Ei. split; [exact Hi|]. tauto.
    - assert (Inc : pairs (fun be be' => Z.abs (fst be - first) / w < Z.abs (fst be' - first) / w) (step_chunks first e (w * dir_of first e))).
      { unfold step_chunks. apply pairs_map. apply pairs_impl with (P := fun x y => x < y).
        2:{ clear. unfold zseq. generalize (Z.to_nat (CEIL_DIV (Z.abs (e - first)) (Z.abs (w * dir_of first e)))). intros N. generalize 0%nat at 1. revert N. induction N as [|N IH]; intros a; [exact I|].
            cbn [seq map]. split; [|apply IH]. intros y Hy. apply in_map_iff in Hy. destruct Hy as (z & <- & Hz). apply in_seq in Hz. lia. }
        intros x y Hx Hy L. apply zseq_In in Hx, Hy. cbn [fst]. rewrite Ed.
        replace (Z.abs (first + x * (w * dir_of first last) - first)) with (x * w) by (destruct Hd as [-> | ->]; nia).
        replace (Z.abs (first + y * (w * dir_of first last) - first)) with (y * w) by (destruct Hd as [-> | ->]; nia). rewrite !Z.div_mul by lia. exact L. }
      eapply pairs_impl; [|exact Inc]. intros x y _ _ L t s p t' s' q (A1 & A2 & A3 & _) (B1 & B2 & B3 & _) HK _. fold w in A1, B1.
      cbn beta in L. set (a := Z.abs (fst x - first) / w) in *. set (b := Z.abs (fst y - first) / w) in *. clearbody a b.
      assert ((a + 1) * w <= b * w) by (apply Z.mul_le_mono_nonneg_r; lia). unfold Kf in HK. assert (Z.abs (t - first) < Z.abs (t' - first)) by lia.
      assert ((Z.abs (t - first) + 1) * nst <= Z.abs (t' - first) * nst) by (apply Z.mul_le_mono_nonneg_r; lia). lia.
  Qed.
End Run.

(* ===== what the run leaves in memory ===== *)

Section Exec.
  Variables (c : tcfg) (h : nat -> Z) (dom : Z -> list Z -> Prop) (first last : Z).
  Hypothesis Ok1 : cfg_ok c h dom.
  Notation n := (length (c_dims c)).
  Notation D j := (nth j (c_dims c) td0).
  Notation nst := (c_nst c).
  Notation nsh := (wf_shifts nst (c_wf c)).
  Notation K := (Kf c first).
  Notation badx := (bad c h K).

  Lemma shift_le : forall t s, 0 <= s < nst -> 0 <= shift_of c first t s <= nsh.
  Proof.
    intros t s Hs. pose proof (k_nst _ _ _ Ok1). clear Ok1. unfold shift_of, wf_shifts. destruct (0 <? c_wf c) eqn:W; [|lia].
    pose proof (Z.mod_pos_bound (Z.abs (t - first)) (c_wf c) ltac:(lia)) as M. nia.
  Qed.

  Lemma in_run_Q : forall x, dom (i_s x) (i_p x) ->
    (((first <= i_t x <= last \/ last <= i_t x <= first) /\ 0 <= i_s x < nst /\ prk c SecAll (shift_of c first (i_t x) (i_s x)) (i_s x) (i_p x)) <-> in_run c dom first last x).
  Proof.
    intros x Hd. destruct (k_dom _ _ _ Ok1 _ _ Hd) as (L & Hd'). unfold in_run. split.
    - intros (A & B & _ & P). split; [exact A|]. split; [exact B|]. split; [exact Hd|]. intros j Hj. apply (P j Hj).
    - intros (A & B & _ & P). split; [exact A|]. split; [exact B|]. split; [exact L|]. intros j Hj. specialize (P j Hj). destruct (Hd' j Hj) as (E & Bb).
      pose proof (shift_le (i_t x) (i_s x) B) as Sh. destruct (k_dim _ _ _ Ok1 j Hj) as [Oh Of Ork Owa Osz _ Owsp Olx Orx Owf Oext Otb].
      split; [|split; [exact Bb|split; [exact P|exact I]]]. set (k := shift_of c first (i_t x) (i_s x)) in *.
      unfold rk_e, wfb, ext_e, ext_b, ext_in, wf_shifts in *. destruct P as (P1 & P2). destruct (0 <? c_wf c) eqn:W; cbn [andb].
      + destruct (t_rx (D j) =? 0) eqn:R; nia.
      + rewrite Z.mul_0_r in *. assert (k = 0) by lia. nia.
  Qed.

  Lemma dirs : direction first last = dir_of first last /\ (direction first last = 1 \/ direction first last = -1).
  Proof using. unfold direction, dir_of. split; [reflexivity|]. destruct (first <=? last); lia. Qed.

  Lemma step_K : forall a b, between first last (i_t a) -> between first last (i_t b) -> 0 <= i_s a < nst -> 0 <= i_s b < nst ->
    (step_order (direction first last) a b <-> K (i_t a) (i_s a) < K (i_t b) (i_s b)).
  Proof.
    clear Ok1. unfold between, step_order, direction, Kf. intros a b Ha Hb Sa Sb.
    destruct (first <=? last) eqn:E.
    - replace (Z.abs (i_t a - first)) with (i_t a - first) by lia. replace (Z.abs (i_t b - first)) with (i_t b - first) by lia. nia.
    - replace (Z.abs (i_t a - first)) with (first - i_t a) by lia. replace (Z.abs (i_t b - first)) with (first - i_t b) by lia. nia.
  Qed.

  Theorem run_main : exists regs, run_solution c first last = Ok regs /\ forall l, runs_regions (programs dom regs) l ->
    NoDup l /\ (forall x, In x l <-> in_run c dom first last x) /\ pairs (fun x y => ~ badx y x) l.
  Proof.
    destruct (run_good c h dom first last Ok1) as (regs & E & G). exists regs. split; [exact E|]. intros l R.
    destruct G as [G1 G2 G3 G4]. change (programs dom regs) with (map (map (map (task dom))) regs) in R.
    assert (Sub : forall g, In g regs -> forall th, In th g -> forall e, In e th -> In e (evs regs)).
    { intros g Hg th Hth e He. apply evs_In. exists g. split; [exact Hg|]. apply in_concat. exists th. split; assumption. }
    assert (TO : forall e, task_ok badx (task dom e)).
    { intros e x y (X1 & X2 & X3 & X4) (Y1 & Y2 & Y3 & Y4) (B1 & B2). unfold Kx in B2. rewrite X1, X2, Y1, Y2, Z.sub_diag in B2.
      destruct (k_dom _ _ _ Ok1 _ _ X4) as (Lx & _). destruct (k_dom _ _ _ Ok1 _ _ Y4) as (Ly & _).
      assert (i_p x = i_p y). { apply (nth_ext _ _ 0 0); [congruence|]. intros j Hj. rewrite Lx in Hj. specialize (B2 j Hj). rewrite Z.mul_0_r in B2. lia. }
      destruct x as [tx sx px], y as [ty sy py]. cbn in *. congruence. }
    assert (P : pairs (fun x y => ~ badx y x) l).
    { apply (regions_pairs badx _ _ R).
      - intros g Hg. apply in_map_iff in Hg. destruct Hg as (g0 & <- & Hg). destruct (G1 g0 Hg) as (A & B). split; [|split].
        + intros t k Ht Hk. apply in_map_iff in Ht. destruct Ht as (th & <- & Hth). apply in_map_iff in Hk. destruct Hk as (e & <- & He). apply TO.
        + intros t Ht. apply in_map_iff in Ht. destruct Ht as (th & <- & Hth). apply pairs_map. apply (A th Hth).
        + apply pairs_map. eapply pairs_impl; [|exact B]. intros th th' _ _ H k k' Hk Hk'. apply in_map_iff in Hk, Hk'. destruct Hk as (e & <- & He), Hk' as (e' & <- & He'). exact (H e e' He He').
      - apply pairs_map. eapply pairs_impl; [|exact G2]. intros g g' _ _ H t k t' k' Ht Hk Ht' Hk'.
        apply in_map_iff in Ht, Ht'. destruct Ht as (th & <- & Hth), Ht' as (th' & <- & Hth'). apply in_map_iff in Hk, Hk'. destruct Hk as (e & <- & He), Hk' as (e' & <- & He').
        apply H; apply in_concat; eexists; split; eassumption. }
    assert (NB : forall x, ~ ~ badx x x).
    { intros x N. apply N. split; [lia|]. intros j Hj. rewrite !Z.sub_diag, Z.mul_0_r. cbn. lia. }
    split; [|split; [|exact P]].
    - eapply pairs_NoDup; [|exact P]. exact NB.
    - intros x. rewrite (regions_In _ _ R x). split.
      + intros (g & t & k & Hg & Ht & Hk & Hx). apply in_map_iff in Hg. destruct Hg as (g0 & <- & Hg). apply in_map_iff in Ht. destruct Ht as (th & <- & Hth).
        apply in_map_iff in Hk. destruct Hk as (e & <- & He). destruct Hx as (X1 & X2 & X3 & X4). apply in_run_Q; [exact X4|]. rewrite X1, X2. apply G3; [|exact X3]. exact (Sub g0 Hg th Hth e He).
      + intros Hx. assert (Hd : dom (i_s x) (i_p x)) by apply Hx. apply in_run_Q in Hx; [|exact Hd]. destruct (G4 _ _ _ Hd Hx) as (e & He & X1 & X2 & X3).
        apply evs_In in He. destruct He as (g & Hg & He). apply in_concat in He. destruct He as (th & Hth & He).
        exists (map (map (task dom)) g), (map (task dom) th), (task dom e). split; [apply in_map; exact Hg|]. split; [apply in_map; exact Hth|]. split; [apply in_map; exact He|].
        repeat split; auto.
  Qed.

  Lemma halo_bad : forall V (alloc : Z -> Z) (st : stencil V) a b, halo_stencil n h st -> (forall j, (j < n)%nat -> 0 <= h j) ->
    K (i_t a) (i_s a) < K (i_t b) (i_s b) -> conflict alloc st a b -> badx a b.
  Proof.
    clear Ok1. intros V alloc st a b [H1 H2] Hh HK (cl & C). split; [unfold Kx; lia|]. intros j Hj.
    assert (P : forall e e', cell_of alloc e = cell_of alloc e' -> fst (fst e) = fst (fst e') /\ snd e = snd e').
    { intros ((v, u), q) ((v', u'), q') Ec. cbn in *. injection Ec as -> _ ->. split; reflexivity. }
    assert (B : Z.abs (nth j (i_p a) 0 - nth j (i_p b) 0) <= h j).
    { unfold wr_cells, rd_cells in C. destruct C as [(Ca & [Cb|Cb])|(Ca & Cb)]; apply in_map_iff in Ca, Cb; destruct Ca as (e & Ea & Ia), Cb as (e' & Eb & Ib);
      destruct (P e e' ltac:(congruence)) as (P1 & P2).
      - pose proof (H2 b a e' e Ib Ia ltac:(congruence) j Hj). pose proof (H1 a e Ia j Hj). rewrite P2 in *. lia.
      - pose proof (H1 a e Ia j Hj). pose proof (H1 b e' Ib j Hj). rewrite P2 in *. specialize (Hh j Hj). lia.
      - pose proof (H2 a b e e' Ia Ib ltac:(congruence) j Hj). pose proof (H1 b e' Ib j Hj). rewrite P2 in *. lia. }
    unfold Kx. specialize (Hh j Hj). nia.
  Qed.
  Lemma same_stage : forall V (alloc : Z -> Z) (st : stencil V) a b, halo_stencil n h st -> stage_indep alloc st -> length (i_p a) = n -> length (i_p b) = n ->
    a <> b -> i_t a = i_t b -> i_s a = i_s b -> ~ conflict alloc st a b.
  Proof.
    clear Ok1. intros V alloc st a b [H1 H2] SI La Lb N Et Es (cl & C). unfold wr_cells, rd_cells in C.
    destruct C as [(Ca & [Cb|Cb])|(Ca & Cb)]; apply in_map_iff in Ca, Cb; destruct Ca as (e & Ea & Ia), Cb as (e' & Eb & Ib).
    - exact (SI b a e' e (eq_sym Et) (eq_sym Es) (not_eq_sym N) Ib Ia ltac:(congruence)).
    - apply N. assert (i_p a = i_p b). { apply (nth_ext _ _ 0 0); [congruence|]. intros j Hj. rewrite La in Hj. rewrite <- (H1 a e Ia j Hj), <- (H1 b e' Ib j Hj).
        destruct e as ((v, u), q), e' as ((v', u'), q'). cbn in *. congruence. }
      destruct a as [ta sa pa], b as [tb sb pb]. cbn in *. congruence.
    - exact (SI a b e e' Et Es N Ia Ib ltac:(congruence)).
  Qed.

  Theorem run_exec : forall regs l V (alloc : Z -> Z) (st : stencil V), run_solution c first last = Ok regs -> runs_regions (programs dom regs) l ->
    halo_stencil n h st -> stage_indep alloc st ->
    forall r, Permutation r l -> plain_run (direction first last) r -> forall m cl, exec alloc st l m cl = exec alloc st r m cl.
  Proof.
    intros regs l V alloc st E R HS SI r P Pl m. destruct run_main as (regs' & E' & M). rewrite E in E'. injection E' as <-. destruct (M l R) as (N & I & Pr).
    assert (Ir : forall x, In x r -> in_run c dom first last x) by (intros x Hx; apply I; eapply Permutation_in; eassumption).
    apply (order_exec alloc st (direction first last) (proj2 dirs) badx r l m); try assumption.
    - eapply Permutation_NoDup; [apply Permutation_sym; exact P|exact N].
    - intros a b Ia Ib Nab Et Es. destruct (Ir a Ia) as (_ & _ & Da & _). destruct (Ir b Ib) as (_ & _ & Db & _).
      apply same_stage; try assumption; [apply (k_dom _ _ _ Ok1 _ _ Da)|apply (k_dom _ _ _ Ok1 _ _ Db)].
    - intros a b Ia Ib O C. destruct (Ir a Ia) as (A1 & A2 & _). destruct (Ir b Ib) as (B1 & B2 & _). apply (halo_bad _ alloc st); try assumption.
      + intros j Hj. apply (o_h _ _ _ _ (k_dim _ _ _ Ok1 j Hj)).
      + apply step_K; assumption.
  Qed.

  (* values read at a shift of a wave-front are calculated, or were there before the wave-front began *)
  Lemma run_needs : forall x y, in_run c dom first last x -> between first last (i_t y) -> 0 <= i_s y < nst -> dom (i_s y) (i_p y) ->
    0 < c_wf c -> Z.abs (i_t x - first) / c_wf c = Z.abs (i_t y - first) / c_wf c -> K (i_t y) (i_s y) < K (i_t x) (i_s x) ->
    (forall j, (j < n)%nat -> h j <= t_wa (D j)) -> near c h (i_p x) (i_p y) (K (i_t x) (i_s x) - K (i_t y) (i_s y)) -> in_run c dom first last y.
  Proof.
    intros x y (X1 & X2 & X3 & X4) Y1 Y2 Y3 W Eq HK Ha N. split; [exact Y1|]. split; [exact Y2|]. split; [exact Y3|]. intros j Hj. specialize (X4 j Hj). specialize (N j Hj). specialize (Ha j Hj).
    assert (Es : K (i_t x) (i_s x) - K (i_t y) (i_s y) = shift_of c first (i_t x) (i_s x) - shift_of c first (i_t y) (i_s y)).
    { unfold shift_of, Kf. replace (0 <? c_wf c) with true by lia. pose proof (Z.div_mod (Z.abs (i_t x - first)) (c_wf c) ltac:(lia)). pose proof (Z.div_mod (Z.abs (i_t y - first)) (c_wf c) ltac:(lia)). nia. }
    unfold ext_in in *. rewrite Es in N. destruct X4 as (A & B). split; intros Z0; [specialize (A Z0)|specialize (B Z0)]; nia.
  Qed.
End Exec.
