From Coq Require Import ZifyBool.
From Verif Require Import Base Cover_Spec Idiv_Model Loops_Model Tile_Model Sched_Spec Tile_Spec TileCfg_Spec Tile3_Proofs Tile4_Proofs Tile5_Proofs
  Adjust_Model Adjust_Spec Adjust_Proofs Tuner_Model Tuner_Spec Tuner_Proofs Tuner2_Proofs Tuner3_Proofs Retune_Model Retune_Spec.

(* The same dims with other tile sizes *)
Definition same_dim (s s' : sdim) : Prop :=
  d_fold s' = d_fold s /\ d_halo s' = d_halo s /\ d_rb s' = d_rb s /\ d_rksz s' = d_rksz s /\ d_nranks s' = d_nranks s /\ d_first s' = d_first s /\ d_last s' = d_last s /\
  d_ib s' = d_ib s /\ d_ie s' = d_ie s.

Lemma retune_eq : forall ss ss' bbs mg_t mg_t' bk_t bk_t' ru overlap fr fm fb nt c,
  Forall2 (fun s s' => same_dim s s' /\ wf_angle s' = wf_angle s) ss ss' -> wf_steps mg_t' bk_t' = wf_steps mg_t bk_t ->
  setup ss bbs mg_t bk_t ru overlap fr fm fb nt = Ok c ->
  setup ss' bbs mg_t' bk_t' ru overlap fr fm fb nt = Ok (retune c ss' bk_t' ru).
Proof.
  intros ss ss' bbs mg_t mg_t' bk_t bk_t' ru overlap fr fm fb nt c F W E. unfold setup in *. rewrite W. set (nst := Z.of_nat (length bbs)) in *. set (wf := wf_steps mg_t bk_t) in *.
  destruct (forallb (wf_fits nst wf) ss) eqn:G; [|discriminate].
  assert (G' : forallb (wf_fits nst wf) ss' = true).
  { rewrite forallb_forall in *. intros s' Hs'. clear E. revert G. induction F as [|s t l l' (D & A) F IH]; intros G; [destruct Hs'|].
    destruct Hs' as [<-|Hs']; [|apply IH; [exact Hs'|intros x Hx; apply G; right; exact Hx]].
    specialize (G s (or_introl eq_refl)). destruct D as (D1 & D2 & D3 & D4 & D5 & _). unfold wf_fits in *. rewrite A, D2, D4, D5. exact G. }
  rewrite G'. inversion E as [E1]. unfold retune. cbn [c_wf c_dims c_bbs c_overlap c_fr c_fm c_fb c_nt]. unfold c_nst. cbn [c_bbs]. fold nst.
  f_equal. f_equal. clear E E1 G G'. set (tb := tb_steps nst wf bk_t' ru ss'). clearbody tb. generalize (tb_steps nst wf bk_t ru ss). intros tb0.
  induction F as [|s t l l' (D & A) F IH]; [reflexivity|]. cbn [map combine fst snd]. f_equal; [|exact IH].
  destruct D as (D1 & D2 & D3 & D4 & D5 & D6 & D7 & D8 & D9). unfold retune_dim, setup_dim. cbn [t_fold t_rb t_re t_lx t_rx t_wa t_wsp t_ib t_ie].
  rewrite A, D1, D3, D4, D6, D7, D8, D9. reflexivity.
Qed.

(* dims_of, dim by dim *)
Lemma size_dims_len : forall ss mg bk mc x y z n, length ss = n -> length mg = n -> length bk = n -> length mc = n -> length x = n -> length y = n -> length z = n ->
  length (size_dims ss mg bk mc x y z) = n.
Proof.
  induction ss as [|s ss IH]; intros mg bk mc x y z n L; [cbn in *; intros; exact L|]. destruct n as [|n]; [discriminate|]. intros.
  destruct mg, bk, mc, x, y, z; try discriminate. cbn [size_dims length]. f_equal. apply IH; cbn in *; congruence.
Qed.
Lemma size_dims_nth : forall ss mg bk mc x y z j s', nth_error (size_dims ss mg bk mc x y z) j = Some s' ->
  exists s, nth_error ss j = Some s /\ same_dim s s' /\ nth_error mg j = Some (d_mgsz s') /\ nth_error bk j = Some (d_bksz s') /\ nth_error mc j = Some (d_mcsz s').
Proof.
  induction ss as [|s ss IH]; intros mg bk mc x y z j s' E; [destruct j; discriminate|].
  destruct mg, bk, mc, x, y, z; try (destruct j; discriminate). destruct j as [|j]; cbn [size_dims nth_error] in *; [|exact (IH _ _ _ _ _ _ _ _ E)].
  inversion E as [E1]. exists s. repeat split.
Qed.
Lemma same_trans : forall s a b, same_dim s a -> same_dim s b -> same_dim a b.
Proof. unfold same_dim. intuition congruence. Qed.
Lemma Forall2_nth : forall A B (P : A -> B -> Prop) l l', length l = length l' -> (forall j a b, nth_error l j = Some a -> nth_error l' j = Some b -> P a b) -> Forall2 P l l'.
Proof.
  induction l as [|a l IH]; intros [|b l'] L H; try discriminate; constructor; [apply (H O); reflexivity|]. apply IH; [cbn in L; congruence|]. intros j x y. apply (H (S j)).
Qed.

(* What the tuner leaves alone when mega-blocks are no target *)
Section Keep.
  Variables (e : tenv) (R : sizes).
  Let a := t_a e.
  Let n := length (z_d R).
  Hypotheses (Pr : pos (z_d R)) (Pf : pos (a_fold a)) (Lf : length (a_fold a) = n) (Nz : n <> O) (Ht : Forall known_t (t_targets e)).
  Hypothesis Nm : ~ In TMega (t_targets e).
  Variables (M0 : sizes) (t0 : Z).

  Record keeps (s : tstate) : Prop := mkKeeps {
    p_mega : l_mg (lv (u_k s)) = M0;
    p_t : z_t (l_bk (lv (u_k s))) = t0;
    p_req : levM a R (lv (u_req s)) = M0;
    p_rt : Z.max (z_t (l_bk (lv (u_req s)))) 0 = t0;
    p_lev : exists l, lenL n l /\ lv (u_k s) = lev a R l;
    p_rank : k_rank (u_k s) = R;
    p_tl : tl n (u_k s) }.

  (* replacing the size of a target *)
  Lemma lev_other : forall g l v, g <> TMega -> Z.max (z_t (l_bk l)) 0 = t0 -> (g = TBlock -> z_t v = t0) ->
    levM a R (setL g v l) = levM a R l /\ Z.max (z_t (l_bk (setL g v l))) 0 = t0 /\ z_t (l_bk (lev a R (setL g v l))) = t0.
  Proof.
    intros g l v Hg T V. assert (T0 : 0 <= t0) by lia. destruct g; try congruence; cbn [setL l_bk l_mg]; try (split; [reflexivity|]; split; [exact T|]; cbn; exact T).
    specialize (V eq_refl). unfold levM. cbn [l_mg l_bk setL]. rewrite V, T. replace (Z.max t0 0) with t0 by lia. split; [reflexivity|]. split; [reflexivity|]. cbn. lia.
  Qed.

  Lemma keeps_during : forall g s s', during e R g s -> keeps s -> base R s' -> g <> TMega -> z_t (cur g s') = z_t (cur g s) ->
    (lv (u_k s') = lev a R (setL g (cur g s') (lv (u_req s))) /\ u_req s' = u_req s \/
     lv (u_k s') = lev a R (lv (u_req s')) /\ u_req s' = set_t g (cur g s') (u_req s)) -> keeps s'.
  Proof.
    intros g s s' D [K1 K2 K3 K4 _ _ _] B Hg Zt H. 
    assert (V : g = TBlock -> z_t (cur g s') = t0) by (intros ->; rewrite Zt; exact K2).
    destruct (lev_other g (lv (u_req s)) (cur g s') Hg K4 V) as (A1 & A2 & A3).
    assert (Ls : lenL n (setL g (cur g s') (lv (u_req s)))) by (apply lenL_set; [apply (d_base _ _ _ _ D)|apply lenL_get; apply B]).
    destruct H as [(H1 & H2)|(H1 & H2)].
    - constructor; [rewrite H1; cbn [lev l_mg]; congruence|rewrite H1; exact A3|rewrite H2; exact K3|rewrite H2; exact K4|eexists; split; [exact Ls|exact H1]|apply B|apply B].
    - assert (H3 : lv (u_req s') = setL g (cur g s') (lv (u_req s))) by (rewrite H2 at 1; apply lv_set). rewrite H3 in H1.
      constructor; [rewrite H1; cbn [lev l_mg]; congruence|rewrite H1; exact A3|rewrite H3; congruence|rewrite H3; exact A2|eexists; split; [exact Ls|exact H1]|apply B|apply B].
  Qed.

  Lemma tgt_ne : forall g i, nth_error (t_targets e) i = Some g -> g <> TMega.
  Proof using Nm. intros g i E ->. apply Nm. eapply nth_error_In. exact E. Qed.

  Definition live (s : tstate) : Prop := ready e R s /\ keeps s.
  Lemma live_step : forall s s' o, live s -> measured o -> eval e o s = Ok s' -> live s'.
  Proof using Pr Pf Lf Nz Ht Nm.
    intros s s' o (Rd & K) Hm E. destruct (ready_step e R Pr Pf Lf Nz Ht s o Rd Hm) as (s2 & E2 & R2 & _). rewrite E in E2. inversion E2; subst s2. clear E2.
    split; [exact R2|]. clear R2. destruct Rd as [H|[H|(g & H & Hf)]].
    - unfold eval in E. rewrite H in E. inversion E; subst. exact K.
    - destruct H as [HB HL (F1 & F2 & F3) S]. unfold eval in E. rewrite F1 in E. cbn [with_steps u_warm u_csteps] in E. rewrite F2 in E.
      destruct (negb (o_warm o) && (u_csteps s + o_steps o <? warmup_steps)); [inversion E; subst s'; destruct K; constructor; assumption|].
      match type of E with context [next_target e ?t] => set (s1 := t) in E end.
      assert (B1 : base R s1) by (destruct HB; constructor; assumption).
      assert (K1 : keeps s1) by (destruct K; constructor; assumption).
      destruct (next_ok e R Pr Pf Lf Nz Ht s1 B1 HL F1) as [(N1 & s3 & E3 & T3 & K3 & W3)|(s3 & g' & N1 & E3 & D3 & I3 & R3 & C3 & K3 & W3)]; rewrite E3 in E; cbn [rbind snd fst] in E.
      + unfold clear, apply_best in E. rewrite T3 in E. cbn [rbind] in E. inversion E; subst s'. destruct K1. constructor; cbn; rewrite ?K3, ?W3; assumption.
      + inversion E; subst s'. pose proof (d_base _ _ _ _ D3) as [? ? ? ? ?]. destruct K1. constructor; rewrite ?K3, ?W3; assumption.
    - destruct Hm as [O1 O2]. destruct (eval_ok e R Pr Pf Lf Nz Ht g o s H Hf (mkObsOk o O1 O2)) as (s2 & E2 & St). rewrite E in E2. inversion E2; subst s2. clear E2.
      pose proof (tgt_ne g _ (d_ti _ _ _ _ H)) as Hg.
      destruct St as [D1 D2 D3 D4 D5 D6 D7|D1 D2 D3 D4 D5 D6 D7 D8 D9 D10 D11 D12|g' D1 D2 D3 D4 D5 D6|D1 D2 D3 D4 D5].
      + destruct K. constructor; rewrite ?D3, ?D7; assumption.
      + eapply keeps_during; [exact H|exact K|exact (d_base _ _ _ _ D1)|exact Hg|exact D12|]. left. split; [|exact D9]. rewrite <- D9. exact (d_fix _ _ _ _ D1).
      + destruct D6 as (X1 & X2 & X3). eapply keeps_during; [exact H|exact K|exact (d_base _ _ _ _ D1)|exact Hg|exact X3|]. right. auto.
      + destruct D4 as (X1 & X2 & X3). eapply keeps_during; [exact H|exact K|exact D5|exact Hg|exact X3|]. right. auto.
  Qed.
  Lemma live_run : forall os s s', live s -> Forall measured os -> run_tuner e os s = Ok s' -> live s'.
  Proof using Pr Pf Lf Nz Ht Nm.
    induction os as [|o os IH]; intros s s' L Ho E; [inversion E; subst; exact L|]. inversion Ho as [|? ? Ho1 Ho2]; subst. unfold run_tuner in E. cbn [rfold] in E.
    destruct (eval e o s) as [s1| | |] eqn:E1; try discriminate. cbn [rbind] in E. apply (IH s1 s'); [|exact Ho2|exact E]. eapply live_step; eassumption.
  Qed.
End Keep.

(* From the settings *)
Lemma tuned_keeps : forall e req k os s, tuner_settings e req -> ~ In TMega (t_targets e) -> adjust_settings (t_a e) req = Ok k -> Forall measured os ->
  run_tuner e os (new_tuner e k req) = Ok s ->
  keeps e (k_rank req) (k_mega k) (z_t (k_block k)) (new_tuner e k req) /\ keeps e (k_rank req) (k_mega k) (z_t (k_block k)) s.
Proof.
  intros e req k os s H Nm E Ho Es. destruct (start_ready e req k H E) as ((A & B & C & D & F) & W).
  assert (K : keeps e (k_rank req) (k_mega k) (z_t (k_block k)) (new_tuner e k req)).
  { destruct W as [[W1 W2 W3 W4 W5] WL _ _]. cbn [new_tuner u_k u_req] in *.
    constructor; cbn [new_tuner u_k u_req]; [reflexivity|reflexivity| | |eexists; split; [exact W4|exact WL]|exact W1|exact W3].
    - change (k_mega k) with (l_mg (lv k)). rewrite WL. reflexivity.
    - change (k_block k) with (l_bk (lv k)). rewrite WL. reflexivity. }
  split; [exact K|]. apply (live_run e (k_rank req) A B C D F Nm (k_mega k) (z_t (k_block k)) os (new_tuner e k req) s); [|exact Ho|exact Es]. split; [right; left; exact W|exact K].
Qed.

Section Dims.
  Variables (e : tenv) (R : sizes) (M0 : sizes) (t0 : Z).
  Hypotheses (Pr : pos (z_d R)) (Pf : pos (a_fold (t_a e))) (Lf : length (a_fold (t_a e)) = length (z_d R)).
  Variables (ss : list sdim) (overlap : bool).
  Hypothesis Rd : rank_dims (a_fold (t_a e)) R overlap ss.
  Variable s : tstate.
  Hypothesis K : keeps e R M0 t0 s.

  Lemma keep_len : length (dims_of ss (u_k s)) = length (z_d R).
  Proof using Pr Pf Lf Rd K.
    destruct K as [_ _ _ _ (l & Ll & El) _ Tl]. unfold dims_of. change (k_mega (u_k s)) with (l_mg (lv (u_k s))). change (k_block (u_k s)) with (l_bk (lv (u_k s))). change (k_micro (u_k s)) with (l_mc (lv (u_k s))).
    destruct (lev_nested (t_a e) R Pr Pf Lf l Ll) as ((A & B & C & _) & _). rewrite El. repeat match goal with H : tl _ _ |- _ => unfold tl in H | H : Forall _ (_ :: _) |- _ => inversion H; clear H; subst end.
    apply size_dims_len; try assumption. apply Rd.
  Qed.
  Lemma keep_dim : forall j d, nth_error (dims_of ss (u_k s)) j = Some d -> exists d0, nth_error ss j = Some d0 /\ same_dim d0 d /\ nth_error (z_d M0) j = Some (d_mgsz d) /\ dim_settings overlap d.
  Proof using Pr Pf Lf Rd K.
    intros j d E. apply size_dims_nth in E. destruct E as (d0 & E0 & Sd & Em & Eb & Ec). exists d0. split; [exact E0|]. split; [exact Sd|]. 
    destruct K as [KM _ _ _ (l & Ll & El) _ _]. change (k_mega (u_k s)) with (l_mg (lv (u_k s))) in Em. change (k_block (u_k s)) with (l_bk (lv (u_k s))) in Eb. change (k_micro (u_k s)) with (l_mc (lv (u_k s))) in Ec.
    split; [rewrite <- KM; exact Em|]. rewrite El in Em, Eb, Ec. destruct Rd as (Ls & Rd'). specialize (Rd' j d0 E0). destruct Rd' as [R1 R2 R3 R4 R5 R6 R7].
    destruct Sd as (D1 & D2 & D3 & D4 & D5 & D6 & D7 & D8 & D9).
    assert (Hj : (j < length (z_d R))%nat) by (rewrite <- Ls; apply nth_error_Some; congruence).
    destruct (nth_error (a_fold (t_a e)) j) as [f|] eqn:Ef; [|apply nth_error_None in Ef; lia]. destruct (nth_error (z_d R) j) as [r|] eqn:Er; [|apply nth_error_None in Er; lia].
    assert (Nf : nth j (a_fold (t_a e)) 0 = f) by (apply nth_error_nth; exact Ef). assert (Nr : nth j (z_d R) 0 = r) by (apply nth_error_nth; exact Er). rewrite Nf in *. rewrite Nr in *.
    assert (Pf1 : 1 <= f) by (unfold pos in Pf; rewrite Forall_forall in Pf; apply Pf; eapply nth_error_In; exact Ef).
    destruct (in_rank e R Pr Pf Lf l TMega Ll ltac:(discriminate)) as ((_ & N1) & _). destruct (in_rank e R Pr Pf Lf l TBlock Ll ltac:(discriminate)) as ((_ & N2) & _). destruct (in_rank e R Pr Pf Lf l TMicro Ll ltac:(discriminate)) as ((_ & N3) & _).
    destruct (N1 j r f _ Er Ef Em) as (X1 & _). destruct (N2 j r f _ Er Ef Eb) as (X2 & Y2). destruct (N3 j r f _ Er Ef Ec) as (X3 & _). clear N1 N2 N3.
    constructor; rewrite ?D1, ?D2, ?D3, ?D4, ?D5, ?D6, ?D7, ?D8, ?D9, ?R1, ?R2; try assumption; try lia.
    destruct Y2 as [->|Y2]; [lia|]. apply Z.divide_pos_le; [lia|exact Y2].
  Qed.
  Lemma keep_halo : forall j, halo_of (dims_of ss (u_k s)) j = halo_of ss j.
  Proof using Pr Pf Lf Rd K.
    intros j. unfold halo_of. destruct (nth_error (dims_of ss (u_k s)) j) as [d|] eqn:E.
    - destruct (keep_dim j d E) as (d0 & E0 & (_ & Q & _) & _). rewrite E0. exact Q.
    - apply nth_error_None in E. rewrite keep_len in E. destruct Rd as (Ls & _). replace (nth_error ss j) with (@None sdim); [reflexivity|]. symmetry. apply nth_error_None. lia.
  Qed.
  Lemma keep_settings : forall bbs mg_t bk_t fr fm fb nt, loops_ok (length (z_d R)) bbs fr fm fb nt -> z_d R <> [] -> 0 <= mg_t -> 0 <= bk_t ->
    settings_ok (dims_of ss (u_k s)) bbs mg_t bk_t overlap fr fm fb nt.
  Proof using Pr Pf Lf Rd K.
    intros bbs mg_t bk_t fr fm fb nt [L1 L2 L3] Nz H1 H2. pose proof keep_len as Ln. constructor; rewrite ?Ln.
    - split; [intros Q; rewrite Q in Ln; apply Nz; apply length_zero_iff_nil; symmetry; exact Ln|]. apply Forall_forall. intros d Hd. apply In_nth_error in Hd. destruct Hd as (j & Hj). destruct (keep_dim j d Hj) as (_ & _ & _ & _ & Q). exact Q.
    - exact L1.
    - auto.
    - exact L2.
    - destruct L3 as (_ & _ & _ & _ & _ & Q). congruence.
    - tauto.
  Qed.
End Dims.

Lemma halo_ext : forall V n h h' (st : stencil V), (forall j, h' j = h j) -> halo_stencil n h st -> halo_stencil n h' st.
Proof. intros V n h h' st E [A B]. constructor; [exact A|]. intros. rewrite E. eapply B; eassumption. Qed.

(* Both sides of a run of the tuner *)
Section Both.
  Variables (e : tenv) (req k : kset) (os : list obs) (s : tstate) (ss : list sdim) (bbs : list (list (Z * Z))) (ru overlap : bool) (fr fm fb : feats) (nt : Z) (c : tcfg).
  Hypotheses (H : tuner_settings e req) (Nm : ~ In TMega (t_targets e)) (E : adjust_settings (t_a e) req = Ok k) (Ho : Forall measured os)
    (Es : run_tuner e os (new_tuner e k req) = Ok s) (Rd : rank_dims (a_fold (t_a e)) (k_rank req) overlap ss) (Lk : loops_ok (length ss) bbs fr fm fb nt)
    (Ec : setup (dims_of ss k) bbs (z_t (k_mega k)) (z_t (k_block k)) ru overlap fr fm fb nt = Ok c).
  Notation ss' := (dims_of ss (u_k s)).
  Notation c' := (retune c ss' (z_t (k_block (u_k s))) ru).

  Lemma both_same : Forall2 (fun d d' => same_dim d d' /\ wf_angle d' = wf_angle d) (dims_of ss k) ss'.
  Proof using H Nm E Ho Es Rd.
    destruct (tuned_keeps e req k os s H Nm E Ho Es) as (K0 & K). destruct (start_ready e req k H E) as ((A & B & C & D & F) & _).
    pose proof (keep_len e _ _ _ A B C ss overlap Rd _ K0) as L0. pose proof (keep_len e _ _ _ A B C ss overlap Rd _ K) as L1. change (u_k (new_tuner e k req)) with k in L0.
    apply Forall2_nth; [congruence|]. intros j d d' E0 E1.
    destruct (keep_dim e _ _ _ A B C ss overlap Rd _ K0 j d E0) as (x & Ex & S0 & M0 & _). destruct (keep_dim e _ _ _ A B C ss overlap Rd _ K j d' E1) as (x' & Ex' & S1 & M1 & _).
    rewrite Ex in Ex'. inversion Ex'; subst x'. pose proof (same_trans _ _ _ S0 S1) as S. split; [exact S|].
    assert (Q : d_mgsz d' = d_mgsz d) by congruence. destruct S as (S1' & S2 & S3 & S4 & S5 & _). unfold wf_angle. rewrite Q, S1', S2, S4, S5. reflexivity.
  Qed.
  Lemma both_t : z_t (k_mega (u_k s)) = z_t (k_mega k) /\ z_t (k_block (u_k s)) = z_t (k_block k) /\ 0 <= z_t (k_mega k) /\ 0 <= z_t (k_block k).
  Proof using H Nm E Ho Es.
    destruct (tuned_keeps e req k os s H Nm E Ho Es) as (K0 & K). destruct K as [K1 K2 _ K4 _ _ _]. change (l_mg (lv (u_k s))) with (k_mega (u_k s)) in K1. change (l_bk (lv (u_k s))) with (k_block (u_k s)) in K2.
    rewrite K1, K2. split; [reflexivity|]. split; [reflexivity|]. destruct K0 as [_ _ K3 K4' _ _ _]. split; [|lia]. rewrite <- K3. unfold levM, fitted, find_num_subsets. cbn [fst z_t]. destruct (_ =? 0) eqn:Q; lia.
  Qed.

  Theorem tuned_config : setup ss' bbs (z_t (k_mega (u_k s))) (z_t (k_block (u_k s))) ru overlap fr fm fb nt = Ok c'.
  Proof using H Nm E Ho Es Rd Ec.
    destruct both_t as (T1 & T2 & _). eapply retune_eq; [exact both_same| |exact Ec]. rewrite T1, T2. reflexivity.
  Qed.

  Variable dom : Z -> list Z -> Prop.
  Hypotheses (Hin : inside (dims_of ss k) bbs (Z.max (z_t (k_mega k)) (z_t (k_block k))) dom)
    (Rm : has_room (dims_of ss k) bbs (z_t (k_mega k)) (z_t (k_block k)) ru c) (Rm' : has_room ss' bbs (z_t (k_mega (u_k s))) (z_t (k_block (u_k s))) ru c').

  Lemma both_nth : forall j d d', nth_error (dims_of ss k) j = Some d -> nth_error ss' j = Some d' -> same_dim d d'.
  Proof using H Nm E Ho Es Rd.
    pose proof both_same as F. clear Ec Hin Rm Rm'. induction F as [|x y l l' (S & _) F IH]; intros [|j] d d' E0 E1; try discriminate; cbn [nth_error] in *; [congruence|]. exact (IH j d d' E0 E1).
  Qed.
  Lemma both_nth2 : forall j d', nth_error ss' j = Some d' -> exists d, nth_error (dims_of ss k) j = Some d /\ same_dim d d'.
  Proof using H Nm E Ho Es Rd.
    pose proof both_same as F. clear Ec Hin Rm Rm'. induction F as [|x y l l' (S & _) F IH]; intros [|j] d' E1; try discriminate; cbn [nth_error] in *; [exists x; split; congruence|exact (IH j d' E1)].
  Qed.
  Lemma both_nth1 : forall j d, nth_error (dims_of ss k) j = Some d -> exists d', nth_error ss' j = Some d' /\ same_dim d d'.
  Proof using H Nm E Ho Es Rd.
    pose proof both_same as F. clear Ec Hin Rm Rm'. induction F as [|x y l l' (S & _) F IH]; intros [|j] d' E1; try discriminate; cbn [nth_error] in *; [exists y; split; congruence|exact (IH j d' E1)].
  Qed.
  Lemma near_same : forall d d' w p, same_dim d d' -> (near_rank d (angle d * w) p <-> near_rank d' (angle d' * w) p).
  Proof. intros d d' w p (A & B & C & D & F & G & I & _). unfold near_rank, angle. rewrite A, B, C, D, G, I. reflexivity. Qed.

  Lemma both_hyp : tile_hyp (dims_of ss k) bbs (z_t (k_mega k)) (z_t (k_block k)) ru overlap fr fm fb nt c dom /\
    tile_hyp ss' bbs (z_t (k_mega (u_k s))) (z_t (k_block (u_k s))) ru overlap fr fm fb nt c' dom.
  Proof.
    destruct (tuned_keeps e req k os s H Nm E Ho Es) as (K0 & K). destruct (start_ready e req k H E) as ((A & B & C & D & F) & _).
    pose proof (keep_len e _ _ _ A B C ss overlap Rd _ K0) as L0. pose proof (keep_len e _ _ _ A B C ss overlap Rd _ K) as L1. change (u_k (new_tuner e k req)) with k in L0.
    destruct both_t as (T1 & T2 & T3 & T4). assert (Nz : z_d (k_rank req) <> []) by (intros Q; apply D; rewrite Q; reflexivity).
    pose proof Rd as (Ls & _). rewrite Ls in Lk. split.
    - constructor; [|exact Ec|exact Hin|exact Rm]. exact (keep_settings e _ _ _ A B C ss overlap Rd _ K0 bbs _ _ fr fm fb nt Lk Nz T3 T4).
    - constructor; [|exact tuned_config| |exact Rm'].
      + apply (keep_settings e _ _ _ A B C ss overlap Rd _ K); try assumption; [rewrite T1|rewrite T2]; assumption.
      + rewrite T1, T2. intros u p Hd. destruct (Hin u p Hd) as (Lp & Q). split; [congruence|]. intros j d' Ed'. destruct (both_nth2 j d' Ed') as (d & Ed & Sd). destruct (Q j d Ed) as (Q1 & Q2).
        split; [apply (near_same d d' _ _ Sd); exact Q1|exact Q2].
  Qed.

  Theorem tuned_same : forall first last, exists regs regs', run_solution c first last = Ok regs /\ run_solution c' first last = Ok regs' /\
    forall l l', runs_regions (programs dom regs) l -> runs_regions (programs dom regs') l' ->
      (forall x, In x l <-> In x l') /\
      forall V (alloc : Z -> Z) (st : stencil V), halo_stencil (length ss) (halo_of ss) st -> stage_indep alloc st -> forall m cl, exec alloc st l m cl = exec alloc st l' m cl.
  Proof.
    intros first last. destruct both_hyp as (H0 & H1).
    destruct (tile_cover _ _ _ _ _ _ _ _ _ _ _ _ H0 first last) as (q & Eq & M). destruct (tile_cover _ _ _ _ _ _ _ _ _ _ _ _ H1 first last) as (q' & Eq' & M').
    exists q, q'. split; [exact Eq|]. split; [exact Eq'|]. intros l l' R R'. destruct both_t as (T1 & T2 & _).
    assert (Same : forall x, In x l <-> In x l').
    { intros x. rewrite (proj2 (M l R)), (proj2 (M' l' R')), T1, T2. 
      assert (G : forall w, in_reach (dims_of ss k) (Z.of_nat (length bbs)) w first x <-> in_reach ss' (Z.of_nat (length bbs)) w first x).
      { intros w. split; intros G j d Ed; [destruct (both_nth2 j d Ed) as (d0 & E0 & Sd); apply (near_same d0 d _ _ Sd); apply G; exact E0|destruct (both_nth1 j d Ed) as (d0 & E0 & Sd); apply (near_same d d0 _ _ Sd); apply G; exact E0]. }
      rewrite G. reflexivity. }
    split; [exact Same|]. intros V alloc st HS SI.
    destruct (tuned_keeps e req k os s H Nm E Ho Es) as (K0 & K). destruct (start_ready e req k H E) as ((A & B & C & D & F) & _).
    pose proof (keep_len e _ _ _ A B C ss overlap Rd _ K0) as L0. pose proof (keep_len e _ _ _ A B C ss overlap Rd _ K) as L1. change (u_k (new_tuner e k req)) with k in L0.
    pose proof (keep_halo e _ _ _ A B C ss overlap Rd _ K0) as Q0. pose proof (keep_halo e _ _ _ A B C ss overlap Rd _ K) as Q1. change (u_k (new_tuner e k req)) with k in Q0.
    pose proof Rd as (Ls & _).
    apply (tile_two _ _ _ _ _ _ _ _ _ _ _ _ _ _ _ _ _ _ _ _ _ _ H0 H1 first last q q' l l' Eq R Eq' R' Same V alloc st); [| |exact SI].
    - rewrite L0, <- Ls. eapply halo_ext; [exact Q0|exact HS].
    - rewrite L1, <- Ls. eapply halo_ext; [exact Q1|exact HS].
  Qed.
End Both.
