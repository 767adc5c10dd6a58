(* The flags of a job are set wherever data is out of date. *)
From Coq Require Import ZifyBool.
From Verif Require Import Base Idiv_Model Idiv_Proofs Cover_Spec Sched_Spec Sched_Proofs Sched2_Proofs Tile_Spec Loops_Model Tile_Model TileCfg_Spec TileSteps_Proofs Tile_Proofs Tile2_Proofs Rank_Model Exchange_Model Exchange_Spec Exchange_Proofs Dirty_Model Dirty_Spec
  Job_Model Job_Spec JobSetup_Spec JobFlags_Model JobFlags_Spec Job_Proofs Job2_Proofs Job3_Proofs JobSetup_Proofs JobSetup2_Proofs.

Section F.
  Variables (S : xset) (given : list rank_in) (xs : list xrank) (ranks : list rank_cfg) (dom : Z -> list Z -> Prop).
  Hypothesis U : set_up S given xs ranks dom.
  Context {V : Type}.
  Variables (ord : bool -> list (Z * Z) -> list (list Z)) (alloc : Z -> Z) (st : stencil V) (parts : Z -> list part_out).
  Hypothesis Or : order_ok ord.
  Notation nd := (j_nd (s_job S)).
  Notation nst := (s_nstages S).
  Notation wf := (s_wf S).
  Notation hl := (halo_in true S).
  Notation hr := (halo_in false S).
  Notation ex := (exchanged_var S).
  Notation lk := (code_links S xs).
  Hypothesis Js : job_stencil nd ex hl hr st.
  Hypothesis Ou : outputs_ok S parts alloc st.
  Notation Keeps := (keeps ranks nst wf hl hr lk).
  Notation Owns := (Job_Spec.owns ranks).
  Notation Moves := (rank_moves ranks nst wf dom alloc st).
  Notation Exch := (exchanged ranks nst wf ex hl hr lk).

  Lemma step_alloc_In : forall x n, full_var nd x = true -> In (XStep n) (v_dims x) -> step_alloc x = Some n.
  Proof using.
    intros x n F I. unfold full_var in F. apply andb_prop in F. destruct F as (_ & F). apply Nat.leb_le in F. unfold step_alloc. revert F I. induction (v_dims x) as [|d l IH]; intros F I; [contradiction|].
    destruct I as [->|I]; [reflexivity|]. destruct d as [m|f m|j vl lh rh]; cbn [filter length] in F; cbn [flat_map app].
    - exfalso. assert (In (XStep n) (filter (fun d => match d with XStep _ => true | _ => false end) l)) as Q by (apply filter_In; auto). destruct (filter _ l); [contradiction|cbn in F; lia].
    - apply IH; assumption.
    - apply IH; assumption.
  Qed.
  Lemma slots_has : forall x u, full_var nd x = true -> has_step (v_dims x) = true -> (In u (slots x) <-> has_slot x u).
  Proof using.
    intros x u F H. unfold has_step in H. apply existsb_exists in H. destruct H as (d & I & Q). destruct d as [n| |]; try discriminate. pose proof (step_alloc_In x n F I) as E. unfold slots, has_slot. rewrite E, zseq_In. split.
    - intros B m Im. rewrite (step_alloc_In x m F Im) in E. injection E as ->. exact B.
    - intros B. exact (B n I).
  Qed.
  Lemma slots_none : forall x, has_step (v_dims x) = false -> slots x = [0].
  Proof using.
    intros x H. unfold slots, step_alloc. assert (flat_map (fun d => match d with XStep n => [n] | _ => [] end) (v_dims x) = []) as ->; [|reflexivity].
    revert H. induction (v_dims x) as [|d l IH]; intros H; [reflexivity|]. unfold has_step in H. cbn [existsb] in H. apply orb_false_elim in H. destruct H as (H1 & H2). cbn [flat_map]. rewrite (IH H2). destruct d; [discriminate|reflexivity|reflexivity].
  Qed.

  Definition consistent (M : nat -> cell -> V) : Prop := forall r s v u q, ex v = true -> r <> s -> Keeps r v q -> Owns s q -> M r (v, u, q) = M s (v, u, q).
  Lemma consistent_flags : forall M self, consistent M -> flags_ok S xs ranks M self.
  Proof using. intros M self C v x r s u q Vx F Ne K O _. apply (C r s v u q); try assumption. unfold exchanged_var. rewrite Vx. exact F. Qed.
  Lemma exch0_consistent : forall M M', exchanged0 ranks nst wf ex hl hr lk M M' -> consistent M'.
  Proof using. intros M M' [XO XH _ _] r s v u q Ev Ne K O. rewrite (XH r s v u q Ev K O). symmetry. apply (XO s (v, u, q)). exact O. Qed.

  (* what is left out is not marked *)
  Lemma not_sent : forall self oth steps dirty v x s b u, to_swap S oth steps -> mine_dirty S xs self steps dirty -> var_at S v = Some x -> full_var nd x = true -> nth_error xs s = Some b ->
    ~ sent x (steps v) (dirty v) b u -> ~ has_slot x u \/ oth v (if has_step (v_dims x) then u else 0) = false \/ self s v (if has_step (v_dims x) then u else 0) = false.
  Proof using.
    intros self oth steps dirty v x s b u Ts Md Vx F Eb Ns. unfold sent in Ns. rewrite (Md v x s b Vx Eb) in Ns. specialize (Ts v x Vx). destruct (has_step (v_dims x)) eqn:Hs.
    - destruct (in_dec Z.eq_dec u (slots x)) as [I|I]; [right|left; intros Q; apply I; apply slots_has; assumption]. destruct (oth v u) eqn:Eo; [right|left; reflexivity].
      destruct (self s v u) eqn:Es; [|reflexivity]. exfalso. apply Ns. assert (In u (steps v)) as Iu by (apply Ts; auto). split; [apply existsb_exists; exists u; auto|exact Iu].
    - right. destruct (oth v 0) eqn:Eo; [right|left; reflexivity]. destruct (self s v 0) eqn:Es; [|reflexivity]. exfalso. assert (In 0 (steps v)) as Iu by (apply Ts; rewrite slots_none by exact Hs; split; [left; reflexivity|exact Eo]).
      apply Ns. split; [apply existsb_exists; exists 0; auto|]. intros Q. rewrite Q in Iu. contradiction.
  Qed.

  Lemma first_exchange : forall (M : nat -> cell -> V) self M1 self1 oth1, flags_ok S xs ranks M self -> flag_exchange S xs ord self (fun _ _ => true) M M M1 self1 oth1 -> code_exchange S xs ranks ord M M M1.
  Proof using.
    intros M self M1 self1 oth1 Fo (steps & dirty & Ts & Md & Cm & _). exists steps, dirty. split; [exact Cm|]. intros v x r s b u q Vx F Ne Eb Ns K O.
    apply (Fo v x r s u q Vx F Ne K O). destruct (not_sent _ _ _ _ v x s b u Ts Md Vx F Eb Ns) as [Q|[Q|Q]]; [left; exact Q|discriminate|right; exact Q].
  Qed.

  (* an exchange never fails *)
  Theorem flag_exchange_ex : forall self oth (P M : nat -> cell -> V), exists M' self' oth', flag_exchange S xs ord self oth P M M' self' oth'.
  Proof using U Or.
    intros self oth P M. set (steps := fun v => match var_at S v with Some x => filter (oth v) (slots x) | None => [] end). set (dirty := fun v b => existsb (self (rank_idx xs b) v) (steps v)).
    exists (code_swap S xs ord steps dirty P M). eexists. eexists. exists steps, dirty. split; [|split; [|split; [|split; intros; reflexivity]]].
    - intros v x Vx u. unfold steps. rewrite Vx, filter_In. reflexivity.
    - intros v x s b Vx Eb. unfold dirty. rewrite (rank_idx_nth S given xs ranks dom U s b Eb). reflexivity.
    - exact (code_swap_messages S given xs ranks dom U ord Or steps dirty P M).
  Qed.

  Lemma flag_moves_moves : forall p r f m pk m' f', flag_moves S ranks dom parts alloc st p r f m pk m' f' -> Moves p r m pk m'.
  Proof using. intros p r f m pk m' f' H k Ek. destruct (H k Ek) as (re & ri & le & li & A & B & C & D & E & _). exists re, ri, le, li. auto. Qed.

  Variables (first last : Z).
  (* an instance of a region belongs to a call *)
  Lemma region_event : forall D regs l x, runs_regions (programs D regs) l -> In x l -> exists e, In e (concat (concat regs)) /\ i_t x = e_t e /\ i_s x = e_s e.
  Proof using.
    intros D regs l x R Hx. apply (regions_In _ _ R) in Hx. destruct Hx as (g & t & e & Hg & Ht & He & Q). apply in_map_iff in Hg. destruct Hg as (g0 & <- & Hg). apply in_map_iff in Ht. destruct Ht as (th & <- & Ht).
    apply in_map_iff in He. destruct He as (ev & <- & He). destruct Q as (Q1 & Q2 & _). exists ev. split; [|auto]. apply in_concat. exists th. split; [|exact He]. apply in_concat. exists g0. auto.
  Qed.
  Lemma written_marks : forall y v u q x, In (v, u, q) (wr_cells alloc st y) -> var_at S v = Some x -> full_var nd x = true ->
    has_step (v_dims x) = true /\ In u (slots x) /\ exists po, In po (parts (i_s y)) /\ po_when po (i_t y) = true /\ part_marks S po (i_t y) v u = true.
  Proof using Ou.
    intros y v u q x Hc Vx F. apply in_map_iff in Hc. destruct Hc as (((v', t), q') & Ec & He). cbn in Ec. injection Ec as -> Eu ->.
    destruct (ou_step _ _ _ _ Ou y _ x He Vx) as (n & In_ & Pn & Ea). cbn [fst] in Ea. destruct (ou_part _ _ _ _ Ou y _ He) as (po & Ip & Wh & Iv & Es). cbn [fst snd elem_step] in Iv, Es.
    pose proof (step_alloc_In x n F In_) as E. split; [unfold has_step; apply existsb_exists; exists (XStep n); auto|]. rewrite Ea in Eu. split.
    - unfold slots. rewrite E, zseq_In. subst u. apply Z.mod_pos_bound. exact Pn.
    - exists po. split; [exact Ip|]. split; [exact Wh|]. unfold part_marks, var_slot, slot. rewrite Vx, E, <- Es. rewrite imod_flr_spec by exact Pn. unfold elem_step. cbn [fst snd]. apply andb_true_intro. split; [apply existsb_exists; exists v; split; [exact Iv|apply Z.eqb_refl]|lia].
  Qed.

  Lemma pass_up_to_date : forall p M self oth P M1 self1 steps dirty, In p (passes nst wf first last) -> consistent M ->
    (forall r, flag_moves S ranks dom parts alloc st p r (self r) (M r) (P r) (M1 r) (self1 r)) -> to_swap S (mark_others S parts p oth) steps -> mine_dirty S xs self1 steps dirty -> up_to_date S xs ranks steps dirty P M1.
  Proof using U Js Ou.
    intros p M self oth P M1 self1 steps dirty Hp C Mv Ts Md v x r s b u q Vx F Ne Eb Ns K O.
    pose proof (set_up_job S given xs ranks dom U) as Hjob. pose proof (set_up_halos S given xs ranks dom U) as Hvh. pose proof (set_up_interiors S given xs ranks dom U) as Hov.
    assert (ex v = true) as Ev by (unfold exchanged_var; rewrite Vx; exact F).
    pose proof O as (k & Ek & Oq). pose proof K as (kr & Ekr & _).
    pose proof (nth_error_In _ _ Ek) as Hk. pose proof (nth_error_In _ _ Ekr) as Hkr.
    destruct (jo_same _ _ _ _ _ _ Hjob k Hk) as (Ln & En & Ew & _). destruct (jo_same _ _ _ _ _ _ Hjob kr Hkr) as (Lnr & Enr & Ewr & _).
    assert (0 <= wf) as Hw by (rewrite <- Ew; pose proof (so_steps _ _ _ _ _ _ _ _ _ (th_s _ _ _ _ _ _ _ _ _ _ _ _ (jo_tile _ _ _ _ _ _ Hjob k Hk))); unfold wf_steps; lia).
    assert (1 <= nst) as Hn by exact (su_stages _ _ _ _ _ U).
    destruct (Mv s k Ek) as (re & ri & le & li & Es & Re & Ri & Ep & _ & Ef). destruct (Mv r kr Ekr) as (rer & rir & ler & lir & Er & Rer & Rir & Epr & Emr & _).
    (* the instances of the two ranks *)
    assert (forall k re ri le li, In k ranks -> rank_parts (k_c k) p = Ok (re, ri) -> runs_regions (programs (rank_dom nst wf dom k) re) le -> runs_regions (programs (rank_dom nst wf dom k) ri) li ->
      (forall y, In y (le ++ li) <-> In (i_t y, i_s y) (lay_of nst p) /\ rank_dom nst wf dom k (i_s y) (i_p y) /\ near_all k (moves_left nst wf (fst (snd p)) (i_t y) (i_s y)) (i_p y)) /\
      forall y, In y li -> k_ov k = true /\ forall j d, nth_error (k_ss k) j = Some d -> d_ib d <= nth j (i_p y) 0 < d_ie d) as Inst.
    { clear - Hjob Hp. intros k re ri le li Hk E Re Ri. destruct (jo_same _ _ _ _ _ _ Hjob k Hk) as (Ln & En & Ew & _). assert (Hp' := Hp). rewrite <- En, <- Ew in Hp'.
      destruct (pass_rank _ _ _ _ _ _ _ _ _ _ _ _ (jo_tile _ _ _ _ _ _ Hjob k Hk) first last p Hp') as (regs & (E' & (re' & ri' & X1 & X2 & X3 & X4)) & Pr).
      destruct (parts_does _ _ _ _ E) as (Y1 & Y2). rewrite X1 in Y1. rewrite X2 in Y2. injection Y1 as ->. injection Y2 as ->. subst regs. split.
      - destruct (Pr (le ++ li)) as (_ & I & _); [unfold programs; rewrite map_app; apply regions_app; assumption|]. rewrite En, Ew in I. exact I.
      - intros x Hx. apply (regions_In _ _ Ri) in Hx. destruct Hx as (g & t & e & Hg & Ht & He & Q). apply in_map_iff in Hg. destruct Hg as (g0 & <- & Hg). apply in_map_iff in Ht. destruct Ht as (th & <- & Ht).
        apply in_map_iff in He. destruct He as (ev & <- & He). destruct Q as (_ & _ & Q & Dx). apply (X4 ev); [|exact Q]. apply evs_In. exists g0. split; [exact Hg|]. apply in_concat. exists th. split; assumption. }
    destruct (Inst k re ri le li Hk Es Re Ri) as (Il & Iint). destruct (Inst kr rer rir ler lir Hkr Er Rer Rir) as (Ilr & _). clear Inst.
    (* a write of the owner before packing is marked *)
    assert (forall y, In y le -> ~ In (v, u, q) (wr_cells alloc st y)) as Wle.
    { intros y Iy Hc. apply Ns. destruct (written_marks y v u q x Hc Vx F) as (Hs & Isl & po & Ipo & Wh & Pm). unfold sent. rewrite Hs, (Md v x s b Vx Eb).
      assert (self1 s v u = true) as Sf.
      { rewrite Ef. unfold mark_self. destruct (region_event _ _ _ y Re Iy) as (e & Ie & Et & Est). apply orb_true_intro. right. apply existsb_exists. exists e. split; [exact Ie|]. apply existsb_exists. exists po. rewrite <- Et, <- Est. split; [exact Ipo|]. rewrite Wh. exact Pm. }
      assert (mark_others S parts p oth v u = true) as So.
      { unfold mark_others. apply orb_true_intro. right. apply existsb_exists. destruct (proj1 (Il y) (in_or_app _ _ _ (or_introl Iy))) as (Ilay & _). exists (i_t y).
        destruct (passes_In _ _ _ _ _ Hw Hp) as [(W0 & s0 & b0 & e0 & -> & Hs0 & Hl0 & _)|(W0 & b0 & e0 & -> & Hl0 & _)]; unfold lay_of in Ilay; cbn [fst snd] in *.
        - destruct Ilay as [Q|[]]. injection Q as Q1 Q2. subst b0 s0. split.
          + rewrite micro_steps_eq. apply in_map_iff. exists 0. split; [lia|apply zseq_In; lia].
          + cbn [existsb]. rewrite orb_false_r. apply existsb_exists. exists po. auto.
        - unfold lay_steps in Ilay. apply in_flat_map in Ilay. destruct Ilay as (t & It & Is). apply in_map_iff in Is. destruct Is as (s0 & Q & Is). injection Q as Q1 Q2. subst t s0. split; [exact It|]. apply existsb_exists. exists (i_s y). split; [exact Is|]. apply existsb_exists. exists po. auto. }
      assert (In u (steps v)) as Iu by (apply (Ts v x Vx); auto). split; [apply existsb_exists; exists u; auto|exact Iu]. }
    (* nor does the neighbour write there: the owner would write the same *)
    assert (forall y, In y (ler ++ lir) -> ~ In (v, u, q) (wr_cells alloc st y)) as Wr.
    { intros y Iy Hc. apply Ilr in Iy. destruct Iy as (Ilay & (Dy & _) & _). 
      assert (in_rank (k_ss k) (i_p y)) as Iny.
      { intros j d Ed. specialize (Oq j d Ed). apply in_map_iff in Hc. destruct Hc as (e & Ec & He). destruct (cell_pt _ _ _ Ec) as (Eq & _). cbn [snd] in Eq. rewrite <- Eq in Oq. rewrite (proj2 (js_wr _ _ _ _ _ Js y e He)) in Oq; [exact Oq|]. rewrite <- Ln. apply nth_error_Some. congruence. }
      assert (forall w j d, 0 <= w -> nth_error (k_ss k) j = Some d -> near_rank d (angle d * w) (nth j (i_p y) 0)) as Nr.
      { intros w j d Hw0 Ed. specialize (Iny j d Ed). unfold near_rank. assert (0 <= angle d * w) as A; [|destruct (d_first d), (d_last d); lia]. apply Z.mul_nonneg_nonneg; [|exact Hw0].
        destruct (rank_dims ranks nd (max_halo S) nst wf dom Hjob k Hk j d Ed) as (Eh & Fp). unfold angle. rewrite Eh. pose proof (max_halo_nonneg S j). pose proof (Z.div_pos (max_halo S j + d_fold d - 1) (d_fold d) ltac:(lia) ltac:(lia)). nia. }
      assert (0 <= moves nst wf) as Mn by (unfold moves; destruct (0 <? wf) eqn:Qw; [nia|lia]).
      assert (0 <= moves_left nst wf (fst (snd p)) (i_t y) (i_s y)) as Ml.
      { apply In_nth_error in Ilay. destruct Ilay as (i & Ei). destruct (lay_moves nst wf Hn Hw first last p i _ _ Hp Ei) as (-> & Q & _). exact Q. }
      assert (In y (le ++ li)) as Iy. { apply Il. split; [exact Ilay|]. split; [split; [exact Dy|intros j d Ed; apply Nr; assumption]|intros j d Ed; apply Nr; assumption]. }
      apply in_app_or in Iy. destruct Iy as [Iy|Iy]; [exact (Wle y Iy Hc)|]. destruct (Iint y Iy) as (Ov & By).
      exact (interior_away ranks nd (max_halo S) nst wf dom ex hl hr lk alloc st Hjob Js Hvh Hov r s k y v u q Ek Ov By Ne Ev K Hc). }
    rewrite Emr, (exec_other alloc st) by (intros y Iy; apply Wr; apply in_or_app; right; exact Iy). rewrite Epr, (exec_other alloc st) by (intros y Iy; apply Wr; apply in_or_app; left; exact Iy).
    rewrite Ep, (exec_other alloc st) by exact Wle. exact (C r s v u q Ev Ne K O).
  Qed.
  Lemma flag_passes_ok : forall ps M self oth M' self', (forall p, In p ps -> In p (passes nst wf first last)) -> consistent M ->
    flag_passes S xs ranks dom ord parts alloc st ps M self oth M' self' -> job_passes Moves (code_exchange S xs ranks ord) ps M M' /\ consistent M'.
  Proof using U Or Js Ou.
    intros ps M self oth M' self' Hps C J. revert Hps C. induction J as [M self oth|p ps M self oth P M1 self1 M2 self2 oth2 M3 self3 Mv (steps & dirty & Ts & Md & Cm & _) J IH]; intros Hps C; [split; [constructor|exact C]|].
    assert (forall r, Moves p r (M r) (P r) (M1 r)) as Mv' by (intros r; exact (flag_moves_moves _ _ _ _ _ _ _ (Mv r))).
    assert (code_exchange S xs ranks ord P M1 M2) as Ce by (exists steps, dirty; split; [exact Cm|exact (pass_up_to_date p M self oth P M1 self1 steps dirty (Hps p (or_introl eq_refl)) C Mv Ts Md)]).
    assert (consistent M2) as C2.
    { eapply exch0_consistent. eapply (exch_old ranks nd (max_halo S) nst wf dom ex hl hr lk alloc st (set_up_job _ _ _ _ _ U) Js (set_up_halos _ _ _ _ _ U) (set_up_interiors _ _ _ _ _ U) first last p); [apply Hps; left; reflexivity|exact Mv'|].
      exact (code_exchange_ok S given xs ranks dom U ord Or P M1 M2 Ce). }
    destruct (IH (fun q Hq => Hps q (or_intror Hq)) C2) as (J' & C3). split; [|exact C3]. econstructor; eassumption.
  Qed.
  Theorem flag_job_ok : forall M self M' self', flags_ok S xs ranks M self -> flag_job S xs ranks dom ord parts alloc st first last M self M' self' ->
    code_job S xs ranks dom ord alloc st first last M M' /\ flags_ok S xs ranks M' self'.
  Proof using U Or Js Ou.
    intros M self M' self' Fo (M1 & self1 & oth1 & E & J). pose proof (first_exchange M self M1 self1 oth1 Fo E) as Ce.
    assert (consistent M1) as C1 by (eapply exch0_consistent; apply exch_start; exact (code_exchange_ok S given xs ranks dom U ord Or M M M1 Ce)).
    destruct (flag_passes_ok _ M1 self1 oth1 M' self' (fun p Hp => Hp) C1 J) as (J' & C'). split; [exists M1; split; assumption|apply consistent_flags; exact C'].
  Qed.
  Theorem flag_job_same : reads_in S st -> stage_indep alloc st -> forall L, NoDup L -> (forall x, In x L <-> to_do nst dom first last x) -> plain_run (direction first last) L ->
    forall M self M' self' g, holds ranks nst wf dom ex hl hr lk alloc st M g -> flags_ok S xs ranks M self -> flag_job S xs ranks dom ord parts alloc st first last M self M' self' ->
    holds ranks nst wf dom ex hl hr lk alloc st M' (exec alloc st L g) /\ flags_ok S xs ranks M' self' /\
    forall r v u q, ex v = true -> Keeps r v q -> M' r (v, u, q) = exec alloc st L g (v, u, q).
  Proof using U Or Js Ou.
    intros Ri Si L Nd HL Pl M self M' self' g Ho Fo J. destruct (flag_job_ok M self M' self' Fo J) as (Cj & Fo').
    destruct (set_up_same S given xs ranks dom U ord Or alloc st Js Ri Si first last L Nd HL Pl M M' g Ho Cj) as (A & B). split; [exact A|]. split; [exact Fo'|exact B].
  Qed.
End F.

Theorem flag_jobs_agree : forall V S S' given given' xs xs' ranks ranks' dom ord ord' (alloc : Z -> Z) (st : stencil V) parts,
  set_up S given xs ranks dom -> set_up S' given' xs' ranks' dom -> order_ok ord -> order_ok ord' ->
  j_nd (s_job S') = j_nd (s_job S) -> s_vars S' = s_vars S -> s_nstages S' = s_nstages S ->
  job_stencil (j_nd (s_job S)) (exchanged_var S) (halo_in true S) (halo_in false S) st -> outputs_ok S parts alloc st -> reads_in S st -> stage_indep alloc st ->
  forall first last M1 M2 self1 self2 M1' M2' self1' self2' g,
  holds ranks (s_nstages S) (s_wf S) dom (exchanged_var S) (halo_in true S) (halo_in false S) (code_links S xs) alloc st M1 g -> flags_ok S xs ranks M1 self1 ->
  holds ranks' (s_nstages S) (s_wf S') dom (exchanged_var S) (halo_in true S) (halo_in false S) (code_links S' xs') alloc st M2 g -> flags_ok S' xs' ranks' M2 self2 ->
  flag_job S xs ranks dom ord parts alloc st first last M1 self1 M1' self1' -> flag_job S' xs' ranks' dom ord' parts alloc st first last M2 self2 M2' self2' ->
  forall r r' c, Job_Spec.owns ranks r (snd c) -> Job_Spec.owns ranks' r' (snd c) -> M1' r c = M2' r' c.
Proof.
  intros V S S' given given' xs xs' ranks ranks' dom ord ord' alloc st parts U U' Or Or' En Ev Es Js Ou Ri Si first last M1 M2 self1 self2 M1' M2' self1' self2' g H1 F1 H2 F2 J1 J2.
  assert (forall v, var_at S' v = var_at S v) as Va by (intros v; unfold var_at; rewrite Ev; reflexivity).
  assert (job_stencil (j_nd (s_job S')) (exchanged_var S') (halo_in true S') (halo_in false S') st) as Js'.
  { destruct Js as [W R]. constructor.
    - intros x e He. unfold exchanged_var. rewrite Va, En. exact (W x e He).
    - intros x e He. unfold exchanged_var, halo_in. rewrite Va, En. exact (R x e He). }
  assert (outputs_ok S' parts alloc st) as Ou'. { destruct Ou as [A B]. constructor; [exact A|]. intros y e x He Vx. rewrite Va in Vx. exact (B y e x He Vx). }
  destruct (flag_job_ok S given xs ranks dom U ord alloc st parts Or Js Ou first last _ _ _ _ F1 J1) as (C1 & _).
  destruct (flag_job_ok S' given' xs' ranks' dom U' ord' alloc st parts Or' Js' Ou' first last _ _ _ _ F2 J2) as (C2 & _).
  exact (set_up_agree V S S' given given' xs xs' ranks ranks' dom ord ord' alloc st U U' Or Or' En Ev Es Js Ri Si first last M1 M2 M1' M2' g H1 H2 C1 C2).
Qed.
