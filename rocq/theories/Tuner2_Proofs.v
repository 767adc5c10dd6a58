From Coq Require Import ZifyBool.
From Verif Require Import Base Idiv_Model Idiv_Proofs Scan_Proofs Cover_Spec MixedRadix Tuple_Model Tuple_Proofs Adjust_Model Adjust_Spec Adjust_Proofs Tuner_Model Tuner_Proofs.

Definition tl (n : nat) (k : kset) : Prop := Forall (fun s => length (z_d s) = n) [k_rktile k; k_mgtile k; k_bktile k; k_mctile k; k_nntile k].

Lemma adjust_total : forall a k, pos (z_d (k_rank k)) -> pos (a_fold a) -> length (a_fold a) = length (z_d (k_rank k)) ->
  lenL (length (z_d (k_rank k))) (lv k) -> tl (length (z_d (k_rank k))) k ->
  exists k', adjust_settings a k = Ok k' /\ k_rank k' = k_rank k /\ lv k' = lev a (k_rank k) (lv k) /\ tl (length (z_d (k_rank k))) k'.
Proof.
  intros a k Pr Pf Lf Hl Ht. set (n := length (z_d (k_rank k))) in *.
  destruct (adjust_ok a k) as (k' & E & R & _ & _ & _ & _ & _ & _ & T).
  { split; [exact Pr|]. split; [exact Pf|]. split; [exact Lf|]. destruct Hl as (A & B & C & D & F). cbn [lv l_mg l_bk l_mc l_nn l_pc] in *. repeat (constructor; [assumption|]). exact Ht. }
  destruct (adjust_lev a k k' E) as (_ & L). exists k'. split; [exact E|]. split; [exact R|]. split; [exact L|].
  destruct (lev_nested a (k_rank k) Pr Pf Lf (lv k) Hl) as ((A & B & C & D & F) & _). rewrite <- L in A, B, C, D, F. cbn [lv l_mg l_bk l_mc l_nn l_pc] in *. fold n in A, B, C, D, F.
  unfold tl in *. destruct (a_tiling a).
  - destruct T as ((T1 & _) & (T2 & _) & (T3 & _) & (T4 & _) & (T5 & _)). repeat (constructor; [etransitivity; [eassumption|]; first [assumption|reflexivity]|]). constructor.
  - destruct T as (-> & -> & -> & -> & ->). exact Ht.
Qed.

Lemma new_size_ok : forall f o r c x, 1 <= f -> 1 <= o -> 1 <= new_size f o r c x <= o /\ (new_size f o r c x = o \/ (f | new_size f o r c x)).
Proof.
  intros f o r c x Hf Ho. unfold new_size. cbv zeta. set (sz := if x =? 0 then _ else _). clearbody sz.
  pose proof (ROUND_UP_bounds (Z.max sz f) f ltac:(lia) ltac:(lia)) as (B & _). pose proof (ROUND_UP_div (Z.max sz f) f) as D.
  split; [lia|]. destruct (Z.min_spec (ROUND_UP (Z.max sz f) f) o) as [(_ & ->)|(_ & ->)]; [right; exact D|left; reflexivity].
Qed.
Lemma propose_nested : forall r folds outers center ofs m ds, pos folds -> pos outers ->
  length folds = length outers -> length center = length outers -> length ofs = length outers ->
  propose r m folds outers center ofs = Some ds -> nested outers folds ds.
Proof.
  intros r. induction folds as [|f folds IH]; intros [|o outers] [|c center] [|x ofs] m ds Pf Po L1 L2 L3 E; cbn in L1, L2, L3; try lia.
  - inversion E. split; [reflexivity|]. intros [|j] ? ? ? Q; discriminate.
  - cbn [propose] in E. cbv zeta in E. destruct (3 <? _); [discriminate|]. inversion Pf; subst. inversion Po; subst.
    destruct (propose r _ folds outers center ofs) as [rs|] eqn:Er; [|discriminate]. inversion E; subst ds. clear E.
    destruct (IH outers center ofs _ rs ltac:(assumption) ltac:(assumption) ltac:(lia) ltac:(lia) ltac:(lia) Er) as (L & N).
    split; [cbn; lia|]. intros [|j] o' m' r' E1 E2 E3; cbn in E1, E2, E3; [|eapply N; eassumption].
    inversion E1; inversion E2; inversion E3; subst. apply new_size_ok; assumption.
Qed.
Lemma sizes_eqb_spec : forall a b, sizes_eqb a b = true <-> a = b.
Proof.
  intros [t ds] [t' ds']. unfold sizes_eqb. cbn [z_t z_d]. destruct (list_eq_dec Z.eq_dec ds ds') as [->|N].
  - rewrite andb_true_r. split; [intros H; f_equal; lia|intros H; inversion H; lia].
  - rewrite andb_false_r. split; [discriminate|intros H; inversion H; congruence].
Qed.
Lemma known_spec : forall b rs, known b rs = true <-> In b (map fst rs).
Proof.
  intros b rs. unfold known. rewrite existsb_exists, in_map_iff. split.
  - intros (x & Hx & E). apply sizes_eqb_spec in E. exists x. auto.
  - intros (x & E & Hx). exists x. split; [exact Hx|]. apply sizes_eqb_spec. congruence.
Qed.
Lemma store_new : forall b r rs, ~ In b (map fst rs) -> store b r rs = rs ++ [(b, r)].
Proof.
  intros b r. induction rs as [|x rs IH]; intros H; [reflexivity|]. cbn [store map In app] in *. destruct (sizes_eqb b (fst x)) eqn:E.
  - apply sizes_eqb_spec in E. destruct H. left. congruence.
  - rewrite IH by tauto. reflexivity.
Qed.

(* All lists within a box *)
Fixpoint box_pts (os : list Z) : list (list Z) :=
  match os with [] => [[]] | o :: r => flat_map (fun x => map (cons x) (box_pts r)) (zrange 1 (o + 1)) end.
Lemma box_pts_len : forall os, pos os -> Z.of_nat (length (box_pts os)) = zprod os.
Proof.
  intros os P. induction P as [|o os Ho _ IH]; [reflexivity|]. cbn [box_pts].
  assert (G : forall l, length (flat_map (fun x : Z => map (cons x) (box_pts os)) l) = (length l * length (box_pts os))%nat).
  { induction l as [|y l IHl]; cbn; [reflexivity|]. rewrite app_length, map_length, IHl. reflexivity. }
  rewrite G, Nat2Z.inj_mul, IH, zrange_length. cbn. unfold zprod. cbn. rewrite Z2Nat.id by lia. f_equal. lia.
Qed.
Lemma box_pts_in : forall os ds, length ds = length os -> (forall j o r, nth_error os j = Some o -> nth_error ds j = Some r -> 1 <= r <= o) -> In ds (box_pts os).
Proof.
  induction os as [|o os IH]; intros [|d ds] L H; cbn in L; try lia; [left; reflexivity|]. cbn [box_pts]. apply in_flat_map. exists d. split.
  - apply zrange_In. pose proof (H 0%nat o d eq_refl eq_refl). lia.
  - apply in_map. apply IH; [lia|]. intros j o' r' E1 E2. apply (H (S j)); assumption.
Qed.
Lemma box_mono : forall os rs, length os = length rs -> pos os -> (forall j o r, nth_error os j = Some o -> nth_error rs j = Some r -> o <= r) -> 1 <= zprod os <= zprod rs.
Proof.
  induction os as [|o os IH]; intros [|r rs] L P H; cbn in L; try lia; [cbn; lia|]. inversion P; subst.
  destruct (IH rs ltac:(lia) ltac:(assumption)) as (A & B); [intros j o' r' E1 E2; apply (H (S j)); assumption|].
  pose proof (H 0%nat o r eq_refl eq_refl). unfold zprod in *. cbn [fold_right]. nia.
Qed.

Section Run.
  Variables (e : tenv) (R : sizes).
  Let a := t_a e.
  Let n := length (z_d R).
  Hypotheses (Pr : pos (z_d R)) (Pf : pos (a_fold a)) (Lf : length (a_fold a) = n) (Nz : n <> O) (Ht : Forall known_t (t_targets e)).

  Record base (s : tstate) : Prop := mkBase {
    b_rank : k_rank (u_k s) = R;
    b_len : lenL n (lv (u_k s));
    b_tl : tl n (u_k s);
    b_req : lenL n (lv (u_req s));
    b_nano : 0 <= z_t (l_nn (lv (u_req s))) }.
  Definition cur (g : target) (s : tstate) : sizes := getL g (lv (u_k s)).
  Definition out (g : target) (s : tstate) : list Z := z_d (outL g R (lv (u_k s))).
  Definition valid (O : list Z) (t : Z) (b : sizes) : Prop := z_t b = t /\ nested O (a_fold a) (z_d b).

  Record during (g : target) (s : tstate) : Prop := mkDuring {
    d_base : base s;
    d_known : known_t g;
    d_tgt : u_target s = Some g;
    d_ti : nth_error (t_targets e) (u_ti s) = Some g;
    d_fix : lv (u_k s) = lev a R (setL g (cur g s) (lv (u_req s)));
    d_tfix : tfix g (lv (u_req s)) (z_t (cur g s));
    d_keys : Forall (fun x => valid (out g s) (z_t (cur g s)) (fst x)) (u_results s);
    d_nodup : NoDup (map fst (u_results s));
    d_center : exists c, u_center s = Some c /\ z_t c = z_t (cur g s) /\ length (z_d c) = n;
    d_best : (u_results s = [] /\ u_rate s = 0) \/
             exists b, u_best s = Some b /\ In (b, u_rate s) (u_results s) /\ 0 < u_rate s /\ forall x, In x (u_results s) -> snd x <= u_rate s;
    d_neigh : 0 <= u_neigh s;
    d_flags : u_done s = false /\ u_warm s = false;
    d_steps : 0 <= u_csteps s < trial_steps }.

  Lemma adjust_base : forall g s, base s -> known_t g -> u_target s = Some g ->
    exists k', tune_adjust e s = Ok (with_k k' s) /\ k_rank k' = R /\ lenL n (lv k') /\ tl n k' /\ lv k' = lev a R (setL g (cur g s) (lv (u_req s))).
  Proof using Pr Pf Lf.
    intros g s [B1 B2 B3 B4 B5] Hg E. unfold tune_adjust. rewrite E.
    destruct (adjust_total a (reset_others g (u_k s) (u_req s))) as (k' & Ek & Rk & Lk & Tk); rewrite ?rank_reset, ?B1 in *; try assumption.
    - rewrite lv_reset by exact Hg. apply lenL_set; [exact B4|]. apply lenL_get. exact B2.
    - destruct g; exact B3.
    - fold a. rewrite Ek. cbn [rbind]. exists k'. rewrite lv_reset in Lk by exact Hg. split; [reflexivity|]. split; [congruence|]. split; [|split; [exact Tk|exact Lk]].
      rewrite Lk. apply lev_nested; try assumption. apply lenL_set; [exact B4|]. apply lenL_get. exact B2.
  Qed.

  Lemma cur_ok : forall g s, during g s -> valid (out g s) (z_t (cur g s)) (cur g s) /\ pos (out g s) /\ length (out g s) = n /\ pos (z_d (cur g s)).
  Proof using Pr Pf Lf.
    intros g s H. destruct H as [[B1 B2 B3 B4 B5] Hk _ _ Hf _ _ _ _ _ _ _ _]. unfold out, cur at 2 3.
    destruct (lev_nested a R Pr Pf Lf (setL g (cur g s) (lv (u_req s)))) as (_ & N); [apply lenL_set; [exact B4|]; apply lenL_get; exact B2|].
    destruct (N g Hk) as (N1 & N2 & N3 & N4). rewrite <- Hf in N1, N2, N3, N4. split; [split; [reflexivity|exact N1]|]. split; [exact N3|]. split; [exact N4|exact N2].
  Qed.

  Lemma apply_ok : forall g s, during g s -> u_results s <> [] ->
    exists s1 b, apply_best e s = Ok s1 /\ u_best s = Some b /\ base s1 /\ lv (u_k s1) = lev a R (lv (u_req s1)) /\ getL g (lv (u_k s1)) = b /\
      u_target s1 = Some g /\ u_ti s1 = u_ti s /\ u_done s1 = false /\ u_req s1 = set_t g b (u_req s) /\ z_t b = z_t (cur g s).
  Proof using Pr Pf Lf Nz.
    intros g s H Hr. pose proof (cur_ok g s H) as (_ & PO & LO & _). destruct H as [HB Hk Htg Hti Hfix Htf Hkeys _ _ Hbest _ (Hd & _) _].
    destruct Hbest as [(Q & _)|(b & Eb & Hin & Hpos & _)]; [contradiction|].
    rewrite Forall_forall in Hkeys. destruct (Hkeys _ Hin) as (Tb & Nb). cbn [fst] in Tb, Nb.
    assert (Lb : length (z_d b) = n) by (rewrite (proj1 Nb); exact LO).
    destruct HB as [B1 B2 B3 B4 B5].
    unfold apply_best. rewrite Htg, Eb. replace (0 <? u_rate s) with true by lia. cbv zeta.
    set (s1 := with_req _ _).
    assert (HB1 : base s1).
    { constructor; unfold s1; cbn [u_k u_req with_req with_k].
      - rewrite rank_set. exact B1.
      - rewrite lv_set. apply lenL_set; assumption.
      - destruct g; exact B3.
      - rewrite lv_set. apply lenL_set; assumption.
      - rewrite lv_set. destruct g; try exact B5. cbn [setL l_nn tfix] in *. rewrite Tb. exact Htf. }
    destruct (adjust_base g s1 HB1 Hk Htg) as (k' & Ek & K1 & K2 & K3 & K4).
    exists (with_k k' s1), b. split; [exact Ek|]. split; [reflexivity|]. split; [|split; [|split]].
    - constructor; cbn [with_k u_k u_req]; try assumption; apply HB1.
    - cbn [with_k u_k u_req]. rewrite K4. unfold cur, s1. cbn [u_k u_req with_req with_k]. rewrite !lv_set, get_set by exact Hk. rewrite set_set. reflexivity.
    - cbn [with_k u_k]. rewrite K4. unfold cur, s1. cbn [u_k u_req with_req with_k]. rewrite !lv_set, get_set by exact Hk. rewrite set_set.
      apply lev_keeps; try assumption; [rewrite Tb; exact Htf|]. unfold out in Nb. rewrite Hfix in Nb. rewrite (out_indep a R g b (cur g s)). exact Nb.
    - cbn [with_k u_target u_ti u_done u_req]. unfold s1. cbn [with_req with_k u_target u_ti u_done u_req]. auto.
  Qed.

  Definition next_i (s : tstate) : nat := match u_target s with None => O | Some _ => S (u_ti s) end.
  Lemma next_eq : forall s g, nth_error (t_targets e) (next_i s) = Some g -> known_t g ->
    exists mb mp, next_target e s =
      let s := init_search (t_radius e) false (with_target (Some g) (next_i s) (with_mins mb mp s)) in
      let s := with_place (Some (get_t g (u_k s))) (u_radius s) (u_neigh s) (u_found s) s in
      rbind (tune_adjust e s) (fun s => Ok (s, true)).
  Proof.
    intros s g Eg Hk. unfold next_target. fold (next_i s). rewrite Eg. destruct g; try (eexists; eexists; reflexivity); [|destruct Hk; reflexivity].
    destruct (a_offload (t_a e)); eexists; eexists; reflexivity.
  Qed.
  Lemma next_ok : forall s, base s -> lv (u_k s) = lev a R (lv (u_req s)) -> u_done s = false ->
    (nth_error (t_targets e) (next_i s) = None /\ exists s', next_target e s = Ok (s', false) /\ u_target s' = None /\ u_k s' = u_k s /\ u_req s' = u_req s) \/
    exists s' g, nth_error (t_targets e) (next_i s) = Some g /\ next_target e s = Ok (s', true) /\ during g s' /\ u_ti s' = next_i s /\ u_results s' = [] /\ u_csteps s' = 0 /\
      lv (u_k s') = lv (u_k s) /\ u_req s' = u_req s.
  Proof using Pr Pf Lf Nz Ht.
    intros s HB Hl Hd. destruct (nth_error (t_targets e) (next_i s)) as [g|] eqn:Eg.
    2:{ left. split; [reflexivity|]. unfold next_target. fold (next_i s). rewrite Eg. eexists. split; [reflexivity|]. auto. }
    right. assert (Hk : known_t g) by (rewrite Forall_forall in Ht; apply Ht; eapply nth_error_In; exact Eg).
    destruct (next_eq s g Eg Hk) as (mb & mp & En). rewrite En. clear En. cbv zeta.
    match goal with |- context [tune_adjust e ?t] => set (s0 := t) end.
    assert (HB0 : base s0) by (destruct HB; constructor; assumption).
    assert (C0 : cur g s0 = getL g (lev a R (lv (u_req s)))) by (unfold cur, s0; cbn; rewrite Hl; reflexivity).
    destruct (adjust_base g s0 HB0 Hk eq_refl) as (k' & Ek & K1 & K2 & K3 & K4). rewrite Ek. cbn [rbind].
    change (u_req s0) with (u_req s) in K4.
    assert (K5 : lv k' = lv (u_k s)) by (rewrite K4, C0, Hl; apply lev_idem; try assumption; apply HB).
    exists (with_k k' s0), g. split; [reflexivity|]. split; [reflexivity|]. split; [|unfold s0; cbn; auto].
    assert (C1 : cur g (with_k k' s0) = cur g s0) by (unfold cur at 1; cbn [with_k u_k]; rewrite K5; unfold cur, s0; reflexivity).
    constructor.
    - destruct HB0. constructor; cbn [with_k u_k u_req]; assumption.
    - exact Hk.
    - reflexivity.
    - exact Eg.
    - rewrite C1. cbn [with_k u_k u_req]. exact K4.
    - rewrite C1, C0. cbn [with_k u_req]. apply lev_tfix. apply HB.
    - constructor.
    - constructor.
    - rewrite C1. exists (get_t g (u_k s)). split; [reflexivity|]. rewrite lv_get by exact Hk. split; [reflexivity|]. apply lenL_get. apply HB.
    - left. split; reflexivity.
    - unfold s0; cbn; lia.
    - split; [exact Hd|reflexivity].
    - unfold s0; cbn. unfold trial_steps. lia.
  Qed.

  Definition measure (s : tstate) : Z :=
    let m := 3 ^ Z.of_nat (length (a_fold a)) in
    Z.max (m - u_neigh s) 0 + 1 + (m + 1) * ((if u_found s then 1 else 0) + Z.max (u_radius s) 0).
  Definition fresh (g : target) (s : tstate) : Prop := ~ In (cur g s) (map fst (u_results s)).

  Definition applied (g : target) (s s' : tstate) : Prop :=
    lv (u_k s') = lev a R (lv (u_req s')) /\ u_req s' = set_t g (cur g s') (u_req s) /\ z_t (cur g s') = z_t (cur g s).
  Inductive outcome (g : target) (s s' : tstate) : Prop :=
  | o_same : during g s' -> fresh g s' -> u_ti s' = u_ti s -> u_results s' = u_results s -> u_csteps s' = 0 -> out g s' = out g s ->
      u_minb s' = u_minb s -> u_minp s' = u_minp s -> u_req s' = u_req s ->
      u_minp s <= num_pts (cur g s') -> u_minb s <= Z.quot (zprod (out g s')) (num_pts (cur g s')) -> z_t (cur g s') = z_t (cur g s) -> outcome g s s'
  | o_next : forall g', during g' s' -> u_ti s' = S (u_ti s) -> u_results s' = [] -> u_csteps s' = 0 ->
      u_best s = Some (cur g s') -> applied g s s' -> outcome g s s'
  | o_done : u_done s' = true -> nth_error (t_targets e) (S (u_ti s)) = None -> u_best s = Some (cur g s') -> applied g s s' -> base s' -> outcome g s s'.

  Lemma during_place : forall g s c r i f, during g s -> z_t c = z_t (cur g s) -> length (z_d c) = n -> 0 <= i -> during g (with_place (Some c) r i f s).
  Proof.
    intros g s c r i f [[]] H1 H2 H3. constructor; try assumption; [constructor; assumption|exists c; auto].
  Qed.

  Lemma search_ok : forall fuel g s, during g s -> u_results s <> [] -> u_csteps s = 0 -> measure s <= Z.of_nat fuel ->
    exists s', search fuel e s = Ok s' /\ outcome g s s'.
  Proof using Pr Pf Lf Nz Ht.
    induction fuel as [|fuel IH]; intros g s H Hr Hc Hm.
    { exfalso. unfold measure in Hm. cbv zeta in Hm. pose proof (Z.pow_nonneg 3 (Z.of_nat (length (a_fold a))) ltac:(lia)). destruct (u_found s); nia. }
    set (m := 3 ^ Z.of_nat (length (a_fold a))). assert (Hm0 : 1 <= m) by (pose proof (Z.pow_pos_nonneg 3 (Z.of_nat (length (a_fold a)))); lia).
    cbn [search]. cbv zeta. fold a. fold m. unfold measure in Hm. cbv zeta in Hm. fold m in Hm.
    pose proof (d_neigh _ _ H) as Hi. destruct (d_center _ _ H) as (c & Ec & Tc & Lc). pose proof (d_tgt _ _ H) as Eg. pose proof (d_known _ _ H) as Hk.
    pose proof (cur_ok g s H) as (Vc & PO & LO & _).
    destruct (u_neigh s <? m) eqn:En.
    - assert (Ap : allpos (repeat 3 (length (a_fold a)))) by (apply Forall_forall; intros x Hx; apply repeat_spec in Hx; lia).
      rewrite unlayout_vals_point by (auto; lia). cbn [rbind]. set (ofs := point_of _ _ _).
      assert (Lofs : length ofs = n).
      { pose proof (point_of_in (t_fi e) _ (u_neigh s) Ap) as Q. apply in_sizes_length in Q. rewrite repeat_length in Q. rewrite <- Lf. symmetry. exact Q. }
      rewrite Ec, Eg. cbn [with_place u_radius u_results u_neigh u_found].
      set (s1 := with_place (Some c) (u_radius s) (u_neigh s + 1) (u_found s) s).
      assert (H1 : during g s1) by (apply during_place; [exact H|exact Tc|exact Lc|lia]).
      assert (Next : exists s', search fuel e s1 = Ok s' /\ outcome g s s').
      { destruct (IH g s1 H1 Hr Hc) as (s' & Es & Os).
        - unfold measure, s1. cbv zeta. cbn [with_place u_radius u_results u_neigh u_found]. fold m. lia.
        - exists s'. split; [exact Es|]. destruct Os as [A1 A2 A3 A4 A5 A6 A7 A8 A9 A10 A11 A12|g' A1 A2 A3 A4 A5 A6|A1 A2 A3 A4 A5].
          + apply o_same; assumption.
          + eapply o_next; eassumption.
          + apply o_done; assumption. }
      destruct (propose (u_radius s) 0 (a_fold a) (z_d (get_outer g (u_k s))) (z_d c) ofs) as [ds|] eqn:Ep; [|exact Next].
      destruct (check_sizes _ _ _ && _) eqn:Ek; [|exact Next]. clear Next.
      apply andb_prop in Ek. destruct Ek as (Ek1 & Ek2).
      assert (Eo : z_d (get_outer g (u_k s)) = out g s) by (rewrite lv_out, (b_rank _ (d_base _ _ H)); reflexivity).
      rewrite Eo in Ep. apply propose_nested in Ep; try assumption; try lia.
      set (b := mkSizes (z_t c) ds) in *.
      assert (Lb : length (z_d b) = n) by (cbn; rewrite (proj1 Ep); exact LO).
      set (s2 := with_k (set_t g b (u_k s)) s1) in *. pose proof (d_base _ _ H) as HB.
      assert (HB2 : base s2).
      { destruct HB as [B1 B2 B3 B4 B5]. constructor; unfold s2; cbn [with_k u_k u_req]; try assumption.
        - rewrite rank_set. exact B1.
        - rewrite lv_set. apply lenL_set; assumption.
        - destruct g; exact B3. }
      destruct (adjust_base g s2 HB2 Hk Eg) as (k' & Ea & K1 & K2 & K3 & K4).
      exists (with_k k' s2). split; [exact Ea|].
      assert (C2 : cur g s2 = b) by (unfold cur, s2; cbn [with_k u_k]; rewrite lv_set; apply get_set; exact Hk).
      rewrite C2 in K4. change (u_req s2) with (u_req s) in K4.
      assert (EO : z_d (outL g R (lv k')) = out g s).
      { rewrite K4. unfold out. rewrite (d_fix _ _ H). apply out_indep. }
      assert (C3 : getL g (lv k') = b).
      { rewrite K4. apply lev_keeps; try assumption; [apply HB|cbn [z_t b]; rewrite Tc; apply (d_tfix _ _ H)|]. fold a. rewrite <- K4, EO. exact Ep. }
      assert (Tb : z_t b = z_t (cur g s)) by exact Tc.
      assert (C4 : cur g (with_k k' s2) = b) by exact C3.
      assert (O4 : out g (with_k k' s2) = out g s) by exact EO.
      assert (D2 : during g (with_k k' s2)).
      { constructor; rewrite ?C4, ?O4.
        - constructor; cbn [with_k u_k u_req]; try assumption; apply HB.
        - exact Hk.
        - exact Eg.
        - exact (d_ti _ _ H).
        - cbn [with_k u_k u_req]. exact K4.
        - rewrite Tb. exact (d_tfix _ _ H).
        - rewrite Tb. exact (d_keys _ _ H).
        - exact (d_nodup _ _ H).
        - exists c. rewrite Tb. auto.
        - exact (d_best _ _ H).
        - cbn. lia.
        - exact (d_flags _ _ H).
        - cbn. rewrite Hc. unfold trial_steps. lia. }
      unfold check_sizes, s1 in Ek1. cbn [with_place u_minp u_minb] in Ek1. destruct (num_pts b <? u_minp s) eqn:Q1; [discriminate|].
      apply o_same; try reflexivity; try assumption.
      + unfold fresh. rewrite C4. change (u_results (with_k k' s2)) with (u_results s). intros Hin. apply known_spec in Hin. rewrite Hin in Ek2. discriminate.
      + rewrite C4. lia.
      + rewrite C4, O4, <- Eo. unfold num_pts in Ek1 at 1. lia.
      + rewrite C4. exact Tb.
    - cbn [with_place u_radius u_results u_neigh u_found u_center].
      destruct (d_best _ _ H) as [(Q & _)|(b & Eb & Hin & Hp & Hmax)]; [contradiction|].
      assert (Vb : valid (out g s) (z_t (cur g s)) b). { pose proof (d_keys _ _ H) as F. rewrite Forall_forall in F. apply (F _ Hin). }
      destruct Vb as (Tb & Nb). assert (Lb : length (z_d b) = n) by (rewrite (proj1 Nb); exact LO).
      assert (Rec : forall r, measure (with_place (u_best s) r 0 false s) <= Z.of_nat fuel -> exists s', search fuel e (with_place (u_best s) r 0 false s) = Ok s' /\ outcome g s s').
      { intros r Hmr. rewrite Eb in *. destruct (IH g (with_place (Some b) r 0 false s) (during_place g s b r 0 false H Tb Lb (Z.le_refl 0)) Hr Hc Hmr) as (s' & Es & Os).
        exists s'. split; [exact Es|]. destruct Os as [A1 A2 A3 A4 A5 A6 A7 A8 A9 A10 A11 A12|g' A1 A2 A3 A4 A5 A6|A1 A2 A3 A4 A5].
          + apply o_same; assumption.
          + eapply o_next; eassumption.
          + apply o_done; assumption. }
      destruct (u_found s) eqn:Ef; cbn [negb].
      + apply Rec. unfold measure. cbv zeta. cbn [with_place u_radius u_neigh u_found]. fold m. lia.
      + match goal with |- context [search fuel e ?t] => change t with (with_place (u_best s) (Z.quot (u_radius s) 2) 0 false s) end.
        destruct (1 <=? Z.quot (u_radius s) 2) eqn:Er.
        * apply Rec. unfold measure. cbv zeta. cbn [with_place u_radius u_neigh u_found]. fold m.
          assert (Z.quot (u_radius s) 2 < u_radius s). { Z.to_euclidean_division_equations. lia. }
          assert (Q : (m + 1) * (0 + Z.max (Z.quot (u_radius s) 2) 0) <= (m + 1) * (0 + Z.max (u_radius s) 0 - 1)) by (apply Z.mul_le_mono_nonneg_l; lia). lia.
        * clear Rec IH.
          match goal with |- context [apply_best e ?t] => set (s1 := t) end.
          assert (H1 : during g s1) by (unfold s1; cbn [with_place u_best]; rewrite Eb; exact (during_place g s b (Z.quot (u_radius s) 2) 0 false H Tb Lb (Z.le_refl 0))).
          destruct (apply_ok g s1 H1 Hr) as (s2 & b' & Ea & Eb' & B2 & L2 & G2 & T2 & I2 & D2 & Q2 & Z2). rewrite Ea. cbn [rbind].
          change (u_best s1) with (u_best s) in Eb'. change (u_ti s1) with (u_ti s) in I2.
          destruct (next_ok s2 B2 L2 D2) as [(N1 & s3 & E3 & T3 & K3 & W3)|(s3 & g' & N1 & E3 & D3 & I3 & R3 & C3 & K3 & W3)]; rewrite E3; cbn [rbind snd fst]; unfold next_i in *; rewrite T2, I2 in *.
          -- unfold clear, apply_best. rewrite T3. cbn [rbind]. eexists. split; [reflexivity|]. assert (Cc : forall t, u_k t = u_k s3 -> cur g t = b') by (intros t Et; unfold cur; rewrite Et, K3; exact G2).
             apply o_done; [reflexivity|exact N1|rewrite Eb'; f_equal; symmetry; apply Cc; reflexivity| |destruct B2; constructor; cbn; rewrite ?K3, ?W3; assumption].
             unfold applied. rewrite Cc by reflexivity. cbn. rewrite K3, W3. split; [exact L2|]. split; [exact Q2|exact Z2].
          -- exists s3. split; [reflexivity|]. assert (Cc : cur g s3 = b') by (unfold cur; rewrite K3; exact G2).
             apply o_next with g'; try assumption; [rewrite Eb', Cc; reflexivity|]. unfold applied. rewrite Cc, K3, W3. split; [exact L2|]. split; [exact Q2|exact Z2].
  Qed.

  (* One call-back *)
  Record obs_ok (o : obs) : Prop := mkObsOk { ob_steps : 1 <= o_steps o; ob_rate : 0 < o_rate o }.
  Definition remember (g : target) (o : obs) (s : tstate) : list (sizes * Z) := u_results s ++ [(cur g s, o_rate o)].

  Inductive step (g : target) (o : obs) (s s' : tstate) : Prop :=
  | e_more : during g s' -> fresh g s' -> u_k s' = u_k s -> u_ti s' = u_ti s -> u_results s' = u_results s -> u_csteps s' = u_csteps s + o_steps o -> u_req s' = u_req s -> step g o s s'
  | e_same : during g s' -> fresh g s' -> u_ti s' = u_ti s -> u_results s' = remember g o s -> u_csteps s' = 0 -> out g s' = out g s ->
      u_minb s' = u_minb s -> u_minp s' = u_minp s -> u_req s' = u_req s ->
      u_minp s <= num_pts (cur g s') -> u_minb s <= Z.quot (zprod (out g s')) (num_pts (cur g s')) -> z_t (cur g s') = z_t (cur g s) -> step g o s s'
  | e_next : forall g', during g' s' -> u_ti s' = S (u_ti s) -> u_results s' = [] -> u_csteps s' = 0 ->
      (exists r, In (cur g s', r) (remember g o s) /\ forall x, In x (remember g o s) -> snd x <= r) -> applied g s s' -> step g o s s'
  | e_done : u_done s' = true -> nth_error (t_targets e) (S (u_ti s)) = None ->
      (exists r, In (cur g s', r) (remember g o s) /\ forall x, In x (remember g o s) -> snd x <= r) -> applied g s s' -> base s' -> step g o s s'.

  Lemma during_steps : forall g s k, during g s -> 0 <= k < trial_steps -> during g (with_steps k s).
  Proof. intros g s k [[]] H. constructor; try assumption. constructor; assumption. Qed.
  Lemma eval_ok : forall g o s, during g s -> fresh g s -> obs_ok o -> exists s', eval e o s = Ok s' /\ step g o s s'.
  Proof using Pr Pf Lf Nz Ht.
    intros g o s H Hf [O1 O2]. pose proof (d_flags _ _ H) as (F1 & F2). pose proof (d_steps _ _ H) as S0. unfold eval. rewrite F1. cbn [with_steps u_warm u_rate u_csteps u_target]. rewrite F2.
    destruct (negb _) eqn:Er.
    - eexists. split; [reflexivity|]. assert (D : during g (with_steps (u_csteps s + o_steps o) s)) by (apply during_steps; [exact H|lia]). apply e_more; try reflexivity; assumption.
    - clear Er. rewrite (d_tgt _ _ H). cbv zeta. cbn [with_steps u_k u_results u_rate u_best u_found]. rewrite lv_get by exact (d_known _ _ H). fold (cur g s). rewrite store_new by exact Hf.
      change (u_results s ++ [(cur g s, o_rate o)]) with (remember g o s).
      match goal with |- context [search _ e ?t] => set (s1 := t) end.
      assert (Rn : remember g o s <> []) by (unfold remember; intros Q; symmetry in Q; eapply app_cons_not_nil; exact Q).
      assert (H1 : during g s1 /\ u_results s1 = remember g o s /\ u_csteps s1 = 0 /\ u_ti s1 = u_ti s /\ u_radius s1 = u_radius s /\ u_minb s1 = u_minb s /\ u_minp s1 = u_minp s /\ u_req s1 = u_req s /\ out g s1 = out g s /\ cur g s1 = cur g s
                   /\ exists b, u_best s1 = Some b /\ In (b, u_rate s1) (remember g o s) /\ 0 < u_rate s1 /\ forall x, In x (remember g o s) -> snd x <= u_rate s1).
      { assert (K : Forall (fun x => valid (out g s) (z_t (cur g s)) (fst x)) (remember g o s)).
        { unfold remember. apply Forall_app. split; [exact (d_keys _ _ H)|]. constructor; [|constructor]. apply (cur_ok g s H). }
        assert (N : NoDup (map fst (remember g o s))).
        { unfold remember. rewrite map_app. cbn [map fst]. apply NoDup_Add with (a := cur g s) (l := map fst (u_results s)); [|split; [exact (d_nodup _ _ H)|exact Hf]].
          rewrite <- (app_nil_r (map fst (u_results s))) at 1. apply Add_app. }
        assert (B : exists b, u_best s1 = Some b /\ In (b, u_rate s1) (remember g o s) /\ 0 < u_rate s1 /\ forall x, In x (remember g o s) -> snd x <= u_rate s1).
        { unfold s1. destruct (u_rate s <? o_rate o) eqn:Q; cbn [with_steps with_best u_best u_rate].
          - exists (cur g s). split; [reflexivity|]. split; [apply in_or_app; right; left; reflexivity|]. split; [exact O2|]. intros x Hx. apply in_app_or in Hx. destruct Hx as [Hx|[<-|[]]]; [|cbn; lia].
            destruct (d_best _ _ H) as [(Q1 & _)|(b & _ & _ & _ & Hmax)]; [rewrite Q1 in Hx; destruct Hx|]. specialize (Hmax x Hx). lia.
          - destruct (d_best _ _ H) as [(_ & Q1)|(b & Eb & Hin & Hp & Hmax)]; [lia|]. exists b. split; [exact Eb|]. split; [apply in_or_app; left; exact Hin|]. split; [exact Hp|].
            intros x Hx. apply in_app_or in Hx. destruct Hx as [Hx|[<-|[]]]; [apply Hmax; exact Hx|cbn; lia]. }
        split.
        - destruct H as [[B1 B2 B3 B4 B5] Hk Htg Hti Hfix Htf Hkeys Hnd Hcen Hbest Hnei Hfl Hst]. unfold s1 in *. destruct (u_rate s <? o_rate o); (constructor; [constructor; assumption|assumption|assumption|assumption|assumption|assumption|exact K|exact N|assumption|right; exact B|assumption|assumption|cbn; unfold trial_steps; lia]).
        - split; [unfold s1; destruct (u_rate s <? o_rate o); reflexivity|]. split; [reflexivity|]. unfold s1. destruct (u_rate s <? o_rate o); cbn; repeat (split; [reflexivity|]); exact B. }
      destruct H1 as (D1 & R1 & C1 & T1 & Q1 & M1 & M2 & M3 & M4 & M5 & b & Eb & Hin & Hp & Hmax).
      destruct (search_ok (search_fuel e s1) g s1 D1 ltac:(rewrite R1; exact Rn) C1) as (s' & Es & Os).
      + unfold search_fuel, measure. fold a. cbv zeta. set (m := 3 ^ Z.of_nat (length (a_fold a))). assert (Hm0 : 1 <= m) by (pose proof (Z.pow_pos_nonneg 3 (Z.of_nat (length (a_fold a)))); lia).
        rewrite Z2Nat.id by nia. pose proof (d_neigh _ _ D1). destruct (u_found s1); nia.
      + exists s'. split; [exact Es|].
        assert (BB : forall x, u_best s1 = Some x -> exists r, In (x, r) (remember g o s) /\ forall y, In y (remember g o s) -> snd y <= r).
        { intros x Ex. exists (u_rate s1). rewrite Ex in Eb. inversion Eb; subst x. auto. }
        destruct Os as [A1 A2 A3 A4 A5 A6 A7 A8 A9 A10 A11 A12|g' A1 A2 A3 A4 A5 A6|A1 A2 A3 A4 A5].
        * apply e_same; try assumption; try congruence; rewrite <- ?M1, <- ?M2, <- ?M5; assumption.
        * assert (Ap : applied g s s') by (destruct A6 as (X1 & X2 & X3); split; [exact X1|]; rewrite X3, X2, M3, M5; auto).
          eapply e_next; try eassumption; [congruence|]. apply BB. exact A5.
        * assert (Ap : applied g s s') by (destruct A4 as (X1 & X2 & X3); split; [exact X1|]; rewrite X3, X2, M3, M5; auto).
          apply e_done; [exact A1|congruence|apply BB; exact A3|exact Ap|exact A5].
  Qed.
End Run.
