(* The exchange of the code is an exchange of halos as assumed of jobs; results of a job that the code has set up. *)
From Coq Require Import ZifyBool.
From Verif Require Import Base Idiv_Model Cover_Spec Sched_Spec Tile_Spec Loops_Model Tile_Model TileCfg_Spec Rank_Model Rank_Spec Rank_Proofs Exchange_Model Exchange_Spec Exchange_Proofs Job_Model Job_Spec JobSetup_Spec Job3_Proofs Job4_Proofs JobSetup_Proofs.

Section SU.
  Variables (S : xset) (given : list rank_in) (xs : list xrank) (ranks : list rank_cfg) (dom : Z -> list Z -> Prop).
  Hypothesis U : set_up S given xs ranks dom.
  Notation nd := (j_nd (s_job S)).
  Notation nst := (s_nstages S).
  Notation wf := (s_wf S).
  Notation hl := (halo_in true S).
  Notation hr := (halo_in false S).
  Notation ex := (exchanged_var S).
  Notation lk := (code_links S xs).
  Let Wf : ranks_wf (s_job S) given := su_wf _ _ _ _ _ U.
  Let Rd : job_ready S given xs := su_ready _ _ _ _ _ U.
  Let Al : aligned_ranks S xs := su_aligned _ _ _ _ _ U.
  Context {V : Type}.
  Variable ord : bool -> list (Z * Z) -> list (list Z).
  Hypothesis Or : order_ok ord.

  Lemma view_point : forall v x (m : cell -> V) u q, full_var nd x = true -> element nd x q = true -> view S v x m (point_of nd (v_dims x) u q) u = m (v, u, q).
  Proof. intros v x m u q F E. unfold view. rewrite step_at_point, indices_point by assumption. reflexivity. Qed.
  Lemma elem_misc : forall x q, element nd x q = true -> misc_ok (v_dims x) (skipn nd q) = true.
  Proof. intros x q E. unfold element in E. apply andb_prop in E. apply E. Qed.
  Lemma owns_point : forall x a u q, In x (s_vars S) -> full_var nd x = true -> element nd x q = true -> (Exchange_Spec.owns x a (point_of nd (v_dims x) u q) <-> xowns S a q).
  Proof.
    intros x a u q Ix F E. unfold Exchange_Spec.owns, within. split.
    - intros H j Lj. pose proof (full_dims nd x F j Lj) as C. assert (exists vlen lh rh, In (XDom j vlen lh rh) (v_dims x)) as (vlen & lh & rh & Id).
      { unfold dom_count in C. destruct (filter _ (v_dims x)) as [|d l] eqn:Q; [cbn in C; lia|]. assert (In d (d :: l)) as I by (left; reflexivity). rewrite <- Q in I. apply filter_In in I. destruct I as (I & K).
        destruct d as [al|f n|i vlen lh rh]; try discriminate. apply Nat.eqb_eq in K. subst i. eauto. }
      pose proof (point_dom _ u q j vlen lh rh _ _ H Id) as K. cbv beta iota in K. unfold xr_ofs, xr_size. lia.
    - intros H. apply point_all; [apply elem_misc; exact E|auto|auto|]. intros j vlen lh rh Id. destruct (var_dom_ok S given xs Rd x j vlen lh rh Ix Id) as (Lj & _). specialize (H j Lj). unfold xr_ofs, xr_size in *. lia.
  Qed.
  Lemma halos_point : forall r a k v x u q, nth_error xs r = Some a -> same_rank S xs a k -> var_at S v = Some x -> full_var nd x = true -> element nd x q = true ->
    in_halos nst wf hl hr k v q -> in_halo (shift_pts S a) x a (point_of nd (v_dims x) u q).
  Proof.
    intros r a k v x u q Ea Sm Vx F E H. pose proof (nth_error_In _ _ Ea) as Ia. unfold in_halo, within. apply point_all; [apply elem_misc; exact E|auto|auto|]. intros j vlen lh rh Id.
    destruct (var_dom_ok S given xs Rd x j vlen lh rh (var_In S v x Vx) Id) as (Lj & _). destruct (dim_of S xs a k j Sm Lj) as (d & Ed). specialize (H j d Ed). cbv zeta in H.
    destruct (halo_of S v x j vlen lh rh Vx F Lj Id) as (El & Er). destruct (dim_same S xs a k j d Sm Ed) as (A1 & A2 & _ & _ & A3 & A4 & _). rewrite A1, A2, A3, A4, El, Er in H.
    pose proof (shift_nonneg S given xs Wf Rd a j Lj) as Sh. pose proof (rank_ends S given xs ranks dom U a j Ia Lj) as Rc. unfold is_first, is_last in H. unfold xr_ofs, xr_size in *.
    assert (1 < pos j (j_nranks (s_job S)) -> angle d * moves nst wf = shift_pts S a j) as W by (intros Hn; exact (angle_shift S given xs ranks dom U a k j d Sm Ed Hn)).
    destruct (xr_c a j =? 0) eqn:E1, (xr_c a j =? pos j (j_nranks (s_job S)) - 1) eqn:E2; try rewrite W in H by lia; lia.
  Qed.
  (* a rank that sends a point that no rank owns has it in its halos *)
  Lemma edge_halos : forall r s a b k kb v x t u q, nth_error xs r = Some a -> nth_error xs s = Some b -> same_rank S xs a k -> same_rank S xs b kb -> adj S a b -> var_at S v = Some x -> full_var nd x = true ->
    in_halos nst wf hl hr k v q -> insl S a b x t (point_of nd (v_dims x) u q) -> in_halos nst wf hl hr kb v q.
  Proof.
    intros r s a b k kb v x t u q Ea Eb Sm Smb Ad Vx F H I j d Ed. cbv zeta. pose proof (nth_error_In _ _ Ea) as Ia. pose proof (nth_error_In _ _ Eb) as Ib. pose proof (dim_lt S xs _ _ _ _ Smb Ed) as Lj. pose proof (var_In S v x Vx) as Ix.
    destruct (dim_of S xs a k j Sm Lj) as (da & Eda). specialize (H j da Eda). cbv zeta in H. destruct (halo_dim S v x j Vx F Lj) as (vlen & lh & rh & Id & El & Er).
    destruct (dim_same S xs a k j da Sm Eda) as (A1 & A2 & _ & A5 & A3 & A4 & A6). destruct (dim_same S xs b kb j d Smb Ed) as (B1 & B2 & _ & B5 & B3 & B4 & B6).
    assert (angle d = angle da) as Ang by (unfold angle; rewrite A5, A6, B5, B6; reflexivity).
    destruct (var_dom_ok S given xs Rd x j vlen lh rh Ix Id) as (_ & _ & Hl & Hr). destruct (recv_ranges S given xs Wf Rd a b x j vlen lh rh Ia Ib Ad Ix Id) as (R1 & R2 & R3). cbv zeta in R1, R2, R3.
    pose proof (point_dom _ u q j vlen lh rh _ _ I Id) as K. cbv beta iota in K.
    assert (0 <= angle d * moves nst wf) as Wn.
    { rewrite (moves_shifts S given xs ranks dom U). pose proof (nshift_nonneg S given xs Rd). unfold angle. rewrite B5, B6. pose proof (fo_pos S given Wf j Lj) as Fp. unfold fo in Fp. pose proof (max_halo_nonneg S j).
      pose proof (Z.div_pos (max_halo S j + pos j (j_fold (s_job S)) - 1) (pos j (j_fold (s_job S))) ltac:(lia) ltac:(lia)). nia. }
    destruct (dlt_cases S a b j Ad Lj) as [D|[D|D]].
    - specialize (R1 D). rewrite B1, B2, El, Er. destruct (d_first d), (d_last d); lia.
    - destruct (R3 D) as (_ & _ & E1 & E2 & _). rewrite B1, B2, B3, B4, E1, E2, Ang. rewrite A1, A2, A3, A4 in H. unfold is_first, is_last in *. replace (xr_c b j) with (xr_c a j) by (unfold dlt in D; lia). exact H.
    - specialize (R2 D). rewrite B1, B2, El, Er. destruct (d_first d), (d_last d); lia.
  Qed.

  Theorem code_exchange_ok : forall P M M' : nat -> cell -> V, code_exchange S xs ranks ord P M M' -> exchanged ranks nst wf ex hl hr lk P M M'.
  Proof using U Or.
    intros P M M' (steps & dirty & (Hx & Hn) & Hu).
    assert (forall v x r a, var_at S v = Some x -> full_var nd x = true -> nth_error xs r = Some a -> forall u q, element nd x q = true ->
      (xowns S a q -> M' r (v, u, q) = M r (v, u, q)) /\
      ((exists s b t, nth_error xs s = Some b /\ adj S a b /\ insl S a b x t (point_of nd (v_dims x) u q) /\ M' r (v, u, q) = P s (v, u, q)) \/
       ((forall b, In b xs -> next_to (if 0 <? wf then Z.of_nat nd else v_l1 x) a b -> ~ (dirty v b = true /\ mpi_buf S false a b x <> None /\ exists t, In t (steps v) /\ insl S a b x t (point_of nd (v_dims x) u q))) /\
        M' r (v, u, q) = M r (v, u, q)))) as Core.
    { intros v x r a Vx F Ea u q El. pose proof (nth_error_In _ _ Ea) as Ia. pose proof (var_In S v x Vx) as Ix. destruct (Hx v x r a Vx F Ea) as (st & vals' & Hst & E & HM).
      destruct (Exchange_Proofs.exchange_ok S given xs Wf Rd (Z -> V) ord Or x (steps v) (dirty v) st Ix a (view S v x (M r)) Ia) as (w & E' & Own & _). assert (w = vals') by congruence. subst w.
      destruct (Exchange_Proofs.exchange_gets S given xs Wf Rd (Z -> V) ord Or x (steps v) (dirty v) st Ix a (view S v x (M r)) Ia) as (w & E2 & G). assert (w = vals') by congruence. subst w. rewrite (HM u q El). split.
      - intros O. rewrite Own by (apply owns_point; assumption). apply view_point; assumption.
      - destruct (G (point_of nd (v_dims x) u q)) as [(b & Ib & Ad & (_ & _ & t & _ & I) & Vq)|(N & Vq)]; [left|right].
        + apply In_nth_error in Ib. destruct Ib as (s & Es). exists s, b, t. split; [exact Es|]. split; [exact Ad|]. split; [exact I|]. rewrite Vq, (Hst s b _ _ Es). apply view_point; assumption.
        + split; [exact N|]. rewrite Vq. apply view_point; assumption. }
    assert (forall v q, (forall x, var_at S v = Some x -> full_var nd x = true -> element nd x q = false) \/ exists x, var_at S v = Some x /\ full_var nd x = true /\ element nd x q = true) as Dec.
    { intros v q. destruct (var_at S v) as [x|]; [|left; discriminate]. destruct (full_var nd x) eqn:F; [|left; intros y Q; injection Q as <-; congruence]. destruct (element nd x q) eqn:E; [right; eauto|left]. intros y Q. injection Q as <-. auto. }
    constructor.
    - intros r ((v, u), q) O. cbn [snd] in O. destruct (Dec v q) as [N|(x & Vx & F & E)]; [apply Hn; exact N|]. pose proof O as (k & Ek & _). destruct (of_k S given xs ranks dom U r k Ek) as (a & Ea & _).
      apply (Core v x r a Vx F Ea u q E). apply (owns_x S given xs ranks dom U r a q Ea). exact O.
    - intros r s v u q Ne Ev K O. pose proof K as (k & Ek & Hh & Hlk). destruct (Hlk s Ne O) as (x & a & b & Vx & El & Ea & Eb & Nx). destruct (of_k S given xs ranks dom U r k Ek) as (a' & Ea' & Sm). assert (a' = a) by congruence. subst a'.
      assert (full_var nd x = true) as F. { unfold exchanged_var in Ev. rewrite Vx in Ev. exact Ev. }
      pose proof (nth_error_In _ _ Ea) as Ia. pose proof (nth_error_In _ _ Eb) as Ib. pose proof (var_In S v x Vx) as Ix. apply (owns_x S given xs ranks dom U s b q Eb) in O as Ob.
      destruct (Core v x r a Vx F Ea u q El) as (_ & [(s' & b' & t & Es' & Ad & I & Vq)|(N & Vq)]).
      + pose proof (nth_error_In _ _ Es') as Ib'. assert (Exchange_Spec.owns x b' (point_of nd (v_dims x) u q)) as Ob'.
        { apply (insl_owner S given xs Wf Rd a b' x t _ b Ia Ib' Ib Ad Ix Al); [apply owns_point; assumption|exact I]. }
        apply owns_point in Ob'; [|assumption..]. pose proof (own_unique S given xs ranks dom U b b' q Ib Ib' Ob Ob') as <-. rewrite (xs_nodup S given xs ranks dom U s s' b Eb Es'). exact Vq.
      + rewrite Vq. apply (Hu v x r s b u q Vx F Ne Eb); [|exact K|exact O]. intros (Dy & St). apply (N b Ib Nx). split; [exact Dy|]. destruct (next_adj S given xs Wf Rd _ a b Ia Ib Nx) as (Ad & Md & _).
        assert (exists t, In t (steps v) /\ step_in x (point_of nd (v_dims x) u q) [t]) as (t & It & Hs).
        { destruct (has_step (v_dims x)) eqn:Hst.
          - exists u. split; [exact St|]. unfold step_in. apply point_all; [apply elem_misc; exact El|intros; left; reflexivity|auto|auto].
          - destruct (steps v) as [|t l]; [congruence|]. exists t. split; [left; reflexivity|]. unfold step_in. apply point_all; [apply elem_misc; exact El| |auto|auto]. intros al Ial. exfalso.
            apply not_true_iff_false in Hst. apply Hst. unfold has_step. apply existsb_exists. exists (XStep al). auto. }
        pose proof (halos_point r a k v x u q Ea Sm Vx F El Hh) as Hq. assert (~ Exchange_Spec.owns x a (point_of nd (v_dims x) u q)) as Na.
        { intros Oa. apply owns_point in Oa; [|assumption..]. destruct Nx as (Nab & _). apply Nab. exact (own_unique S given xs ranks dom U a b q Ia Ib Oa Ob). }
        assert (Exchange_Spec.owns x b (point_of nd (v_dims x) u q)) as Obx by (apply owns_point; assumption).
        destruct (buf_exists S given xs Wf Rd a b x t _ (shift_pts S a) Ia Ib Ad Ix ltac:(intros; lia) Obx Hq Hs Na Md) as (m & ->). split; [discriminate|]. exists t. split; [exact It|].
        apply (insl_cover S given xs Wf Rd a b x t _ (shift_pts S a)); auto. intros; lia.
    - intros r v u q Ev K Nown. destruct (Dec v q) as [N|(x & Vx & F & E)]; [left; apply Hn; exact N|]. pose proof K as (k & Ek & Hh & _). destruct (of_k S given xs ranks dom U r k Ek) as (a & Ea & Sm).
      destruct (Core v x r a Vx F Ea u q E) as (_ & [(s & b & t & Es & Ad & I & Vq)|(_ & Vq)]); [right|left; exact Vq]. exists s. split; [|exact Vq]. destruct (of_x S given xs ranks dom U s b Es) as (kb & Ekb & Smb).
      exists kb. split; [exact Ekb|]. split; [exact (edge_halos r s a b k kb v x t u q Ea Es Sm Smb Ad Vx F Hh I)|]. intros s' _ Os. destruct (Nown s' Os).
    - intros r v u q Ev. apply Hn. intros x Vx F. unfold exchanged_var in Ev. rewrite Vx in Ev. congruence.
  Qed.

  (* ---- it never fails ---- *)
  Fixpoint rank_idx (l : list xrank) (b : xrank) : nat :=
    match l with [] => 0%nat | a :: r => if list_eq_dec Z.eq_dec (o_coords (xr_o a)) (o_coords (xr_o b)) then 0%nat else Datatypes.S (rank_idx r b) end.
  Definition code_swap (steps : Z -> list Z) (dirty : Z -> xrank -> bool) (P M : nat -> cell -> V) (r : nat) (c : cell) : V :=
    let '(v, u, q) := c in
    match var_at S v, nth_error xs r with
    | Some x, Some a =>
        if full_var nd x && element nd x q
        then match exchange_rank S (Z -> V) ord xs x (steps v) (dirty v) (fun b => view S v x (P (rank_idx xs b))) (view S v x (M r)) a with
             | Ok vals => vals (point_of nd (v_dims x) u q) u | _ => M r c end
        else M r c
    | _, _ => M r c
    end.
  Lemma rank_idx_nth : forall s b, nth_error xs s = Some b -> rank_idx xs b = s.
  Proof using U.
    destruct (setup_grid (s_job S) given _ Wf (proj1 Rd)) as (P & _ & _ & Nd & _). rewrite map_map in Nd. revert Nd. generalize xs. clear. intros l. induction l as [|a l IH]; intros Nd [|s] b E; try discriminate; cbn in E; cbn [rank_idx].
    - injection E as ->. destruct (list_eq_dec _ _ _); [reflexivity|congruence].
    - cbn [map] in Nd. inversion Nd as [|? ? N1 N2]; subst. destruct (list_eq_dec _ _ _) as [Q|Q]; [|f_equal; apply IH; assumption]. exfalso. apply N1. rewrite Q. apply (in_map (fun x => o_coords (xr_o x))). eapply nth_error_In. exact E.
  Qed.
  Lemma code_swap_messages : forall steps dirty (P M : nat -> cell -> V), code_messages S xs ord steps dirty P M (code_swap steps dirty P M).
  Proof using U Or.
    intros steps dirty P M. split.
    - intros v x r a Vx F Ea. pose proof (nth_error_In _ _ Ea) as Ia. pose proof (var_In S v x Vx) as Ix. set (st := fun b => view S v x (P (rank_idx xs b))).
      destruct (Exchange_Proofs.exchange_ok S given xs Wf Rd (Z -> V) ord Or x (steps v) (dirty v) st Ix a (view S v x (M r)) Ia) as (w & E & _). exists st, w. split; [|split; [exact E|]].
      + intros s b p u Es. unfold st. rewrite (rank_idx_nth s b Es). reflexivity.
      + intros u q El. unfold code_swap. rewrite Vx, Ea, F, El. cbn [andb]. fold st. rewrite E. reflexivity.
    - intros v u q r H. unfold code_swap. destruct (var_at S v) as [x|] eqn:Vx; [|reflexivity]. destruct (nth_error xs r); [|reflexivity]. destruct (full_var nd x) eqn:F; [|reflexivity]. rewrite (H x eq_refl F). reflexivity.
  Qed.
  Lemma code_swap_ok : forall steps dirty (P M : nat -> cell -> V), up_to_date S xs ranks steps dirty P M -> code_exchange S xs ranks ord P M (code_swap steps dirty P M).
  Proof using U Or. intros steps dirty P M Hu. exists steps, dirty. split; [apply code_swap_messages|exact Hu]. Qed.
  Theorem code_exchange_ex : forall steps dirty (P M : nat -> cell -> V), up_to_date S xs ranks steps dirty P M -> exists M', code_exchange S xs ranks ord P M M'.
  Proof using U Or. intros steps dirty P M H. eexists. apply (code_swap_ok steps dirty). exact H. Qed.

  (* ---- what is read comes from ranks within the exchange distance ---- *)
  Lemma filter_ext_le : forall (f g : nat -> bool) l, (forall j, In j l -> f j = true -> g j = true) -> (length (filter f l) <= length (filter g l))%nat.
  Proof. intros f g. induction l as [|j l IH]; intros H; cbn [filter]; [lia|]. specialize (IH ltac:(intros; apply H; [right|]; assumption)). destruct (f j) eqn:E; [rewrite (H j ltac:(left; reflexivity) E); cbn; lia|]. destruct (g j); cbn; lia. Qed.
  Lemma filter_le : forall (f : nat -> bool) l, (length (filter f l) <= length l)%nat.
  Proof. intros f. induction l as [|j l IH]; cbn [filter]; [lia|]. destruct (f j); cbn [length]; lia. Qed.
  Lemma zsum_count : forall (f : nat -> Z) l, (forall j, In j l -> 0 <= f j <= 1) -> zsum (map f l) = Z.of_nat (length (filter (fun j => negb (f j =? 0)) l)).
  Proof.
    intros f. induction l as [|j l IH]; intros H; [reflexivity|]. cbn [map zsum fold_right filter]. change (fold_right Z.add 0 ?m) with (zsum m). rewrite IH by (intros; apply H; right; assumption).
    specialize (H j ltac:(left; reflexivity)). destruct (f j =? 0) eqn:E; cbn [negb length]; lia.
  Qed.
  Lemma next_to_of : forall n a b, In a xs -> In b xs -> a <> b -> adj S a b -> man_dist S a b <= n -> next_to n a b.
  Proof.
    intros n a b Ia Ib Ne Ad Md. destruct (coords_len S given xs Wf Rd a Ia) as (La & _). destruct (coords_len S given xs Wf Rd b Ib) as (Lb & _).
    split; [exact Ne|]. split; [lia|]. split.
    - assert (forall l1 l2, length l1 = length l2 -> (forall j, (j < length l1)%nat -> Z.abs (pos j l1 - pos j l2) <= 1) -> Forall2 (fun x y => Z.abs (x - y) <= 1) l1 l2) as W.
      { clear. induction l1 as [|x l1 IH]; intros [|y l2] E H; try discriminate; constructor; [apply (H 0%nat); cbn; lia|]. apply IH; [cbn in E; lia|]. intros j Lj. apply (H (Datatypes.S j)). cbn. lia. }
      apply W; [lia|]. intros j Lj. specialize (Ad j ltac:(lia)). unfold dlt, xr_c in Ad. lia.
    - assert (forall l1 l2, length l1 = length l2 -> zsum (map (fun e : Z * Z => Z.abs (fst e - snd e)) (combine l1 l2)) = zsum (map (fun j => Z.abs (pos j l2 - pos j l1)) (seq 0 (length l1)))) as W2.
      { clear. induction l1 as [|x l1 IH]; intros [|y l2] E; try discriminate; [reflexivity|]. cbn [combine map length seq zsum fold_right fst snd]. rewrite <- seq_shift, map_map.
        change (fold_right Z.add 0 ?l) with (zsum l). rewrite IH by (cbn in E; lia).
        assert (Z.abs (x - y) = Z.abs (pos 0 (y :: l2) - pos 0 (x :: l1))) as -> by (unfold pos; cbn [nth]; lia). reflexivity. }
      rewrite W2 by lia. rewrite La. exact Md.
  Qed.
  Theorem reads_in_linked : forall st : stencil V, job_stencil nd ex hl hr st -> reads_in S st -> reads_linked ranks nst wf dom ex lk st.
  Proof using U.
    intros st Js Ri r k y e s Ek Hs (Dy & Ny) Ie Ev Ne O. destruct (of_k S given xs ranks dom U r k Ek) as (a & Ea & Sm). pose proof O as (kb & Ekb & _). destruct (of_k S given xs ranks dom U s kb Ekb) as (b & Eb & Smb).
    unfold exchanged_var in Ev. destruct (var_at S (fst (fst e))) as [x|] eqn:Vx; [|discriminate]. destruct (Ri y e x Ie Vx Ev) as (El & Cnt). exists x, a, b. split; [exact Vx|]. split; [exact El|]. split; [exact Ea|]. split; [exact Eb|].
    pose proof (nth_error_In _ _ Ea) as Ia. pose proof (nth_error_In _ _ Eb) as Ib. pose proof (var_In S _ x Vx) as Ix. apply (owns_x S given xs ranks dom U s b _ Eb) in O.
    assert (a <> b) as Nab. { intros ->. apply Ne. exact (xs_nodup S given xs ranks dom U r s b Ea Eb). }
    assert (forall j, (j < nd)%nat -> -1 <= dlt a b j <= 1 /\ (wf <= 0 -> nth j (snd e) 0 = nth j (i_p y) 0 -> dlt a b j = 0)) as Dl.
    { intros j Lj. specialize (O j Lj). destruct (dim_of S xs a k j Sm Lj) as (d & Ed). specialize (Ny j d Ed). unfold near_rank in Ny. destruct (dim_same S xs a k j d Sm Ed) as (A1 & A2 & _ & _ & A3 & A4 & _). rewrite A1, A2, A3, A4 in Ny.
      assert (exchanged_var S (fst (fst e)) = true) as Ev' by (unfold exchanged_var; rewrite Vx; exact Ev). pose proof (js_rd _ _ _ _ _ Js y e Ie Ev' j Lj) as Rd'.
      destruct (halo_dim S _ x j Vx Ev Lj) as (vlen & lh & rh & Id & E1 & E2). rewrite E1, E2 in Rd'. destruct (max_halo_ge S x j vlen lh rh Ix Id) as (Ml & Mr). pose proof (shift_nonneg S given xs Wf Rd a j Lj) as Sh.
      pose proof (rank_ends S given xs ranks dom U a j Ia Lj) as Ra. pose proof (rank_ends S given xs ranks dom U b j Ib Lj) as Rb. unfold is_first, is_last in Ny.
      assert (1 < pos j (j_nranks (s_job S)) -> angle d * moves nst wf = shift_pts S a j) as W by (intros Hn; exact (angle_shift S given xs ranks dom U a k j d Sm Ed Hn)).
      assert (wf <= 0 -> 1 < pos j (j_nranks (s_job S)) -> shift_pts S a j = 0) as W0. { intros Hw Hn. rewrite <- W by exact Hn. unfold moves. replace (0 <? wf) with false by lia. lia. }
      (* a rank between a and b is at least as wide as halos and extension *)
      assert (forall c, In c xs -> 1 < pos j (j_nranks (s_job S)) -> max_halo S j + shift_pts S a j <= xr_size c j) as Sz.
      { intros c Ic Hn. pose proof (size_ge S given xs Rd c j Ic Lj Hn). rewrite (shift_same S a c j Hn). lia. }
      destruct (Z.lt_trichotomy (xr_c a j) (xr_c b j)) as [L|[L|L]].
      - pose proof (before S given xs ranks dom U a b j Ia Ib Lj L) as Bf. assert (1 < pos j (j_nranks (s_job S))) as Hn by lia. rewrite W in Ny by exact Hn. replace (xr_c a j =? pos j (j_nranks (s_job S)) - 1) with false in Ny by lia.
        split; [|intros Hw Heq; rewrite W0 in Ny by assumption; destruct (xr_c a j =? 0); lia]. destruct (Z_le_gt_dec (xr_c b j) (xr_c a j + 1)) as [L1|L1]; [unfold dlt; lia|]. exfalso.
        destruct (step_rank S given xs Wf Rd a j (xr_c a j + 1) Ia Lj ltac:(lia)) as (c & Ic & Cc & _). pose proof (ofs_next S given xs Wf Rd a c j Ia Ic Lj Cc) as O1.
        pose proof (before S given xs ranks dom U c b j Ic Ib Lj ltac:(lia)) as O2. specialize (Sz c Ic Hn). lia.
      - unfold dlt. lia.
      - pose proof (before S given xs ranks dom U b a j Ib Ia Lj L) as Bf. assert (1 < pos j (j_nranks (s_job S))) as Hn by lia. rewrite W in Ny by exact Hn. replace (xr_c a j =? 0) with false in Ny by lia.
        split; [|intros Hw Heq; rewrite W0 in Ny by assumption; destruct (xr_c a j =? pos j (j_nranks (s_job S)) - 1); lia]. destruct (Z_le_gt_dec (xr_c a j) (xr_c b j + 1)) as [L1|L1]; [unfold dlt; lia|]. exfalso.
        destruct (step_rank S given xs Wf Rd a j (xr_c a j - 1) Ia Lj ltac:(lia)) as (c & Ic & Cc & _). pose proof (ofs_next S given xs Wf Rd c a j Ic Ia Lj ltac:(lia)) as O1.
        pose proof (before S given xs ranks dom U b c j Ib Ic Lj ltac:(lia)) as O2. specialize (Sz c Ic Hn). lia. }
    apply next_to_of; [exact Ia|exact Ib|exact Nab|intros j Lj; apply Dl; exact Lj|].
    unfold man_dist. rewrite zsum_count by (intros j Ij; apply in_seq in Ij; destruct (Dl j ltac:(lia)); lia). destruct (0 <? wf) eqn:Ew.
    - pose proof (filter_le (fun j => negb (Z.abs (dlt a b j) =? 0)) (seq 0 nd)) as Q. rewrite seq_length in Q. lia.
    - pose proof (filter_ext_le (fun j => negb (Z.abs (dlt a b j) =? 0)) (fun j => negb (nth j (snd e) 0 =? nth j (i_p y) 0)) (seq 0 nd)) as Q.
      assert (forall j, In j (seq 0 nd) -> negb (Z.abs (dlt a b j) =? 0) = true -> negb (nth j (snd e) 0 =? nth j (i_p y) 0) = true) as Q1.
      { intros j Ij Hj. apply in_seq in Ij. destruct (Dl j ltac:(lia)) as (_ & D). destruct (nth j (snd e) 0 =? nth j (i_p y) 0) eqn:Eq; [|reflexivity]. specialize (D ltac:(lia) ltac:(lia)). lia. }
      specialize (Q Q1). lia.
  Qed.

  Lemma job_passes_mono : forall (mv : pass -> nat -> (cell -> V) -> (cell -> V) -> (cell -> V) -> Prop) (e1 e2 : (nat -> cell -> V) -> (nat -> cell -> V) -> (nat -> cell -> V) -> Prop),
    (forall P M M', e1 P M M' -> e2 P M M') -> forall ps M M', job_passes mv e1 ps M M' -> job_passes mv e2 ps M M'.
  Proof. intros mv e1 e2 H ps M M' J. induction J; econstructor; eauto. Qed.
  Lemma code_job_runs : forall (alloc : Z -> Z) (st : stencil V) first last M M', code_job S xs ranks dom ord alloc st first last M M' -> runs_job ranks nst wf dom ex hl hr lk alloc st first last M M'.
  Proof using U Or.
    intros alloc st first last M M' (M1 & E & J). exists M1. split; [apply code_exchange_ok; exact E|]. eapply job_passes_mono; [|exact J]. exact code_exchange_ok.
  Qed.
  Theorem set_up_same : forall (alloc : Z -> Z) (st : stencil V), job_stencil nd ex hl hr st -> reads_in S st -> stage_indep alloc st ->
    forall first last L, NoDup L -> (forall x, In x L <-> to_do nst dom first last x) -> plain_run (direction first last) L ->
    forall M M' g, holds ranks nst wf dom ex hl hr lk alloc st M g -> code_job S xs ranks dom ord alloc st first last M M' ->
    holds ranks nst wf dom ex hl hr lk alloc st M' (exec alloc st L g) /\
    forall r v u q, ex v = true -> keeps ranks nst wf hl hr lk r v q -> M' r (v, u, q) = exec alloc st L g (v, u, q).
  Proof using U Or.
    intros alloc st Js Ri Si first last L Nd HL Pl M M' g Ho Cj.
    exact (@job_same V ranks nd (max_halo S) nst wf dom ex hl hr lk alloc st (set_up_job S given xs ranks dom U) Js (set_up_halos S given xs ranks dom U) Si (set_up_interiors S given xs ranks dom U) (reads_in_linked st Js Ri)
      first last L Nd HL Pl M M' g Ho (code_job_runs alloc st first last M M' Cj)).
  Qed.
End SU.

(* two jobs *)
Theorem set_up_agree : forall V S S' given given' xs xs' ranks ranks' dom ord ord' (alloc : Z -> Z) (st : stencil V),
  set_up S given xs ranks dom -> set_up S' given' xs' ranks' dom -> order_ok ord -> order_ok ord' ->
  j_nd (s_job S') = j_nd (s_job S) -> s_vars S' = s_vars S -> s_nstages S' = s_nstages S ->
  job_stencil (j_nd (s_job S)) (exchanged_var S) (halo_in true S) (halo_in false S) st -> reads_in S st -> stage_indep alloc st ->
  forall first last M1 M2 M1' M2' g,
  holds ranks (s_nstages S) (s_wf S) dom (exchanged_var S) (halo_in true S) (halo_in false S) (code_links S xs) alloc st M1 g ->
  holds ranks' (s_nstages S) (s_wf S') dom (exchanged_var S) (halo_in true S) (halo_in false S) (code_links S' xs') alloc st M2 g ->
  code_job S xs ranks dom ord alloc st first last M1 M1' -> code_job S' xs' ranks' dom ord' alloc st first last M2 M2' ->
  forall r r' c, Job_Spec.owns ranks r (snd c) -> Job_Spec.owns ranks' r' (snd c) -> M1' r c = M2' r' c.
Proof.
  intros V S S' given given' xs xs' ranks ranks' dom ord ord' alloc st U U' Or Or' En Ev Es Js Ri Si first last M1 M2 M1' M2' g H1 H2 C1 C2.
  destruct S' as [[nd' gsz' nr' fo' fi' fx'] vs' wf' ns' fc' al' inn']. cbn in En, Ev, Es. subst nd' vs' ns'. destruct S as [[nd gsz nr fo fi fx] vs wf ns fc al inn].
  pose proof (code_job_runs _ _ _ _ _ U ord Or alloc st first last M1 M1' C1) as R1. pose proof (code_job_runs _ _ _ _ _ U' ord' Or' alloc st first last M2 M2' C2) as R2.
  exact (jobs_agree V ranks ranks' _ _ _ _ _ _ dom _ _ _ _ _ alloc st (set_up_job _ _ _ _ _ U) (set_up_job _ _ _ _ _ U') Js (set_up_halos _ _ _ _ _ U) (set_up_halos _ _ _ _ _ U') Si
    (set_up_interiors _ _ _ _ _ U) (set_up_interiors _ _ _ _ _ U') (reads_in_linked _ _ _ _ _ U st Js Ri) (reads_in_linked _ _ _ _ _ U' st Js Ri) first last M1 M2 M1' M2' g H1 H2 R1 R2).
Qed.
