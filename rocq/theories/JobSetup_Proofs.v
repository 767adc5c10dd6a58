(* The job as the code sets it up meets what is assumed of jobs, and its halo exchange what is assumed of exchanges. *)
From Coq Require Import ZifyBool.
From Verif Require Import Base Idiv_Model Cover_Spec Sched_Spec Tile_Spec Loops_Model Tile_Model TileCfg_Spec Rank_Model Rank_Spec Rank_Proofs Exchange_Model Exchange_Spec Exchange_Proofs Job_Model Job_Spec JobSetup_Spec Job3_Proofs.

(* ---- points and cells ---- *)
Lemma step_at_point : forall ds m u q, step_at ds (point_of m ds u q) u = u.
Proof. induction ds as [|d ds IH]; intros m u q; [reflexivity|]. destruct d; cbn [point_of step_at]; [reflexivity| |]; apply IH. Qed.
Lemma dom_at_point : forall j ds m u q, (1 <= dom_count ds j)%nat -> dom_at ds (point_of m ds u q) j = nth j q 0.
Proof.
  intros j. induction ds as [|d ds IH]; intros m u q H; [cbn in H; lia|]. unfold dom_count in H. cbn [filter] in H. destruct d as [al|f n|i vlen lh rh]; cbn [point_of dom_at]; [apply IH; exact H|apply IH; exact H|].
  destruct (i =? j)%nat eqn:E; [apply Nat.eqb_eq in E; subst i; reflexivity|]. apply IH. exact H.
Qed.
Lemma skipn_cons : forall (l : list Z) m x r, skipn m l = x :: r -> nth m l 0 = x /\ skipn (Datatypes.S m) l = r.
Proof. induction l as [|y l IH]; intros [|m] x r H; try discriminate; cbn in H; [injection H as -> ->; auto|]. cbn [nth]. destruct (IH m x r H) as (A & B). split; [exact A|]. cbn [skipn]. destruct l; exact B. Qed.
Lemma misc_at_point : forall ds m u q, misc_ok ds (skipn m q) = true -> misc_at ds (point_of m ds u q) = skipn m q.
Proof.
  induction ds as [|d ds IH]; intros m u q H; cbn [point_of misc_at].
  - cbn in H. destruct (skipn m q); [reflexivity|discriminate].
  - destruct d as [al|f n|i vlen lh rh]; cbn [point_of misc_at]; [apply IH; exact H| |apply IH; exact H]. cbn [misc_ok] in H. destruct (skipn m q) as [|x r] eqn:E; [discriminate|].
    apply skipn_cons in E. destruct E as (E1 & E2). apply andb_prop in H. destruct H as (_ & H). rewrite E1, IH by (rewrite E2; exact H). rewrite E2. reflexivity.
Qed.
Lemma nth_seq_firstn : forall n (q : list Z), (n <= length q)%nat -> map (fun j => nth j q 0) (seq 0 n) = firstn n q.
Proof.
  induction n as [|n IH]; intros q H; [reflexivity|]. destruct q as [|x q]; [cbn in H; lia|]. cbn [seq map firstn nth]. f_equal. rewrite <- seq_shift, map_map. apply IH. cbn in H. lia.
Qed.
Lemma full_dims : forall nd x, full_var nd x = true -> forall j, (j < nd)%nat -> dom_count (v_dims x) j = 1%nat.
Proof. intros nd x H j Lj. unfold full_var in H. apply andb_prop in H. destruct H as (H & _). rewrite forallb_seq in H. specialize (H j Lj). lia. Qed.
Lemma indices_point : forall nd x u q, full_var nd x = true -> element nd x q = true -> indices_of nd (v_dims x) (point_of nd (v_dims x) u q) = q.
Proof.
  intros nd x u q F E. unfold element in E. apply andb_prop in E. destruct E as (L & M). unfold indices_of. rewrite misc_at_point by exact M.
  rewrite (map_ext_in _ (fun j => nth j q 0)); [rewrite nth_seq_firstn by lia; apply firstn_skipn|]. intros j Ij. apply in_seq in Ij. apply dom_at_point. rewrite (full_dims nd x F j) by lia. lia.
Qed.
Lemma point_all : forall (R : xd -> Z -> Prop) u q ds m, misc_ok ds (skipn m q) = true -> (forall al, In (XStep al) ds -> R (XStep al) u) ->
  (forall f n z, f <= z < f + n -> R (XMisc f n) z) -> (forall j vlen lh rh, In (XDom j vlen lh rh) ds -> R (XDom j vlen lh rh) (nth j q 0)) -> Forall2 R ds (point_of m ds u q).
Proof.
  intros R u q. induction ds as [|d ds IH]; intros m H Hs Hm Hd; [constructor|]. destruct d as [al|f n|i vlen lh rh]; cbn [point_of].
  - constructor; [apply Hs; left; reflexivity|]. apply IH; [exact H| |exact Hm|]; intros; [apply Hs|apply Hd]; right; assumption.
  - cbn [misc_ok] in H. destruct (skipn m q) as [|x r] eqn:E; [discriminate|]. apply skipn_cons in E. destruct E as (E1 & E2). rewrite E1. apply andb_prop in H. destruct H as (H1 & H2).
    constructor; [apply Hm; lia|]. apply IH; [rewrite E2; exact H2| |exact Hm|]; intros; [apply Hs|apply Hd]; right; assumption.
  - constructor; [apply Hd; left; reflexivity|]. apply IH; [exact H| |exact Hm|]; intros; [apply Hs|apply Hd]; right; assumption.
Qed.
Lemma point_dom : forall (R : xd -> Z -> Prop) u q j vlen lh rh ds m, Forall2 R ds (point_of m ds u q) -> In (XDom j vlen lh rh) ds -> R (XDom j vlen lh rh) (nth j q 0).
Proof.
  intros R u q j vlen lh rh. induction ds as [|d ds IH]; intros m H I; [destruct I|]. destruct d as [al|f n|i vl l r]; cbn [point_of] in H; inversion H; subst; destruct I as [E|I]; try discriminate; try (eapply IH; eassumption).
  injection E as -> -> -> ->. assumption.
Qed.
Lemma point_step : forall (R : xd -> Z -> Prop) u q al ds m, Forall2 R ds (point_of m ds u q) -> In (XStep al) ds -> R (XStep al) u.
Proof.
  intros R u q al. induction ds as [|d ds IH]; intros m H I; [destruct I|]. destruct d as [al'|f n|i vl l r]; cbn [point_of] in H; inversion H; subst; destruct I as [E|I]; try discriminate; try (eapply IH; eassumption).
  injection E as ->. assumption.
Qed.
Lemma one_dim_each : forall ds j d d', dom_count ds j = 1%nat -> (exists vlen lh rh, d = XDom j vlen lh rh) -> (exists vlen lh rh, d' = XDom j vlen lh rh) -> In d ds -> In d' ds -> d = d'.
Proof.
  intros ds j d d' C (vl & l & r & ->) (vl' & l' & r' & ->) I I'. unfold dom_count in C.
  assert (In (XDom j vl l r) (filter (fun d => match d with XDom i _ _ _ => (i =? j)%nat | _ => false end) ds)) as A by (apply filter_In; split; [exact I|apply Nat.eqb_refl]).
  assert (In (XDom j vl' l' r') (filter (fun d => match d with XDom i _ _ _ => (i =? j)%nat | _ => false end) ds)) as A' by (apply filter_In; split; [exact I'|apply Nat.eqb_refl]).
  destruct (filter _ ds) as [|y [|z m]]; cbn in C; try lia. destruct A as [<-|[]]. destruct A' as [E|[]]. exact E.
Qed.
Lemma halo_dim : forall S v x j, var_at S v = Some x -> full_var (j_nd (s_job S)) x = true -> (j < j_nd (s_job S))%nat ->
  exists vlen lh rh, In (XDom j vlen lh rh) (v_dims x) /\ halo_in true S v j = lh /\ halo_in false S v j = rh.
Proof.
  intros S v x j E F Lj. pose proof (full_dims _ _ F j Lj) as C. unfold halo_in. rewrite E. destruct (find _ (v_dims x)) as [d|] eqn:Fd.
  - apply find_some in Fd. destruct Fd as (I & Q). destruct d as [al|f n|i vlen lh rh]; try discriminate. apply Nat.eqb_eq in Q. subst i. exists vlen, lh, rh. auto.
  - exfalso. unfold dom_count in C. destruct (filter _ (v_dims x)) as [|d l] eqn:Q; [cbn in C; lia|]. assert (In d (d :: l)) as I by (left; reflexivity). rewrite <- Q in I. apply filter_In in I.
    destruct I as (I & K). pose proof (find_none _ _ Fd d I) as N. cbv beta in N. congruence.
Qed.
Lemma halo_of : forall S v x j vlen lh rh, var_at S v = Some x -> full_var (j_nd (s_job S)) x = true -> (j < j_nd (s_job S))%nat -> In (XDom j vlen lh rh) (v_dims x) ->
  halo_in true S v j = lh /\ halo_in false S v j = rh.
Proof.
  intros S v x j vlen lh rh E F Lj I. destruct (halo_dim S v x j E F Lj) as (vlen' & lh' & rh' & I' & A & B). pose proof (one_dim_each _ j _ _ (full_dims _ _ F j Lj) ltac:(eauto) ltac:(eauto) I I') as Q. injection Q as -> -> ->. auto.
Qed.
Lemma F2_nth_l : forall A B (R : A -> B -> Prop) l l' n a, Forall2 R l l' -> nth_error l n = Some a -> exists b, nth_error l' n = Some b /\ R a b.
Proof. intros A B R l l' n a H. revert n. induction H; intros [|n] E; try discriminate; cbn in *; [injection E as ->; eauto|apply IHForall2; exact E]. Qed.
Lemma F2_nth_r : forall A B (R : A -> B -> Prop) l l' n b, Forall2 R l l' -> nth_error l' n = Some b -> exists a, nth_error l n = Some a /\ R a b.
Proof. intros A B R l l' n a H. revert n. induction H; intros [|n] E; try discriminate; cbn in *; [injection E as ->; eauto|apply IHForall2; exact E]. Qed.

Section SU.
  Variables (S : xset) (given : list rank_in) (xs : list xrank) (ranks : list rank_cfg) (dom : Z -> list Z -> Prop).
  Hypothesis U : set_up S given xs ranks dom.
  Notation nd := (j_nd (s_job S)).
  Notation nst := (s_nstages S).
  Notation wf := (s_wf S).
  Notation hl := (halo_in true S).
  Notation hr := (halo_in false S).
  Notation ex := (exchanged_var S).
  Notation lk := (code_links S xs).
  Let Wf : ranks_wf (s_job S) given := su_wf _ _ _ _ _ U.
  Let Rd : job_ready S given xs := su_ready _ _ _ _ _ U.

  Lemma dim_of : forall x k j, same_rank S xs x k -> (j < nd)%nat -> exists d, nth_error (k_ss k) j = Some d.
  Proof. intros x k j (L & _) Lj. destruct (nth_error (k_ss k) j) as [d|] eqn:E; [eauto|]. apply nth_error_None in E. lia. Qed.
  Lemma dim_lt : forall x k j d, same_rank S xs x k -> nth_error (k_ss k) j = Some d -> (j < nd)%nat.
  Proof. intros x k j d (L & _) E. rewrite <- L. apply nth_error_Some. congruence. Qed.
  Lemma dim_same : forall x k j d, same_rank S xs x k -> nth_error (k_ss k) j = Some d ->
    d_rb d = xr_ofs x j /\ d_rksz d = xr_size x j /\ d_nranks d = pos j (j_nranks (s_job S)) /\ d_fold d = pos j (j_fold (s_job S)) /\
    d_first d = is_first x j /\ d_last d = is_last S x j /\ d_halo d = max_halo S j.
  Proof. intros x k j d (_ & _ & _ & me & _ & H) E. destruct (H j d E) as (A & B & C & D & F & G & I & _). auto 10. Qed.
  Lemma of_x : forall r a, nth_error xs r = Some a -> exists k, nth_error ranks r = Some k /\ same_rank S xs a k.
  Proof. intros r a E. exact (F2_nth_l _ _ _ _ _ r a (su_same _ _ _ _ _ U) E). Qed.
  Lemma of_k : forall r k, nth_error ranks r = Some k -> exists a, nth_error xs r = Some a /\ same_rank S xs a k.
  Proof. intros r k E. exact (F2_nth_r _ _ _ _ _ r k (su_same _ _ _ _ _ U) E). Qed.
  Lemma In_k : forall k, In k ranks -> exists r a, nth_error ranks r = Some k /\ nth_error xs r = Some a /\ same_rank S xs a k /\ In a xs.
  Proof. intros k I. apply In_nth_error in I. destruct I as (r & E). destruct (of_k r k E) as (a & Ea & Sm). exists r, a. split; [exact E|]. split; [exact Ea|]. split; [exact Sm|]. eapply nth_error_In; eassumption. Qed.

  Definition xowns (a : xrank) (q : list Z) : Prop := forall j, (j < nd)%nat -> xr_ofs a j <= nth j q 0 < xr_ofs a j + xr_size a j.
  Lemma owns_x : forall r a q, nth_error xs r = Some a -> (Job_Spec.owns ranks r q <-> xowns a q).
  Proof.
    intros r a q E. destruct (of_x r a E) as (k & Ek & Sm). split.
    - intros (k' & Ek' & H) j Lj. assert (k' = k) by congruence. subst k'. destruct (dim_of a k j Sm Lj) as (d & Ed). destruct (dim_same a k j d Sm Ed) as (A & B & _). specialize (H j d Ed). lia.
    - intros H. exists k. split; [exact Ek|]. intros j d Ed. destruct (dim_same a k j d Sm Ed) as (A & B & _). specialize (H j (dim_lt a k j d Sm Ed)). lia.
  Qed.
  Lemma moves_shifts : moves nst wf = num_wf_shifts S.
  Proof.
    pose proof (su_stages _ _ _ _ _ U) as N. unfold moves, num_wf_shifts. destruct (0 <? wf) eqn:E; [|reflexivity]. assert (1 <= nst * wf) by nia. replace (0 <? nst * wf) with true by lia. reflexivity.
  Qed.
  Lemma angle_shift : forall x k j d, same_rank S xs x k -> nth_error (k_ss k) j = Some d -> 1 < pos j (j_nranks (s_job S)) -> angle d * moves nst wf = shift_pts S x j.
  Proof.
    intros x k j d Sm Ed Hn. destruct (dim_same x k j d Sm Ed) as (_ & _ & _ & F & _ & _ & Hh). pose proof (dim_lt _ _ _ _ Sm Ed) as Lj.
    rewrite (ext_eq S x j Hn). unfold ext_of, angle. rewrite moves_shifts, F, Hh. f_equal. pose proof (fo_pos S given Wf j Lj) as Fp. unfold fo in *.
    unfold ROUND_UP, CEIL_DIV. pose proof (max_halo_nonneg S j). rewrite Z.quot_div_nonneg by lia. reflexivity.
  Qed.
  Lemma rank_ends : forall a j, In a xs -> (j < nd)%nat -> 0 <= xr_c a j < pos j (j_nranks (s_job S)).
  Proof. intros a j Ia Lj. destruct (grid_ex S given xs Wf Rd) as (P & _ & _ & Pr). apply (Pr a j Ia Lj). Qed.
  Lemma before : forall a b j, In a xs -> In b xs -> (j < nd)%nat -> xr_c a j < xr_c b j -> xr_ofs a j + xr_size a j <= xr_ofs b j.
  Proof.
    intros a b j Ia Ib Lj L. destruct (grid_ex S given xs Wf Rd) as (P & P0 & Pm & Pr). destruct (Pr a j Ia Lj) as (A & B & C). destruct (Pr b j Ib Lj) as (A' & B' & C').
    assert (forall c d, 0 <= c <= d -> d <= pos j (j_nranks (s_job S)) -> P j c <= P j d) as Mono.
    { intros c d Hc Hd. replace d with (c + (d - c)) by lia. assert (0 <= d - c) as H by lia. assert (c + (d - c) <= pos j (j_nranks (s_job S))) as H2 by lia. revert H2.
      pattern (d - c). apply natlike_ind; [intros; rewrite Z.add_0_r; lia| |exact H]. intros x Hx IH H2. replace (c + Z.succ x) with (c + x + 1) by lia.
      specialize (IH ltac:(lia)). specialize (Pm j (c + x) Lj ltac:(lia)). lia. }
    rewrite C, B'. apply Mono; lia.
  Qed.
  Lemma own_unique : forall a b q, In a xs -> In b xs -> xowns a q -> xowns b q -> a = b.
  Proof.
    intros a b q Ia Ib Ha Hb. apply (same_xrank S given xs Wf Rd a b Ia Ib). intros j Lj. specialize (Ha j Lj). specialize (Hb j Lj).
    destruct (Z.lt_trichotomy (xr_c a j) (xr_c b j)) as [L|[L|L]]; [|exact L|]; [pose proof (before a b j Ia Ib Lj L)|pose proof (before b a j Ib Ia Lj L)]; lia.
  Qed.
  Lemma xs_nodup : forall r s a, nth_error xs r = Some a -> nth_error xs s = Some a -> r = s.
  Proof.
    intros r s a Er Es. destruct (setup_grid (s_job S) given _ Wf (proj1 Rd)) as (P & _ & _ & Nd & _). rewrite map_map in Nd. apply NoDup_map_inv in Nd.
    apply (proj1 (NoDup_nth_error xs) Nd); [apply nth_error_Some; congruence|congruence].
  Qed.
  Lemma diff_dim : forall a b, In a xs -> In b xs -> a <> b -> exists j, (j < nd)%nat /\ xr_c a j <> xr_c b j.
  Proof.
    intros a b Ia Ib N. destruct (forallb (fun j => xr_c a j =? xr_c b j) (seq 0 nd)) eqn:E.
    - exfalso. apply N. apply (same_xrank S given xs Wf Rd a b Ia Ib). intros j Lj. rewrite forallb_seq in E. specialize (E j Lj). lia.
    - assert (forall l, forallb (fun j => xr_c a j =? xr_c b j) l = false -> exists j, In j l /\ xr_c a j <> xr_c b j) as K.
      { clear. induction l as [|y m IH]; intros G; [discriminate|]. cbn in G. destruct (xr_c a y =? xr_c b y) eqn:E; [destruct (IH G) as (j & Ij & Hj); exists j; split; [right; exact Ij|exact Hj]|]. exists y. split; [left; reflexivity|lia]. }
      destruct (K _ E) as (j & Ij & Hj). exists j. apply in_seq in Ij. split; [lia|exact Hj].
  Qed.

  Lemma xs_ne : exists a, In a xs.
  Proof.
    destruct (setup_facts (s_job S) given _ Wf (proj1 Rd)) as (L & _ & Len & E & _). destruct Wf as (N & _).
    destruct xs as [|a l]; [|exists a; left; reflexivity]. destruct L; [|discriminate]. destruct given; [congruence|discriminate].
  Qed.
  Lemma owner_ex : forall p, (forall a j, In a xs -> (j < nd)%nat -> 0 <= nth j p 0 < pos j (o_gsz (xr_o a))) -> exists a, In a xs /\ xowns a p.
  Proof.
    intros p Hp. destruct xs_ne as (a0 & Ia0). destruct (setup_grid (s_job S) given _ Wf (proj1 Rd)) as (P & P0 & Pm & _ & Pl & Pc & Pe).
    assert (forall j n x, P j 0 <= x < P j (Z.of_nat n) -> exists c, 0 <= c < Z.of_nat n /\ P j c <= x < P j (c + 1)) as Ivt.
    { intros j. induction n as [|n IH]; intros x Hx; [change (Z.of_nat 0) with 0 in Hx; lia|]. destruct (Z_lt_ge_dec x (P j (Z.of_nat n))) as [L|L]; [destruct (IH x ltac:(lia)) as (c & C1 & C2); exists c; split; [lia|exact C2]|].
      exists (Z.of_nat n). split; [lia|]. replace (Z.of_nat n + 1) with (Z.of_nat (Datatypes.S n)) by lia. lia. }
    assert (forall m, (m <= nd)%nat -> exists c, length c = m /\ forall j, (j < m)%nat -> 0 <= pos j c < pos j (j_nranks (s_job S)) /\ P j (pos j c) <= nth j p 0 < P j (pos j c + 1)) as Ch.
    { induction m as [|m IH]; intros Lm; [exists []; split; [reflexivity|intros j Lj; lia]|]. destruct (IH ltac:(lia)) as (c & Lc & Hc). destruct (Pc (xr_o a0) m ltac:(apply in_map; exact Ia0) ltac:(lia)) as (C1 & _ & _ & C4).
      specialize (Hp a0 m Ia0 ltac:(lia)). rewrite C4 in Hp. destruct (Ivt m (Z.to_nat (pos m (j_nranks (s_job S)))) (nth m p 0)) as (x & X1 & X2). { rewrite P0, Z2Nat.id by lia. exact Hp. }
      rewrite Z2Nat.id in X1 by lia. exists (c ++ [x]). split; [rewrite app_length; cbn; lia|]. intros j Lj. destruct (Nat.eq_dec j m) as [->|Ne].
      - replace (pos m (c ++ [x])) with x by (unfold pos; rewrite app_nth2, Lc, Nat.sub_diag by lia; reflexivity). split; [exact X1|exact X2].
      - replace (pos j (c ++ [x])) with (pos j c) by (unfold pos; rewrite app_nth1 by lia; reflexivity). apply Hc. lia. }
    destruct (Ch nd ltac:(lia)) as (c & Lc & Hc). destruct (Pe c Lc ltac:(intros j Lj; apply Hc; exact Lj)) as (o & Io & Eo). apply in_map_iff in Io. destruct Io as (a & <- & Ia).
    exists a. split; [exact Ia|]. intros j Lj. destruct (Pc (xr_o a) j ltac:(apply in_map; exact Ia) Lj) as (_ & C2 & C3 & _). rewrite Eo in C2, C3. destruct (Hc j Lj) as (_ & H). unfold xr_ofs, xr_size. lia.
  Qed.

  Theorem set_up_job : job_ok ranks nd (max_halo S) nst wf dom.
  Proof using U.
    constructor.
    - exact (su_tile _ _ _ _ _ U).
    - intros k Ik. destruct (In_k k Ik) as (r & a & _ & _ & Sm & _). destruct Sm as (L & B & W & me & Hm & H). split; [exact L|]. split; [exact B|]. split; [exact W|].
      intros j d Ed. destruct (H j d Ed) as (_ & _ & _ & _ & _ & _ & Hh & _). exact Hh.
    - intros k k' j d d' Ik Ik' Ed Ed'. destruct (In_k k Ik) as (r & a & _ & _ & Sm & _). destruct (In_k k' Ik') as (r' & a' & _ & _ & Sm' & _).
      destruct (dim_same a k j d Sm Ed) as (_ & _ & _ & F & _). destruct (dim_same a' k' j d' Sm' Ed') as (_ & _ & _ & F' & _). congruence.
    - intros r r' k k' Er Er' N. destruct (of_k r k Er) as (a & Ea & Sm). destruct (of_k r' k' Er') as (a' & Ea' & Sm'). pose proof (nth_error_In _ _ Ea) as Ia. pose proof (nth_error_In _ _ Ea') as Ia'.
      destruct (diff_dim a a' Ia Ia') as (j & Lj & Nj). { intros ->. apply N. exact (xs_nodup r r' a' Ea Ea'). }
      destruct (dim_of a k j Sm Lj) as (d & Ed). destruct (dim_of a' k' j Sm' Lj) as (d' & Ed'). exists j, d, d'. split; [exact Ed|]. split; [exact Ed'|].
      destruct (dim_same a k j d Sm Ed) as (A1 & A2 & _ & _ & A3 & A4 & _). destruct (dim_same a' k' j d' Sm' Ed') as (B1 & B2 & _ & _ & B3 & B4 & _).
      pose proof (rank_ends a j Ia Lj) as R. pose proof (rank_ends a' j Ia' Lj) as R'. unfold left_of. rewrite A1, A2, A3, A4, B1, B2, B3, B4. unfold is_first, is_last.
      destruct (Z_lt_ge_dec (xr_c a j) (xr_c a' j)) as [L|L]; [left|right]; [pose proof (before a a' j Ia Ia' Lj L)|pose proof (before a' a j Ia' Ia Lj ltac:(lia))]; (split; [lia|]; split; lia).
    - intros s p Hp. destruct (su_dom _ _ _ _ _ U s p Hp) as (Lp & Hj). split; [exact Lp|].
      destruct (owner_ex p) as (a & Ia & Oa). { intros a j Ia Lj. apply Hj; assumption. }
      apply In_nth_error in Ia. destruct Ia as (r & Ea). destruct (of_x r a Ea) as (k & Ek & Sm). exists k. split; [eapply nth_error_In; eassumption|].
      apply (owns_x r a p Ea) in Oa. destruct Oa as (k' & Ek' & H). assert (k' = k) by congruence. subst k'. exact H.
    - intros k j d s p Ik Ed Hp. destruct (In_k k Ik) as (r & a & _ & _ & Sm & Ia). destruct (dim_same a k j d Sm Ed) as (A1 & A2 & _ & _ & A3 & A4 & _). pose proof (dim_lt _ _ _ _ Sm Ed) as Lj.
      destruct (su_dom _ _ _ _ _ U s p Hp) as (_ & H). specialize (H a j Ia Lj). rewrite A1, A2, A3, A4. unfold is_first, is_last.
      destruct (setup_grid (s_job S) given _ Wf (proj1 Rd)) as (P & P0 & Pm & _ & Pl & Pc & Pe). destruct (Pc (xr_o a) j ltac:(apply in_map; exact Ia) Lj) as (C1 & C2 & C3 & C4).
      unfold xr_ofs, xr_size, xr_c in *. split; intros E.
      + apply Z.eqb_eq in E. rewrite E, P0 in C2. lia.
      + apply Z.eqb_eq in E. rewrite C3, E. replace (pos j (j_nranks (s_job S)) - 1 + 1) with (pos j (j_nranks (s_job S))) by lia. lia.
  Qed.

  Theorem set_up_halos : var_halos nd (max_halo S) hl hr.
  Proof using U.
    assert (forall left v j, (j < nd)%nat -> 0 <= halo_in left S v j <= max_halo S j) as H.
    { intros left v j Lj. unfold halo_in. pose proof (max_halo_nonneg S j) as M. destruct (var_at S v) as [x|] eqn:E; [|lia]. destruct (find _ (v_dims x)) as [d|] eqn:F; [|lia].
      apply find_some in F. destruct F as (I & Q). destruct d as [al|f n|i vlen lh rh]; try lia. apply Nat.eqb_eq in Q. subst i.
      assert (In x (s_vars S)) as Ix. { unfold var_at in E. destruct (v <? 0); [discriminate|]. eapply nth_error_In. exact E. }
      destruct (var_dom_ok S given xs Rd x j vlen lh rh Ix I) as (_ & _ & A & B). destruct (max_halo_ge S x j vlen lh rh Ix I). destruct left; lia. }
    constructor; intros v j Lj; apply H; exact Lj.
  Qed.
  Lemma var_In : forall v x, var_at S v = Some x -> In x (s_vars S).
  Proof. intros v x E. unfold var_at in E. destruct (v <? 0); [discriminate|]. eapply nth_error_In. exact E. Qed.

  (* ---- the interior ---- *)
  Lemma fold_mono : forall A (f : Z -> A -> Z) l, (forall m a, In a l -> m <= f m a) -> forall m, m <= fold_left f l m.
  Proof. intros A f. induction l as [|a l IH]; intros H m; cbn [fold_left]; [lia|]. pose proof (H m a ltac:(left; reflexivity)). pose proof (IH ltac:(intros; apply H; right; assumption) (f m a)). lia. Qed.
  Lemma fold_ge : forall A (f : Z -> A -> Z) l c a, (forall m a, In a l -> m <= f m a) -> In a l -> (forall m, c <= f m a) -> forall m, c <= fold_left f l m.
  Proof.
    intros A f. induction l as [|b l IH]; intros c a H I C m; [destruct I|]. cbn [fold_left]. destruct I as [->|I].
    - pose proof (fold_mono A f l ltac:(intros; apply H; right; assumption) (f m a)). specialize (C m). lia.
    - apply (IH c a); [intros; apply H; right; assumption|exact I|exact C].
  Qed.
  Lemma fold_mono' : forall A (f : Z -> A -> Z) l, (forall m a, In a l -> f m a <= m) -> forall m, fold_left f l m <= m.
  Proof. intros A f. induction l as [|a l IH]; intros H m; cbn [fold_left]; [lia|]. pose proof (H m a ltac:(left; reflexivity)). pose proof (IH ltac:(intros; apply H; right; assumption) (f m a)). lia. Qed.
  Lemma fold_le : forall A (f : Z -> A -> Z) l c a, (forall m a, In a l -> f m a <= m) -> In a l -> (forall m, f m a <= c) -> forall m, fold_left f l m <= c.
  Proof.
    intros A f. induction l as [|b l IH]; intros c a H I C m; [destruct I|]. cbn [fold_left]. destruct I as [->|I].
    - pose proof (fold_mono' A f l ltac:(intros; apply H; right; assumption) (f m a)). specialize (C m). lia.
    - apply (IH c a); [intros; apply H; right; assumption|exact I|exact C].
  Qed.
  Definition sgn (left : bool) (z : Z) : Z := if left then z else - z.
  Lemma int_mono : forall left me a b j x m, sgn left m <= sgn left (int_step S left me a b j x m).
  Proof.
    intros left me a b j x m. unfold int_step. destruct (_ <? _); [lia|]. destruct left; cbn [sgn].
    - apply fold_mono. intros m' d _. destruct d; try lia. destruct (negb _); [lia|]. destruct (_ =? _); lia.
    - match goal with |- - m <= - ?e => cut (e <= m); [lia|] end. apply fold_mono'. intros m' d _. destruct d; try lia. destruct (negb _); [lia|]. destruct (_ =? _); lia.
  Qed.
  Lemma int_start : forall (left : bool) me a j, sgn left (if left then xr_ofs a j - (if is_first a j then 0 else shift_pts S a j) else xr_ofs a j + xr_size a j + (if is_last S a j then 0 else shift_pts S a j)) <= sgn left (int_limit S left xs me a j).
  Proof.
    intros left me a j. unfold int_limit. generalize (neighbors S xs a). intros nb. destruct left; cbn [sgn].
    - apply fold_mono. intros m b _. apply fold_mono. intros m' x _. apply (int_mono true).
    - match goal with |- - ?m <= - ?e => cut (e <= m); [lia|] end. apply fold_mono'. intros m b _. apply fold_mono'. intros m' x _. pose proof (int_mono false me a b j x m'). cbn [sgn] in *. lia.
  Qed.
  Lemma int_over : forall (left : bool) me a b j x vlen lh rh, In b (neighbors S xs a) -> In x (s_vars S) -> In (XDom j vlen lh rh) (v_dims x) -> man_dist S a b <= (if 0 <? wf then Z.of_nat nd else v_l1 x) ->
    dlt a b j = (if left then -1 else 1) ->
    let neigh := snd (halo_sizes S a b (var_vec_ok S a b x) j vlen lh rh) in
    if left then ROUND_UP (xr_ofs a j + Z.max me neigh) (pos j (j_fold (s_job S))) <= int_limit S true xs me a j
    else int_limit S false xs me a j <= ROUND_DOWN (xr_ofs a j + xr_size a j - 1 + 1 - Z.max me neigh) (pos j (j_fold (s_job S))).
  Proof.
    intros left me a b j x vlen lh rh Ib Ix Id Md D. cbv zeta. destruct left; unfold int_limit.
    - eapply fold_ge; [intros m y _; apply fold_mono; intros m' x' _; apply (int_mono true)|exact Ib|]. intros m. eapply fold_ge; [intros m' x' _; apply (int_mono true)|exact Ix|]. intros m'. unfold int_step.
      match goal with |- context [?e <? man_dist S a b] => replace (e <? man_dist S a b) with false by lia end. eapply fold_ge; [|exact Id|].
      + intros m2 d _. destruct d; try lia. destruct (negb _); [lia|]. destruct (_ =? _); lia.
      + intros m2. cbv beta iota. rewrite Nat.eqb_refl, D. cbn [negb]. change (-1 =? -1) with true. cbv iota. lia.
    - eapply fold_le; [intros m y _; apply fold_mono'; intros m' x' _; pose proof (int_mono false me a y j x' m') as Q; cbn [sgn] in Q; lia|exact Ib|]. intros m.
      eapply fold_le; [intros m' x' _; pose proof (int_mono false me a b j x' m') as Q; cbn [sgn] in Q; lia|exact Ix|]. intros m'. unfold int_step.
      match goal with |- context [?e <? man_dist S a b] => replace (e <? man_dist S a b) with false by lia end. eapply fold_le; [|exact Id|].
      + intros m2 d _. destruct d; try lia. destruct (negb _); [lia|]. destruct (_ =? _); lia.
      + intros m2. cbv beta iota. rewrite Nat.eqb_refl, D. cbn [negb]. change (1 =? 1) with true. cbv iota. lia.
  Qed.
  Lemma side : forall a j dir, In a xs -> (j < nd)%nat -> (dir = -1 \/ dir = 1) -> 0 <= xr_c a j + dir < pos j (j_nranks (s_job S)) ->
    exists b, In b xs /\ In b (neighbors S xs a) /\ dlt a b j = dir /\ man_dist S a b = 1.
  Proof.
    intros a j dir Ia Lj Hd Hc. destruct (step_rank S given xs Wf Rd a j (xr_c a j + dir) Ia Lj Hc) as (b & Ib & Cj & Ci). exists b. split; [exact Ib|].
    assert (forall i, (i < nd)%nat -> i <> j -> dlt a b i = 0) as D0. { intros i Li Ne. unfold dlt. rewrite (Ci i Li Ne). lia. }
    assert (dlt a b j = dir) as Dj by (unfold dlt; lia). split; [|split; [exact Dj|]].
    - apply (neighbors_In S given xs Wf Rd a b Ia). split; [exact Ib|]. split; [|exists j; split; [exact Lj|lia]]. intros i Li. destruct (Nat.eq_dec i j) as [->|Ne]; [lia|rewrite D0 by assumption; lia].
    - apply (man_one S a b j Lj); [lia|]. exact D0.
  Qed.
  Theorem set_up_interiors : interiors_ok ranks nst wf ex hl hr.
  Proof using U.
    intros k j d v Ik Ov Ed Ev. cbv zeta. destruct (In_k k Ik) as (r & a & Er & Ea & Sm & Ia). pose proof (dim_lt _ _ _ _ Sm Ed) as Lj.
    destruct (dim_same a k j d Sm Ed) as (A1 & A2 & A3 & A4 & A5 & A6 & _). destruct Sm as (SL & SB & SW & me & Hme & SD). destruct (SD j d Ed) as (_ & _ & _ & _ & _ & _ & _ & Hi). destruct (Hi Ov) as (Ib & Ie). clear Hi.
    assert (same_rank S xs a k) as Sm. { split; [exact SL|]. split; [exact SB|]. split; [exact SW|]. exists me. split; assumption. }
    unfold exchanged_var in Ev. destruct (var_at S v) as [x|] eqn:Vx; [|discriminate]. pose proof (var_In v x Vx) as Ix. destruct (halo_dim S v x j Vx Ev Lj) as (vlen & lh & rh & Id & <- & <-).
    destruct (var_dom_ok S given xs Rd x j vlen _ _ Ix Id) as (_ & Hv & Hl & Hr). destruct (max_halo_ge S x j vlen _ _ Ix Id) as (Ml & Mr).
    pose proof (fo_pos S given Wf j Lj) as Fp. pose proof (rank_ends a j Ia Lj) as Rc. pose proof (shift_nonneg S given xs Wf Rd a j Lj) as Sh.
    destruct (ofs_nonneg_end S given xs Wf Rd a j Ia Lj) as (O0 & _).
    assert (forall y, 0 <= y -> y <= (if var_vec_ok S a a x then ROUND_UP y vlen else y)) as Ru. { intros y Hy. destruct (var_vec_ok S a a x); [|lia]. apply ru_bounds; lia. }
    assert (forall b y, 0 <= y -> y <= (if var_vec_ok S a b x then ROUND_UP y vlen else y)) as Ru2. { intros b y Hy. destruct (var_vec_ok S a b x); [|lia]. apply ru_bounds; lia. } clear Ru.
    pose proof (proj1 (Forall_forall _ _) (su_l1 _ _ _ _ _ U) x Ix) as L1. cbv beta in L1.
    rewrite A1, A2, A5, A6, Ib, Ie. unfold is_first, is_last in *. fold (fo S j) in *. split; intros E.
    - assert (1 < pos j (j_nranks (s_job S))) as Hn by lia. rewrite (angle_shift a k j d Sm Ed Hn).
      destruct (side a j (-1) Ia Lj ltac:(lia) ltac:(lia)) as (b & Ixb & Inb & Dj & Md).
      destruct (Z_le_gt_dec (man_dist S a b) (if 0 <? wf then Z.of_nat nd else v_l1 x)) as [Le|Gt].
      + pose proof (int_over true me a b j x vlen _ _ Inb Ix Id Le Dj) as Q. cbv beta iota zeta in Q. unfold halo_sizes in Q. rewrite Dj in Q. change (-1 =? -1) with true in Q. cbv iota in Q. cbn [fst snd] in Q.
        specialize (Ru2 b (hr v j + shift_pts S a j) ltac:(lia)). fold (fo S j) in Q. match type of Q with ROUND_UP ?z _ <= _ => pose proof (ru_bounds z (fo S j) Fp) as Rb end.
        destruct (var_vec_ok S a b x); cbn [fst snd] in *; lia.
      + assert (wf <= 0 /\ v_l1 x < 1) as (W0 & L0). { destruct (0 <? wf) eqn:W; lia. } destruct L1 as [L1|L1]; [lia|]. pose proof (proj1 (Forall_forall _ _) L1 _ Id) as Z0. cbv beta iota in Z0.
        pose proof (int_start true me a j) as Q. cbn [sgn] in Q. assert (shift_pts S a j = 0) as Z1. { unfold shift_pts, num_wf_shifts. replace (0 <? wf) with false by lia. lia. }
        rewrite Z1 in *. destruct (is_first a j); lia.
    - assert (1 < pos j (j_nranks (s_job S))) as Hn by lia. rewrite (angle_shift a k j d Sm Ed Hn).
      destruct (side a j 1 Ia Lj ltac:(lia) ltac:(lia)) as (b & Ixb & Inb & Dj & Md).
      destruct (Z_le_gt_dec (man_dist S a b) (if 0 <? wf then Z.of_nat nd else v_l1 x)) as [Le|Gt].
      + pose proof (int_over false me a b j x vlen _ _ Inb Ix Id Le Dj) as Q. cbv beta iota zeta in Q. unfold halo_sizes in Q. rewrite Dj in Q. change (1 =? -1) with false in Q. change (1 =? 1) with true in Q. cbv iota in Q. cbn [fst snd] in Q.
        specialize (Ru2 b (hl v j + shift_pts S a j) ltac:(lia)). fold (fo S j) in Q. pose proof (size_ge S given xs Rd a j Ia Lj Hn) as Sg.
        match type of Q with _ <= ROUND_DOWN ?z _ => set (z0 := z) in *; assert (z0 <= xr_ofs a j + xr_size a j - (hl v j + shift_pts S a j)) as Hz by (subst z0; destruct (var_vec_ok S a b x); cbn [fst snd] in *; lia) end.
        assert (ROUND_DOWN z0 (fo S j) <= Z.max z0 0) as Rdn.
        { unfold ROUND_DOWN. destruct (Z_le_gt_dec 0 z0) as [P|N]; [pose proof (Z.mul_quot_le z0 (fo S j) P ltac:(lia)); lia|]. pose proof (Z.quot_opp_l z0 (fo S j) ltac:(lia)) as Qo. pose proof (Z.quot_pos (- z0) (fo S j) ltac:(lia) ltac:(lia)). nia. }
        lia.
      + assert (wf <= 0 /\ v_l1 x < 1) as (W0 & L0). { destruct (0 <? wf) eqn:W; lia. } destruct L1 as [L1|L1]; [lia|]. pose proof (proj1 (Forall_forall _ _) L1 _ Id) as Z0. cbv beta iota in Z0.
        pose proof (int_start false me a j) as Q. cbn [sgn] in Q. assert (shift_pts S a j = 0) as Z1. { unfold shift_pts, num_wf_shifts. replace (0 <? wf) with false by lia. lia. }
        rewrite Z1 in *. destruct (is_last S a j); lia.
  Qed.
End SU.
