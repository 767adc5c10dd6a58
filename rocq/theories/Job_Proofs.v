(* Proofs about jobs of several ranks: layers of one step and stage, one pass, the exchange. *)
From Coq Require Import ZifyBool.
From Verif Require Import Base Cover_Spec Loops_Model Tile_Model Sched_Spec Sched_Proofs Sched2_Proofs Tile_Spec TileCfg_Spec TileSteps_Proofs Tile_Proofs Tile2_Proofs Tile4_Proofs Job_Model Job_Spec.

(* Instances of one step and stage. *)
Definition is_at (ts : Z * Z) (x : inst) : bool := (i_t x =? fst ts) && (i_s x =? snd ts).
Lemma is_at_iff : forall ts x, is_at ts x = true <-> (i_t x, i_s x) = ts.
Proof. intros (t, s) x. unfold is_at. cbn [fst snd]. rewrite andb_true_iff, !Z.eqb_eq. split; [intros (<- & <-); reflexivity|intros E; injection E as <- <-; split; reflexivity]. Qed.
Definition layers (lay : list (Z * Z)) (l : list inst) : list inst := flat_map (fun ts => filter (is_at ts) l) lay.
Lemma layers_In : forall lay l x, In x (layers lay l) <-> In (i_t x, i_s x) lay /\ In x l.
Proof.
  intros lay l x. unfold layers. rewrite in_flat_map. split.
  - intros (ts & H1 & H2). apply filter_In in H2. destruct H2 as (H2 & H3). apply is_at_iff in H3. rewrite H3. split; assumption.
  - intros (H1 & H2). exists (i_t x, i_s x). split; [exact H1|]. apply filter_In. split; [exact H2|]. apply is_at_iff. reflexivity.
Qed.
Lemma layers_NoDup : forall lay l, NoDup lay -> NoDup l -> NoDup (layers lay l).
Proof.
  intros lay l N Nl. induction N as [|ts lay Ni N IH]; [constructor|]. cbn [layers flat_map]. fold (layers lay l).
  assert (A : forall (a b : list inst), NoDup a -> NoDup b -> (forall x, In x a -> ~ In x b) -> NoDup (a ++ b)).
  { clear. induction a as [|x a IH]; intros b Na Nb D; [exact Nb|]. inversion Na; subst. cbn. constructor.
    - rewrite in_app_iff. intros [Q|Q]; [contradiction|]. exact (D x (or_introl eq_refl) Q).
    - apply IH; [assumption|assumption|]. intros y Hy. apply D. right. exact Hy. }
  apply A; [apply NoDup_filter; exact Nl|exact IH|]. intros x Hx Hy. apply filter_In in Hx. destruct Hx as (_ & Hx). apply is_at_iff in Hx. apply layers_In in Hy. destruct Hy as (Hy & _). rewrite Hx in Hy. contradiction.
Qed.
Definition lay_lt (dir : Z) (a b : Z * Z) : Prop := dir * fst a < dir * fst b \/ (fst a = fst b /\ snd a < snd b).
Lemma lay_irr : forall dir a, ~ lay_lt dir a a.
Proof. unfold lay_lt. intros dir a. lia. Qed.
Lemma lay_NoDup : forall dir lay, pairs (lay_lt dir) lay -> NoDup lay.
Proof. intros dir lay. apply pairs_NoDup. apply lay_irr. Qed.
Lemma layers_plain : forall dir lay l, dir = 1 \/ dir = -1 -> pairs (lay_lt dir) lay -> plain_run dir (layers lay l).
Proof.
  intros dir lay l Hd. induction lay as [|ts lay IH]; intros P; [intros a b []|]. destruct P as (P1 & P2). specialize (IH P2).
  intros a b Ha Hb O. cbn [layers flat_map] in *. fold (layers lay l) in *. apply before_app. apply in_app_iff in Ha, Hb.
  assert (F : forall x, In x (filter (is_at ts) l) -> (i_t x, i_s x) = ts) by (intros x Hx; apply filter_In in Hx; apply is_at_iff; apply Hx).
  destruct Ha as [Ha|Ha], Hb as [Hb|Hb].
  - apply F in Ha, Hb. unfold step_order in O. subst ts. injection Hb as E1 E2. lia.
  - right. right. split; assumption.
  - exfalso. apply F in Hb. apply layers_In in Ha. destruct Ha as (Ha & _). specialize (P1 _ Ha). unfold step_order, lay_lt in *. subst ts. cbn [fst snd] in P1. lia.
  - right. left. apply IH; assumption.
Qed.
Lemma layers_perm : forall lay l, NoDup lay -> NoDup l -> (forall x, In x l -> In (i_t x, i_s x) lay) -> Permutation (layers lay l) l.
Proof. intros lay l N Nl H. apply NoDup_Permutation; [apply layers_NoDup; assumption|exact Nl|]. intros x. rewrite layers_In. specialize (H x). tauto. Qed.

(* One layer: every instance reads what was there before. *)
Section Layer.
  Context {V : Type} (alloc : Z -> Z) (st : stencil V) (n : nat).
  Hypothesis Hwr : forall x e, In e (s_wr st x) -> forall j, (j < n)%nat -> nth j (snd e) 0 = nth j (i_p x) 0.
  Hypothesis Hind : stage_indep alloc st.

  Lemma exec_other : forall l m c, (forall y, In y l -> ~ In c (wr_cells alloc st y)) -> exec alloc st l m c = m c.
  Proof using.
    induction l as [|y l IH]; intros m c H; [reflexivity|]. change (exec alloc st (y :: l) m c) with (exec alloc st l (update alloc st m y) c). rewrite IH by (intros z Hz; apply H; right; exact Hz).
    unfold update. destruct (in_dec cell_eq_dec c (wr_cells alloc st y)) as [Q|Q]; [destruct (H y (or_introl eq_refl) Q)|reflexivity].
  Qed.
  Lemma cell_pt : forall e c, cell_of alloc e = c -> snd e = snd c /\ fst (fst e) = fst (fst c).
  Proof using. intros ((v, u), q) c <-. split; reflexivity. Qed.
  Lemma one_writer : forall ts x y c, is_at ts x = true -> is_at ts y = true -> length (i_p x) = n -> length (i_p y) = n ->
    In c (wr_cells alloc st x) -> In c (wr_cells alloc st y) -> x = y.
  Proof using Hwr.
    intros ts x y c Ax Ay Lx Ly Cx Cy. apply is_at_iff in Ax, Ay. apply in_map_iff in Cx, Cy. destruct Cx as (e & Ex & Ix), Cy as (e' & Ey & Iy).
    assert (E : i_p x = i_p y).
    { apply (nth_ext _ _ 0 0); [congruence|]. intros j Hj. rewrite Lx in Hj. rewrite <- (Hwr x e Ix j Hj), <- (Hwr y e' Iy j Hj).
      destruct (cell_pt _ _ Ex) as (-> & _), (cell_pt _ _ Ey) as (-> & _). reflexivity. }
    destruct x, y. cbn in *. congruence.
  Qed.
  Lemma exec_layer : forall ts l m y c, NoDup l -> (forall x, In x l -> is_at ts x = true /\ length (i_p x) = n) -> In y l -> In c (wr_cells alloc st y) ->
    exec alloc st l m c = s_val st y (map m (rd_cells alloc st y)) c.
  Proof using Hwr Hind.
    intros ts l m y c N A Hy Hc. destruct (in_split _ _ Hy) as (l1 & l2 & ->). destruct (A y Hy) as (Ay & Ly).
    assert (D : forall x, In x (l1 ++ l2) -> x <> y) by (intros x Hx ->; apply NoDup_remove_2 in N; contradiction).
    assert (A' : forall x, In x (l1 ++ l2) -> is_at ts x = true /\ length (i_p x) = n) by (intros x Hx; apply A; apply in_app_iff in Hx; apply in_app_iff; cbn; tauto).
    rewrite exec_app. change (exec alloc st (y :: l2)) with (fun mm => exec alloc st l2 (update alloc st mm y)). cbv beta.
    rewrite exec_other.
    - unfold update at 1. destruct (in_dec cell_eq_dec c (wr_cells alloc st y)) as [_|Q]; [|contradiction]. f_equal. apply map_ext_In. intros c' Hc'. apply exec_other.
      intros x Hx Q. assert (Hx' : In x (l1 ++ l2)) by (apply in_or_app; left; exact Hx). destruct (A' x Hx') as (Ax & _). apply is_at_iff in Ax, Ay.
      apply in_map_iff in Hc', Q. destruct Hc' as (e & E1 & I1), Q as (e' & E2 & I2).
      apply (Hind y x e e'); try congruence. intros ->. exact (D _ Hx' eq_refl).
    - intros x Hx Q. assert (Hx' : In x (l1 ++ l2)) by (apply in_or_app; right; exact Hx). destruct (A' x Hx') as (Ax & Lx).
      apply (D x Hx'). exact (one_writer ts x y c Ax Ay Lx Ly Q Hc).
  Qed.

  (* two memories, the same layer; the second evaluates fewer points *)
  Lemma layer_same : forall ts gl rl g m, NoDup gl -> NoDup rl -> (forall x, In x gl -> is_at ts x = true /\ length (i_p x) = n) -> (forall x, In x rl -> In x gl) ->
    (forall x c, In x rl -> In c (rd_cells alloc st x) -> m c = g c) ->
    forall c, m c = g c -> (forall y, In y gl -> In c (wr_cells alloc st y) -> In y rl) -> exec alloc st rl m c = exec alloc st gl g c.
  Proof using Hwr Hind.
    intros ts gl rl g m Ng Nr A Sub Rd c E W.
    destruct (Exists_dec (fun y => In c (wr_cells alloc st y)) gl (fun y => in_dec cell_eq_dec c (wr_cells alloc st y))) as [X|X].
    - apply Exists_exists in X. destruct X as (y & Iy & Cy). rewrite (exec_layer ts gl g y c Ng A Iy Cy). specialize (W y Iy Cy).
      rewrite (exec_layer ts rl m y c Nr (fun x Hx => A x (Sub x Hx)) W Cy). f_equal. apply map_ext_In. intros c' Hc'. exact (Rd y c' W Hc').
    - assert (X' : forall y, In y gl -> ~ In c (wr_cells alloc st y)) by (intros y Hy Q; apply X; apply Exists_exists; exists y; split; assumption).
      rewrite !exec_other; [exact E|exact X'|]. intros y Hy. apply X'. apply Sub. exact Hy.
  Qed.
End Layer.

(* One rank over the layers of a pass. *)
Section Pass.
  Context {V : Type} (alloc : Z -> Z) (st : stencil V).
  Variables (n : nat) (h : nat -> Z) (nst wf : Z) (dom : Z -> list Z -> Prop) (ex : Z -> bool) (hl hr : Z -> nat -> Z) (k : rank_cfg).
  Hypothesis Hst : job_stencil n ex hl hr st.
  Hypothesis Hvh : var_halos n h hl hr.
  Hypothesis Hind : stage_indep alloc st.
  Hypothesis Hlen : length (k_ss k) = n.
  Hypothesis Hh : forall j d, nth_error (k_ss k) j = Some d -> d_halo d = h j /\ 1 <= d_fold d.
  Hypothesis Hdom : forall s p, dom s p -> length p = n.
  Hypothesis Hedge : forall j d s p, nth_error (k_ss k) j = Some d -> dom s p ->
    (d_first d = true -> d_rb d <= nth j p 0) /\ (d_last d = true -> nth j p 0 < d_rb d + d_rksz d).

  Variable okc : Z -> list Z -> Prop.
  Hypothesis Hokc : forall x e, 0 <= i_s x < nst -> rank_dom nst wf dom k (i_s x) (i_p x) -> In e (s_rd st x) -> ex (fst (fst e)) = true -> okc (fst (fst e)) (snd e).

  Definition near_all (w : Z) (p : list Z) : Prop := forall j d, nth_error (k_ss k) j = Some d -> near_rank d (angle d * w) (nth j p 0).
  Definition halos (w : Z) (v : Z) (q : list Z) : Prop := forall j d, nth_error (k_ss k) j = Some d ->
    d_rb d - hl v j - (if d_first d then 0 else angle d * w) <= nth j q 0 < d_rb d + d_rksz d + hr v j + (if d_last d then 0 else angle d * w).
  Definition agree (w : Z) (m g : cell -> V) : Prop := forall v u q, ex v = true -> halos w v q -> okc v q -> m (v, u, q) = g (v, u, q).
  (* vars that are not exchanged *)
  Definition rest_ok (m g : cell -> V) : Prop := forall x e, 0 <= i_s x < nst -> rank_dom nst wf dom k (i_s x) (i_p x) -> In e (s_rd st x) -> ex (fst (fst e)) = false ->
    m (cell_of alloc e) = g (cell_of alloc e).

  Lemma angle_halo : forall j d, nth_error (k_ss k) j = Some d -> h j <= angle d /\ 0 <= angle d.
  Proof using Hh Hvh Hlen.
    intros j d E. destruct (Hh j d E) as (<- & F). assert (J : (j < n)%nat) by (rewrite <- Hlen; apply nth_error_Some; congruence).
    pose proof (vh_l _ _ _ _ Hvh 0 j J) as Z0. pose proof (proj1 (Hh j d E)) as Eh. clear - F Z0 Eh. unfold angle.
    pose proof (Z.div_mod (d_halo d + d_fold d - 1) (d_fold d) ltac:(lia)). pose proof (Z.mod_pos_bound (d_halo d + d_fold d - 1) (d_fold d) ltac:(lia)). nia.
  Qed.
  Lemma pos_dim : forall j d, nth_error (k_ss k) j = Some d -> (j < n)%nat.
  Proof using Hlen. intros j d E. rewrite <- Hlen. apply nth_error_Some. congruence. Qed.

  (* what a layer with reach [w] reads *)
  Lemma layer_reads : forall w m g x c, agree w m g -> rest_ok m g -> 0 <= i_s x < nst -> rank_dom nst wf dom k (i_s x) (i_p x) -> near_all w (i_p x) ->
    In c (rd_cells alloc st x) -> m c = g c.
  Proof using Hst Hlen Hokc.
    intros w m g x c A R Hs D N Hc. apply in_map_iff in Hc. destruct Hc as (e & <- & He). destruct (ex (fst (fst e))) eqn:E; [|exact (R x e Hs D He E)].
    pose proof (js_rd _ _ _ _ _ Hst x e He E) as B. pose proof (Hokc x e Hs D He E) as K. destruct e as ((v, u), q). cbn [fst snd] in *. cbn [cell_of]. apply A; [exact E| |exact K].
    intros j d Hj. specialize (B j (pos_dim j d Hj)). specialize (N j d Hj). unfold near_rank in N. lia.
  Qed.
  (* who writes a cell near the rank *)
  Lemma near_writer : forall w y c, dom (i_s y) (i_p y) -> In c (wr_cells alloc st y) ->
    (forall j d, nth_error (k_ss k) j = Some d -> d_rb d - (if d_first d then h j else angle d * w) <= nth j (snd c) 0 < d_rb d + d_rksz d + (if d_last d then h j else angle d * w)) ->
    near_all w (i_p y).
  Proof using Hst Hlen Hedge.
    intros w y c D Hc B j d Hj. specialize (B j d Hj). apply in_map_iff in Hc. destruct Hc as (e & Ec & He). destruct (cell_pt _ _ _ Ec) as (Ep & _).
    pose proof (proj2 (js_wr _ _ _ _ _ Hst y e He) j (pos_dim j d Hj)) as W. rewrite Ep in W. rewrite W in B. destruct (Hedge j d (i_s y) (i_p y) Hj D) as (E1 & E2).
    unfold near_rank. destruct (d_first d), (d_last d); lia.
  Qed.
  Lemma writes_ex : forall y c, In c (wr_cells alloc st y) -> ex (fst (fst c)) = true.
  Proof using Hst. intros y c Hc. apply in_map_iff in Hc. destruct Hc as (e & Ec & He). destruct (cell_pt _ _ _ Ec) as (_ & <-). exact (proj1 (js_wr _ _ _ _ _ Hst y e He)). Qed.

  Fixpoint reach_ok (l : list inst) (w : Z) (lay : list (Z * Z)) : Prop :=
    match lay with
    | [] => True
    | ts :: r => 0 <= w /\ 0 <= snd ts < nst /\ (forall x, is_at ts x = true -> (In x l <-> rank_dom nst wf dom k (i_s x) (i_p x) /\ near_all w (i_p x))) /\ reach_ok l (w - 1) r
    end.

  Variables (L : list inst).
  Hypothesis NL : NoDup L.
  Definition global_ok (lay : list (Z * Z)) : Prop := forall ts x, In ts lay -> is_at ts x = true -> (In x L <-> dom (i_s x) (i_p x)).
  (* outside the points of the rank nothing is known after the pass, apart from cells that nobody writes *)
  Definition calm (c : cell) : Prop := in_rank (k_ss k) (snd c) \/ forall x, dom (i_s x) (i_p x) -> ~ In c (wr_cells alloc st x).

  Lemma pass_same : forall lay w l m g, NoDup l -> reach_ok l w lay -> global_ok lay -> (forall s p, rank_dom nst wf dom k s p <-> dom s p /\ near_all (moves nst wf) p) ->
    w <= moves nst wf -> agree w m g -> rest_ok m g ->
    forall c, calm c -> m c = g c -> exec alloc st (layers lay l) m c = exec alloc st (layers lay L) g c.
  Proof using Hst Hvh Hind Hlen Hh Hdom Hedge Hokc NL.
    induction lay as [|ts lay IH]; intros w l m g Nl R G RD Hw A Re c Hc E; [exact E|]. destruct R as (W0 & S0 & R1 & R2).
    cbn [layers flat_map]. fold (layers lay l) (layers lay L). rewrite !exec_app.
    assert (Gl : forall x, In x (filter (is_at ts) L) <-> is_at ts x = true /\ dom (i_s x) (i_p x)).
    { intros x. rewrite filter_In. split; [intros (P & Q); split; [exact Q|]; apply (G ts x (or_introl eq_refl) Q); exact P|intros (Q & P); split; [|exact Q]; apply (G ts x (or_introl eq_refl) Q); exact P]. }
    assert (Rl : forall x, In x (filter (is_at ts) l) <-> is_at ts x = true /\ rank_dom nst wf dom k (i_s x) (i_p x) /\ near_all w (i_p x)).
    { intros x. rewrite filter_In. split; [intros (P & Q); split; [exact Q|]; apply (R1 x Q); exact P|intros (Q & P); split; [|exact Q]; apply (R1 x Q); exact P]. }
    assert (Sx : forall x, is_at ts x = true -> 0 <= i_s x < nst) by (intros x Hx; apply is_at_iff in Hx; subst ts; exact S0).
    assert (Mono : forall p, near_all w p -> near_all (moves nst wf) p).
    { intros p N j d Hj. specialize (N j d Hj). destruct (angle_halo j d Hj). unfold near_rank in *. assert (angle d * w <= angle d * moves nst wf) by nia. destruct (d_first d), (d_last d); lia. }
    assert (Step : forall c', m c' = g c' -> (forall y, dom (i_s y) (i_p y) -> In c' (wr_cells alloc st y) -> near_all w (i_p y)) ->
      exec alloc st (filter (is_at ts) l) m c' = exec alloc st (filter (is_at ts) L) g c').
    { intros c' E' N'. eapply (layer_same alloc st n (fun x e He => proj2 (js_wr _ _ _ _ _ Hst x e He)) Hind ts).
      - apply NoDup_filter. exact NL.
      - apply NoDup_filter. exact Nl.
      - intros x Hx. apply Gl in Hx. destruct Hx as (Q & D). split; [exact Q|exact (Hdom _ _ D)].
      - intros x Hx. apply Rl in Hx. apply Gl. destruct Hx as (Q & D & _). split; [exact Q|apply D].
      - intros x c0 Hx Hc0. apply Rl in Hx. destruct Hx as (Q & D & N). exact (layer_reads w m g x c0 A Re (Sx x Q) D N Hc0).
      - exact E'.
      - intros y Hy Hc'. apply Gl in Hy. destruct Hy as (Q & D). apply Rl. pose proof (N' y D Hc') as Ny. split; [exact Q|]. split; [|exact Ny]. apply RD. split; [exact D|apply Mono; exact Ny]. }
    apply (IH (w - 1)); [exact Nl|exact R2| |exact RD|lia| | |exact Hc|].
    - intros ts' x Ht. apply G. right. exact Ht.
    - intros v u q Ev Hq Kq. apply Step.
      + apply A; [exact Ev| |exact Kq]. intros j d Hj. specialize (Hq j d Hj). destruct (angle_halo j d Hj). destruct (d_first d), (d_last d); nia.
      + intros y D Hy. apply (near_writer w y (v, u, q) D Hy). cbn [snd]. intros j d Hj. specialize (Hq j d Hj). destruct (angle_halo j d Hj).
        pose proof (vh_l _ _ _ _ Hvh v j (pos_dim j d Hj)). pose proof (vh_r _ _ _ _ Hvh v j (pos_dim j d Hj)). destruct (d_first d), (d_last d); nia.
    - intros x e Hs D He Ee. apply Step; [exact (Re x e Hs D He Ee)|]. intros y Dy Hy. apply writes_ex in Hy. destruct e as ((v, u), q). cbn in *. congruence.
    - apply Step; [exact E|]. intros y D Hy. destruct Hc as [Hc|Hc]; [|destruct (Hc y D Hy)].
      apply (near_writer w y c D Hy). intros j d Hj. specialize (Hc j d Hj). destruct (angle_halo j d Hj).
      pose proof (vh_l _ _ _ _ Hvh 0 j (pos_dim j d Hj)). destruct (d_first d), (d_last d); nia.
  Qed.
End Pass.
