From Coq Require Import ZifyBool.
From Verif Require Import Base Cover_Spec Cover_Proofs MixedRadix Idiv_Model Idiv_Proofs ParFor_Model ParFor_Proofs Loops_Model Loops_Spec Loops_Proofs LoopsRun_Proofs.

Section T.
  Variable da : bool.
  Local Notation abeg := (aligned_begin da).
  Local Notation nit := (num_iters da).
  Local Notation subr := (sub_range da).

  Definition good (d : ldim) : Prop := l_begin d < l_end d /\ 1 <= l_stride d /\ (da = true -> 1 <= l_align d).
  Definition parent (d : ldim) : Z * Z := (l_begin d, l_end d).

  Lemma abeg_bounds : forall d, 1 <= l_stride d -> (da = true -> 1 <= l_align d) -> abeg d <= l_begin d < abeg d + l_stride d.
  Proof.
    intros d Hs Ha. unfold aligned_begin, adj_align. destruct da; [|lia]. specialize (Ha eq_refl).
    pose proof (round_down_flr_bounds (l_begin d - l_aofs d) (Z.min (l_align d) (l_stride d)) ltac:(lia)). lia.
  Qed.

  Lemma nit_bounds : forall d, 1 <= l_stride d -> (nit d - 1) * l_stride d < l_end d - abeg d <= nit d * l_stride d.
  Proof.
    intros d Hs. unfold num_iters. rewrite ceil_idiv_flr_spec by lia. set (x := l_end d - abeg d).
    pose proof (Z.div_mod (x + l_stride d - 1) (l_stride d) ltac:(lia)). pose proof (Z.mod_pos_bound (x + l_stride d - 1) (l_stride d) ltac:(lia)). nia.
  Qed.

  Lemma good_nit : forall d, good d -> 0 < nit d.
  Proof. intros d (Hb & Hs & Ha). pose proof (abeg_bounds d Hs Ha). pose proof (nit_bounds d Hs). nia. Qed.

  (* the k-th cut *)
  Definition cut (d : ldim) (k : Z) : Z := if k <=? 0 then l_begin d else if nit d <=? k then l_end d else abeg d + k * l_stride d.

  Lemma subr_cut : forall d i, good d -> 0 <= i < nit d -> subr d i = (cut d i, cut d (i + 1)).
  Proof.
    intros d i (Hb & Hs & Ha) Hi. pose proof (abeg_bounds d Hs Ha) as A. pose proof (nit_bounds d Hs) as N. unfold sub_range, cut.
    f_equal.
    - destruct (i <=? 0) eqn:E.
      + assert (i = 0) by lia. subst. destruct da; [lia|]. lia.
      + destruct (nit d <=? i) eqn:E2; [lia|]. destruct da eqn:Eda; [nia|]. unfold aligned_begin. lia.
    - destruct (i + 1 <=? 0) eqn:E; [lia|]. destruct (nit d <=? i + 1) eqn:E2.
      + assert (i + 1 = nit d) as -> by lia. nia.
      + assert ((i + 1) * l_stride d <= (nit d - 1) * l_stride d) by nia. lia.
  Qed.

  Lemma cut_lt : forall d i, good d -> 0 <= i < nit d -> cut d i < cut d (i + 1).
  Proof.
    intros d i (Hb & Hs & Ha) Hi. pose proof (abeg_bounds d Hs Ha) as A. pose proof (nit_bounds d Hs) as N. unfold cut.
    destruct (i <=? 0) eqn:E1; destruct (i + 1 <=? 0) eqn:E2; destruct (nit d <=? i) eqn:E3; destruct (nit d <=? i + 1) eqn:E4; try lia; try nia.
  Qed.

  Definition ivs (d : ldim) : list (Z * Z) := map (subr d) (zseq (nit d)).

  Lemma ivs_chain : forall d, good d -> chain (l_begin d) (l_end d) (ivs d).
  Proof.
    intros d G. pose proof (good_nit d G) as Hn. unfold ivs.
    rewrite (map_ext_in _ (fun i => (cut d i, cut d (i + 1)))) by (intros i Hi; apply zseq_In in Hi; apply subr_cut; assumption).
    replace (l_begin d) with (cut d 0) by reflexivity.
    replace (l_end d) with (cut d (nit d)) by (unfold cut; destruct (nit d <=? 0) eqn:?; [lia|]; rewrite Z.leb_refl; reflexivity).
    apply chain_cuts; [lia|]. intros i Hi. apply cut_lt; assumption.
  Qed.

  (* ---------- grids ---------- *)
  Lemma grid_app : forall A (a b : list (list A)), grid (a ++ b) = flat_map (fun x => map (app x) (grid b)) (grid a).
  Proof.
    intros A a b. induction a as [|l a IH]; cbn [app grid].
    - cbn. rewrite app_nil_r. symmetry. exact (map_id (grid b)).
    - rewrite IH. clear IH. induction l as [|x l IHl]; [reflexivity|]. cbn [flat_map]. rewrite IHl, flat_map_app. f_equal.
      rewrite !flat_map_concat_map, concat_map, !map_map. f_equal. apply map_ext. intros y. rewrite map_map. reflexivity.
  Qed.

  Lemma grid_map : forall (ds : list ldim), grid (map ivs ds) = map (fun ix => map (fun p => subr (fst p) (snd p)) (combine ds ix)) (nest (map nit ds)).
  Proof.
    induction ds as [|d ds IH]; [reflexivity|]. cbn [map grid nest]. rewrite IH. unfold ivs.
    rewrite !flat_map_concat_map, concat_map, !map_map. f_equal. apply map_ext. intros i. rewrite !map_map. apply map_ext. intros ix. reflexivity.
  Qed.

  Lemma Permutation_flat_map' : forall A B (f g : A -> list B) l1 l2, Permutation l1 l2 -> (forall a, In a l1 -> Permutation (f a) (g a)) -> Permutation (flat_map f l1) (flat_map g l2).
  Proof.
    intros A B f g l1 l2 P H. transitivity (flat_map g l1).
    - clear P. induction l1 as [|a l1 IH]; [constructor|]. cbn. apply Permutation_app; [apply H; left; reflexivity|]. apply IH. intros; apply H; right; assumption.
    - apply Permutation_flat_map. exact P.
  Qed.

  (* ---------- one loop ---------- *)
  Lemma good_div : forall ds, Forall good ds -> forallb (divisors_ok da) ds = true.
  Proof.
    intros ds H. apply forallb_forall. rewrite Forall_forall in H. intros d Hd. destruct (H d Hd) as (Hb & Hs & Ha).
    unfold divisors_ok, adj_align. destruct da; [specialize (Ha eq_refl)|]; lia.
  Qed.

  Lemma combine_map_fst : forall A B C (f : A -> B) (g : A -> C) l, map fst (combine (map f l) (map g l)) = map f l.
  Proof. induction l; cbn; congruence. Qed.

  Lemma one_loop_perm : forall nt f enc ds, 0 < nt -> ds <> [] -> Forall good ds -> (f_tile f = true -> Forall (fun d => 1 <= l_tile d) ds) ->
    exists ixs, one_loop da nt f enc ds = Ok ixs /\ Permutation ixs (nest (map nit ds)) /\
      (f_serp f = false -> f_square f = false -> f_tile f = false -> ixs = nest (map nit ds)).
  Proof.
    intros nt f enc ds Hnt Hne Hg Ht. unfold one_loop. rewrite good_div by exact Hg. cbn [negb].
    assert (HN : Forall (fun n => 0 < n) (map nit ds)) by (clear -Hg; induction Hg; cbn; constructor; auto using good_nit).
    destruct (f_nested f); [eexists; split; [reflexivity|]; split; auto|].
    destruct (f_manual f).
    - rewrite manual_all; [eexists; split; [reflexivity|]; split; auto|exact HN|destruct ds; [congruence|discriminate]|exact Hnt].
    - destruct (f_tile f) eqn:Et.
      + set (nts := combine (map nit ds) (map (tile_iters da) ds)).
        assert (E : map fst nts = map nit ds) by apply combine_map_fst.
        assert (TO : Forall tile_ok nts).
        { unfold nts. specialize (Ht eq_refl). clear -Hg Ht. induction ds as [|d ds IH]; cbn; constructor.
          - inversion Hg; inversion Ht; subst. unfold tile_ok. cbn. unfold tile_iters. pose proof (good_nit d ltac:(assumption)).
            assert (1 <= ceil_idiv_flr (l_tile d) (l_stride d)); [|lia].
            match goal with K : good d |- _ => destruct K as (_ & Hs & _) end. rewrite ceil_idiv_flr_spec by lia. apply Z.div_le_lower_bound; lia.
          - inversion Hg; inversion Ht; subst. apply IH; assumption. }
        destruct (tile_perm nts TO) as (g & G & P). rewrite E in G, P.
        rewrite (rconcat_map _ _ _ (fun i => [g i])) by (intros i Hi; apply zseq_In in Hi; rewrite G by exact Hi; reflexivity).
        eexists. split; [reflexivity|]. split; [|congruence].
        replace (flat_map (fun i => [g i]) (zseq (zprod (map nit ds)))) with (map g (zseq (zprod (map nit ds)))); [exact P|].
        generalize (zseq (zprod (map nit ds))). induction l; cbn; congruence.
      + destruct (path_perm (map nit ds) (f_serp f) (f_square f) (option_map (fun e => (e, 0)) enc) HN) as (g & G & P).
        rewrite (rconcat_map _ _ _ (fun i => [g i])) by (intros i Hi; apply zseq_In in Hi; destruct (G i Hi) as (q & ->); reflexivity).
        eexists. split; [reflexivity|].
        assert (E : forall l, flat_map (fun i : Z => [g i]) l = map g l) by (induction l; cbn; congruence). rewrite E. split; [exact P|].
        intros Es Eq _. rewrite nest_od by exact HN. apply map_ext_in. intros i Hi. apply zseq_In in Hi. destruct (G i Hi) as (q & Gi). rewrite Es, Eq in Gi.
        rewrite path_plain_step in Gi by (auto; try lia; discriminate). congruence.
  Qed.

  (* ---------- whole nest ---------- *)
  Fixpoint accepted (enc : bool) (prog : list (feats * list ldim)) : Prop :=
    match prog with
    | [] => True
    | (f, []) :: rest => accepted enc rest
    | (f, ds) :: rest => adj_feats (length ds) enc f <> None /\ accepted true rest
    end.
  Definition wf_loop (fd : feats * list ldim) : Prop := Forall good (snd fd) /\ (f_tile (fst fd) = true -> Forall (fun d => 1 <= l_tile d) (snd fd)).
  Definition plain (f : feats) : Prop := f_serp f = false /\ f_square f = false /\ f_tile f = false.

  Lemma adj_le : forall n e f f', adj_feats n e f = Some f' -> (f_tile f' = true -> f_tile f = true) /\ (plain f -> plain f').
  Proof.
    intros n e f f' H. unfold adj_feats in H. destruct (f_tile f && _); [discriminate|]. destruct (_ && _) in H; [discriminate|]. injection H as <-.
    cbn. split; [intros E; apply andb_prop in E; tauto|]. intros (A & B & C). unfold plain. cbn. rewrite A, B, C. repeat split.
  Qed.

  Definition is_some {A} (o : option A) : bool := match o with Some _ => true | None => false end.

  Theorem run_perm : forall prog nt enc, 0 < nt -> Forall wf_loop prog -> accepted (is_some enc) prog ->
    exists calls, run_loops da nt enc prog = Ok calls /\ Permutation calls (grid (map ivs (flat_map snd prog))) /\
      (Forall (fun fd => plain (fst fd)) prog -> calls = grid (map ivs (flat_map snd prog))).
  Proof.
    induction prog as [|(f & ds) prog IH]; intros nt enc Hnt Hw Ha.
    - exists [[]]. repeat split; auto.
    - inversion Hw as [|? ? (Hg & Ht) Hr]; subst. cbn [fst snd] in *. destruct ds as [|d ds].
      + destruct (IH nt enc Hnt Hr Ha) as (calls & E & P & Q). exists calls. cbn [run_loops]. split; [exact E|]. split; [exact P|].
        intros Hp. apply Q. inversion Hp; assumption.
      + cbn [accepted] in Ha. destruct Ha as (Ha & Hrest). cbn [run_loops].
        fold (is_some enc). destruct (adj_feats (length (d :: ds)) (is_some enc) f) as [f'|] eqn:Ef; [|congruence].
        destruct (adj_le _ _ _ _ Ef) as (L1 & L2).
        destruct (one_loop_perm nt f' enc (d :: ds) Hnt ltac:(discriminate) Hg ltac:(auto)) as (ixs & E & P & Q). rewrite E. cbn [rbind].
        set (pre := fun ix => map (fun p => subr (fst p) (snd p)) (combine (d :: ds) ix)).
        assert (B : forall ix, exists bodies, run_loops da nt (Some (last ix 0)) prog = Ok bodies /\ Permutation bodies (grid (map ivs (flat_map snd prog))) /\
                  (Forall (fun fd => plain (fst fd)) prog -> bodies = grid (map ivs (flat_map snd prog)))) by (intros ix; apply IH; auto).
        rewrite (rconcat_map _ _ _ (fun ix => map (app (pre ix)) (match run_loops da nt (Some (last ix 0)) prog with Ok b => b | _ => [] end)))
          by (intros ix _; destruct (B ix) as (b & -> & _); reflexivity).
        eexists. split; [reflexivity|]. cbn [flat_map snd]. rewrite map_app, grid_app, (grid_map (d :: ds)).
        rewrite (flat_map_concat_map _ (map _ _)), map_map, <- flat_map_concat_map. split.
        * apply Permutation_flat_map'; [exact P|]. intros ix _. destruct (B ix) as (b & -> & Pb & _). apply Permutation_map. exact Pb.
        * intros Hp. inversion Hp as [|? ? Hp1 Hp2]; subst. cbn [fst] in Hp1. destruct (L2 Hp1) as (A1 & A2 & A3). rewrite (Q A1 A2 A3).
          apply flat_map_ext. intros ix. destruct (B ix) as (b & -> & _ & Qb). rewrite (Qb Hp2). reflexivity.
  Qed.

  (* ---------- consequences ---------- *)
  Lemma hits_flat_map_cons : forall l rest x p, hits in_box (flat_map (fun a => map (cons a) rest) l) (x :: p) = (hits in_iv l x * hits in_box rest p)%nat.
  Proof.
    induction l as [|a l IH]; intros rest x p; [reflexivity|]. cbn [flat_map]. rewrite hits_app, IH, hits_cons.
    assert (E : hits in_box (map (cons a) rest) (x :: p) = ((if in_iv a x then 1 else 0) * hits in_box rest p)%nat).
    { clear. induction rest as [|b rest IHr]; [cbn; rewrite ?hits_nil; lia|]. cbn [map]. rewrite !hits_cons, IHr. cbn [in_box]. destruct (in_iv a x), (in_box b p); cbn; lia. }
    rewrite E. lia.
  Qed.
  Lemma grid_cover : forall ds, Forall good ds -> exact_cover in_box (grid (map ivs ds)) (in_box (map parent ds)).
  Proof.
    induction ds as [|d ds IH]; intros H x.
    - destruct x; reflexivity.
    - inversion H; subst. cbn [map grid]. destruct x as [|x p].
      + cbn [in_box]. unfold hits. apply filter_length_0. intros b Hb. apply in_flat_map in Hb as (a & _ & Hb). apply in_map_iff in Hb as (b' & <- & _). reflexivity.
      + rewrite hits_flat_map_cons, IH by assumption. rewrite (chain_hits _ _ _ x (ivs_chain d ltac:(assumption))). cbn [in_box]. unfold parent at 2.
        destruct (in_iv (l_begin d, l_end d) x), (in_box (map parent ds) p); reflexivity.
  Qed.
  Lemma grid_In : forall A (ls : list (list A)) b, In b (grid ls) <-> Forall2 (fun l c => In c l) ls b.
  Proof.
    induction ls as [|l ls IH]; intros b; cbn.
    - split; [intros [<-|[]]; constructor|intros H; inversion H; auto].
    - rewrite in_flat_map. split.
      + intros (a & Ha & Hb). apply in_map_iff in Hb as (b' & <- & Hb'). constructor; [exact Ha|]. apply IH. exact Hb'.
      + intros H. inversion H as [|? a ? b' Ha Hb]; subst. exists a. split; [exact Ha|]. apply in_map. apply IH. exact Hb.
  Qed.
  Lemma ivs_In : forall d c, good d -> In c (ivs d) -> l_begin d <= fst c /\ fst c < snd c /\ snd c <= l_end d.
  Proof.
    intros d c G H. pose proof (ivs_chain d G) as C. revert C H. generalize (ivs d) as l, (l_begin d) as b, (l_end d) as e.
    induction l as [|(s & t) l IH]; intros b e C H; [contradiction|]. cbn in C. destruct C as (-> & Hlt & C). pose proof (chain_le _ _ _ C). destruct H as [<-|H]; cbn; [lia|].
    specialize (IH _ _ C H). lia.
  Qed.

  Theorem loops_cover : forall prog nt, 0 < nt -> Forall wf_loop prog -> accepted false prog ->
    exists calls, run_loops da nt None prog = Ok calls /\
      exact_cover in_box calls (in_box (map parent (flat_map snd prog))) /\
      Forall nonempty_box calls /\ Forall (box_inside (map parent (flat_map snd prog))) calls.
  Proof.
    intros prog nt Hnt Hw Ha. destruct (run_perm prog nt None Hnt Hw Ha) as (calls & E & P & _). exists calls. split; [exact E|].
    assert (G : Forall good (flat_map snd prog)). { clear -Hw. induction Hw as [|(f & ds) prog (H & _) Hw IH]; cbn; [constructor|]. apply Forall_app. auto. }
    split; [eapply exact_cover_perm; [symmetry; exact P|apply grid_cover; exact G]|].
    assert (F : forall b, In b calls -> Forall2 (fun d c => In c (ivs d)) (flat_map snd prog) b).
    { intros b Hb. apply (Permutation_in _ P) in Hb. apply grid_In in Hb. remember (map ivs (flat_map snd prog)) as ls. revert Heqls. generalize (flat_map snd prog). clear -Hb.
      induction Hb as [|l c ls b Hc Hb IH]; intros [|d ds] Heq; try discriminate; constructor; cbn in Heq; injection Heq as -> ->; auto. }
    split; apply Forall_forall; intros b Hb; specialize (F b Hb).
    - clear -F G. unfold nonempty_box. induction F as [|d c ds b Hc F IH]; constructor; inversion G; subst; [apply (ivs_In d c); assumption|auto].
    - clear -F G. unfold box_inside. induction F as [|d c ds b Hc F IH]; cbn; constructor; inversion G; subst; [pose proof (ivs_In d c ltac:(assumption) Hc); cbn; lia|auto].
  Qed.

  (* same sub-ranges whatever the path options, and the plain order when there are none *)
  Theorem loops_order : forall prog prog' nt nt', 0 < nt -> 0 < nt' -> Forall wf_loop prog -> Forall wf_loop prog' -> accepted false prog -> accepted false prog' ->
    flat_map snd prog = flat_map snd prog' ->
    exists calls calls', run_loops da nt None prog = Ok calls /\ run_loops da nt' None prog' = Ok calls' /\ Permutation calls calls' /\
      (Forall (fun fd => plain (fst fd)) prog -> Forall (fun fd => plain (fst fd)) prog' -> calls = calls').
  Proof.
    intros prog prog' nt nt' H1 H2 W1 W2 A1 A2 E.
    destruct (run_perm prog nt None H1 W1 A1) as (c & R & P & Q). destruct (run_perm prog' nt' None H2 W2 A2) as (c' & R' & P' & Q').
    exists c, c'. split; [exact R|]. split; [exact R'|]. rewrite <- E in P', Q'. split; [rewrite P, P'; reflexivity|].
    intros Z1 Z2. rewrite (Q Z1), (Q' Z2). reflexivity.
  Qed.
End T.

(* ---------- alignment ---------- *)
Lemma cut_aligned : forall d k, good true d -> (Z.min (l_align d) (l_stride d) | l_stride d) -> 0 < k < num_iters true d ->
  (cut true d k - l_aofs d) mod Z.min (l_align d) (l_stride d) = 0.
Proof.
  intros d k (Hb & Hs & Ha) (m & Em) Hk. specialize (Ha eq_refl). unfold cut. destruct (k <=? 0) eqn:?; [lia|]. destruct (num_iters true d <=? k) eqn:?; [lia|].
  unfold aligned_begin, adj_align. set (a := Z.min (l_align d) (l_stride d)) in *.
  pose proof (round_down_flr_bounds (l_begin d - l_aofs d) a ltac:(lia)) as (_ & R).
  replace (round_down_flr (l_begin d - l_aofs d) a + l_aofs d + k * l_stride d - l_aofs d) with (round_down_flr (l_begin d - l_aofs d) a + k * l_stride d) by lia.
  rewrite Em. replace (k * (m * a)) with (k * m * a) by ring. rewrite Z.mod_add by lia. exact R.
Qed.

Theorem loops_aligned : forall prog nt, 0 < nt -> Forall (wf_loop true) prog -> accepted false prog ->
  Forall (fun d => (Z.min (l_align d) (l_stride d) | l_stride d)) (flat_map snd prog) ->
  exists calls, run_loops true nt None prog = Ok calls /\
    forall b, In b calls -> Forall2 (fun d c => forall x, In x (inner_bounds (l_begin d, l_end d) c) ->
       (x - l_aofs d) mod Z.min (l_align d) (l_stride d) = 0) (flat_map snd prog) b.
Proof.
  intros prog nt Hnt Hw Ha Hd. destruct (run_perm true prog nt None Hnt Hw Ha) as (calls & E & P & _). exists calls. split; [exact E|].
  intros b Hb. apply (Permutation_in _ P) in Hb. apply grid_In in Hb.
  assert (G : Forall (good true) (flat_map snd prog)). { clear -Hw. induction Hw as [|(f & ds) prog (H & _) Hw IH]; cbn; [constructor|]. apply Forall_app. auto. }
  remember (map (ivs true) (flat_map snd prog)) as ls. revert Heqls. revert G Hd. generalize (flat_map snd prog). clear -Hb.
  induction Hb as [|l c ls b Hc Hb IH]; intros [|d ds] G Hd Heq; try discriminate; constructor; cbn in Heq; injection Heq as -> ->; inversion G; inversion Hd; subst; [|apply IH; auto].
  intros x Hx. unfold ivs in Hc. apply in_map_iff in Hc as (i & <- & Hi). apply zseq_In in Hi. rewrite subr_cut in Hx by assumption.
  unfold inner_bounds in Hx. apply filter_In in Hx as (Hx & Hr). cbn [fst snd] in *.
  assert (I : forall k, 0 <= k <= num_iters true d -> l_begin d < cut true d k < l_end d -> 0 < k < num_iters true d).
  { intros k Hk Hc. unfold cut in Hc. destruct (k <=? 0) eqn:?; [lia|]. destruct (num_iters true d <=? k) eqn:?; lia. }
  destruct Hx as [<-|[<-|[]]]; apply cut_aligned; try assumption; apply I; lia.
Qed.

(* ---------- ScanIndices strides, indices.hpp:741-799 (one domain dim) ---------- *)
Lemma ROUND_UP_le0 : forall n m, 0 < m -> n <= 0 -> ROUND_UP n m <= 0.
Proof. intros n m Hm Hn. unfold ROUND_UP, CEIL_DIV. pose proof (Z.quot_rem' (n + m - 1) m). pose proof (Z.rem_bound_abs (n + m - 1) m ltac:(lia)).
  assert (Z.quot (n + m - 1) m <= 0); [|nia]. destruct (Z_le_gt_dec 0 (n + m - 1)); [rewrite Z.quot_small by lia; lia|]. 
  assert (Z.quot (n + m - 1) m <= Z.quot 0 m) by (apply Z.quot_le_mono; lia). rewrite Z.quot_0_l in * by lia. lia. Qed.
