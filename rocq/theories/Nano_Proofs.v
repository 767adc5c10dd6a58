From Coq Require Import ZifyBool.
From Verif Require Import Base Cover_Spec Cover_Proofs MixedRadix Idiv_Model Idiv_Proofs Visit_Spec Tuple_Model Tuple_Proofs Combo_Model Combo_Spec Combo_Proofs
  Loops_Model Loops_Spec Loops_Proofs LoopsRun_Proofs LoopsTop_Proofs Scan_Model Scan_Proofs Nano_Model Nano_Spec.

(* ---------- masks ---------- *)
Lemma radix_pos : forall ss os, radix ss os = mr_pos ss os.
Proof. reflexivity. Qed.
Lemma lane_layout : forall fi ss os, lane fi ss os = layout_vals fi ss os.
Proof. intros. rewrite layout_vals_pos. unfold lane. destruct fi; apply radix_pos. Qed.

Definition mstep (T : Z) (P : Z -> bool) (m i : Z) : Z := let p := Z.shiftr m 1 in if P i then Z.lor p (Z.shiftl 1 (T - 1)) else p.
Lemma mstep_bits : forall T P n, 0 < T -> Z.of_nat n <= T ->
  forall b, 0 <= b -> Z.testbit (fold_left (mstep T P) (zseq (Z.of_nat n)) 0) b = (T - Z.of_nat n <=? b) && (b <? T) && P (b - (T - Z.of_nat n)).
Proof.
  intros T P n HT. induction n as [|n IH]; intros Hn b Hb.
  - change (Z.of_nat 0) with 0 in *. rewrite zseq_nil by lia. cbn [fold_left]. rewrite Z.bits_0. replace ((T - 0 <=? b) && (b <? T)) with false; [reflexivity|symmetry; apply andb_false_iff; lia].
  - replace (Z.of_nat (S n)) with (Z.of_nat n + 1) in * by lia. rewrite zseq_succ by lia. rewrite fold_left_app. cbn [fold_left]. unfold mstep at 1.
    assert (B : forall m, Z.testbit (Z.lor m (Z.shiftl 1 (T - 1))) b = Z.testbit m b || (b =? T - 1)).
    { intros m. rewrite Z.lor_spec, Z.shiftl_spec by lia. f_equal. destruct (b =? T - 1) eqn:E.
      - replace (b - (T - 1)) with 0 by lia. reflexivity.
      - destruct (Z.lt_ge_cases b (T - 1)); [apply Z.testbit_neg_r; lia|]. apply (Z.bits_above_log2 1); cbn; lia. }
    assert (S1 : Z.testbit (Z.shiftr (fold_left (mstep T P) (zseq (Z.of_nat n)) 0) 1) b = (T - Z.of_nat n <=? b + 1) && (b + 1 <? T) && P (b + 1 - (T - Z.of_nat n))).
    { rewrite Z.shiftr_spec by lia. apply IH; lia. }
    replace (b - (T - (Z.of_nat n + 1))) with (b + 1 - (T - Z.of_nat n)) by lia.
    destruct (P (Z.of_nat n)) eqn:EP; cbn zeta.
    + rewrite B, S1. destruct (Z.eq_dec b (T - 1)) as [->|].
      * replace (T - 1 + 1 - (T - Z.of_nat n)) with (Z.of_nat n) by lia. rewrite EP. lia.
      * destruct (P _); lia.
    + rewrite S1. destruct (Z.eq_dec b (T - 1)) as [->|].
      * replace (T - 1 + 1 - (T - Z.of_nat n)) with (Z.of_nat n) by lia. rewrite EP. lia.
      * destruct (P _); lia.
Qed.

Lemma run_two : forall (A : Type) (f g : Z -> list Z -> A -> A) l a b,
  fst (run_visitor (A * A) (fun m pt i => ((f i pt (fst m), g i pt (snd m)), true)) l (a, b)) =
  (fold_left (fun m x => f (snd x) (fst x) m) l a, fold_left (fun m x => g (snd x) (fst x) m) l b).
Proof. intros A f g. induction l as [|(p & i) l IH]; intros a b; [reflexivity|]. cbn. apply IH. Qed.

(* bit of every lane *)
Definition mask_is (fi : bool) (folds : list Z) (j : nat) (m : Z) (P : Z -> bool) : Prop :=
  forall os, in_sizes folds os -> Z.testbit m (lane fi folds os) = P (nth j os 0).

Lemma masks_ok : forall fi folds j eb ee ob fe, Forall (fun s => 0 < s) folds -> zprod folds <= 63 ->
  exists pm rm, both_masks fi folds j eb ee ob fe = Ok (pm, rm) /\
    mask_is fi folds j pm (fun o => eb <=? ob + o) /\ mask_is fi folds j rm (fun o => fe + o <? ee).
Proof.
  intros fi folds j eb ee ob fe Hp Hm. unfold both_masks. replace (63 <? zprod folds) with false by lia.
  rewrite indices_visit_run by exact Hp.
  set (T := zprod folds) in *. assert (HT : 0 < T) by (apply zprod_pos; exact Hp).
  set (F := fun (P : Z -> bool) (i : Z) (pt : list Z) (m : Z) => let p := Z.shiftr m 1 in if P (nth j pt 0) then Z.lor p (Z.shiftl 1 (T - 1)) else p).
  pose proof (run_two Z (F (fun o => eb <=? ob + o)) (F (fun o => fe + o <? ee)) (numbered_points fi folds) 0 0) as E.
  unfold F in E at 1 2. cbn zeta. rewrite E. clear E. unfold numbered_points. fold T.
  do 2 eexists. split; [reflexivity|].
  assert (G : forall P, mask_is fi folds j (fold_left (fun m x => F P (snd x) (fst x) m) (map (fun i => (point_of fi folds i, i)) (zseq T)) 0) P).
  { intros P os Ho. pose proof (layout_bound fi folds os Ho) as Lb. fold T in Lb. rewrite lane_layout.
    assert (E : forall l m, fold_left (fun m x => F P (snd x) (fst x) m) (map (fun i => (point_of fi folds i, i)) l) m = fold_left (mstep T (fun i => P (nth j (point_of fi folds i) 0))) l m).
    { induction l as [|i l IH]; intros m; [reflexivity|]. cbn [map fold_left]. rewrite IH. reflexivity. }
    rewrite E. replace T with (Z.of_nat (Z.to_nat T)) at 2 by lia. rewrite mstep_bits by lia.
    replace (layout_vals fi folds os - (T - Z.of_nat (Z.to_nat T))) with (layout_vals fi folds os) by lia. rewrite point_layout by exact Ho. lia. }
  split; apply G.
Qed.

(* ---------- one dim ---------- *)
Definition b2n (b : bool) : nat := if b then 1%nat else 0%nat.

(* what the three sections of a dim contain: none, left, right *)
Definition nrm (d : ndim) (x : Z) : Z := idiv_flr x (nd_fold d).
Definition sec_range (d : ndim) (p : vparts) (s : option bool) : Z * Z :=
  match s with
  | None => (nrm d (p_fvb p), nrm d (p_fve p))
  | Some false => (nrm d (p_ovb p), nrm d (p_fvb p))
  | Some true => (nrm d (p_fve p), nrm d (p_ove p))
  end.
Definition sec_need (p : vparts) (s : option bool) : bool := match s with None => true | Some false => p_left p | Some true => p_right p end.
Definition sec_mask (p : vparts) (s : option bool) : Z := match s with None => -1 | Some false => p_pmask p | Some true => p_rmask p end.

Definition dim_ok (d : ndim) : Prop := 1 <= nd_fold d /\ 1 <= nd_pico d /\ nd_begin d <= nd_end d.

(* the range of a section that is evaluated: empty, with no iterations, or good; a selected section has one vector *)
Definition range_ok (s : Z) (c : Z * Z) : Prop := fst c < snd c \/ (snd c <= fst c /\ ceil_idiv_flr (snd c - fst c) s = 0).

Record part_fact (fi : bool) (folds : list Z) (j : nat) (d : ndim) (p : vparts) : Prop := {
  pf_sum : forall x os, in_sizes folds os -> nth j os 0 = (x - nd_rofs d) mod nd_fold d ->
     (b2n (in_iv (sec_range d p None) ((x - nd_rofs d) / nd_fold d)) +
      b2n (p_left p && in_iv (sec_range d p (Some false)) ((x - nd_rofs d) / nd_fold d) && Z.testbit (p_pmask p) (lane fi folds os)) +
      b2n (p_right p && in_iv (sec_range d p (Some true)) ((x - nd_rofs d) / nd_fold d) && Z.testbit (p_rmask p) (lane fi folds os)))%nat
     = b2n (in_iv (nd_begin d, nd_end d) x);
  pf_full : p_full p = false -> forall v, in_iv (sec_range d p None) v = false;
  pf_range : forall s, sec_need p s = true -> range_ok (norm_stride d) (sec_range d p s);
  pf_unit : nd_fold d = 1 -> p_left p = false /\ p_right p = false
}.

Lemma stride_pos : forall d, dim_ok d -> 1 <= norm_stride d /\ (nd_end d - nd_begin d < nd_fold d -> 2 <= norm_stride d).
Proof.
  intros d (Hf & Hp & Hb). unfold norm_stride, set_strides_from_inner. cbn [l_stride l_begin l_end]. rewrite idiv_flr_spec by lia.
  pose proof (ROUND_UP_ge (nd_pico d) (nd_fold d) ltac:(lia) Hp) as G. destruct (ROUND_UP_div (nd_pico d) (nd_fold d)) as (k & E). rewrite E in *.
  assert (1 <= k) by nia.
  destruct (nd_end d - nd_begin d <? k * nd_fold d) eqn:Q.
  - replace (k * nd_fold d * 2) with (k * 2 * nd_fold d) by ring. rewrite Z.div_mul by lia. lia.
  - rewrite Z.div_mul by lia. split; [lia|]. intros L. nia.
Qed.

Lemma dim_parts_ok : forall fi folds j d, Forall (fun s => 0 < s) folds -> zprod folds <= 63 -> dim_ok d ->
  exists p, dim_parts fi folds j d = Ok p /\ part_fact fi folds j d p.
Proof.
  intros fi folds j d Hp Hm HD. pose proof (stride_pos d HD) as (Hs & Hs2). destruct HD as (Hf & Hpi & Hb). unfold dim_parts.
  replace (nd_fold d =? 0) with false by lia.
  set (f := nd_fold d) in *. set (eb := nd_begin d - nd_rofs d). set (ee := nd_end d - nd_rofs d).
  assert (Eup : forall x, round_up_flr x f = (x + f - 1) / f * f) by (intros x; unfold round_up_flr; rewrite ceil_idiv_flr_spec by lia; reflexivity).
  assert (Edn : forall x, round_down_flr x f = x / f * f) by (intros x; apply round_down_flr_spec; lia).
  rewrite !Eup, !Edn.
  assert (Nd : forall k, idiv_flr (k * f) f = k) by (intros k; rewrite idiv_flr_spec by lia; apply Z.div_mul; lia).
  assert (Heb : f * (eb / f) <= eb < f * (eb / f) + f) by (pose proof (Z.mul_div_le eb f ltac:(lia)); pose proof (Z.mul_succ_div_gt eb f ltac:(lia)); lia).
  assert (Hee : f * (ee / f) <= ee < f * (ee / f) + f) by (pose proof (Z.mul_div_le ee f ltac:(lia)); pose proof (Z.mul_succ_div_gt ee f ltac:(lia)); lia).
  assert (Hub : eb <= f * ((eb + f - 1) / f) < eb + f) by (pose proof (Z.mul_div_le (eb + f - 1) f ltac:(lia)); pose proof (Z.mul_succ_div_gt (eb + f - 1) f ltac:(lia)); lia).
  assert (Hue : ee <= f * ((ee + f - 1) / f) < ee + f) by (pose proof (Z.mul_div_le (ee + f - 1) f ltac:(lia)); pose proof (Z.mul_succ_div_gt (ee + f - 1) f ltac:(lia)); lia).
  set (ob := eb / f) in *. set (fe := ee / f) in *. set (fb := (eb + f - 1) / f) in *. set (oe := (ee + f - 1) / f) in *.
  assert (Hbe : eb <= ee) by (unfold eb, ee; lia).
  destruct (masks_ok fi folds j eb ee (ob * f) (fe * f) Hp Hm) as (pm & rm & Em & Mp & Mr).
  assert (Hx : forall x, in_iv (nd_begin d, nd_end d) x = (eb <=? f * ((x - nd_rofs d) / f) + (x - nd_rofs d) mod f) && (f * ((x - nd_rofs d) / f) + (x - nd_rofs d) mod f <? ee)).
  { intros x. rewrite <- Z.div_mod by lia. unfold in_iv, eb, ee. cbn. lia. }
  assert (Ho : forall x, 0 <= (x - nd_rofs d) mod f < f) by (intros; apply Z.mod_pos_bound; lia).
  assert (Hfb : fb = ob \/ fb = ob + 1) by nia.
  assert (Hoe : oe = fe \/ oe = fe + 1) by nia.
  assert (Hob : ob <= fe) by nia.
  assert (R1 : forall c, fst c < snd c -> range_ok (norm_stride d) c) by (intros c H; left; exact H).
  assert (R0 : forall c, fst c = snd c -> range_ok (norm_stride d) c).
  { intros c H. right. split; [lia|]. rewrite H, Z.sub_diag, ceil_idiv_flr_spec by lia. apply Z.div_small. lia. }
  destruct (eb <? fb * f) eqn:EL; destruct (fe * f <? ee) eqn:ER; cbn [orb andb]; rewrite ?Em; cbn [rbind fst snd].
  - destruct (ob * f =? fe * f) eqn:EO.
    + (* inside one vector *)
      assert (ob = fe) by nia. assert (fb = ob + 1) by nia. assert (oe = fe + 1) by nia.
      eexists. split; [reflexivity|]. constructor; cbn [p_left p_right p_full p_pmask p_rmask p_fvb p_fve p_ovb p_ove sec_range]; unfold nrm; fold f; rewrite ?Nd.
      * intros x os Hos En. rewrite Z.land_spec, Mp, Mr by exact Hos. rewrite En, Hx. specialize (Ho x). unfold in_iv. cbn [fst snd].
        set (v := (x - nd_rofs d) / f). set (o := (x - nd_rofs d) mod f) in *. destruct (Z.eq_dec v ob) as [->|Ne].
        -- assert (Ef : f * ob = fe * f) by lia. unfold b2n. 
           replace ((fb <=? ob) && (ob <? fe)) with false by lia. replace ((ob <=? ob) && (ob <? fb)) with true by lia. cbn [andb].
           replace (eb <=? ob * f + o) with (eb <=? f * ob + o) by lia. replace (fe * f + o <? ee) with (f * ob + o <? ee) by lia.
           destruct (eb <=? f * ob + o), (f * ob + o <? ee); reflexivity.
        -- replace ((fb <=? v) && (v <? fe)) with false by lia. replace ((ob <=? v) && (v <? fb)) with false by lia. cbn [andb b2n].
           assert (v < ob \/ v > ob) as [?|?] by lia; [assert (f * v + o < eb) by nia|assert (f * v + o >= ee) by nia];
             (replace ((eb <=? f * v + o) && (f * v + o <? ee)) with false; [reflexivity|symmetry; apply andb_false_iff; lia]).
      * intros _ v. unfold in_iv. cbn. lia.
      * intros [[|]|] Hn; cbn in Hn; try discriminate; cbn [sec_range].
        -- apply R1. cbn. unfold nrm. cbn. fold f. rewrite ?Nd. lia.
        -- right. cbn. unfold nrm. cbn. fold f. rewrite ?Nd. split; [lia|]. replace (fe - fb) with (-1) by lia.
           assert (Hd : nd_end d - nd_begin d < f) by (unfold eb, ee in *; nia). specialize (Hs2 Hd). rewrite ceil_idiv_flr_spec by lia. apply Z.div_small. lia.
      * intros E1. exfalso. nia.
    + assert (ob < fe) by nia. assert (fb = ob + 1) by nia. assert (oe = fe + 1) by nia.
      assert (P : exists full, (if fe * f <=? fb * f then Ok (mkVparts (fe * f) (fe * f) (ob * f) (oe * f) true true false pm rm) else Ok (mkVparts (fb * f) (fe * f) (ob * f) (oe * f) true true true pm rm))
               = Ok (mkVparts (fb * f) (fe * f) (ob * f) (oe * f) true true full pm rm) /\ (full = false -> fb = fe)).
      { destruct (fe * f <=? fb * f) eqn:Q; [assert (fb = fe) by nia; exists false; split; [congruence|auto]|exists true; split; [reflexivity|discriminate]]. }
      destruct P as (full & -> & Hfull). eexists. split; [reflexivity|].
      constructor; cbn [p_left p_right p_full p_pmask p_rmask p_fvb p_fve p_ovb p_ove sec_range]; unfold nrm; fold f; rewrite ?Nd.
      * intros x os Hos En. rewrite Mp, Mr by exact Hos. rewrite En, Hx. specialize (Ho x). unfold in_iv. cbn [fst snd]. rewrite ?Nd.
        set (v := (x - nd_rofs d) / f). set (o := (x - nd_rofs d) mod f) in *. cbn [andb].
        assert (v < ob \/ v = ob \/ (fb <= v < fe) \/ v = fe \/ v > fe) as C by lia. unfold b2n.
        destruct C as [C|[C|[C|[C|C]]]].
        -- assert (f * v + o < eb) by nia. replace (eb <=? f * v + o) with false by lia. replace (fb <=? v) with false by lia. replace (ob <=? v) with false by lia. replace (fe <=? v) with false by lia. reflexivity.
        -- rewrite C. replace ((fb <=? ob) && (ob <? fe)) with false by lia. replace ((ob <=? ob) && (ob <? fb)) with true by lia. replace ((fe <=? ob) && (ob <? oe)) with false by lia. cbn [andb].
           replace (ob * f + o) with (f * ob + o) by lia. assert (f * ob + o < ee) by nia. replace (f * ob + o <? ee) with true by lia. rewrite andb_true_r. destruct (eb <=? f * ob + o); reflexivity.
        -- assert (eb <= f * v + o < ee) by nia. replace ((eb <=? f * v + o) && (f * v + o <? ee)) with true by lia. replace ((fb <=? v) && (v <? fe)) with true by lia.
           replace ((ob <=? v) && (v <? fb)) with false by lia. replace ((fe <=? v) && (v <? oe)) with false by lia. reflexivity.
        -- rewrite C. replace ((fb <=? fe) && (fe <? fe)) with false by lia. replace ((ob <=? fe) && (fe <? fb)) with false by lia. replace ((fe <=? fe) && (fe <? oe)) with true by lia. cbn [andb].
           replace (fe * f + o) with (f * fe + o) by lia. assert (eb <= f * fe + o) by nia. replace (eb <=? f * fe + o) with true by lia. cbn [andb]. destruct (f * fe + o <? ee); reflexivity.
        -- assert (f * v + o >= ee) by nia. replace (f * v + o <? ee) with false by lia. replace ((fb <=? v) && (v <? fe)) with false by lia. replace ((ob <=? v) && (v <? fb)) with false by lia.
           replace ((fe <=? v) && (v <? oe)) with false by lia. rewrite andb_false_r. reflexivity.
      * intros E v. specialize (Hfull E). unfold in_iv. cbn. lia.
      * intros [[|]|] _; cbn [sec_range]; unfold nrm; cbn [p_fvb p_fve p_ovb p_ove]; fold f; rewrite ?Nd; [apply R1; cbn; lia|apply R1; cbn; lia|].
        destruct (Z.eq_dec fb fe); [apply R0; cbn; lia|apply R1; cbn; lia].
      * intros E1. exfalso. nia.
  - (* left only *)
    assert (ee = fe * f) by nia. assert (fb = ob + 1) by nia. assert (oe = fe) by nia. assert (ob < fe) by nia.
    assert (P : exists full, (if fe * f <=? fb * f then Ok (mkVparts (fe * f) (fe * f) (ob * f) (oe * f) true false false pm rm) else Ok (mkVparts (fb * f) (fe * f) (ob * f) (oe * f) true false true pm rm))
               = Ok (mkVparts (fb * f) (fe * f) (ob * f) (oe * f) true false full pm rm) /\ (full = false -> fb = fe)).
    { destruct (fe * f <=? fb * f) eqn:Q; [assert (fb = fe) by nia; exists false; split; [congruence|auto]|exists true; split; [reflexivity|discriminate]]. }
    destruct P as (full & -> & Hfull). eexists. split; [reflexivity|].
    constructor; cbn [p_left p_right p_full p_pmask p_rmask p_fvb p_fve p_ovb p_ove sec_range]; unfold nrm; fold f; rewrite ?Nd.
    + intros x os Hos En. rewrite Mp by exact Hos. rewrite En, Hx. specialize (Ho x). unfold in_iv. cbn [fst snd]. rewrite ?Nd.
      set (v := (x - nd_rofs d) / f). set (o := (x - nd_rofs d) mod f) in *. cbn [andb].
      assert (v < ob \/ v = ob \/ (fb <= v < fe) \/ v >= fe) as C by lia. unfold b2n.
      destruct C as [C|[C|[C|C]]].
      * assert (f * v + o < eb) by nia. replace (eb <=? f * v + o) with false by lia. replace (fb <=? v) with false by lia. replace (ob <=? v) with false by lia. reflexivity.
      * rewrite C. replace ((fb <=? ob) && (ob <? fe)) with false by lia. replace ((ob <=? ob) && (ob <? fb)) with true by lia. cbn [andb].
        replace (ob * f + o) with (f * ob + o) by lia. assert (f * ob + o < ee) by nia. replace (f * ob + o <? ee) with true by lia. rewrite andb_true_r. destruct (eb <=? f * ob + o); reflexivity.
      * assert (eb <= f * v + o < ee) by nia. replace ((eb <=? f * v + o) && (f * v + o <? ee)) with true by lia. replace ((fb <=? v) && (v <? fe)) with true by lia.
        replace ((ob <=? v) && (v <? fb)) with false by lia. reflexivity.
      * assert (f * v + o >= ee) by nia. replace (f * v + o <? ee) with false by lia. replace ((fb <=? v) && (v <? fe)) with false by lia. replace ((ob <=? v) && (v <? fb)) with false by lia.
        rewrite andb_false_r. reflexivity.
    + intros E v. specialize (Hfull E). unfold in_iv. cbn. lia.
    + intros [[|]|] Hn; cbn in Hn; try discriminate; cbn [sec_range]; unfold nrm; cbn [p_fvb p_fve p_ovb p_ove]; fold f; rewrite ?Nd; [apply R1; cbn; lia|].
      destruct (Z.eq_dec fb fe); [apply R0; cbn; lia|apply R1; cbn; lia].
    + intros E1. exfalso. nia.
  - (* right only *)
    assert (eb = fb * f) by nia. assert (fb = ob) by nia. assert (oe = fe + 1) by nia.
    assert (P : exists full, (if fe * f <=? fb * f then Ok (mkVparts (fe * f) (fe * f) (ob * f) (oe * f) false true false pm rm) else Ok (mkVparts (fb * f) (fe * f) (ob * f) (oe * f) false true true pm rm))
               = Ok (mkVparts (fb * f) (fe * f) (ob * f) (oe * f) false true full pm rm) /\ (full = false -> fb = fe)).
    { destruct (fe * f <=? fb * f) eqn:Q; [assert (fb = fe) by nia; exists false; split; [congruence|auto]|exists true; split; [reflexivity|discriminate]]. }
    destruct P as (full & -> & Hfull). eexists. split; [reflexivity|].
    constructor; cbn [p_left p_right p_full p_pmask p_rmask p_fvb p_fve p_ovb p_ove sec_range]; unfold nrm; fold f; rewrite ?Nd.
    + intros x os Hos En. rewrite Mr by exact Hos. rewrite En, Hx. specialize (Ho x). unfold in_iv. cbn [fst snd]. rewrite ?Nd.
      set (v := (x - nd_rofs d) / f). set (o := (x - nd_rofs d) mod f) in *. cbn [andb].
      assert (v < ob \/ (fb <= v < fe) \/ v = fe \/ v > fe) as C by lia. unfold b2n.
      destruct C as [C|[C|[C|C]]].
      * assert (f * v + o < eb) by nia. replace (eb <=? f * v + o) with false by lia. replace (fb <=? v) with false by lia. replace (fe <=? v) with false by lia. reflexivity.
      * assert (eb <= f * v + o < ee) by nia. replace ((eb <=? f * v + o) && (f * v + o <? ee)) with true by lia. replace ((fb <=? v) && (v <? fe)) with true by lia.
        replace ((fe <=? v) && (v <? oe)) with false by lia. reflexivity.
      * rewrite C. replace ((fb <=? fe) && (fe <? fe)) with false by lia. replace ((fe <=? fe) && (fe <? oe)) with true by lia. cbn [andb].
        replace (fe * f + o) with (f * fe + o) by lia. assert (eb <= f * fe + o) by nia. replace (eb <=? f * fe + o) with true by lia. cbn [andb]. destruct (f * fe + o <? ee); reflexivity.
      * assert (f * v + o >= ee) by nia. replace (f * v + o <? ee) with false by lia. replace ((fb <=? v) && (v <? fe)) with false by lia.
        replace ((fe <=? v) && (v <? oe)) with false by lia. rewrite andb_false_r. reflexivity.
    + intros E v. specialize (Hfull E). unfold in_iv. cbn. lia.
    + intros [[|]|] Hn; cbn in Hn; try discriminate; cbn [sec_range]; unfold nrm; cbn [p_fvb p_fve p_ovb p_ove]; fold f; rewrite ?Nd; [apply R1; cbn; lia|].
      destruct (Z.eq_dec fb fe); [apply R0; cbn; lia|apply R1; cbn; lia].
    + intros E1. exfalso. nia.
  - (* aligned *)
    assert (eb = fb * f) by nia. assert (fb = ob) by nia. assert (ee = fe * f) by nia. assert (oe = fe) by nia.
    assert (P : exists full, (if fe * f <=? fb * f then Ok (mkVparts (fe * f) (fe * f) (ob * f) (oe * f) false false false 0 0) else Ok (mkVparts (fb * f) (fe * f) (ob * f) (oe * f) false false true 0 0))
               = Ok (mkVparts (fb * f) (fe * f) (ob * f) (oe * f) false false full 0 0) /\ (full = false -> fb = fe)).
    { destruct (fe * f <=? fb * f) eqn:Q; [assert (fb = fe) by nia; exists false; split; [congruence|auto]|exists true; split; [reflexivity|discriminate]]. }
    destruct P as (full & -> & Hfull). eexists. split; [reflexivity|].
    constructor; cbn [p_left p_right p_full p_pmask p_rmask p_fvb p_fve p_ovb p_ove sec_range]; unfold nrm; fold f; rewrite ?Nd.
    + intros x os Hos En. rewrite Hx. specialize (Ho x). unfold in_iv. cbn [fst snd]. rewrite ?Nd.
      set (v := (x - nd_rofs d) / f). set (o := (x - nd_rofs d) mod f) in *. cbn [andb].
      assert (v < ob \/ (fb <= v < fe) \/ v >= fe) as C by lia. unfold b2n.
      destruct C as [C|[C|C]].
      * assert (f * v + o < eb) by nia. replace (eb <=? f * v + o) with false by lia. replace (fb <=? v) with false by lia. reflexivity.
      * assert (eb <= f * v + o < ee) by nia. replace ((eb <=? f * v + o) && (f * v + o <? ee)) with true by lia. replace ((fb <=? v) && (v <? fe)) with true by lia. reflexivity.
      * assert (f * v + o >= ee) by nia. replace (f * v + o <? ee) with false by lia. replace ((fb <=? v) && (v <? fe)) with false by lia. rewrite andb_false_r. reflexivity.
    + intros E v. specialize (Hfull E). unfold in_iv. cbn. lia.
    + intros [[|]|] Hn; cbn in Hn; try discriminate; cbn [sec_range]; unfold nrm; cbn [p_fvb p_fve p_ovb p_ove]; fold f; rewrite ?Nd.
      destruct (Z.eq_dec fb fe); [apply R0; cbn; lia|apply R1; cbn; lia].
    + auto.
Qed.
