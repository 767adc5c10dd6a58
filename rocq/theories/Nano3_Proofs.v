From Coq Require Import ZifyBool Permutation.
From Verif Require Import Base Cover_Spec Cover_Proofs MixedRadix Idiv_Model Idiv_Proofs Tuple_Model Tuple_Proofs Combo_Model Combo_Spec Combo_Proofs
  Loops_Model Loops_Spec LoopsRun_Proofs LoopsTop_Proofs Nano_Model Nano_Spec Nano_Proofs Nano2_Proofs.

(* ---------- the selections made by the bits of two masks ---------- *)
Fixpoint sel (c lr : Z) (n : nat) : list (option bool) :=
  match n with
  | O => []
  | S n' => if Z.odd c then Some (Z.odd lr) :: sel (Z.div2 c) (Z.div2 lr) n' else None :: sel (Z.div2 c) lr n'
  end.

Fixpoint part_ranges (ds : list ndim) (ps : list vparts) (ss : list (option bool)) : list (Z * Z) :=
  match ds, ps, ss with d :: ds', p :: ps', s :: ss' => sec_range d p s :: part_ranges ds' ps' ss' | _, _, _ => [] end.
Fixpoint part_need (ps : list vparts) (ss : list (option bool)) : bool :=
  match ps, ss with p :: ps', s :: ss' => sec_need p s && part_need ps' ss' | _, _ => true end.
Fixpoint part_mask (ps : list vparts) (ss : list (option bool)) : Z :=
  match ps, ss with p :: ps', s :: ss' => Z.land (sec_mask p s) (part_mask ps' ss') | _, _ => -1 end.

Lemma shiftr_div2 : forall c j, 0 <= j -> Z.div2 (Z.shiftr c j) = Z.shiftr c (j + 1).
Proof. intros. rewrite Z.div2_spec, Z.shiftr_shiftr by lia. reflexivity. Qed.
Lemma odd_shiftr : forall c j, 0 <= j -> Z.odd (Z.shiftr c j) = Z.testbit c j.
Proof. intros. rewrite <- Z.bit0_odd, Z.shiftr_spec by lia. f_equal. Qed.

Lemma part_sel : forall ds ps cdims lr j nsel, length ps = length ds -> 0 <= j -> 0 <= nsel ->
  let ss := sel (Z.shiftr cdims j) (Z.shiftr lr nsel) (length ds) in
  part_of cdims lr j nsel ds ps = (part_ranges ds ps ss, part_mask ps ss, part_need ps ss).
Proof.
  induction ds as [|d ds IH]; intros [|p ps] cdims lr j nsel L Hj Hn; try discriminate; [reflexivity|]. cbn [length sel part_of].
  unfold is_bit_set. rewrite !odd_shiftr by assumption. rewrite !shiftr_div2 by assumption. injection L as L.
  destruct (Z.testbit cdims j).
  - rewrite (IH ps cdims lr (j + 1) (nsel + 1) L) by lia. cbn [part_ranges part_mask part_need]. destruct (Z.testbit lr nsel); reflexivity.
  - rewrite (IH ps cdims lr (j + 1) nsel L) by lia. cbn [part_ranges part_mask part_need sec_need sec_mask andb]. rewrite Z.land_m1_l. reflexivity.
Qed.

(* ---------- sums over masks ---------- *)
Definition nsum {A} (f : A -> nat) (l : list A) : nat := list_sum (map f l).
Lemma nsum_app : forall A (f : A -> nat) a b, nsum f (a ++ b) = (nsum f a + nsum f b)%nat.
Proof. intros. unfold nsum. rewrite map_app, list_sum_app. reflexivity. Qed.
Lemma nsum_ext : forall A (f g : A -> nat) l, (forall a, In a l -> f a = g a) -> nsum f l = nsum g l.
Proof. intros. apply list_sum_ext. assumption. Qed.
Lemma nsum_scale : forall A (f : A -> nat) n l, nsum (fun a => (n * f a)%nat) l = (n * nsum f l)%nat.
Proof. intros. unfold nsum. rewrite (list_sum_ext _ _ (fun a => (f a * n)%nat)) by (intros; lia). rewrite list_sum_scale. lia. Qed.
Lemma nsum_perm : forall A (f : A -> nat) a b, Permutation a b -> nsum f a = nsum f b.
Proof. intros A f a b P. unfold nsum, list_sum. induction P; cbn; lia. Qed.

Lemma nsum_double : forall (f : Z -> nat) m, 0 <= m -> nsum f (zseq (2 * m)) = (nsum (fun x => f (2 * x)%Z) (zseq m) + nsum (fun x => f (2 * x + 1)%Z) (zseq m))%nat.
Proof.
  intros f m Hm. pattern m. apply natlike_ind; [reflexivity| |exact Hm]. intros x Hx IH. unfold Z.succ. replace (2 * (x + 1)) with (2 * x + 1 + 1) by lia.
  rewrite !zseq_succ by lia. rewrite !nsum_app, IH. unfold nsum. cbn. lia.
Qed.

(* per dim: the number of hits in the full section, the left one and the right one *)
Definition pick (g : nat * nat * nat) (s : option bool) : nat := match s with None => fst (fst g) | Some false => snd (fst g) | Some true => snd g end.
Fixpoint pprod (gs : list (nat * nat * nat)) (ss : list (option bool)) : nat :=
  match gs, ss with g :: gs', s :: ss' => (pick g s * pprod gs' ss')%nat | _, _ => 1%nat end.
Fixpoint pop (n : nat) (c : Z) : Z := match n with O => 0 | S n' => Z.b2z (Z.odd c) + pop n' (Z.div2 c) end.
Fixpoint mprod (c : Z) (gs : list (nat * nat * nat)) : nat :=
  match gs with [] => 1%nat | g :: gs' => ((if Z.odd c then snd (fst g) + snd g else fst (fst g)) * mprod (Z.div2 c) gs')%nat end.
Fixpoint gprod (gs : list (nat * nat * nat)) : nat :=
  match gs with [] => 1%nat | g :: gs' => ((fst (fst g) + snd (fst g) + snd g) * gprod gs')%nat end.

Lemma pop_nonneg : forall n c, 0 <= pop n c.
Proof. induction n; intros; cbn; [lia|]. specialize (IHn (Z.div2 c)). destruct (Z.odd c); cbn; lia. Qed.
Lemma odd_2x : forall x, Z.odd (2 * x) = false.
Proof. intros. rewrite Z.odd_mul. reflexivity. Qed.
Lemma odd_2x1 : forall x, Z.odd (2 * x + 1) = true.
Proof. intros. rewrite Z.odd_add, Z.odd_mul. reflexivity. Qed.
Lemma div2_2x : forall x, Z.div2 (2 * x) = x.
Proof. intros. rewrite Z.div2_div. replace (2 * x) with (x * 2) by lia. apply Z.div_mul. lia. Qed.
Lemma div2_2x1 : forall x, Z.div2 (2 * x + 1) = x.
Proof. intros. rewrite Z.div2_div. replace (2 * x + 1) with (1 + x * 2) by lia. rewrite Z.div_add by lia. reflexivity. Qed.

Lemma sum_lr : forall gs c, nsum (fun lr => pprod gs (sel c lr (length gs))) (zseq (2 ^ pop (length gs) c)) = mprod c gs.
Proof.
  induction gs as [|g gs IH]; intros c; [reflexivity|]. cbn [length pop sel mprod].
  pose proof (pop_nonneg (length gs) (Z.div2 c)). destruct (Z.odd c).
  - cbn [Z.b2z]. rewrite Z.pow_add_r, Z.pow_1_r by lia. rewrite nsum_double by (apply Z.pow_nonneg; lia).
    rewrite (nsum_ext _ _ (fun x => (snd (fst g) * pprod gs (sel (Z.div2 c) x (length gs)))%nat)) by (intros; rewrite odd_2x, div2_2x; reflexivity).
    rewrite (nsum_ext _ (fun x => pprod _ (Some (Z.odd (2 * x + 1)) :: _)) (fun x => (snd g * pprod gs (sel (Z.div2 c) x (length gs)))%nat)) by (intros; rewrite odd_2x1, div2_2x1; reflexivity).
    rewrite !nsum_scale, IH. lia.
  - cbn [Z.b2z]. rewrite Z.add_0_l. cbn [pprod pick]. rewrite nsum_scale, IH. reflexivity.
Qed.

Lemma sum_masks : forall gs, nsum (fun c => mprod c gs) (zseq (2 ^ Z.of_nat (length gs))) = gprod gs.
Proof.
  induction gs as [|g gs IH]; [reflexivity|]. cbn [length mprod gprod]. rewrite Nat2Z.inj_succ, Z.pow_succ_r by lia. rewrite nsum_double by (apply Z.pow_nonneg; lia).
  rewrite (nsum_ext _ _ (fun x => (fst (fst g) * mprod x gs)%nat)) by (intros; rewrite odd_2x, div2_2x; reflexivity).
  rewrite (nsum_ext _ (fun x => ((if Z.odd (2 * x + 1) then _ else _) * _)%nat) (fun x => ((snd (fst g) + snd g) * mprod x gs)%nat)) by (intros; rewrite odd_2x1, div2_2x1; reflexivity).
  rewrite !nsum_scale, IH. lia.
Qed.

Lemma mprod_0 : forall gs, mprod 0 gs = pprod gs (repeat None (length gs)).
Proof. induction gs as [|g gs IH]; [reflexivity|]. cbn [mprod pprod length repeat pick]. change (Z.odd 0) with false. change (Z.div2 0) with 0. cbn iota. rewrite IH. reflexivity. Qed.

(* ---------- all masks of up to 8 bits ---------- *)
Definition kmasks (n k : nat) : list Z := map mask_of (combos 0 n k).
Definition all_masks (n : nat) : list Z := flat_map (kmasks n) (seq 1 n).
Fixpoint nodupb (l : list Z) : bool := match l with [] => true | x :: r => negb (existsb (Z.eqb x) r) && nodupb r end.
Lemma nodupb_ok : forall l, nodupb l = true -> NoDup l.
Proof.
  induction l as [|x l IH]; intros H; constructor; cbn in H; apply andb_prop in H as (A & B); [|auto]. intros I. apply negb_true_iff in A.
  assert (existsb (Z.eqb x) l = true); [|congruence]. apply existsb_exists. exists x. split; [exact I|apply Z.eqb_refl].
Qed.
Definition check_masks (n : nat) : bool :=
  let l := 0 :: all_masks n in
  nodupb l && forallb (fun c => (0 <=? c) && (c <? 2 ^ Z.of_nat n)) l && Nat.eqb (length l) (Nat.pow 2 n) &&
  forallb (fun k => forallb (fun c => pop n c =? Z.of_nat k) (kmasks n k)) (seq 1 n).
Lemma checked : forall n, (1 <= n <= 8)%nat -> check_masks n = true.
Proof.
  intros n H. destruct n as [|[|[|[|[|[|[|[|[|n]]]]]]]]]; try (exfalso; lia); vm_compute; reflexivity.
Qed.
Lemma masks_perm : forall n, (1 <= n <= 8)%nat ->
  Permutation (0 :: all_masks n) (zseq (2 ^ Z.of_nat n)) /\ forall k, In k (seq 1 n) -> forall c, In c (kmasks n k) -> pop n c = Z.of_nat k.
Proof.
  intros n H. pose proof (checked n H) as C. unfold check_masks in C. apply andb_prop in C as (C & D). apply andb_prop in C as (C & C3). apply andb_prop in C as (C1 & C2). split.
  - apply NoDup_Permutation_bis; [apply nodupb_ok; exact C1| |].
    + apply Nat.eqb_eq in C3. rewrite C3. unfold zseq. rewrite map_length, seq_length. rewrite <- (Nat2Z.id (2 ^ n)), Nat2Z.inj_pow. change (Z.of_nat 2) with 2. lia.
    + intros c I. rewrite forallb_forall in C2. specialize (C2 c I). apply zseq_In. lia.
  - intros k Ik c Ic. rewrite forallb_forall in D. specialize (D k Ik). rewrite forallb_forall in D. specialize (D c Ic). lia.
Qed.

(* ---------- the parts of one point ---------- *)
Fixpoint facts (fi : bool) (folds : list Z) (j : nat) (ds : list ndim) (ps : list vparts) : Prop :=
  match ds, ps with
  | [], [] => True
  | d :: ds', p :: ps' => part_fact fi folds j d p /\ facts fi folds (S j) ds' ps'
  | _, _ => False
  end.
Lemma all_parts_ok : forall fi folds, Forall (fun s => 0 < s) folds -> zprod folds <= 63 -> forall ds j, Forall dim_ok ds ->
  exists ps, all_parts fi folds j ds = Ok ps /\ length ps = length ds /\ facts fi folds j ds ps.
Proof.
  intros fi folds Hf H63. induction ds as [|d ds IH]; intros j H; [exists []; repeat split|]. inversion H; subst.
  destruct (dim_parts_ok fi folds j d Hf H63 H2) as (p & E & F). destruct (IH (S j) H3) as (ps & E2 & L & F2).
  exists (p :: ps). cbn [all_parts]. rewrite E. cbn [rbind]. rewrite E2. cbn. split; [reflexivity|]. split; [lia|]. split; [exact F|exact F2].
Qed.

Fixpoint gvec (L : Z) (ds : list ndim) (ps : list vparts) (v : list Z) : list (nat * nat * nat) :=
  match ds, ps, v with
  | d :: ds', p :: ps', x :: v' =>
      (b2n (in_iv (sec_range d p None) x), b2n (p_left p && in_iv (sec_range d p (Some false)) x && Z.testbit (p_pmask p) L),
       b2n (p_right p && in_iv (sec_range d p (Some true)) x && Z.testbit (p_rmask p) L)) :: gvec L ds' ps' v'
  | _, _, _ => []
  end.
Lemma gvec_length : forall L ds ps v, length ps = length ds -> length v = length ds -> length (gvec L ds ps v) = length ds.
Proof. induction ds as [|d ds IH]; intros [|p ps] [|x v] H1 H2; try discriminate; [reflexivity|]. cbn. f_equal. apply IH; cbn in *; lia. Qed.

Lemma part_prod : forall L ds ps v ss, 0 <= L -> length ps = length ds -> length v = length ds -> length ss = length ds ->
  b2n (part_need ps ss && (in_box (part_ranges ds ps ss) v && Z.testbit (part_mask ps ss) L)) = pprod (gvec L ds ps v) ss.
Proof.
  induction ds as [|d ds IH]; intros [|p ps] [|x v] [|s ss] HL H1 H2 H3; try discriminate.
  - cbn. rewrite Z.bits_m1 by exact HL. reflexivity.
  - cbn [part_need part_ranges part_mask gvec pprod in_box]. rewrite <- (IH ps v ss HL) by (cbn in *; lia). rewrite Z.land_spec.
    destruct s as [[|]|]; cbn [pick fst snd sec_need sec_mask].
    1,2: destruct (part_need ps ss), (in_box _ v), (Z.testbit (part_mask ps ss) L), (in_iv _ x), (Z.testbit (_ p) L); destruct (p_left p), (p_right p); reflexivity.
    rewrite Z.bits_m1 by exact HL. destruct (part_need ps ss), (in_box _ v), (Z.testbit (part_mask ps ss) L), (in_iv _ x); reflexivity.
Qed.

Lemma in_box_len : forall (bx : list (Z * Z)) p, length p <> length bx -> in_box bx p = false.
Proof. induction bx as [|b bx IH]; intros [|x p] H; try reflexivity; [cbn in *; congruence|]. cbn. rewrite IH by (cbn in H; lia). apply andb_false_r. Qed.

Lemma sum_dims : forall fi folds L os, in_sizes folds os -> L = lane fi folds os -> forall ds ps j xs, facts fi folds j ds ps -> length xs = length ds ->
  skipn j os = offs_of (map nd_rofs ds) (map nd_fold ds) xs ->
  gprod (gvec L ds ps (vec_of (map nd_rofs ds) (map nd_fold ds) xs)) = b2n (in_box (map (fun d => (nd_begin d, nd_end d)) ds) xs).
Proof.
  intros fi folds L os Hin HL. induction ds as [|d ds IH]; intros [|p ps] j [|x xs] F Lx SK; try discriminate; try contradiction; [reflexivity|].
  destruct F as (F & Fs). cbn [map vec_of gvec gprod in_box fst snd offs_of] in *. 
  assert (Nj : nth j os 0 = (x - nd_rofs d) mod nd_fold d /\ skipn (S j) os = offs_of (map nd_rofs ds) (map nd_fold ds) xs).
  { clear -SK. revert j SK. induction os as [|o os IH]; intros [|j] SK; cbn in *; try discriminate; [injection SK as -> ->; split; reflexivity|]. apply IH. exact SK. }
  destruct Nj as (Nj & Sj). rewrite (IH ps (Datatypes.S j) xs Fs) by (try assumption; cbn in Lx; lia).
  rewrite HL. rewrite (pf_sum _ _ _ _ _ F x os Hin Nj). destruct (in_iv _ x), (in_box _ xs); reflexivity.
Qed.

Lemma offs_in : forall rofs folds p, Forall (fun s => 0 < s) folds -> length rofs = length folds -> length p = length folds -> in_sizes folds (offs_of rofs folds p).
Proof.
  induction rofs as [|r rofs IH]; intros [|f folds] [|x p] H L1 L2; try discriminate; [constructor|]. inversion H; subst. constructor; [apply Z.mod_pos_bound; assumption|]. apply IH; cbn in *; auto.
Qed.
Lemma lane_nonneg : forall fi folds os, Forall (fun s => 0 < s) folds -> in_sizes folds os -> 0 <= lane fi folds os.
Proof. intros. rewrite lane_layout. apply layout_bound; assumption. Qed.
Lemma vec_of_length : forall rofs folds p, length rofs = length folds -> length p = length folds -> length (vec_of rofs folds p) = length folds.
Proof. induction rofs as [|r rofs IH]; intros [|f folds] [|x p] H1 H2; try discriminate; [reflexivity|]. cbn. f_equal. apply IH; cbn in *; lia. Qed.

Lemma part_ranges_length : forall ds ps ss, length ps = length ds -> length ss = length ds -> length (part_ranges ds ps ss) = length ds.
Proof. induction ds as [|d ds IH]; intros [|p ps] [|s ss] H1 H2; try discriminate; [reflexivity|]. cbn. f_equal. apply IH; cbn in *; lia. Qed.
Lemma part_ranges_ok : forall fi folds ds j ps ss, facts fi folds j ds ps -> length ss = length ds -> part_need ps ss = true ->
  Forall2 range_ok (map norm_stride ds) (part_ranges ds ps ss).
Proof.
  induction ds as [|d ds IH]; intros j [|p ps] [|s ss] F L N; try discriminate; try contradiction; [constructor|]. destruct F as (F & Fs). cbn [part_need] in N. apply andb_prop in N as (N1 & N2).
  cbn. constructor; [apply (pf_range _ _ _ _ _ F); exact N1|]. apply (IH (S j)); [exact Fs|cbn in L; lia|exact N2].
Qed.
Lemma sel_length : forall n c lr, length (sel c lr n) = n.
Proof. induction n; intros; [reflexivity|]. cbn. destruct (Z.odd c); cbn; f_equal; auto. Qed.

(* one part: evaluated or left out *)
Lemma one_part : forall fi inner ds ps ss, Forall dim_ok ds -> (inner < length ds)%nat -> facts fi (map nd_fold ds) 0 ds ps -> length ps = length ds -> length ss = length ds ->
  exists out, (if part_need ps ss then calc_vectors inner (map norm_stride ds) (part_ranges ds ps ss) (part_mask ps ss) else Ok []) = Ok out /\
    forall p, length p = length ds -> let rofs := map nd_rofs ds in let folds := map nd_fold ds in
      hits (writes fi rofs folds) out p = pprod (gvec (lane fi folds (offs_of rofs folds p)) ds ps (vec_of rofs folds p)) ss.
Proof.
  intros fi inner ds ps ss HD Hi F L1 L2.
  assert (Hf : Forall (fun s => 0 < s) (map nd_fold ds)).
  { apply Forall_forall. intros f I. apply in_map_iff in I as (d & <- & I). rewrite Forall_forall in HD. destruct (HD d I). lia. }
  assert (HP : forall p, length p = length ds -> b2n (part_need ps ss && (in_box (part_ranges ds ps ss) (vec_of (map nd_rofs ds) (map nd_fold ds) p) &&
     Z.testbit (part_mask ps ss) (lane fi (map nd_fold ds) (offs_of (map nd_rofs ds) (map nd_fold ds) p)))) =
     pprod (gvec (lane fi (map nd_fold ds) (offs_of (map nd_rofs ds) (map nd_fold ds) p)) ds ps (vec_of (map nd_rofs ds) (map nd_fold ds) p)) ss).
  { intros p Lp. apply part_prod; [|exact L1|rewrite vec_of_length; rewrite !map_length; lia|exact L2].
    apply lane_nonneg; [exact Hf|]. apply offs_in; [exact Hf|rewrite !map_length; reflexivity|rewrite map_length; exact Lp]. }
  destruct (part_need ps ss) eqn:N.
  - destruct (vectors_cover inner (map norm_stride ds) (part_ranges ds ps ss) (part_mask ps ss)) as (out & E & H).
    + rewrite map_length, part_ranges_length; auto.
    + rewrite part_ranges_length; auto.
    + apply Forall_forall. intros s I. apply in_map_iff in I as (d & <- & I). rewrite Forall_forall in HD. apply stride_pos, HD, I.
    + apply (part_ranges_ok fi (map nd_fold ds) ds 0); assumption.
    + exists out. split; [exact E|]. intros p Lp rofs folds. rewrite H by (unfold folds; rewrite map_length; exact Lp). rewrite <- HP by exact Lp. reflexivity.
  - exists []. split; [reflexivity|]. intros p Lp rofs folds. subst rofs folds. rewrite <- HP by exact Lp. reflexivity.
Qed.

(* ---------- all parts ---------- *)
Lemma rconcat_bind_ex : forall A B X (f : A -> res (list B)) (w : B -> X -> bool) (g : A -> X -> nat) (D : X -> Prop) l,
  (forall a, In a l -> exists o, f a = Ok o /\ forall x, D x -> hits w o x = g a x) ->
  exists o, rconcat (map f l) = Ok o /\ forall x, D x -> hits w o x = nsum (fun a => g a x) l.
Proof.
  intros A B X f w g D. induction l as [|a l IH]; intros H; [exists []; split; reflexivity|].
  destruct (H a (or_introl eq_refl)) as (o & E & Ho). destruct IH as (o2 & E2 & Ho2); [intros b Hb; apply H; right; exact Hb|].
  exists (o ++ o2). split.
  - cbn. rewrite E. cbn [rbind]. unfold rconcat in E2. rewrite E2. reflexivity.
  - intros x Dx. rewrite hits_app, Ho, Ho2 by exact Dx. reflexivity.
Qed.

Lemma zseq_nth : forall X (f : Z -> X) (g : list X) n, Z.of_nat (length g) = n -> (forall i, (i < length g)%nat -> nth_error g i = Some (f (Z.of_nat i))) -> map f (zseq n) = g.
Proof.
  intros X f g n <- H. unfold zseq. rewrite Nat2Z.id, map_map.
  assert (G : forall a, (forall i, (i < length g)%nat -> nth_error g i = Some (f (Z.of_nat (a + i)))) -> map (fun i => f (Z.of_nat i)) (seq a (length g)) = g).
  { clear. induction g as [|y g IH]; intros a H; [reflexivity|]. cbn. f_equal.
    - specialize (H 0%nat ltac:(cbn; lia)). cbn in H. rewrite Nat.add_0_r in H. congruence.
    - apply IH. intros i Hi. specialize (H (S i) ltac:(cbn; lia)). cbn in H. replace (S a + i)%nat with (a + S i)%nat by lia. exact H. }
  apply G. exact H.
Qed.

Lemma sets_list : forall fuel n k, (n <= 8)%nat -> (k <= n)%nat -> (n <= fuel)%nat ->
  n_choose_k (Z.of_nat n) (Z.of_nat k) = Ok (zb (Z.of_nat n) (Z.of_nat k)) /\
  map (n_choose_k_set fuel (Z.of_nat n) (Z.of_nat k)) (zseq (zb (Z.of_nat n) (Z.of_nat k))) = map (@Ok Z) (kmasks n k).
Proof.
  intros fuel n k Hn Hk Hf. split; [apply n_choose_k_spec; [lia|lia|apply fits_small; lia]|].
  assert (Lc : Z.of_nat (length (combos 0 n k)) = zb (Z.of_nat n) (Z.of_nat k)) by (rewrite combos_length; unfold zb; rewrite !Nat2Z.id; reflexivity).
  apply zseq_nth; [unfold kmasks; rewrite !map_length; exact Lc|]. intros i Hi. unfold kmasks in *. rewrite !map_length in Hi.
  destruct (set_unrank fuel (Z.of_nat n) (Z.of_nat k) (Z.of_nat i)) as (l & E1 & E2); [lia|lia|lia|lia|]. rewrite !Nat2Z.id in E1.
  rewrite E2, !nth_error_map, E1. reflexivity.
Qed.

Lemma border_cover : forall fuel fi inner ds ps, Forall dim_ok ds -> (inner < length ds)%nat -> (length ds <= 8)%nat -> (length ds <= fuel)%nat ->
  facts fi (map nd_fold ds) 0 ds ps -> length ps = length ds ->
  exists out, border_parts fuel inner ds ps = Ok out /\
    forall p, length p = length ds -> let rofs := map nd_rofs ds in let folds := map nd_fold ds in
      let gs := gvec (lane fi folds (offs_of rofs folds p)) ds ps (vec_of rofs folds p) in
      hits (writes fi rofs folds) out p = nsum (fun c => mprod c gs) (all_masks (length ds)).
Proof.
  intros fuel fi inner ds ps HD Hi H8 Hf F L. unfold border_parts.
  destruct (masks_perm (length ds) ltac:(lia)) as (_ & Hpop).
  set (n := length ds) in *. cbv zeta.
  set (GS := fun p => gvec (lane fi (map nd_fold ds) (offs_of (map nd_rofs ds) (map nd_fold ds) p)) ds ps (vec_of (map nd_rofs ds) (map nd_fold ds) p)).
  assert (LG : forall p, length p = n -> length (GS p) = n).
  { intros p Lp. apply gvec_length; [exact L|]. rewrite vec_of_length; rewrite !map_length; [reflexivity|reflexivity|exact Lp]. }
  set (P1 := fun c lr => let '(rs, m, ok) := part_of c lr 0 0 ds ps in if ok then calc_vectors inner (map norm_stride ds) rs m else Ok []).
  assert (K : forall k, In k (seq 1 n) -> exists o,
    rbind (n_choose_k (Z.of_nat n) (Z.of_nat k)) (fun nc => rconcat (map (fun r => rbind (n_choose_k_set fuel (Z.of_nat n) (Z.of_nat k) r) (fun c => rconcat (map (P1 c) (zseq (Z.shiftl 1 (Z.of_nat k)))))) (zseq nc))) = Ok o /\
    forall p, length p = n -> hits (writes fi (map nd_rofs ds) (map nd_fold ds)) o p = nsum (fun c => mprod c (GS p)) (kmasks n k)).
  { intros k Ik. pose proof Ik as Ik'. apply in_seq in Ik'. destruct (sets_list fuel n k) as (E1 & E2); [lia|lia|lia|]. rewrite E1. cbn [rbind].
    rewrite <- (map_map (n_choose_k_set fuel (Z.of_nat n) (Z.of_nat k)) (fun x => rbind x (fun c => rconcat (map (P1 c) (zseq (Z.shiftl 1 (Z.of_nat k))))))). rewrite E2, map_map. cbn [rbind].
    apply (rconcat_bind_ex _ _ _ (fun c => rconcat (map (P1 c) (zseq (Z.shiftl 1 (Z.of_nat k))))) _ (fun c p => mprod c (GS p)) (fun p => length p = n)).
    intros c Ic. specialize (Hpop k Ik c Ic).
    destruct (rconcat_bind_ex _ _ _ (P1 c) (writes fi (map nd_rofs ds) (map nd_fold ds)) (fun lr p => pprod (GS p) (sel c lr n)) (fun p => length p = n) (zseq (Z.shiftl 1 (Z.of_nat k)))) as (o & E & H).
    { intros lr _. unfold P1. rewrite part_sel by (try assumption; lia). rewrite !Z.shiftr_0_r. apply (one_part fi inner ds ps (sel c lr n)); try assumption. apply sel_length. }
    exists o. split; [exact E|]. intros p Lp. rewrite H by exact Lp. rewrite <- (sum_lr (GS p) c), (LG p Lp), Hpop. rewrite Z.shiftl_1_l. reflexivity. }
  assert (ZR : zrange 1 (Z.of_nat n + 1) = map Z.of_nat (seq 1 n)).
  { unfold zrange, zseq. rewrite map_map. replace (Z.to_nat (Z.of_nat n + 1 - 1)) with n by lia. rewrite <- seq_shift, map_map. apply map_ext. intros. lia. }
  rewrite ZR, map_map.
  destruct (rconcat_bind_ex _ _ _ _ _ (fun k p => nsum (fun c => mprod c (GS p)) (kmasks n k)) (fun p => length p = n) _ K) as (o & E & H).
  exists o. split; [exact E|]. intros p Lp. rewrite H by exact Lp. unfold all_masks. fold (GS p). clear. induction (seq 1 n) as [|k l IH]; [reflexivity|].
  cbn [flat_map]. rewrite nsum_app, <- IH. reflexivity.
Qed.

Lemma zprod_one : forall l, Forall (fun s => 0 < s) l -> zprod l = 1 -> Forall (fun s => s = 1) l.
Proof.
  induction l as [|x l IH]; intros H E; constructor; inversion H; subst; cbn in E; pose proof (zprod_pos l H3); [nia|]. apply IH; [assumption|nia].
Qed.

Lemma facts_In : forall fi folds ds j ps p, facts fi folds j ds ps -> In p ps -> exists d i, In d ds /\ part_fact fi folds i d p.
Proof.
  induction ds as [|d ds IH]; intros j [|q ps] p F I; cbn in F; try contradiction. destruct F as (F & Fs). destruct I as [<-|I]; [exists d, j; split; [left; reflexivity|exact F]|].
  destruct (IH (S j) ps p Fs I) as (d' & i & A & B). exists d', i. split; [right; exact A|exact B].
Qed.

(* no partial vectors: only the full part counts *)
Lemma no_borders : forall L ds ps v, length ps = length ds -> length v = length ds -> existsb (fun p => p_left p || p_right p) ps = false ->
  gprod (gvec L ds ps v) = pprod (gvec L ds ps v) (repeat None (length ds)).
Proof.
  induction ds as [|d ds IH]; intros [|p ps] [|x v] H1 H2 H; try discriminate; [reflexivity|]. cbn [existsb] in H. apply orb_false_iff in H as (A & B). apply orb_false_iff in A as (A1 & A2).
  cbn [gvec gprod pprod length repeat pick fst snd]. rewrite A1, A2. cbn [andb b2n]. rewrite (IH ps v) by (cbn in *; auto; lia). lia.
Qed.

(* a dim without full vectors: the full part is empty *)
Lemma full_zero : forall fi folds L ds j ps v, facts fi folds j ds ps -> length v = length ds -> forallb p_full ps = false ->
  pprod (gvec L ds ps v) (repeat None (length ds)) = 0%nat.
Proof.
  induction ds as [|d ds IH]; intros j [|p ps] [|x v] F Lv H; cbn in F; try contradiction; try discriminate. destruct F as (F & Fs). cbn [forallb] in H.
  cbn [gvec pprod length repeat pick fst snd]. apply andb_false_iff in H as [H|H]; [rewrite (pf_full _ _ _ _ _ F H x); reflexivity|].
  rewrite (IH (S j) ps v Fs) by (cbn in Lv; auto; lia). lia.
Qed.

Lemma full_ranges : forall ds ps, length ps = length ds ->
  map (fun x => (idiv_flr (p_fvb (snd x)) (nd_fold (fst x)), idiv_flr (p_fve (snd x)) (nd_fold (fst x)))) (combine ds ps) = part_ranges ds ps (repeat None (length ds)).
Proof. induction ds as [|d ds IH]; intros [|p ps] L; try discriminate; [reflexivity|]. cbn. f_equal. apply IH. cbn in L. lia. Qed.
Lemma none_need : forall ps n, part_need ps (repeat None n) = true.
Proof. induction ps as [|p ps IH]; intros [|n]; try reflexivity. cbn. apply IH. Qed.
Lemma none_mask : forall ps n, part_mask ps (repeat None n) = -1.
Proof. induction ps as [|p ps IH]; intros [|n]; try reflexivity. cbn [repeat part_mask]. rewrite IH. reflexivity. Qed.

Theorem nano_block_cover : forall fuel fi inner ds, Forall dim_ok ds -> zprod (map nd_fold ds) <= 63 ->
  (inner < length ds)%nat -> (length ds <= 8)%nat -> (length ds <= fuel)%nat ->
  exists out, calc_nano_block_opt fuel fi inner ds = Ok out /\
    exact_cover (writes fi (map nd_rofs ds) (map nd_fold ds)) out (in_box (map (fun d => (nd_begin d, nd_end d)) ds)).
Proof.
  intros fuel fi inner ds HD H63 Hi H8 Hf. unfold calc_nano_block_opt.
  assert (HF : Forall (fun s => 0 < s) (map nd_fold ds)).
  { apply Forall_forall. intros f I. apply in_map_iff in I as (d & <- & I). rewrite Forall_forall in HD. destruct (HD d I). lia. }
  destruct (all_parts_ok fi _ HF H63 ds 0%nat HD) as (ps & -> & L & F). cbn [rbind].
  set (folds := map nd_fold ds) in *. set (rofs := map nd_rofs ds).
  set (GS := fun p => gvec (lane fi folds (offs_of rofs folds p)) ds ps (vec_of rofs folds p)).
  assert (Lr : length rofs = length folds) by (unfold rofs, folds; rewrite !map_length; reflexivity).
  assert (Lf : length folds = length ds) by (unfold folds; apply map_length).
  assert (LV : forall p, length p = length ds -> length (vec_of rofs folds p) = length ds) by (intros p Lp; rewrite vec_of_length; lia).
  assert (LG : forall p, length p = length ds -> length (GS p) = length ds) by (intros p Lp; apply gvec_length; auto).
  assert (TOT : forall p, length p = length ds -> gprod (GS p) = b2n (in_box (map (fun d => (nd_begin d, nd_end d)) ds) p)).
  { intros p Lp. unfold GS. eapply (sum_dims fi folds _ (offs_of rofs folds p)); [apply offs_in; [exact HF|exact Lr|lia]|reflexivity|exact F|exact Lp|reflexivity]. }
  assert (SHORT : forall out p, length p <> length ds -> hits (writes fi rofs folds) out p = 0%nat).
  { intros out p Lp. induction out as [|c out IH]; [reflexivity|]. rewrite hits_cons, IH. unfold writes. rewrite Lf. apply Nat.eqb_neq in Lp. rewrite Lp. reflexivity. }
  (* the full part *)
  assert (FULL : exists fo, (if forallb p_full ps then calc_vectors inner (map norm_stride ds)
      (map (fun x => (idiv_flr (p_fvb (snd x)) (nd_fold (fst x)), idiv_flr (p_fve (snd x)) (nd_fold (fst x)))) (combine ds ps)) (-1) else Ok []) = Ok fo /\
      forall p, length p = length ds -> hits (writes fi rofs folds) fo p = pprod (GS p) (repeat None (length ds))).
  { destruct (forallb p_full ps) eqn:EF.
    - rewrite (full_ranges ds ps L). destruct (one_part fi inner ds ps (repeat None (length ds)) HD Hi F L (repeat_length _ _)) as (fo & E & H).
      rewrite none_need, none_mask in E. exists fo. split; [exact E|exact H].
    - exists []. split; [reflexivity|]. intros p Lp. symmetry. apply (full_zero fi folds _ ds 0%nat ps); auto. }
  destruct FULL as (fo & -> & HFO). cbn [rbind].
  destruct (existsb (fun p => p_left p || p_right p) ps) eqn:EB.
  - destruct (zprod folds =? 1) eqn:E1.
    + exfalso. apply existsb_exists in EB as (q & Iq & Hq). destruct (facts_In _ _ _ _ _ _ F Iq) as (d & i & Id & Fd).
      assert (nd_fold d = 1) by (pose proof (zprod_one folds HF ltac:(lia)) as O; rewrite Forall_forall in O; apply O; apply in_map; exact Id).
      destruct (pf_unit _ _ _ _ _ Fd H) as (A & B). rewrite A, B in Hq. discriminate.
    + destruct (border_cover fuel fi inner ds ps HD Hi H8 Hf F L) as (po & -> & HPO). cbn [rbind]. eexists. split; [reflexivity|].
      intros p. destruct (Nat.eq_dec (length p) (length ds)) as [Lp|Lp].
      * rewrite hits_app, HFO, HPO by exact Lp. fold folds rofs. fold (GS p). rewrite <- (LG p Lp) at 1. rewrite <- mprod_0.
        destruct (masks_perm (length ds) ltac:(lia)) as (Pm & _). pose proof (nsum_perm _ (fun c => mprod c (GS p)) _ _ Pm) as S. cbn [nsum map list_sum fold_right] in S.
        rewrite <- (LG p Lp) in S at 2. rewrite sum_masks, (TOT p Lp) in S. unfold b2n in S. rewrite <- S. reflexivity.
      * rewrite SHORT by exact Lp. rewrite in_box_len by (rewrite map_length; exact Lp). reflexivity.
  - exists fo. split; [reflexivity|]. intros p. destruct (Nat.eq_dec (length p) (length ds)) as [Lp|Lp].
    + rewrite HFO by exact Lp. unfold GS. rewrite <- (no_borders _ ds ps) by auto. fold (GS p). rewrite TOT by exact Lp. reflexivity.
    + rewrite SHORT by exact Lp. rewrite in_box_len by (rewrite map_length; exact Lp). reflexivity.
Qed.
