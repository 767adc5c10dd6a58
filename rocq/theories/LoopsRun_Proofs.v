From Coq Require Import ZifyBool.
From Verif Require Import Base Cover_Spec Cover_Proofs MixedRadix Idiv_Model Idiv_Proofs ParFor_Model ParFor_Proofs Loops_Model Loops_Spec Loops_Proofs.

(* ---------- tiling ---------- *)
Definition tile_ok (nt : Z * Z) : Prop := 0 < snd nt <= fst nt.
(* iterations in tile ti *)
Definition lt_of (n t ti : Z) : Z := if full_tiles n t <=? ti then n - full_tiles n t * t else t.

Lemma split_step : forall n t pre R o, 0 < t <= n -> 0 < pre -> 0 < R -> 0 <= o < pre * (n * R) ->
  let tg := pre * t * R in let ti := o / tg in
  0 < tg /\ 0 <= ti /\ 0 < lt_of n t ti <= t /\ t * ti + lt_of n t ti <= n /\ 0 <= o mod tg < pre * lt_of n t ti * R.
Proof.
  intros n t pre R o Ht Hp HR Ho tg ti.
  assert (Htg : 0 < tg) by (unfold tg; nia).
  pose proof (Z.div_mod o tg ltac:(lia)) as D. fold ti in D. pose proof (Z.mod_pos_bound o tg ltac:(lia)) as M.
  assert (Hti : 0 <= ti) by (apply Z.div_pos; lia).
  assert (PR : 0 < pre * R) by nia.
  assert (TG : forall x, tg * x = pre * R * (x * t)) by (intros; unfold tg; ring).
  assert (K : ti * t < n). { rewrite TG in D. assert (pre * R * (ti * t) < pre * R * n) by lia. nia. }
  unfold lt_of, full_tiles. destruct (t =? 0) eqn:E0; [lia|]. rewrite Z.quot_div_nonneg by lia.
  pose proof (Z.div_mod n t ltac:(lia)) as Dn. pose proof (Z.mod_pos_bound n t ltac:(lia)) as Mn. set (nf := n / t) in *.
  split; [exact Htg|]. split; [exact Hti|].
  destruct (nf <=? ti) eqn:E.
  - apply Z.leb_le in E. assert (ti = nf) by nia. assert (L : n - nf * t = n mod t) by lia.
    split; [nia|]. split; [nia|]. split; [lia|].
    rewrite TG in D. replace (pre * (n - nf * t) * R) with (pre * (n * R) - pre * R * (nf * t)) by ring. rewrite H in *. lia.
  - apply Z.leb_gt in E. split; [lia|]. split; [nia|]. fold tg. lia.
Qed.

Definition lts (nts : list (Z * Z)) (tis : list Z) : list Z := map (fun p => lt_of (fst (fst p)) (snd (fst p)) (snd p)) (combine nts tis).

(* offset recovered from tile indices and offset in tile *)
Fixpoint unsplit (pre : Z) (nts : list (Z * Z)) (tis : list Z) (o : Z) : Z :=
  match nts, tis with
  | (n, t) :: rest, ti :: tis' => pre * t * zprod (map fst rest) * ti + unsplit (pre * lt_of n t ti) rest tis' o
  | _, _ => o
  end.

Lemma tile_split_ok : forall nts pre o, Forall tile_ok nts -> 0 < pre -> 0 <= o < pre * zprod (map fst nts) ->
  exists tis o', tile_split pre nts o = Ok (combine tis (lts nts tis), o') /\ length tis = length nts /\
    Forall2 (fun nt ti => 0 <= ti /\ 0 < lt_of (fst nt) (snd nt) ti <= snd nt /\ snd nt * ti + lt_of (fst nt) (snd nt) ti <= fst nt) nts tis /\
    0 <= o' < pre * zprod (lts nts tis) /\ unsplit pre nts tis o' = o.
Proof.
  induction nts as [|(n & t) nts IH]; intros pre o H Hp Ho.
  - exists [], o. cbn in *. repeat split; try constructor; lia.
  - inversion H as [|? ? Hnt Hr]; subst. unfold tile_ok in Hnt. cbn [fst snd] in Hnt. cbn [map fst zprod] in Ho.
    assert (HR : 0 < zprod (map fst nts)). { apply zprod_pos. clear -Hr. induction Hr as [|(a & b) l Ha]; cbn; constructor; [unfold tile_ok in Ha; cbn in *; lia|assumption]. }
    pose proof (split_step n t pre (zprod (map fst nts)) o Hnt Hp HR Ho) as S. cbn zeta in S. destruct S as (S1 & S2 & S3 & S4 & S5).
    set (tg := pre * t * zprod (map fst nts)) in *. set (ti := o / tg) in *.
    destruct (IH (pre * lt_of n t ti) (o mod tg) Hr) as (tis & o' & E & L & F & B & U); [nia|lia|].
    exists (ti :: tis), o'. cbn [tile_split]. fold tg.
    assert (T : (if tg =? 0 then 0 else Z.quot o tg) = ti) by (destruct (tg =? 0) eqn:?; [lia|]; unfold ti; rewrite Z.quot_div_nonneg by lia; reflexivity).
    rewrite T. unfold crem. destruct (tg =? 0) eqn:E0; [lia|]. cbn [rbind]. rewrite Z.rem_mod_nonneg by lia. fold (lt_of n t ti).
    rewrite E. cbn [rbind fst snd]. split; [reflexivity|]. split; [cbn; congruence|]. split; [constructor; [cbn; auto|exact F]|].
    split; [unfold lts in *; cbn [combine map zprod fst snd]; nia|].
    cbn [unsplit]. fold tg. rewrite U. unfold ti. pose proof (Z.div_mod o tg). lia.
Qed.

Fixpoint tout (nts : list (Z * Z)) (tis ds : list Z) : list Z :=
  match nts, tis, ds with
  | (n, t) :: nts', ti :: tis', d :: ds' => t * ti + d :: tout nts' tis' ds'
  | _, _, _ => []
  end.

Lemma tile_index_eq : forall nts tis outer o, length tis = length nts -> Forall (fun x => 0 < x) (lts nts tis) -> 0 <= o ->
  (outer = true -> o < zprod (lts nts tis)) ->
  tile_index outer (combine (map snd nts) (combine tis (lts nts tis))) o = Ok (tout nts tis (od (lts nts tis) o)).
Proof.
  induction nts as [|(n & t) nts IH]; intros tis outer o L H Ho Hb; [reflexivity|].
  destruct tis as [|ti tis]; [discriminate|]. unfold lts in *. cbn [combine map fst snd] in *.
  set (r := map (fun p : Z * Z * Z => lt_of (fst (fst p)) (snd (fst p)) (snd p)) (combine nts tis)) in *.
  inversion H as [|? ? Hl Hr]; subst. pose proof (zprod_pos r Hr) as HR.
  cbn [tile_index]. injection L as L.
  assert (EL : map (fun x : Z * (Z * Z) => snd (snd x)) (combine (map snd nts) (combine tis r)) = r).
  { assert (G : forall (a : list Z) (b c : list Z), length a = length b -> length b = length c -> map (fun x : Z * (Z * Z) => snd (snd x)) (combine a (combine b c)) = c).
    { induction a as [|x a IHa]; intros [|y b] [|z c] A B; cbn in *; try discriminate; [reflexivity|]. f_equal. apply IHa; congruence. }
    apply G; rewrite ?map_length; [congruence|]. unfold r. rewrite map_length, combine_length. lia. }
  assert (A : (match combine (map snd nts) (combine tis r) with
     | [] => Ok o | _ :: _ => cquot o (zprod (map (fun x : Z * (Z * Z) => snd (snd x)) (combine (map snd nts) (combine tis r)))) end) = Ok (o / zprod r)).
  { rewrite EL. destruct (combine (map snd nts) (combine tis r)) eqn:C.
    - rewrite <- EL. cbn. rewrite Z.div_1_r. reflexivity.
    - unfold cquot. destruct (zprod r =? 0) eqn:?; [lia|]. rewrite Z.quot_div_nonneg by lia. reflexivity. }
  rewrite A. cbn [rbind]. set (lt := lt_of n t ti) in *. assert (Q : 0 <= o / zprod r) by (apply Z.div_pos; lia).
  assert (B : (if outer then Ok (o / zprod r) else crem (o / zprod r) lt) = Ok ((o / zprod r) mod lt)).
  { destruct outer.
    - rewrite Z.mod_small; [reflexivity|]. split; [exact Q|]. apply Z.div_lt_upper_bound; [lia|]. specialize (Hb eq_refl). cbn [zprod] in Hb. lia.
    - unfold crem. destruct (lt =? 0) eqn:?; [lia|]. rewrite Z.rem_mod_nonneg by lia. reflexivity. }
  rewrite B. cbn [rbind].
  assert (IHe : tile_index false (combine (map snd nts) (combine tis r)) o = Ok (tout nts tis (od r o))) by (apply IH; auto; discriminate).
  rewrite IHe. cbn [rbind]. cbn [od tout]. reflexivity.
Qed.

Lemma tile_ix_ok : forall nts i, Forall tile_ok nts -> 0 <= i < zprod (map fst nts) ->
  exists tis o, tile_ix nts i = Ok (tout nts tis (od (lts nts tis) o)) /\ length tis = length nts /\
    Forall2 (fun nt ti => 0 <= ti /\ 0 < lt_of (fst nt) (snd nt) ti <= snd nt /\ snd nt * ti + lt_of (fst nt) (snd nt) ti <= fst nt) nts tis /\
    0 <= o < zprod (lts nts tis) /\ unsplit 1 nts tis o = i.
Proof.
  intros nts i H Hi. destruct (tile_split_ok nts 1 i H ltac:(lia) ltac:(lia)) as (tis & o & E & L & F & B & U).
  rewrite Z.mul_1_l in B. exists tis, o. split; [|auto]. unfold tile_ix. rewrite E. cbn [rbind fst snd]. apply tile_index_eq; auto; try lia.
  clear -F. unfold lts. induction F as [|(n & t) ti nts tis (? & ? & ?) F IH]; cbn; constructor; cbn in *; [lia|exact IH].
Qed.

Lemma tout_in : forall nts tis ds, Forall2 (fun nt ti => 0 <= ti /\ 0 < lt_of (fst nt) (snd nt) ti <= snd nt /\ snd nt * ti + lt_of (fst nt) (snd nt) ti <= fst nt) nts tis ->
  in_sizes (lts nts tis) ds -> in_sizes (map fst nts) (tout nts tis ds).
Proof.
  intros nts tis ds F. revert ds. induction F as [|(n & t) ti nts tis (A & B & C) F IH]; intros ds H; cbn in *; [constructor|].
  inversion H as [|? d ? ds' Hd Hr]; subst. unfold lts in IH. constructor; [cbn in *; nia|apply IH; exact Hr].
Qed.

Lemma tout_inj : forall nts tis1 tis2 ds1 ds2,
  let P := fun nt ti => 0 <= ti /\ 0 < lt_of (fst nt) (snd nt) ti <= snd nt /\ snd nt * ti + lt_of (fst nt) (snd nt) ti <= fst nt in
  Forall2 P nts tis1 -> Forall2 P nts tis2 -> in_sizes (lts nts tis1) ds1 -> in_sizes (lts nts tis2) ds2 ->
  tout nts tis1 ds1 = tout nts tis2 ds2 -> tis1 = tis2 /\ ds1 = ds2.
Proof.
  intros nts tis1 tis2 ds1 ds2 P F1. revert tis2 ds1 ds2. induction F1 as [|(n & t) ti1 nts tis1 (A1 & B1 & C1) F1 IH]; intros tis2 ds1 ds2 F2 H1 H2 E.
  - inversion F2; subst. cbn in *. inversion H1; inversion H2; auto.
  - inversion F2 as [|? ti2 ? tis2' (A2 & B2 & C2) F2']; subst. unfold lts in *. cbn in H1, H2.
    inversion H1 as [|? d1 ? ds1' Hd1 Hr1]; subst. inversion H2 as [|? d2 ? ds2' Hd2 Hr2]; subst. cbn in *. injection E as E1 E2.
    destruct (IH tis2' ds1' ds2' F2' Hr1 Hr2 E2) as (-> & ->).
    assert (ti1 = ti2) by nia. subst. split; [reflexivity|]. f_equal. lia.
Qed.

Lemma tile_perm : forall nts, Forall tile_ok nts ->
  exists g, (forall i, 0 <= i < zprod (map fst nts) -> tile_ix nts i = Ok (g i)) /\
    Permutation (map g (zseq (zprod (map fst nts)))) (nest (map fst nts)).
Proof.
  intros nts H. exists (fun i => match tile_ix nts i with Ok l => l | _ => [] end).
  assert (PL : forall tis, Forall2 (fun nt ti => 0 <= ti /\ 0 < lt_of (fst nt) (snd nt) ti <= snd nt /\ snd nt * ti + lt_of (fst nt) (snd nt) ti <= fst nt) nts tis -> Forall (fun x => 0 < x) (lts nts tis)).
  { intros tis F. unfold lts. clear H. induction F as [|(n & t) ti nts tis (? & ? & ?) F IH]; cbn; constructor; cbn in *; [lia|exact IH]. }
  split.
  - intros i Hi. destruct (tile_ix_ok nts i H Hi) as (tis & o & -> & _). reflexivity.
  - apply enum_perm.
    + clear -H. induction H as [|(n & t) nts Hn H IH]; cbn; constructor; [unfold tile_ok in Hn; cbn in *; lia|exact IH].
    + intros i Hi. destruct (tile_ix_ok nts i H Hi) as (tis & o & -> & L & F & B & U). apply tout_in; [exact F|]. apply od_in. auto.
    + intros i j Hi Hj E. destruct (tile_ix_ok nts i H Hi) as (tis & o & Ei & L & F & B & U). destruct (tile_ix_ok nts j H Hj) as (tis' & o' & Ej & L' & F' & B' & U').
      rewrite Ei, Ej in E. destruct (tout_inj nts tis tis' _ _ F F' (od_in _ _ (PL _ F)) (od_in _ _ (PL _ F')) E) as (-> & E').
      apply od_inj in E'; auto. congruence.
Qed.

(* ---------- manual scheduling ---------- *)
Lemma fold_zrange : forall St (f : St -> Z -> St) (P : Z -> St -> Prop) b e st, b <= e -> P b st ->
  (forall i s, b <= i < e -> P i s -> P (i + 1) (f s i)) -> P e (fold_left f (zrange b e) st).
Proof.
  intros St f P b e st H H0 Hs.
  assert (G : forall n, 0 <= n -> n <= e - b -> P (b + n) (fold_left f (zrange b (b + n)) st)).
  { refine (natlike_ind _ _ _).
    - intros _. rewrite zrange_nil by lia. replace (b + 0) with b by lia. exact H0.
    - intros n Hn IH Hle. unfold Z.succ. replace (b + (n + 1)) with (b + n + 1) by lia. rewrite zrange_snoc, fold_left_app by lia. apply Hs; [lia|]. apply IH. lia. }
  specialize (G (e - b)). replace (b + (e - b)) with e in G by lia. apply G; lia.
Qed.

Lemma od_mod : forall ns p, Forall (fun n => 0 < n) ns -> od ns p = od ns (p mod zprod ns).
Proof.
  intros ns p H. pose proof (zprod_pos ns H). rewrite <- (od_small ns (p mod zprod ns) (p / zprod ns) H). f_equal. pose proof (Z.div_mod p (zprod ns)). lia.
Qed.
Lemma od_zero : forall ns, Forall (fun n => 0 < n) ns -> od ns 0 = map (fun _ => 0) ns.
Proof. induction 1 as [|n ns Hn H IH]; [reflexivity|]. cbn [od map]. pose proof (zprod_pos ns H). rewrite Z.div_0_l, Z.mod_0_l, IH by lia. reflexivity. Qed.

Lemma manual_slice : forall ns te i p, Forall (fun n => 0 < n) ns -> 0 <= p < zprod ns -> i < te ->
  manual_nest ns (od ns p) te i = (map (od ns) (zrange p (Z.min (zprod ns) (p + (te - i)))), i + Z.min (zprod ns - p) (te - i)).
Proof.
  induction ns as [|n ns IH]; intros te i p H Hp Hi.
  - cbn in Hp. assert (p = 0) by lia. subst. cbn [manual_nest od zprod]. replace (Z.min 1 (0 + (te - i))) with 1 by lia.
    change (zrange 0 1) with [0]. cbn [map]. f_equal. lia.
  - inversion H as [|? ? Hn Hr]; subst. pose proof (zprod_pos ns Hr) as HR. set (R := zprod ns) in *. cbn [zprod] in *. fold R in Hp |- *.
    set (k0 := p / R). assert (K0 : 0 <= k0 < n) by (unfold k0; split; [apply Z.div_pos; lia|apply Z.div_lt_upper_bound; lia]).
    pose proof (Z.div_mod p R ltac:(lia)) as DM. fold k0 in DM. pose proof (Z.mod_pos_bound p R HR) as MB.
    assert (ODp : od (n :: ns) p = k0 :: od ns (p mod R)).
    { cbn [od]. fold R. fold k0. rewrite (Z.mod_small k0 n) by lia. f_equal. apply od_mod. exact Hr. }
    rewrite ODp. cbn [manual_nest].
    set (step := fun (st : list (list Z) * Z * list Z) ix => let '(out, j, dsin) := st in
          if j <? te then let '(o, j') := manual_nest ns dsin te j in (out ++ map (cons ix) o, j', map (fun _ => 0) ns) else st).
    set (P := fun (k : Z) (st : list (list Z) * Z * list Z) =>
      let '(out, j, dsin) := st in
      (k = k0 -> out = [] /\ j = i /\ dsin = od ns (p mod R)) /\
      (k0 < k -> out = map (od (n :: ns)) (zrange p (Z.min (k * R) (p + (te - i)))) /\ j = i + Z.min (k * R - p) (te - i) /\ dsin = od ns 0)).
    assert (G : P n (fold_left step (zrange k0 n) ([], i, od ns (p mod R)))).
    { apply fold_zrange; [lia| |].
      - cbn. split; [auto|lia].
      - intros k ((out & j) & dsin) Hk (P1 & P2). unfold step.
        assert (C : (k = k0 /\ out = [] /\ j = i /\ dsin = od ns (p mod R)) \/ (k0 < k /\ out = map (od (n :: ns)) (zrange p (Z.min (k * R) (p + (te - i)))) /\ j = i + Z.min (k * R - p) (te - i) /\ dsin = od ns 0)).
        { destruct (Z.eq_dec k k0); [left; auto|right; split; [lia|apply P2; lia]]. }
        clear P1 P2.
        (* current position *)
        assert (CP : exists pos, k * R <= pos < (k + 1) * R /\ p <= pos /\ out = map (od (n :: ns)) (zrange p (Z.min pos (p + (te - i)))) /\ j = i + Z.min (pos - p) (te - i) /\ dsin = od ns (pos mod R)).
        { destruct C as [(-> & -> & -> & ->)|(Hlt & -> & -> & ->)].
          - exists p. split; [nia|]. split; [lia|]. split; [rewrite zrange_nil by lia; reflexivity|]. split; [lia|reflexivity].
          - exists (k * R). split; [nia|]. split; [nia|]. split; [reflexivity|]. split; [lia|]. rewrite Z.mod_mul by lia. reflexivity. }
        destruct CP as (pos & Hpos & Hpp & Eo & Ej & Ed).
        destruct (j <? te) eqn:Ejt.
        + apply Z.ltb_lt in Ejt. assert (Ej' : j = i + (pos - p)) by lia.
          pose proof (Z.mod_pos_bound pos R HR). rewrite Ed. rewrite (IH te j (pos mod R) Hr ltac:(lia) Ejt).
          assert (Em : pos mod R = pos - k * R) by (symmetry; apply Z.mod_unique with k; lia).
          cbn beta iota. split; [intros; lia|]. intros _. split; [|split].
          * rewrite Eo, map_map. replace (Z.min pos (p + (te - i))) with pos by lia.
            rewrite (zrange_app p pos (Z.min ((k + 1) * R) (p + (te - i)))) by lia. rewrite map_app. f_equal.
            fold R. rewrite Em. replace (Z.min R (pos - k * R + (te - j))) with (Z.min ((k + 1) * R) (p + (te - i)) - k * R) by lia.
            set (b := Z.min ((k + 1) * R) (p + (te - i))). unfold zrange. rewrite !map_map. replace (b - k * R - (pos - k * R)) with (b - pos) by lia.
            apply map_ext_in. intros a Ha. apply zseq_In in Ha. cbn [od]. fold R. f_equal.
            -- replace (pos + a) with (k * R + (pos - k * R + a)) by lia. rewrite Z.div_add_l, Z.div_small, Z.add_0_r, Z.mod_small by (unfold b in *; lia). reflexivity.
            -- replace (pos + a) with (k * R + (pos - k * R + a)) by lia. unfold R. rewrite od_small by exact Hr. reflexivity.
          * fold R. rewrite Em. lia.
          * symmetry. apply od_zero. exact Hr.
        + apply Z.ltb_ge in Ejt. split; [intros; lia|]. intros _. assert (te - i <= pos - p) by lia.
          destruct (Z.eq_dec k k0) as [->|]; [destruct C as [(_ & _ & ? & _)|(? & _)]; lia|].
          destruct C as [(? & _)|(_ & _ & _ & ->)]; [lia|]. split; [|split; [lia|reflexivity]]. rewrite Eo. do 2 f_equal. lia. }
    destruct (fold_left step (zrange k0 n) ([], i, od ns (p mod R))) as ((out & j) & dsin). destruct G as (_ & G). destruct (G ltac:(lia)) as (-> & -> & _). reflexivity.
Qed.

Lemma manual_empty : forall ns ds te i, ns <> [] -> length ds = length ns -> te <= i -> fst (manual_nest ns ds te i) = [].
Proof.
  intros [|n ns] ds te i N L H; [congruence|]. destruct ds as [|d ds]; [discriminate|]. cbn [manual_nest].
  set (step := fun _ _ => _). assert (G : forall l, fold_left step l ([], i, ds) = ([], i, ds)).
  { induction l as [|x l IHl]; [reflexivity|]. cbn [fold_left]. replace (step ([], i, ds) x) with (@nil (list Z), i, ds); [exact IHl|]. unfold step. destruct (i <? te) eqn:E; [lia|reflexivity]. }
  rewrite G. reflexivity.
Qed.

Lemma path_some : forall ns prev outer i, Forall (fun n => 0 < n) ns -> exists q l, path_ix false false outer prev ns i = Ok (q, l) /\ length l = length ns.
Proof.
  induction ns as [|n ns IH]; intros prev outer i H; [do 2 eexists; split; reflexivity|]. inversion H as [|? ? Hn Hr]; subst. pose proof (zprod_pos ns Hr).
  cbn [path_ix andb].
  assert (A : exists v, (match ns with [] => Ok i | _ :: _ => cquot i (zprod ns) end) = Ok v).
  { destruct ns; [eauto|]. unfold cquot. destruct (zprod (z :: ns) =? 0) eqn:?; [lia|eauto]. }
  destruct A as (v & ->). cbn [rbind].
  assert (B : exists w, (if outer then Ok v else crem v n) = Ok w) by (destruct outer; [eauto|]; unfold crem; destruct (n =? 0) eqn:?; [lia|eauto]).
  destruct B as (w & ->). cbn [rbind].
  destruct (match prev with Some (p, _) => (Some p, w) | None => (None, w) end) as (p & d1).
  edestruct (IH (Some (match p with Some _ => d1 | None => d1 end, n)) false i Hr) as (q & l & -> & L). cbn [rbind].
  do 2 eexists. split; [reflexivity|]. cbn [length snd]. congruence.
Qed.

Lemma rconcat_ok : forall A (l : list (res (list A))) (vs : list (list A)), Forall2 (fun r v => r = Ok v) l vs -> rconcat l = Ok (concat vs).
Proof. induction 1 as [|r v l vs -> H IH]; [reflexivity|]. cbn. change (fold_right _ _ l) with (rconcat l). rewrite IH. reflexivity. Qed.
Lemma rconcat_map : forall A B (f : A -> res (list B)) (g : A -> list B) l, (forall a, In a l -> f a = Ok (g a)) -> rconcat (map f l) = Ok (flat_map g l).
Proof.
  intros A B f g l H. rewrite flat_map_concat_map. apply rconcat_ok. induction l; cbn; constructor; [apply H; left; reflexivity|]. apply IHl. intros; apply H; right; assumption.
Qed.

Definition cumu (num nparts n : Z) := div_equally_cumu_size_n num nparts n.
Lemma manual_all : forall ns nthreads, Forall (fun n => 0 < n) ns -> ns <> [] -> 0 < nthreads ->
  rconcat (map (manual_thread ns nthreads) (zseq nthreads)) = Ok (nest ns).
Proof.
  intros ns nt H N Hnt. pose proof (zprod_pos ns H) as HR.
  set (c := fun t => div_equally_cumu_size_n (zprod ns) nt (t - 1)).
  assert (C0 : c 0 = 0) by reflexivity.
  assert (Cn : c nt = zprod ns) by (unfold c; apply cumu_last; lia).
  assert (Cm : forall t, 0 <= t < nt -> c t <= c (t + 1)) by (intros t Ht; unfold c; pose proof (cumu_step (zprod ns) nt t ltac:(lia) Hnt ltac:(lia)); pose proof (size_nonneg (zprod ns) nt t ltac:(lia) Hnt); replace (t + 1 - 1) with t by lia; lia).
  assert (Cb : forall t, 0 <= t <= nt -> 0 <= c t <= zprod ns).
  { assert (L : forall t, 0 <= t -> t <= nt -> 0 <= c t). { refine (natlike_ind _ _ _); [intros; lia|]. intros t Ht IH Hle. unfold Z.succ in *. pose proof (Cm t ltac:(lia)). lia. }
    assert (U : forall k, 0 <= k -> k <= nt -> c (nt - k) <= zprod ns). { refine (natlike_ind _ _ _); [intros; rewrite Z.sub_0_r; lia|]. intros t Ht IH Hle. unfold Z.succ in *. pose proof (Cm (nt - (t + 1)) ltac:(lia)). replace (nt - (t + 1) + 1) with (nt - t) in * by lia. lia. }
    intros t Ht. split; [apply L; lia|]. specialize (U (nt - t)). replace (nt - (nt - t)) with t in U by lia. apply U; lia. }
  rewrite (rconcat_map _ _ _ (fun t => map (od ns) (zrange (c t) (c (t + 1))))).
  - f_equal. rewrite nest_od by exact H. replace (zseq (zprod ns)) with (zrange (c 0) (c nt)) by (rewrite C0, Cn; apply zrange_0).
    assert (G : forall n, 0 <= n -> n <= nt -> flat_map (fun t => map (od ns) (zrange (c t) (c (t + 1)))) (zseq n) = map (od ns) (zrange (c 0) (c n))).
    { refine (natlike_ind _ _ _); [intros; rewrite zrange_nil by lia; reflexivity|]. intros n Hn IH Hle. unfold Z.succ in *. rewrite zseq_succ, flat_map_app by lia.
      rewrite IH by lia. cbn [flat_map]. rewrite app_nil_r, <- map_app. f_equal. symmetry. apply zrange_app. pose proof (Cm n ltac:(lia)). pose proof (Cb n ltac:(lia)). lia. }
    apply G; lia.
  - intros t Ht. apply zseq_In in Ht. unfold manual_thread. fold (c t).
    assert (Ete : div_equally_cumu_size_n (zprod ns) nt t = c (t + 1)) by (unfold c; f_equal; lia).
    rewrite Ete. pose proof (Cm t Ht). pose proof (Cb t ltac:(lia)). pose proof (Cb (t + 1) ltac:(lia)).
    destruct (Z.eq_dec (c t) (c (t + 1))) as [E|E].
    + destruct (path_some ns None true (c t) H) as (q & l & -> & L). cbn [rbind snd]. rewrite manual_empty by (auto; lia). rewrite zrange_nil by lia. reflexivity.
    + rewrite path_plain_step by (auto; try lia; discriminate). cbn [rbind snd]. rewrite manual_slice by (auto; lia). cbn [fst]. do 3 f_equal. lia.
Qed.
