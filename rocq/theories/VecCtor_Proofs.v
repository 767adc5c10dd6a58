(* The printed construction of an unaligned vector sets every lane to its element. *)
From Coq Require Import String.
From Verif Require Import Base Idiv_Model ParFor_Model Tuple_Model Vec_Model.

Lemma varg_eqb_eq : forall a b, varg_eqb a b = true <-> a = b.
Proof.
  intros [x|x] [y|y]; cbn; try (split; [discriminate|congruence]);
    rewrite Z.eqb_eq; split; congruence.
Qed.
Lemma args_eqb_eq : forall a b, args_eqb a b = true <-> a = b.
Proof.
  induction a as [|[d x] a IH]; intros [|[e y] b]; cbn; try (split; [discriminate|congruence]); [tauto|].
  rewrite !andb_true_iff, String.eqb_eq, varg_eqb_eq, IH. split; [intros [[-> ->] ->]; reflexivity|].
  intros E. inversion E; auto.
Qed.
Lemma vpoint_eqb_eq : forall a b, vpoint_eqb a b = true <-> a = b.
Proof.
  intros [v a] [w b]. unfold vpoint_eqb. cbn. rewrite andb_true_iff, String.eqb_eq, args_eqb_eq.
  split; [intros [-> ->]; reflexivity|]. intros E; inversion E; auto.
Qed.

Lemma mem_z_In : forall x l, mem_z x l = true <-> In x l.
Proof.
  intros. unfold mem_z. rewrite existsb_exists. split.
  - intros (y & Hy & E). apply Z.eqb_eq in E. subst. assumption.
  - intros H. exists x. split; [assumption|apply Z.eqb_refl].
Qed.

Lemma mask_testbit_acc : forall l m i, 0 <= i -> Forall (fun x => 0 <= x) l ->
  Z.testbit (fold_left (fun m j => Z.lor m (Z.shiftl 1 j)) l m) i = (Z.testbit m i || mem_z i l)%bool.
Proof.
  induction l as [|j l IH]; intros m i Hi Hl; cbn; [rewrite orb_false_r; reflexivity|].
  inversion Hl as [|j' l' Hj Hl']; subst. rewrite IH by assumption.
  rewrite Z.lor_spec, <- orb_assoc. f_equal. f_equal.
  rewrite Z.shiftl_1_l. rewrite Z.pow2_bits_eqb by lia. apply Z.eqb_sym.
Qed.
Lemma mask_testbit : forall l i, 0 <= i -> Forall (fun x => 0 <= x) l ->
  Z.testbit (mask_of l) i = mem_z i l.
Proof. intros. unfold mask_of. rewrite mask_testbit_acc by assumption. rewrite Z.testbit_0_l. reflexivity. Qed.

Lemma combine_seq_nth : forall A (l : list A) k i x,
  In (i, x) (combine (map (fun j => j + k) (map Z.of_nat (seq 0 (List.length l)))) l) ->
  k <= i < k + Z.of_nat (List.length l) /\ nth_error l (Z.to_nat (i - k)) = Some x.
Proof.
  induction l as [|a l IH]; intros k i x H; cbn in H; [contradiction|].
  destruct H as [E|H].
  - inversion E; subst. cbn [List.length]. split; [lia|]. replace (Z.of_nat 0 + k - k) with 0 by lia. reflexivity.
  - rewrite <- seq_shift in H. rewrite !map_map in H.
    rewrite (map_ext _ (fun j => Z.of_nat j + (k + 1))) in H by (intros; lia).
    rewrite <- (map_map Z.of_nat (fun z => z + (k + 1))) in H. apply IH in H. destruct H as [B N].
    cbn [List.length]. split; [lia|].
    replace (Z.to_nat (i - k)) with (Datatypes.S (Z.to_nat (i - (k + 1)))) by lia. exact N.
Qed.

Lemma zseq_seq : forall n, zseq (Z.of_nat n) = map Z.of_nat (seq 0 n).
Proof. intros. unfold zseq. rewrite Nat2Z.id. reflexivity. Qed.

Lemma indexed_In : forall A (l : list A) i x, In (i, x) (indexed l) ->
  0 <= i < Z.of_nat (List.length l) /\ nth_error l (Z.to_nat i) = Some x.
Proof.
  intros A l i x H. unfold indexed in H. rewrite zseq_seq in H.
  rewrite <- (map_id (map Z.of_nat _)) in H.
  rewrite (map_ext (fun z => z) (fun j => j + 0)) in H by (intros; lia).
  apply combine_seq_nth in H. replace (i - 0) with i in H by lia. destruct H; split; [lia|assumption].
Qed.

Lemma indexed_fst : forall A (l : list A), map fst (indexed l) = zseq (Z.of_nat (List.length l)).
Proof.
  intros. unfold indexed. generalize (zseq_length (Z.of_nat (List.length l))).
  rewrite Nat2Z.id. generalize (zseq (Z.of_nat (List.length l))) as z.
  induction l as [|a l IH]; intros [|z0 z] E; cbn in *; try discriminate; [reflexivity|].
  f_equal. apply IH. lia.
Qed.
Lemma indexed_snd : forall A (l : list A), map snd (indexed l) = l.
Proof.
  intros. unfold indexed. generalize (zseq_length (Z.of_nat (List.length l))).
  rewrite Nat2Z.id. generalize (zseq (Z.of_nat (List.length l))) as z.
  induction l as [|a l IH]; intros [|z0 z] E; cbn in *; try discriminate; [reflexivity|].
  f_equal. apply IH. lia.
Qed.
Lemma indexed_length : forall A (l : list A), List.length (indexed l) = List.length l.
Proof. intros. rewrite <- (map_length snd), indexed_snd. reflexivity. Qed.

Lemma indexed_nth : forall A (l : list A) i, 0 <= i < Z.of_nat (List.length l) ->
  exists x, nth_error (indexed l) (Z.to_nat i) = Some (i, x) /\ nth_error l (Z.to_nat i) = Some x.
Proof.
  intros A l i Hi.
  destruct (nth_error (indexed l) (Z.to_nat i)) as [[j x]|] eqn:E.
  - assert (F : nth_error (map fst (indexed l)) (Z.to_nat i) = Some j).
    { rewrite nth_error_map, E. reflexivity. }
    rewrite indexed_fst, zseq_seq, nth_error_map in F.
    rewrite (nth_error_nth' _ 0%nat) in F by (rewrite seq_length; lia).
    rewrite seq_nth in F by lia. cbn in F. inversion F; subst. rewrite Z2Nat.id by lia.
    exists x. split; [reflexivity|].
    replace l with (map snd (indexed l)) by apply indexed_snd. rewrite nth_error_map, E. reflexivity.
  - apply nth_error_None in E. rewrite indexed_length in E. lia.
Qed.

Lemma filter_map_NoDup : forall A (f : Z * A -> bool) l, NoDup (map fst l) ->
  NoDup (map fst (filter f l)).
Proof.
  induction l as [|a l IH]; intros N; cbn in *; [constructor|].
  inversion N as [|x l' Nx Nl]; subst. destruct (f a); cbn; [|apply IH; assumption].
  constructor; [|apply IH; assumption].
  intros C. apply Nx. apply in_map_iff in C. destruct C as (b & E & Hb).
  apply filter_In in Hb. apply in_map_iff. exists b. tauto.
Qed.

Lemma NoDup_full : forall n l, NoDup l -> (forall i, In i l -> 0 <= i < n) ->
  Z.of_nat (List.length l) = n -> forall i, 0 <= i < n -> In i l.
Proof.
  intros n l N R L i Hi.
  assert (I : incl (zseq n) l).
  { apply (NoDup_length_incl N).
    - rewrite zseq_length. lia.
    - intros x Hx. apply zseq_In. apply R. assumption. }
  apply I. apply zseq_In. assumption.
Qed.

Lemma NoDup_app_intro : forall (a b : list Z), NoDup a -> NoDup b ->
  (forall x, In x a -> In x b -> False) -> NoDup (a ++ b).
Proof.
  induction a as [|x a IH]; intros b Na Nb D; cbn; [assumption|].
  inversion Na as [|y a' Nx Na']; subst. constructor.
  - rewrite in_app_iff. intros [C|C]; [contradiction|]. apply (D x); [left; reflexivity|assumption].
  - apply IH; [assumption|assumption|]. intros y Hy. apply D. right. assumption.
Qed.

(* The 128-bit form of the shift. *)
Lemma align_avx2_same : forall V vlen count (a b : Z -> V) i, vlen mod 2 = 0 ->
  0 < count < vlen -> 0 <= i < vlen ->
  align_lanes_avx2 V vlen count a b i = align_lanes V vlen count a b i.
Proof.
  intros V vlen count a b i Ev Hc Hi.
  unfold align_lanes_avx2, align_lanes, alignr_half, permute2x128_21.
  pose proof (Z.div_mod vlen 2 ltac:(lia)) as D. rewrite Ev in D.
  remember (vlen / 2) as h eqn:Eh. clear Eh. assert (V2 : vlen = 2 * h) by lia. clear D Ev. subst vlen.
  replace (count =? 0) with false by lia. replace (count =? 2 * h) with false by lia.
  assert (Hh : (i < h /\ i / h = 0) \/ (h <= i /\ i / h = 1)).
  { destruct (Z_lt_ge_dec i h) as [L|G].
    - left. split; [assumption|]. apply Z.div_small. lia.
    - right. split; [lia|]. symmetry. apply (Z.div_unique i h 1 (i - h)); lia. }
  repeat match goal with
         | |- context [?x =? ?y] => destruct (Z.eqb_spec x y)
         | |- context [?x <? ?y] => destruct (Z.ltb_spec x y)
         end;
  destruct Hh as [[? Q]|[? Q]]; rewrite ?Q in *; try lia; f_equal; lia.
Qed.

Section Ctor.
  Variable V : Type.
  Variables sel_bit idx_mask : Z.
  Variable align : Z -> lanes V -> lanes V -> lanes V.
  Variable vec_vars : vpoint -> lanes V.
  Variable elems : list velem.
  Let n := Z.of_nat (List.length elems).
  Variable k : Z.
  Hypothesis Hk : 0 <= k.
  Hypothesis Hsel : sel_bit = 2 ^ k.
  Hypothesis Hmask : idx_mask = 2 ^ k - 1.
  Hypothesis Hfit : n <= 2 ^ k.
  Hypothesis Hoff : forall ve, In ve elems -> 0 <= ve_off ve < n.
  Hypothesis Halign : forall c a b i, 0 < c < n -> 0 <= i < n ->
    align c a b i = align_lanes V n c a b i.

  Notation ex := (exec V n sel_bit idx_mask align vec_vars).

  Definition right (pv : lanes V) (i : Z) : Prop :=
    forall ve, nth_error elems (Z.to_nat i) = Some ve -> pv i = vec_vars (ve_vec ve) (ve_off ve).

  Definition inv (pv0 : lanes V) (st : list vinstr * list Z) : Prop :=
    NoDup (snd st) /\ (forall i, In i (snd st) -> 0 <= i < n /\ right (ex pv0 (fst st)) i).

  Lemma exec_snoc : forall pv0 c i, ex pv0 (c ++ [i]) = exec1 V n sel_bit idx_mask align vec_vars (ex pv0 c) i.
  Proof. intros. unfold exec. rewrite fold_left_app. reflexivity. Qed.

  Lemma indexed_elem : forall i ve, In (i, ve) (indexed elems) ->
    0 <= i < n /\ nth_error elems (Z.to_nat i) = Some ve /\ In ve elems.
  Proof.
    intros i ve H. apply indexed_In in H. destruct H as [B N]. split; [exact B|].
    split; [assumption|]. apply nth_error_In in N. assumption.
  Qed.

  (* Adding the lanes of one instruction. *)
  Lemma inv_step : forall pv0 code done ins found,
    inv pv0 (code, done) -> NoDup found ->
    (forall i, In i found -> 0 <= i < n /\ ~ In i done) ->
    (forall i, In i found -> right (exec1 V n sel_bit idx_mask align vec_vars (ex pv0 code) ins) i) ->
    (forall i, In i done -> exec1 V n sel_bit idx_mask align vec_vars (ex pv0 code) ins i = ex pv0 code i) ->
    inv pv0 ((code ++ [ins])%list, (done ++ found)%list).
  Proof.
    intros pv0 code done ins found [N R] Nf B F K. split; cbn [fst snd] in *.
    - apply NoDup_app_intro; [assumption|assumption|]. intros x Hx Hf. apply B in Hf. tauto.
    - intros i Hi. apply in_app_iff in Hi. rewrite exec_snoc. destruct Hi as [Hi|Hi].
      + destruct (R i Hi) as [Bi Ri]. split; [assumption|]. intros ve E. rewrite (K i Hi). apply Ri. exact E.
      + destruct (B i Hi) as [Bi _]. split; [assumption|]. apply F. assumption.
  Qed.

  Lemma elems_from_In : forall c done s v i, In i (elems_from n c elems done s v) ->
    0 <= i < n /\ ~ In i done /\
    exists ve, nth_error elems (Z.to_nat i) = Some ve /\ ve_vec ve = v /\
               (if n - c <=? i then s = false /\ ve_off ve = i + c - n else s = true /\ ve_off ve = i + c).
  Proof.
    intros c done s v i H. unfold elems_from in H. apply in_map_iff in H.
    destruct H as ([j ve] & E & H). cbn in E. subst j. apply filter_In in H. destruct H as [H P].
    cbn [fst snd] in P. apply indexed_elem in H. destruct H as (B & N & _).
    apply andb_true_iff in P. destruct P as [P1 P2].
    split; [assumption|]. split.
    - intros C. apply mem_z_In in C. rewrite C in P1. discriminate.
    - exists ve. split; [assumption|].
      destruct (n - c <=? i); apply andb_true_iff in P2; destruct P2 as [P2 P3];
        apply andb_true_iff in P2; destruct P2 as [P2 P4]; apply vpoint_eqb_eq in P4; apply Z.eqb_eq in P3;
        destruct s; try discriminate; auto.
  Qed.

  Lemma elems_from_NoDup : forall c done s v, NoDup (elems_from n c elems done s v).
  Proof.
    intros. unfold elems_from. apply filter_map_NoDup. rewrite indexed_fst. apply zseq_NoDup.
  Qed.

  Lemma masked_keep : forall (l : list Z) (old new : lanes V) i, 0 <= i -> Forall (fun x => 0 <= x) l ->
    masked V (Some (mask_of l)) old new i = if mem_z i l then new i else old i.
  Proof. intros. cbn. rewrite mask_testbit by assumption. reflexivity. Qed.

  (* One shift: [used1] from the first vector, [used2] from the second. *)
  Lemma align_case : forall pv0 code done c a b u1 u2 found v1 v2 mk,
    inv pv0 (code, done) -> 0 < c < n ->
    u1 = elems_from n c elems done false v1 -> u2 = elems_from n c elems done true v2 ->
    (forall i, In i found <-> In i u2 \/ In i u1) ->
    NoDup found ->
    (u1 <> [] -> a = v1) -> (u2 <> [] -> b = v2) ->
    mk = (if negb (Nat.eqb (List.length done) 0) then Some (mask_of found) else None) ->
    inv pv0 ((code ++ [IAlign c a b mk])%list, (done ++ found)%list).
  Proof.
    intros pv0 code done c a b u1 u2 found v1 v2 mk I Hc E1 E2 F Nf A B M.
    assert (RB : forall i, In i found -> 0 <= i < n /\ ~ In i done).
    { intros i Hi. apply F in Hi. destruct Hi as [Hi|Hi]; subst u1 u2;
        apply elems_from_In in Hi; tauto. }
    assert (P : Forall (fun x => 0 <= x) found).
    { apply Forall_forall. intros x Hx. apply RB in Hx. lia. }
    assert (RT : forall i ve, In i found -> nth_error elems (Z.to_nat i) = Some ve ->
              align_lanes V n c (vec_vars a) (vec_vars b) i = vec_vars (ve_vec ve) (ve_off ve)).
    { intros i ve Hi E. unfold align_lanes.
      replace (c =? 0) with false by lia. replace (c =? n) with false by lia.
      apply F in Hi. destruct Hi as [Hi|Hi].
      - assert (B' : b = v2) by (apply B; intros C; rewrite C in Hi; contradiction).
        subst u2. apply elems_from_In in Hi. destruct Hi as (Bi & _ & ve' & E' & V' & O').
        rewrite E in E'. inversion E'; subst ve'.
        destruct (Z.leb_spec (n - c) i); [destruct O' as [O' _]; discriminate|].
        replace (i <? n - c) with true by lia. destruct O' as [_ ->]. rewrite V', B'. reflexivity.
      - assert (A' : a = v1) by (apply A; intros C; rewrite C in Hi; contradiction).
        subst u1. apply elems_from_In in Hi. destruct Hi as (Bi & _ & ve' & E' & V' & O').
        rewrite E in E'. inversion E'; subst ve'.
        destruct (Z.leb_spec (n - c) i); [|destruct O' as [O' _]; discriminate].
        replace (i <? n - c) with false by lia. destruct O' as [_ ->]. rewrite V', A'. reflexivity. }
    apply inv_step; try assumption.
    - intros i Hi ve E. destruct (RB i Hi) as [Bi _]. rewrite M.
      destruct (Nat.eqb (List.length done) 0); cbn [negb exec1].
      + rewrite Halign by assumption. apply RT; assumption.
      + rewrite masked_keep by (try lia; assumption).
        rewrite (proj2 (mem_z_In i found) Hi). apply RT; assumption.
    - intros i Hi. destruct (proj2 I i Hi) as [Bi _]. rewrite M.
      destruct done as [|d0 done0]; [contradiction|]. cbn [List.length Nat.eqb negb exec1].
      rewrite masked_keep by (try lia; assumption).
      destruct (mem_z i found) eqn:E; [|reflexivity].
      apply mem_z_In in E. apply RB in E. tauto.
  Qed.

  Lemma try_align1_inv : forall pv0 target ma mv1 mv2 c st st', 0 < c < n -> inv pv0 st ->
    try_align1 target elems ma mv1 mv2 c st = Some st' -> inv pv0 st'.
  Proof.
    intros pv0 target ma mv1 mv2 c [code done] st' Hc I E. unfold try_align1 in E. fold n in E.
    remember (elems_from n c elems done false mv1) as u1 eqn:E1.
    remember (elems_from n c elems done true mv2) as u2 eqn:E2.
    destruct (Z.of_nat (List.length (u2 ++ u1)) =? target); [|inversion E; subst; assumption].
    destruct (negb (Nat.eqb (List.length done) 0) && negb ma)%bool; [discriminate|].
    inversion E; subst st'. clear E.
    assert (Nf : NoDup (u2 ++ u1)).
    { apply NoDup_app_intro; [subst; apply elems_from_NoDup|subst; apply elems_from_NoDup|].
      intros x H2 H1. subst u1 u2. apply elems_from_In in H1, H2.
      destruct H1 as (_ & _ & ve1 & _ & _ & C1). destruct H2 as (_ & _ & ve2 & _ & _ & C2).
      destruct (n - c <=? x); destruct C1 as [C1 _], C2 as [C2 _]; discriminate. }
    assert (F : forall i, In i (u2 ++ u1) <-> In i u2 \/ In i u1) by (intros; apply in_app_iff).
    destruct u1 as [|x1 u1'] eqn:D1; [|destruct u2 as [|x2 u2'] eqn:D2].
    - eapply align_case with (u1 := []) (u2 := u2) (v1 := mv1) (v2 := mv2); eauto; congruence.
    - eapply align_case with (u1 := x1 :: u1') (u2 := []) (v1 := mv1) (v2 := mv2); eauto; congruence.
    - eapply align_case with (u1 := x1 :: u1') (u2 := x2 :: u2') (v1 := mv1) (v2 := mv2); eauto; congruence.
  Qed.

  Lemma fold_left_inv : forall A S (P : S -> Prop) (f : S -> A -> S) l s,
    (forall x, In x l -> forall s, P s -> P (f s x)) -> P s -> P (fold_left f l s).
  Proof.
    induction l as [|a l IH]; intros s H Hs; cbn; [assumption|].
    apply IH; [intros; apply H; [right; assumption|assumption]|]. apply H; [left; reflexivity|assumption].
  Qed.

  Lemma try_align_inv : forall pv0 target avs ma st, inv pv0 st ->
    inv pv0 (try_align target elems avs ma st).
  Proof.
    intros pv0 target avs ma st I. unfold try_align.
    apply (fold_left_inv _ _ (fun s => inv pv0 (fst s))); [|exact I].
    intros mv1 _ s Hs. apply fold_left_inv; [|exact Hs].
    intros mv2 _ s2 Hs2. unfold align_counts. fold n.
    apply (fold_left_inv _ _ (fun s => inv pv0 (fst s))); [|exact Hs2].
    intros c Hc [st1 ret] H1. cbn [fst] in *. destruct ret; [exact H1|].
    destruct (Z.of_nat (List.length (snd st1)) <? n); [|exact H1].
    destruct (try_align1 target elems ma mv1 mv2 c st1) as [st'|] eqn:E; [|exact H1].
    cbn [fst]. apply zrange_In in Hc. eapply try_align1_inv; [|exact H1|exact E]. lia.
  Qed.

  Lemma nth_map_indexed : forall (f : Z * velem -> Z) i ve, 0 <= i < n ->
    nth_error elems (Z.to_nat i) = Some ve ->
    nth (Z.to_nat i) (map f (indexed elems)) 0 = f (i, ve).
  Proof.
    intros f i ve Hi E. destruct (indexed_nth _ elems i Hi) as (x & E1 & E2).
    rewrite E in E2. inversion E2; subst x.
    apply nth_error_nth. rewrite nth_error_map, E1. reflexivity.
  Qed.

  Lemma try_perm1_inv : forall pv0 target avs st, inv pv0 st -> inv pv0 (try_perm1 target elems avs st).
  Proof.
    intros pv0 target avs st I. unfold try_perm1. apply fold_left_inv; [|exact I].
    intros mv _ [code done] Hs. set (hit := fun ie : Z * velem => _).
    destruct (Z.of_nat (List.length (map fst (filter hit (indexed elems)))) =? target); [|exact Hs].
    set (found := map fst (filter hit (indexed elems))).
    assert (RB : forall i, In i found -> 0 <= i < n /\ ~ In i done /\
                  exists ve, nth_error elems (Z.to_nat i) = Some ve /\ hit (i, ve) = true /\ ve_vec ve = mv).
    { intros i Hi. unfold found in Hi. apply in_map_iff in Hi. destruct Hi as ([j ve] & E & Hi).
      cbn in E. subst j. apply filter_In in Hi. destruct Hi as [Hi Hh].
      apply indexed_elem in Hi. destruct Hi as (B & N & _). split; [assumption|].
      pose proof Hh as Hh'. unfold hit in Hh'. cbn [fst snd] in Hh'. apply andb_true_iff in Hh'.
      destruct Hh' as [M1 M2]. apply vpoint_eqb_eq in M2. split.
      - intros C. apply mem_z_In in C. rewrite C in M1. discriminate.
      - exists ve. auto. }
    assert (P : Forall (fun x => 0 <= x) found).
    { apply Forall_forall. intros x Hx. apply RB in Hx. lia. }
    assert (RT : forall i ve, In i found -> nth_error elems (Z.to_nat i) = Some ve ->
       permute_lanes V (map (fun ie => if hit ie then ve_off (snd ie) else 0) (indexed elems)) (vec_vars mv) i
       = vec_vars (ve_vec ve) (ve_off ve)).
    { intros i ve Hi E. destruct (RB i Hi) as (B & _ & ve' & E' & Hh & Hv).
      rewrite E in E'. inversion E'; subst ve'. unfold permute_lanes.
      rewrite (nth_map_indexed _ i ve B E). rewrite Hh. cbn [snd]. rewrite Hv. reflexivity. }
    apply inv_step.
    - exact Hs.
    - unfold found. apply filter_map_NoDup. rewrite indexed_fst. apply zseq_NoDup.
    - intros i Hi. apply RB in Hi. tauto.
    - intros i Hi ve E. destruct (RB i Hi) as (B & _ & _).
      cbn [exec1]. destruct (negb (Nat.eqb (List.length done) 0)).
      + rewrite masked_keep by (try lia; assumption).
        rewrite (proj2 (mem_z_In i found) Hi). apply RT; assumption.
      + cbn [masked]. apply RT; assumption.
    - intros i Hi. destruct (proj2 Hs i Hi) as [Bi _].
      destruct done as [|d0 done0]; [contradiction|]. cbn [List.length Nat.eqb negb exec1].
      rewrite masked_keep by (try lia; assumption).
      destruct (mem_z i found) eqn:E; [|reflexivity].
      apply mem_z_In in E. apply RB in E. tauto.
  Qed.

  Lemma sel_land : forall o, 0 <= o < n ->
    Z.land o sel_bit = 0 /\ Z.land o idx_mask = o /\
    Z.land (Z.lor sel_bit o) sel_bit = sel_bit /\ Z.land (Z.lor sel_bit o) idx_mask = o.
  Proof.
    intros o Ho. assert (HB : forall j, k <= j -> Z.testbit o j = false).
    { intros j Hj. destruct (Z.eq_dec o 0) as [->|Nz]; [apply Z.testbit_0_l|].
      apply Z.bits_above_log2; [lia|]. apply Z.lt_le_trans with k; [|assumption].
      apply Z.log2_lt_pow2; lia. }
    assert (HS : forall j, 0 <= j -> Z.testbit sel_bit j = (k =? j)%bool).
    { intros j Hj. rewrite Hsel. apply Z.pow2_bits_eqb. assumption. }
    assert (HM : forall j, 0 <= j -> Z.testbit idx_mask j = (j <? k)%bool).
    { intros j Hj. rewrite Hmask. replace (2 ^ k - 1) with (Z.ones k) by (rewrite Z.ones_equiv; lia).
      destruct (Z.ltb_spec j k); [apply Z.ones_spec_low; lia|apply Z.ones_spec_high; lia]. }
    repeat split; apply Z.bits_inj'; intros j Hj;
      rewrite ?Z.land_spec, ?Z.lor_spec, ?Z.land_spec, ?Z.testbit_0_l, ?HS, ?HM by assumption.
    - destruct (Z.eqb_spec k j); [subst; rewrite HB by lia; reflexivity|apply andb_false_r].
    - destruct (Z.ltb_spec j k); [apply andb_true_r|]. rewrite HB by lia. reflexivity.
    - destruct (k =? j); cbn; [reflexivity|apply andb_false_r].
    - destruct (Z.ltb_spec j k); [replace (k =? j) with false by lia; cbn; apply andb_true_r|].
      rewrite andb_false_r. rewrite HB by lia. reflexivity.
  Qed.

  Lemma perm2_pair_inv : forall pv0 target code mv1 mv2 defd ins found defd',
    mv1 <> mv2 ->
    perm2_pair sel_bit target elems mv1 mv2 defd = Some (ins, found, defd') ->
    inv pv0 ((code ++ [ins])%list, found).
  Proof.
    intros pv0 target code mv1 mv2 defd ins found defd' Hne E. unfold perm2_pair in E. cbv zeta in E.
    match type of E with (if ?c then _ else _) = _ => destruct c; [|discriminate] end.
    set (n12 := map (fun ve => if (vpoint_eqb (ve_vec ve) mv1 || vpoint_eqb (ve_vec ve) mv2)%bool
                 then (if vpoint_eqb (ve_vec ve) mv1 then CA (ve_off ve) else CB (ve_off ve)) else CNA) elems) in E.
    set (n21 := map (fun ve => if (vpoint_eqb (ve_vec ve) mv1 || vpoint_eqb (ve_vec ve) mv2)%bool
                 then (if vpoint_eqb (ve_vec ve) mv1 then CB (ve_off ve) else CA (ve_off ve)) else CNA) elems) in E.
    set (fnd := map fst (filter (fun ie : Z * velem => (vpoint_eqb (ve_vec (snd ie)) mv1 || vpoint_eqb (ve_vec (snd ie)) mv2)%bool) (indexed elems))) in E.
    set (from1 := fun ve : velem => vpoint_eqb (ve_vec ve) mv1).
    set (from2 := fun ve : velem => vpoint_eqb (ve_vec ve) mv2).
    assert (EF : found = fnd) by (inversion E; reflexivity).
    assert (EI : ins = if negb (existsb (centries_eqb n21) defd)
                       then IPerm2 (map (cval sel_bit) n12) mv1 mv2
                       else IPerm2 (map (cval sel_bit) n21) mv2 mv1).
    { pose proof (f_equal (fun o => match o with Some (a, _, _) => a | None => ISet 0 mv1 0 end) E) as H0.
      cbn beta iota in H0. rewrite <- H0. destruct (negb (existsb (centries_eqb n21) defd)); reflexivity. }
    clear E. subst found.
    assert (RB : forall i, In i fnd -> 0 <= i < n /\
              exists ve, nth_error elems (Z.to_nat i) = Some ve /\ In ve elems /\
                         (from1 ve || from2 ve)%bool = true).
    { intros i Hi. unfold fnd in Hi. apply in_map_iff in Hi. destruct Hi as ([j ve] & E & Hi).
      cbn in E. subst j. apply filter_In in Hi. destruct Hi as [Hi Hh].
      apply indexed_elem in Hi. destruct Hi as (B & N & I). split; [assumption|]. exists ve. auto. }
    split; cbn [fst snd].
    - unfold fnd. apply filter_map_NoDup. rewrite indexed_fst. apply zseq_NoDup.
    - intros i Hi. destruct (RB i Hi) as (B & ve & E & Iv & Fr). split; [assumption|].
      intros ve' E'. rewrite E in E'. inversion E'; subst ve'. clear E'.
      rewrite exec_snoc, EI. destruct (sel_land (ve_off ve) (Hoff ve Iv)) as (L1 & L2 & L3 & L4).
      assert (Sz : sel_bit <> 0) by (rewrite Hsel; pose proof (Z.pow_pos_nonneg 2 k); lia).
      assert (D : (from1 ve = true /\ ve_vec ve = mv1) \/
                  (from1 ve = false /\ ve_vec ve = mv2)).
      { unfold from1, from2 in *. destruct (vpoint_eqb (ve_vec ve) mv1) eqn:F1.
        - left. apply vpoint_eqb_eq in F1. auto.
        - right. cbn in Fr. apply vpoint_eqb_eq in Fr. auto. }
      destruct (negb (existsb (centries_eqb n21) defd)); cbn [exec1]; unfold permute2_lanes.
      + assert (C : nth (Z.to_nat i) (map (cval sel_bit) n12) 0 =
                    cval sel_bit (if from1 ve then CA (ve_off ve) else CB (ve_off ve))).
        { apply nth_error_nth. unfold n12. rewrite !nth_error_map, E. cbn. unfold from1, from2 in Fr. rewrite Fr. reflexivity. }
        rewrite C. destruct D as [[D1 D2]|[D1 D2]]; rewrite D1; cbn [cval].
        * rewrite L1, L2, D2. change (0 =? 0) with true. reflexivity.
        * rewrite L3, L4, D2. replace (sel_bit =? 0) with false by lia. reflexivity.
      + assert (C : nth (Z.to_nat i) (map (cval sel_bit) n21) 0 =
                    cval sel_bit (if from1 ve then CB (ve_off ve) else CA (ve_off ve))).
        { apply nth_error_nth. unfold n21. rewrite !nth_error_map, E. cbn. unfold from1, from2 in Fr. rewrite Fr. reflexivity. }
        rewrite C. destruct D as [[D1 D2]|[D1 D2]]; rewrite D1; cbn [cval].
        * rewrite L3, L4, D2. replace (sel_bit =? 0) with false by lia. reflexivity.
        * rewrite L1, L2, D2. change (0 =? 0) with true. reflexivity.
  Qed.

  Lemma try_perm2_inv : forall pv0 target avs st defd, inv pv0 st ->
    inv pv0 (fst (try_perm2 sel_bit target elems avs st defd)).
  Proof.
    intros pv0 target avs [code done] defd I. unfold try_perm2. cbn [snd fst].
    destruct done as [|d0 done0]; [|exact I].
    match goal with |- context [match ?r with Some _ => _ | None => _ end] => set (R := r) end.
    assert (G : match R with
                | Some (ins, found, _) => inv pv0 ((code ++ [ins])%list, found)
                | None => True end).
    { unfold R. apply (fold_left_inv _ _ (fun r => match r with
                | Some (ins, found, _) => inv pv0 ((code ++ [ins])%list, found)
                | None => True end)); [|exact Logic.I].
      intros mv1 _ r Hr. apply fold_left_inv; [|exact Hr].
      intros mv2 _ r2 Hr2. destruct r2 as [x|]; [exact Hr2|].
      destruct (vpoint_eqb mv1 mv2) eqn:Eq; [exact Logic.I|].
      destruct (perm2_pair sel_bit target elems mv1 mv2 defd) as [[[ins found] defd']|] eqn:E; [|exact Logic.I].
      eapply perm2_pair_inv; [|exact E]. intros C. apply vpoint_eqb_eq in C. congruence. }
    destruct R as [[[ins found] defd']|]; [exact G|exact I].
  Qed.

  Lemma try_strategies_inv : forall pv0 sty target avs s, inv pv0 (fst s) ->
    inv pv0 (fst (try_strategies sty sel_bit target elems avs s)).
  Proof.
    intros pv0 sty target avs [st defd] I. cbn [fst] in I. destruct sty; cbn [try_strategies].
    - exact I.
    - cbn [fst]. apply try_align_inv. exact I.
    - pose proof (try_perm2_inv pv0 target avs _ defd (try_align_inv pv0 target avs true st I)) as H.
      destruct (try_perm2 sel_bit target elems avs (try_align target elems avs true st) defd) as [st2 defd2].
      cbn [fst] in *. apply try_perm1_inv. exact H.
  Qed.

  (* Lane-by-lane completion. *)
  Lemma exec_sets : forall l pv i,
    (forall x, In x l -> exists ve, snd x = ve /\ nth_error elems (Z.to_nat (fst x)) = Some ve) ->
    let code := map (fun ie : Z * velem => ISet (fst ie) (ve_vec (snd ie)) (ve_off (snd ie))) l in
    (In i (map fst l) -> right (ex pv code) i) /\
    (~ In i (map fst l) -> ex pv code i = pv i).
  Proof.
    induction l as [|[j ve] l IH] using rev_ind; intros pv i H code.
    - split; [intros []|reflexivity].
    - assert (H' : forall x, In x l -> exists ve, snd x = ve /\ nth_error elems (Z.to_nat (fst x)) = Some ve).
      { intros x Hx. apply H. apply in_app_iff. auto. }
      destruct (IH pv i H') as [IH1 IH2]. unfold code. rewrite !map_app. cbn [map fst snd].
      rewrite exec_snoc. cbn [exec1].
      destruct (H (j, ve)) as (ve0 & E0 & E1); [apply in_app_iff; right; left; reflexivity|].
      cbn in E0, E1. subst ve0. split.
      + intros Hi. unfold right. intros ve' E'. destruct (Z.eqb_spec i j) as [->|Ne].
        * rewrite E1 in E'. inversion E'; reflexivity.
        * apply IH1; [|exact E']. apply in_app_iff in Hi. destruct Hi as [Hi|[Hi|[]]]; [exact Hi|congruence].
      + intros Hi. rewrite in_app_iff in Hi. cbn in Hi.
        replace (i =? j) with false by (symmetry; apply Z.eqb_neq; intros ->; tauto).
        apply IH2. tauto.
  Qed.

  Lemma vec_ctor_right : forall pv0 sty avs defd i, 0 <= i < n ->
    right (ex pv0 (vec_ctor sty sel_bit elems avs defd)) i.
  Proof.
    intros pv0 sty avs defd i Hi. unfold vec_ctor. fold n.
    match goal with |- context [fold_left ?f ?l ?s] => set (R := fold_left f l s) end.
    assert (I : inv pv0 (fst R)).
    { unfold R. apply (fold_left_inv _ _ (fun s => inv pv0 (fst s))).
      - intros t _ s Hs. destruct (Z.of_nat (List.length (snd (fst s))) <? n); [|exact Hs].
        apply try_strategies_inv. exact Hs.
      - split; cbn; [constructor|intros ? []]. }
    destruct R as [[code done] defd']. cbn [fst] in I. destruct I as [N R]. cbn [fst snd] in *.
    destruct (Z.eqb_spec (Z.of_nat (List.length done)) n) as [E|E].
    - apply R. apply (NoDup_full n done N); [intros j Hj; apply R; assumption|assumption|assumption].
    - unfold exec. rewrite fold_left_app. unfold unaligned_vec_simple.
      fold (ex pv0 code).
      destruct (exec_sets (filter (fun ie => negb (mem_z (fst ie) done)) (indexed elems)) (ex pv0 code) i)
        as [H1 H2].
      { intros [j ve] Hx. apply filter_In in Hx. destruct Hx as [Hx _]. apply indexed_elem in Hx.
        exists ve. cbn. tauto. }
      cbn zeta in H1, H2. unfold exec in H1, H2 |- *.
      destruct (mem_z i done) eqn:M.
      + apply mem_z_In in M. destruct (R i M) as [_ Ri]. intros ve Ev.
        rewrite H2; [exact (Ri ve Ev)|].
        intros C. apply in_map_iff in C. destruct C as ([j v] & Ej & C). cbn in Ej. subst j.
        apply filter_In in C. destruct C as [_ C]. cbn in C. apply mem_z_In in M. rewrite M in C. discriminate.
      + apply H1. apply in_map_iff. destruct (indexed_nth _ elems i Hi) as (x & E1 & _).
        exists (i, x). split; [reflexivity|]. apply filter_In. split; [apply (nth_error_In _ _ E1)|].
        cbn. rewrite M. reflexivity.
  Qed.
End Ctor.
