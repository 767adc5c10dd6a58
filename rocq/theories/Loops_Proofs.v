From Coq Require Import ZifyBool.
From Verif Require Import Base Cover_Spec Cover_Proofs MixedRadix Idiv_Model Idiv_Proofs ParFor_Model ParFor_Proofs Loops_Model Loops_Spec.

(* ---------- plain nested order ---------- *)
Lemma nest_In : forall ns os, In os (nest ns) <-> in_sizes ns os.
Proof.
  induction ns as [|n ns IH]; intros os; cbn.
  - split; [intros [<-|[]]; constructor|intros H; inversion H; auto].
  - rewrite in_flat_map. split.
    + intros (x & Hx & Hm). apply in_map_iff in Hm as (r & <- & Hr). apply zseq_In in Hx. constructor; [lia|]. apply IH. exact Hr.
    + intros H. inversion H as [|? x ? r Hx Hr]; subst. exists x. split; [apply zseq_In; lia|]. apply in_map. apply IH. exact Hr.
Qed.

Lemma NoDup_app' : forall A (a b : list A), NoDup a -> NoDup b -> (forall x, In x a -> ~ In x b) -> NoDup (a ++ b).
Proof.
  induction a as [|x a IH]; intros b Ha Hb H; [exact Hb|]. cbn. inversion Ha; subst. constructor.
  - rewrite in_app_iff. intros [|]; [contradiction|]. apply (H x); [left; reflexivity|assumption].
  - apply IH; auto. intros y Hy. apply H. right. exact Hy.
Qed.

Lemma NoDup_flat_map : forall A B (f : A -> list B) l,
  NoDup l -> (forall a, In a l -> NoDup (f a)) -> (forall a a' x, In a l -> In a' l -> In x (f a) -> In x (f a') -> a = a') -> NoDup (flat_map f l).
Proof.
  induction l as [|a l IH]; intros N F D; [constructor|]. cbn. inversion N; subst. apply NoDup_app'.
  - apply F. left. reflexivity.
  - apply IH; auto. intros; apply F; right; assumption. intros; eapply D; eauto; right; assumption.
  - intros x Hx Hy. apply in_flat_map in Hy as (a' & Ha' & Hx'). assert (a = a') by (eapply D; eauto; [left; reflexivity|right; assumption]). subst. contradiction.
Qed.

Lemma nest_NoDup : forall ns, NoDup (nest ns).
Proof.
  induction ns as [|n ns IH]; cbn; [repeat constructor; auto|]. apply NoDup_flat_map.
  - apply zseq_NoDup.
  - intros a _. apply FinFun.Injective_map_NoDup; [|exact IH]. intros x y E. congruence.
  - intros a a' x _ _ H1 H2. apply in_map_iff in H1 as (r1 & <- & _). apply in_map_iff in H2 as (r2 & E & _). congruence.
Qed.

Lemma flat_map_length_const : forall A B (f : A -> list B) c l, (forall a, In a l -> length (f a) = c) -> length (flat_map f l) = (length l * c)%nat.
Proof.
  induction l as [|a l IH]; intros H; [reflexivity|]. cbn. rewrite app_length. rewrite (H a) by (left; reflexivity). rewrite IH by (intros; apply H; right; assumption). reflexivity.
Qed.

Lemma nest_length : forall ns, Forall (fun n => 0 <= n) ns -> length (nest ns) = Z.to_nat (zprod ns).
Proof.
  induction 1 as [|n ns Hn H IH]; [reflexivity|]. cbn [nest zprod].
  rewrite (flat_map_length_const _ _ _ (Z.to_nat (zprod ns))) by (intros; rewrite map_length; exact IH).
  rewrite zseq_length. assert (0 <= zprod ns). { clear -H. induction H; cbn; [lia|]. nia. } rewrite Z2Nat.inj_mul by lia. reflexivity.
Qed.

Lemma zprod_nonneg : forall ns, Forall (fun n => 0 <= n) ns -> 0 <= zprod ns.
Proof. induction 1; cbn; nia. Qed.

(* any injective enumeration of the box is a permutation of the nested order *)
Lemma enum_perm : forall ns (g : Z -> list Z), Forall (fun n => 0 <= n) ns ->
  (forall i, 0 <= i < zprod ns -> in_sizes ns (g i)) ->
  (forall i j, 0 <= i < zprod ns -> 0 <= j < zprod ns -> g i = g j -> i = j) ->
  Permutation (map g (zseq (zprod ns))) (nest ns).
Proof.
  intros ns g Hn Hin Hinj. apply NoDup_Permutation_bis.
  - apply NoDup_map_on; [|apply zseq_NoDup]. intros x y Hx Hy. apply zseq_In in Hx, Hy. apply Hinj; assumption.
  - rewrite nest_length, map_length, zseq_length by exact Hn. lia.
  - intros os H. apply in_map_iff in H as (i & <- & Hi). apply zseq_In in Hi. apply nest_In. apply Hin. exact Hi.
Qed.

(* ---------- digits, outermost first ---------- *)
Fixpoint od (ns : list Z) (i : Z) : list Z :=
  match ns with [] => [] | n :: rest => (i / zprod rest) mod n :: od rest i end.
Fixpoint opos (ns os : list Z) : Z :=
  match ns, os with n :: ns', o :: os' => o * zprod ns' + opos ns' os' | _, _ => 0 end.

Lemma opos_od : forall ns i, Forall (fun n => 0 < n) ns -> opos ns (od ns i) = i mod zprod ns.
Proof.
  induction 1 as [|n ns Hn H IH]; cbn [od opos zprod]; [rewrite Z.mod_1_r; reflexivity|].
  pose proof (zprod_pos ns H). rewrite IH. rewrite (Z.mul_comm n (zprod ns)), Z.rem_mul_r by lia. lia.
Qed.
Lemma od_in : forall ns i, Forall (fun n => 0 < n) ns -> in_sizes ns (od ns i).
Proof. induction 1; cbn; constructor; [apply Z.mod_pos_bound; lia|assumption]. Qed.
Lemma opos_bound : forall ns os, in_sizes ns os -> 0 <= opos ns os < zprod ns.
Proof. induction 1 as [|n o ns os Ho H IH]; cbn; [lia|]. nia. Qed.
Lemma od_opos : forall ns os, in_sizes ns os -> od ns (opos ns os) = os.
Proof.
  induction 1 as [|n o ns os Ho H IH]; cbn [od opos]; [reflexivity|]. pose proof (opos_bound _ _ H) as B.
  f_equal.
  - rewrite Z.div_add_l, (Z.div_small (opos ns os)) by lia. rewrite Z.add_0_r. apply Z.mod_small. lia.
  - rewrite <- IH at 2. assert (P : Forall (fun n => 0 < n) ns) by (eapply in_sizes_pos; exact H).
    assert (G : forall l k c, Forall (fun n => 0 < n) l -> (exists m, c = m * zprod l) -> od l (c + k) = od l k).
    { clear. induction l as [|n l IHl]; intros k c F (m & ->); [reflexivity|]. inversion F; subst. pose proof (zprod_pos l ltac:(assumption)).
      cbn [od zprod]. f_equal.
      - replace (m * (n * zprod l) + k) with (k + (m * n) * zprod l) by ring. rewrite Z.div_add by lia. rewrite Z.mod_add by lia. reflexivity.
      - apply IHl; [assumption|]. exists (m * n). ring. }
    apply G; [exact P|]. exists o. reflexivity.
Qed.
Lemma od_inj : forall ns i j, Forall (fun n => 0 < n) ns -> 0 <= i < zprod ns -> 0 <= j < zprod ns -> od ns i = od ns j -> i = j.
Proof.
  intros ns i j H Hi Hj E. pose proof (opos_od ns i H) as A. pose proof (opos_od ns j H) as B.
  rewrite E in A. rewrite !Z.mod_small in A, B by lia. congruence.
Qed.

(* ---------- serpentine and square wave ---------- *)
Definition sqc (sq : bool) (n p pn : Z) : bool := sq && (1 <? n) && (p / 2 <? pn / 2).
Definition sq_out (sq : bool) (n p pn d : Z) : Z * Z :=
  if sqc sq n p pn then let x := d + n * (p mod 2) in (2 * (p / 2) + (x + x / 2) mod 2, x / 2) else (p, d).

Lemma land1 : forall p, Z.land p 1 = p mod 2.
Proof. intros. change 1 with (Z.ones 1) at 1. rewrite Z.land_ones by lia. reflexivity. Qed.
Lemma land2 : forall x, Z.shiftr (Z.land x 2) 1 = (x / 2) mod 2.
Proof.
  intros. rewrite Z.shiftr_land. change (Z.shiftr 2 1) with 1. rewrite land1. rewrite Z.shiftr_div_pow2 by lia. reflexivity.
Qed.
Lemma lxor_bits : forall a b, 0 <= a < 2 -> 0 <= b < 2 -> Z.lxor a b = (a + b) mod 2.
Proof. intros a b Ha Hb. assert (a = 0 \/ a = 1) as [-> | ->] by lia; assert (b = 0 \/ b = 1) as [-> | ->] by lia; reflexivity. Qed.
Lemma lor_clear : forall p b, 0 <= b < 2 -> Z.lor (Z.land p (-2)) b = 2 * (p / 2) + b.
Proof.
  intros p b Hb. assert (E : Z.land p (-2) = 2 * (p / 2)).
  { change (-2) with (Z.lnot 1). rewrite <- Z.ldiff_land. change 1 with (Z.ones 1). rewrite Z.ldiff_ones_r by lia.
    rewrite Z.shiftl_mul_pow2, Z.shiftr_div_pow2 by lia. change (2 ^ 1) with 2. lia. }
  rewrite E. assert (b = 0 \/ b = 1) as [-> | ->] by lia; [rewrite Z.lor_0_r; lia|].
  rewrite <- Z.lxor_lor; [rewrite <- Z.add_nocarry_lxor; [lia|]|].
  - apply Z.bits_inj'. intros n Hn. rewrite Z.land_spec, Z.bits_0. destruct (Z.eq_dec n 0) as [->|]; [rewrite Z.testbit_even_0; reflexivity|].
    replace (Z.testbit 1 n) with false; [apply andb_false_r|]. symmetry. apply Z.bits_above_log2; cbn; lia.
  - apply Z.bits_inj'. intros n Hn. rewrite Z.land_spec, Z.bits_0. destruct (Z.eq_dec n 0) as [->|]; [rewrite Z.testbit_even_0; reflexivity|].
    replace (Z.testbit 1 n) with false; [apply andb_false_r|]. symmetry. apply Z.bits_above_log2; cbn; lia.
Qed.

Lemma sq_out_range : forall sq n p pn d, 0 <= d < n -> 0 <= p < pn ->
  0 <= fst (sq_out sq n p pn d) < pn /\ 0 <= snd (sq_out sq n p pn d) < n /\ fst (sq_out sq n p pn d) / 2 = p / 2.
Proof.
  intros sq n p pn d Hd Hp. unfold sq_out. destruct (sqc sq n p pn) eqn:C; cbn [fst snd]; [|lia].
  unfold sqc in C. apply andb_prop in C as (C & C2). apply Z.ltb_lt in C2.
  pose proof (Z.mod_pos_bound p 2 ltac:(lia)). set (x := d + n * (p mod 2)).
  pose proof (Z.mod_pos_bound (x + x / 2) 2 ltac:(lia)). pose proof (Z.div_mod pn 2 ltac:(lia)). pose proof (Z.mod_pos_bound pn 2 ltac:(lia)).
  assert (0 <= x < 2 * n) by (unfold x; nia). pose proof (Z.div_mod p 2 ltac:(lia)).
  split; [lia|]. split; [split; [apply Z.div_pos; lia|apply Z.div_lt_upper_bound; lia]|].
  rewrite Z.mul_comm, Z.div_add_l by lia. rewrite (Z.div_small ((x + x / 2) mod 2)) by lia. lia.
Qed.

Lemma sq_out_inj : forall sq n pn p1 d1 p2 d2, 0 <= d1 < n -> 0 <= d2 < n -> 0 <= p1 < pn -> 0 <= p2 < pn ->
  sq_out sq n p1 pn d1 = sq_out sq n p2 pn d2 -> p1 = p2 /\ d1 = d2.
Proof.
  intros sq n pn p1 d1 p2 d2 H1 H2 K1 K2 E.
  pose proof (sq_out_range sq n p1 pn d1 H1 K1) as (_ & _ & Q1). pose proof (sq_out_range sq n p2 pn d2 H2 K2) as (_ & _ & Q2).
  rewrite E in Q1. assert (Q : p1 / 2 = p2 / 2) by congruence. clear Q1 Q2.
  assert (C : sqc sq n p1 pn = sqc sq n p2 pn) by (unfold sqc; rewrite Q; reflexivity).
  unfold sq_out in E. rewrite <- C in E. destruct (sqc sq n p1 pn) eqn:C1; [|inversion E; auto].
  injection E as E1 E2. rewrite Q in E1.
  pose proof (Z.mod_pos_bound p1 2 ltac:(lia)). pose proof (Z.mod_pos_bound p2 2 ltac:(lia)).
  set (x1 := d1 + n * (p1 mod 2)) in *. set (x2 := d2 + n * (p2 mod 2)) in *.
  assert (M : (x1 + x1 / 2) mod 2 = (x2 + x2 / 2) mod 2) by lia. rewrite E2 in M.
  assert (x1 = x2). { pose proof (Z.div_mod x1 2 ltac:(lia)). pose proof (Z.div_mod x2 2 ltac:(lia)).
    pose proof (Z.mod_pos_bound x1 2 ltac:(lia)). pose proof (Z.mod_pos_bound x2 2 ltac:(lia)).
    pose proof (Z.div_mod (x1 + x2 / 2) 2 ltac:(lia)). pose proof (Z.div_mod (x2 + x2 / 2) 2 ltac:(lia)). lia. }
  assert (p1 mod 2 = p2 mod 2).
  { assert (p1 mod 2 = 0 \/ p1 mod 2 = 1) as [A|A] by lia; assert (p2 mod 2 = 0 \/ p2 mod 2 = 1) as [B|B] by lia; unfold x1, x2 in *; rewrite ?A, ?B in *; lia. }
  split; [|unfold x1, x2 in *; nia]. pose proof (Z.div_mod p1 2 ltac:(lia)). pose proof (Z.div_mod p2 2 ltac:(lia)). lia.
Qed.

(* the model of one dim step, in div/mod form *)
Definition serp_out (serp sq : bool) (n : Z) (p : option Z) (d : Z) : Z :=
  match p with
  | Some pv => if serp && (if sq then Z.land pv 2 =? 2 else Z.land pv 1 =? 1) then n - d - 1 else d
  | None => d
  end.
Definition is_nil {A} (l : list A) : bool := match l with [] => true | _ => false end.

Definition prev_ok (outer : bool) (prev : option (Z * Z)) : Prop :=
  outer = false -> exists p pn, prev = Some (p, pn) /\ 0 <= p < pn.

Lemma path_step : forall serp square outer prev n rest i,
  0 < n -> Forall (fun n => 0 < n) rest -> 0 <= i -> (outer = true -> i < n * zprod rest) -> prev_ok outer prev ->
  let d0 := (i / zprod rest) mod n in
  let sq := square && negb outer && is_nil rest in
  let pd := match prev with Some (p, pn) => let o := sq_out sq n p pn d0 in (Some (fst o), snd o) | None => (None, d0) end in
  path_ix serp square outer prev (n :: rest) i =
  rbind (path_ix serp square false (Some (serp_out serp sq n (fst pd) (snd pd), n)) rest i) (fun r =>
    Ok (fst pd, (match fst r with Some d3 => d3 | None => serp_out serp sq n (fst pd) (snd pd) end) :: snd r)).
Proof.
  intros serp square outer prev n rest i Hn Hr Hi Ho Hp d0 sq pd.
  pose proof (zprod_pos rest Hr) as Hz.
  cbn [path_ix].
  assert (A : (match rest with [] => Ok i | _ :: _ => cquot i (zprod rest) end) = Ok (i / zprod rest)).
  { destruct rest; [cbn [zprod]; rewrite Z.div_1_r; reflexivity|]. unfold cquot. destruct (zprod (z :: rest) =? 0) eqn:E; [lia|].
    rewrite Z.quot_div_nonneg by lia. reflexivity. }
  rewrite A. cbn [rbind].
  assert (Q : 0 <= i / zprod rest) by (apply Z.div_pos; lia).
  assert (B : (if outer then Ok (i / zprod rest) else crem (i / zprod rest) n) = Ok d0).
  { unfold d0. destruct outer.
    - rewrite Z.mod_small; [reflexivity|]. split; [exact Q|]. apply Z.div_lt_upper_bound; [lia|]. specialize (Ho eq_refl). lia.
    - unfold crem. destruct (n =? 0) eqn:E; [lia|]. rewrite Z.rem_mod_nonneg by lia. reflexivity. }
  rewrite B. cbn [rbind]. change (match rest with [] => true | _ :: _ => false end) with (is_nil rest). fold sq.
  assert (D0 : 0 <= d0 < n) by (unfold d0; apply Z.mod_pos_bound; lia).
  assert (C : (match prev with
      | Some (p, pn) =>
          if sq && (1 <? n) && (Z.quot p 2 <? Z.quot pn 2)
          then let x2 := d0 + n * Z.land p 1 in let lsb := Z.lxor (Z.land x2 1) (Z.shiftr (Z.land x2 2) 1) in
               (Some (Z.lor (Z.land p (-2)) lsb), Z.quot x2 2)
          else (Some p, d0)
      | None => (None, d0) end) = pd).
  { unfold pd. destruct prev as [(p & pn)|]; [|reflexivity]. unfold sq_out, sqc.
    destruct outer.
    - assert (sq = false) as -> by (unfold sq; destruct square; reflexivity). reflexivity.
    - destruct (Hp eq_refl) as (p' & pn' & E & Hpp). injection E as <- <-.
      rewrite !Z.quot_div_nonneg by lia.
      destruct (sq && (1 <? n) && (p / 2 <? pn / 2)); [|reflexivity]. cbn zeta. rewrite land1, land2, !land1.
      set (x := d0 + n * (p mod 2)). pose proof (Z.mod_pos_bound p 2 ltac:(lia)). assert (0 <= x) by (unfold x; nia).
      pose proof (Z.mod_pos_bound x 2 ltac:(lia)). pose proof (Z.mod_pos_bound (x / 2) 2 ltac:(lia)).
      rewrite lxor_bits by lia. rewrite <- Zplus_mod. rewrite lor_clear by (apply Z.mod_pos_bound; lia).
      rewrite Z.quot_div_nonneg by lia. reflexivity. }
  cbn zeta in C. rewrite C. destruct pd as (p & d1). cbn [fst snd]. reflexivity.
Qed.

Lemma serp_out_range : forall serp sq n p d, 0 <= d < n -> 0 <= serp_out serp sq n p d < n.
Proof. intros. unfold serp_out. destruct p; [destruct (_ && _)|]; lia. Qed.
Lemma serp_out_inj : forall serp sq n p d1 d2, serp_out serp sq n p d1 = serp_out serp sq n p d2 -> d1 = d2.
Proof. intros serp sq n p d1 d2. unfold serp_out. destruct p; [destruct (_ && _)|]; lia. Qed.

Lemma path_ok : forall ns serp square outer prev i,
  Forall (fun n => 0 < n) ns -> 0 <= i -> (outer = true -> i < zprod ns) -> prev_ok outer prev ->
  exists q l, path_ix serp square outer prev ns i = Ok (q, l) /\ in_sizes ns l /\
    (outer = true -> q = option_map fst prev) /\
    (forall p pn, prev = Some (p, pn) -> exists v, q = Some v /\ (outer = false -> 0 <= v < pn)).
Proof.
  induction ns as [|n ns IH]; intros serp square outer prev i Hns Hi Ho Hp.
  - exists (option_map fst prev), []. cbn. split; [reflexivity|]. split; [constructor|]. split; [reflexivity|].
    intros p pn ->. exists p. split; [reflexivity|]. intros E. destruct (Hp E) as (p' & pn' & E' & ?). injection E' as <- <-. assumption.
  - inversion Hns as [|? ? Hn Hr]; subst. cbn [zprod] in Ho.
    rewrite path_step by assumption. cbn zeta.
    set (d0 := (i / zprod ns) mod n). set (sq := square && negb outer && is_nil ns).
    set (pd := match prev with Some (p, pn) => (Some (fst (sq_out sq n p pn d0)), snd (sq_out sq n p pn d0)) | None => (None, d0) end).
    assert (D0 : 0 <= d0 < n) by (unfold d0; apply Z.mod_pos_bound; lia).
    assert (P : 0 <= snd pd < n /\ (outer = true -> fst pd = option_map fst prev) /\
                (forall p pn, prev = Some (p, pn) -> exists v, fst pd = Some v /\ (outer = false -> 0 <= v < pn))).
    { unfold pd. destruct prev as [(p & pn)|]; cbn [fst snd]; [|split; [lia|]; split; [reflexivity|intros; discriminate]].
      destruct outer.
      - assert (sq = false) as -> by (unfold sq; destruct square; reflexivity). cbn. split; [lia|]. split; [reflexivity|]. intros ? ? [= <- <-]. eexists. split; [reflexivity|discriminate].
      - destruct (Hp eq_refl) as (p' & pn' & E & Hpp). injection E as <- <-. pose proof (sq_out_range sq n p pn d0 D0 Hpp) as (A & B & _).
        split; [exact B|]. split; [discriminate|]. intros ? ? [= <- <-]. eexists. split; [reflexivity|]. intros _. exact A. }
    destruct P as (P1 & P2 & P3).
    destruct (IH serp square false (Some (serp_out serp sq n (fst pd) (snd pd), n)) i) as (q & l & E & S & _ & Q).
    { exact Hr. } { exact Hi. } { discriminate. } { intros _. do 2 eexists. split; [reflexivity|]. apply serp_out_range. exact P1. }
    destruct (Q _ _ eq_refl) as (v & -> & Hv). rewrite E. cbn [rbind fst snd].
    exists (fst pd), (v :: l). split; [reflexivity|]. split; [constructor; [apply Hv; reflexivity|exact S]|]. split; [exact P2|exact P3].
Qed.

Lemma path_inj : forall ns serp square outer prev1 prev2 i j q l,
  Forall (fun n => 0 < n) ns -> 0 <= i -> 0 <= j -> (outer = true -> i < zprod ns /\ j < zprod ns /\ prev1 = prev2) ->
  (outer = false -> exists p1 p2 pn, prev1 = Some (p1, pn) /\ prev2 = Some (p2, pn) /\ 0 <= p1 < pn /\ 0 <= p2 < pn) ->
  path_ix serp square outer prev1 ns i = Ok (q, l) -> path_ix serp square outer prev2 ns j = Ok (q, l) ->
  prev1 = prev2 /\ od ns i = od ns j.
Proof.
  induction ns as [|n ns IH]; intros serp square outer prev1 prev2 i j q l Hns Hi Hj Ho Hp E1 E2.
  - cbn in E1, E2. split; [|reflexivity]. destruct outer; [apply Ho; reflexivity|].
    destruct (Hp eq_refl) as (p1 & p2 & pn & -> & -> & _). cbn in *. congruence.
  - inversion Hns as [|? ? Hn Hr]; subst. cbn [zprod] in Ho.
    assert (Hp1 : prev_ok outer prev1) by (intros E; destruct (Hp E) as (p1 & p2 & pn & -> & _ & ? & _); eauto).
    assert (Hp2 : prev_ok outer prev2) by (intros E; destruct (Hp E) as (p1 & p2 & pn & _ & -> & _ & ?); eauto).
    rewrite path_step in E1 by (try assumption; intros; apply Ho; assumption).
    rewrite path_step in E2 by (try assumption; intros; apply Ho; assumption). cbn zeta in E1, E2.
    set (sq := square && negb outer && is_nil ns) in *.
    set (di := (i / zprod ns) mod n) in *. set (dj := (j / zprod ns) mod n) in *.
    set (pd1 := match prev1 with Some (p, pn) => (Some (fst (sq_out sq n p pn di)), snd (sq_out sq n p pn di)) | None => (None, di) end) in *.
    set (pd2 := match prev2 with Some (p, pn) => (Some (fst (sq_out sq n p pn dj)), snd (sq_out sq n p pn dj)) | None => (None, dj) end) in *.
    assert (Di : 0 <= di < n) by (unfold di; apply Z.mod_pos_bound; lia).
    assert (Dj : 0 <= dj < n) by (unfold dj; apply Z.mod_pos_bound; lia).
    assert (R1 : 0 <= snd pd1 < n).
    { unfold pd1. destruct prev1 as [(p & pn)|]; cbn [snd]; [|lia]. destruct outer.
      - assert (sq = false) as -> by (unfold sq; destruct square; reflexivity). cbn. lia.
      - destruct (Hp1 eq_refl) as (? & ? & [= <- <-] & ?). apply sq_out_range; assumption. }
    assert (R2 : 0 <= snd pd2 < n).
    { unfold pd2. destruct prev2 as [(p & pn)|]; cbn [snd]; [|lia]. destruct outer.
      - assert (sq = false) as -> by (unfold sq; destruct square; reflexivity). cbn. lia.
      - destruct (Hp2 eq_refl) as (? & ? & [= <- <-] & ?). apply sq_out_range; assumption. }
    set (s1 := serp_out serp sq n (fst pd1) (snd pd1)) in *. set (s2 := serp_out serp sq n (fst pd2) (snd pd2)) in *.
    assert (S1 : 0 <= s1 < n) by (apply serp_out_range; exact R1).
    assert (S2 : 0 <= s2 < n) by (apply serp_out_range; exact R2).
    destruct (path_ok ns serp square false (Some (s1, n)) i Hr Hi ltac:(discriminate)) as (q1 & l1 & F1 & _ & _ & Q1); [intros _; eauto|].
    destruct (path_ok ns serp square false (Some (s2, n)) j Hr Hj ltac:(discriminate)) as (q2 & l2 & F2 & _ & _ & Q2); [intros _; eauto|].
    destruct (Q1 _ _ eq_refl) as (v1 & -> & _). destruct (Q2 _ _ eq_refl) as (v2 & -> & _).
    rewrite F1 in E1. rewrite F2 in E2. cbn [rbind fst snd] in E1, E2.
    injection E1 as A1 A2. injection E2 as B1 B2. rewrite <- B2 in A2. injection A2 as -> ->.
    destruct (IH serp square false (Some (s1, n)) (Some (s2, n)) i j (Some v2) l2 Hr Hi Hj) as (X & Y).
    { discriminate. } { intros _. exists s1, s2, n. auto. } { exact F1. } { exact F2. }
    injection X as X. unfold s1, s2 in X. rewrite A1, B1 in X. apply serp_out_inj in X.
    cut (prev1 = prev2 /\ di = dj). { intros (? & D). split; [assumption|]. cbn [od]. fold di dj. rewrite D, Y. reflexivity. }
    destruct outer.
    + destruct (Ho eq_refl) as (_ & _ & <-). split; [reflexivity|]. assert (Z0 : sq = false) by (unfold sq; destruct square; reflexivity).
      unfold pd1, pd2 in X. rewrite Z0 in X. destruct prev1 as [(p & pn)|]; cbn in X; exact X.
    + destruct (Hp eq_refl) as (p1 & p2 & pn & -> & -> & K1 & K2). unfold pd1, pd2 in *. cbn [fst snd] in *.
      assert (EQ : sq_out sq n p1 pn di = sq_out sq n p2 pn dj).
      { rewrite (surjective_pairing (sq_out sq n p1 pn di)), (surjective_pairing (sq_out sq n p2 pn dj)). f_equal; congruence. }
      destruct (sq_out_inj sq n pn p1 di p2 dj) as (-> & ->); auto.
Qed.

Lemma path_perm : forall ns serp square enc, Forall (fun n => 0 < n) ns ->
  exists g, (forall i, 0 <= i < zprod ns -> exists q, path_ix serp square true enc ns i = Ok (q, g i)) /\
    Permutation (map g (zseq (zprod ns))) (nest ns).
Proof.
  intros ns serp square enc H.
  exists (fun i => match path_ix serp square true enc ns i with Ok (_, l) => l | _ => [] end).
  assert (G : forall i, 0 <= i < zprod ns -> exists q l, path_ix serp square true enc ns i = Ok (q, l) /\ in_sizes ns l /\ q = option_map fst enc).
  { intros i Hi. destruct (path_ok ns serp square true enc i H ltac:(lia) ltac:(lia)) as (q & l & E & S & Q & _); [discriminate|].
    exists q, l. auto. }
  split.
  - intros i Hi. destruct (G i Hi) as (q & l & -> & _). eauto.
  - apply enum_perm.
    + eapply Forall_impl; [|exact H]. cbn. lia.
    + intros i Hi. destruct (G i Hi) as (q & l & -> & S & _). exact S.
    + intros i j Hi Hj E. destruct (G i Hi) as (q & l & Ei & _ & Qi). destruct (G j Hj) as (q' & l' & Ej & _ & Qj). rewrite Ei, Ej in E. subst.
      apply (od_inj ns); auto.
      refine (proj2 (path_inj ns serp square true enc enc i j _ _ H _ _ _ _ Ei Ej)); [lia|lia|intros; repeat split; lia|discriminate].
Qed.

(* without serpentine and square wave the order is the nested one *)
Lemma path_plain_step : forall ns outer prev i, Forall (fun n => 0 < n) ns -> 0 <= i -> (outer = true -> i < zprod ns) -> prev_ok outer prev ->
  path_ix false false outer prev ns i = Ok (option_map fst prev, od ns i).
Proof.
  induction ns as [|n ns IH]; intros outer prev i Hns Hi Ho Hp; [reflexivity|]. inversion Hns as [|? ? Hn Hr]; subst. cbn [zprod] in Ho.
  rewrite path_step by assumption. cbn zeta. cbn [andb].
  assert (E : forall p pn d, sq_out false n p pn d = (p, d)) by reflexivity.
  assert (S : forall p d, serp_out false false n p d = d) by (intros [|] ?; reflexivity).
  assert (D0 : 0 <= (i / zprod ns) mod n < n) by (apply Z.mod_pos_bound; lia).
  destruct prev as [(p & pn)|]; rewrite ?E; cbn [fst snd]; rewrite S; (rewrite IH; [cbn; reflexivity|exact Hr|exact Hi|discriminate|intros _; eauto]).
Qed.

Lemma od_small : forall ns k c, Forall (fun n => 0 < n) ns -> od ns (c * zprod ns + k) = od ns k.
Proof.
  assert (G : forall l k c, Forall (fun n => 0 < n) l -> (exists m, c = m * zprod l) -> od l (c + k) = od l k).
  { induction l as [|n l IHl]; intros k c F (m & ->); [reflexivity|]. inversion F; subst. pose proof (zprod_pos l ltac:(assumption)).
    cbn [od zprod]. f_equal.
    - replace (m * (n * zprod l) + k) with (k + (m * n) * zprod l) by ring. rewrite Z.div_add by lia. rewrite Z.mod_add by lia. reflexivity.
    - apply IHl; [assumption|]. exists (m * n). ring. }
  intros. apply G; [assumption|]. eexists. reflexivity.
Qed.

Lemma zseq_mul : forall a b, 0 <= a -> 0 <= b -> zseq (a * b) = flat_map (fun i => map (fun j => i * b + j) (zseq b)) (zseq a).
Proof.
  intros a b Ha Hb. revert a Ha. refine (natlike_ind _ _ _).
  - reflexivity.
  - intros a Ha IH. unfold Z.succ. rewrite zseq_succ by lia. rewrite flat_map_app. cbn [flat_map]. rewrite app_nil_r.
    replace ((a + 1) * b) with (a * b + b) by ring. rewrite zseq_app by nia. rewrite IH. reflexivity.
Qed.

Lemma nest_od : forall ns, Forall (fun n => 0 < n) ns -> nest ns = map (od ns) (zseq (zprod ns)).
Proof.
  induction 1 as [|n ns Hn H IH]; [reflexivity|]. cbn [nest zprod]. pose proof (zprod_pos ns H).
  rewrite zseq_mul by lia. rewrite !flat_map_concat_map, concat_map, map_map. f_equal. apply map_ext_in. intros i Hi. apply zseq_In in Hi.
  rewrite IH, !map_map. apply map_ext_in. intros j Hj. apply zseq_In in Hj. cbn [od].
  rewrite Z.div_add_l, Z.div_small, Z.add_0_r, Z.mod_small by lia. f_equal. symmetry. apply od_small. exact H.
Qed.
