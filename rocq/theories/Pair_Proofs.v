(* Proofs for Pair_Model: paired functions have arguments of the same values. *)
From Coq Require Import String QArith.
From Verif Require Import Base Expr_Model Expr_Spec Expr_Proofs ExprOpt_Proofs Print_Model Print_Spec PrintEval_Proofs PrintRun_Proofs Pair_Model.
Open Scope Z_scope.

(* The left-to-right value is the value in a number system without code, indices and modulo. *)
Definition plain {V} (N : nsys V) : nsys V :=
  mkNsys V (n_const N) (fun _ => n_bad N) (n_var N) (fun _ _ => n_bad N) (n_fun N) (n_neg N) (n_sub N) (n_div N) (fun _ _ => n_bad N)
    (n_add N) (n_zero N) (n_mul N) (n_one N) (n_bad N).
Lemma plain_lawful {V} (N : nsys V) : lawful N -> lawful (plain N).
Proof. intros H. exact H. Qed.

Section Plain.
  Context {V : Type}.
  Variable N : nsys V.
  Hypothesis HN : lawful N.

  Lemma fold_left_right (op : V -> V -> V) u (f : expr -> V) : comm_monoid op u -> forall l x,
    fold_left (fun s y => op s (f y)) l x = op x (fold_right (fun y s => op (f y) s) u l).
  Proof.
    intros (C & A & U). induction l as [|y l IH]; intros x; cbn [fold_left fold_right].
    - rewrite C, U. reflexivity.
    - rewrite IH, A. reflexivity.
  Qed.

  Lemma lval_plain : forall e, lval N e = value (plain N) e.
  Proof.
    destruct HN as (HA & HM & _).
    induction e as [l ops IH] using expr_ind2.
    destruct l as [q|s|s|d ty| |o|o|g]; try reflexivity.
    - destruct ops as [|a [|]]; try reflexivity. cbn. inversion IH; subst. congruence.
    - destruct o; destruct ops as [|a [|b [|]]]; try reflexivity; cbn; inversion IH as [|? ? I1 I2]; subst; inversion I2; subst; congruence.
    - destruct o; destruct ops as [|a l]; try reflexivity; cbn [lval value]; inversion IH as [|? ? I1 I2]; subst.
      + rewrite (fold_left_right (n_add N) (n_zero N) (lval N) HA). cbn [fold_right]. rewrite I1. change (n_add (plain N)) with (n_add N). change (n_zero (plain N)) with (n_zero N). apply (f_equal (n_add N _)).
        clear - I2. induction I2 as [|x l Hx _ IHl]; cbn; [reflexivity|]. rewrite Hx, IHl. reflexivity.
      + rewrite (fold_left_right (n_mul N) (n_one N) (lval N) HM). cbn [fold_right]. rewrite I1. change (n_mul (plain N)) with (n_mul N). change (n_one (plain N)) with (n_one N). apply (f_equal (n_mul N _)).
        clear - I2. induction I2 as [|x l Hx _ IHl]; cbn; [reflexivity|]. rewrite Hx, IHl. reflexivity.
    - cbn [lval value plain n_fun]. f_equal. apply map_ext_in. intros x Hx. rewrite Forall_forall in IH. auto.
  Qed.

  Lemma plain_printable B : forall e, printable N B e -> value (plain N) e = value N e.
  Proof.
    induction e as [l ops IH] using expr_ind2. intros P.
    assert (K : Forall (printable N B) ops -> map (value (plain N)) ops = map (value N) ops).
    { intros F. apply map_ext_in. intros x Hx. rewrite Forall_forall in *. auto. }
    assert (KF : forall op (u : V), Forall (printable N B) ops ->
      fold_right (fun x s => op (value (plain N) x) s) u ops = fold_right (fun x s => op (value N x) s) u ops).
    { intros op u F. specialize (K F). clear - K. induction ops as [|x ops IHo]; cbn in *; [reflexivity|]. injection K as K1 K2. rewrite K1, IHo; auto. }
    destruct l as [q|s|s|d ty| |o|o|g]; try reflexivity; cbn [printable] in P; destruct P as (_ & P); try contradiction.
    - destruct ops as [|a [|]]; try reflexivity. cbn. inversion IH; subst. destruct P as (P1 & _). cbn. f_equal. auto.
    - destruct o; destruct ops as [|a [|b [|]]]; try reflexivity; try contradiction; cbn; inversion IH as [|? ? I1 I2]; subst; inversion I2; subst; f_equal; tauto.
    - destruct P as (P1 & _). apply printable_list in P1. destruct o; cbn [value plain n_add n_zero n_mul n_one]; apply KF; auto.
    - destruct P as (_ & P1). apply printable_list in P1. cbn [value plain n_fun]. f_equal. apply K; auto.
  Qed.

  Lemma lval_value B e : printable N B e -> lval N e = value N e.
  Proof. intros P. rewrite lval_plain. apply (plain_printable B); auto. Qed.

  Variable h : heap.
  Hypothesis Hh : hinv h.

  Definition good (a b : Z) : Prop := exists f g ps qs, h a = Some (LFunc f, ps) /\ h b = Some (LFunc g, qs) /\ known_pair f g = true /\
    forall es es', Forall2 (stands h) ps es -> Forall2 (stands h) qs es' -> map (lval N) es = map (lval N) es'.
  Definition all_good (m : pairing) : Prop := forall a b, m a = Some b -> good a b.

  Lemma ops_same_ok tf : forall ps qs es es', Forall2 (stands h) ps es -> Forall2 (stands h) qs es' ->
    Forall (fun e => (height e <= tf)%nat) es -> Forall (fun e => (height e <= tf)%nat) es' ->
    exists b, ops_same tf h ps qs = Ok b /\ (b = true -> map (lval N) es = map (lval N) es').
  Proof using HN Hh.
    intros ps qs es es' F. revert qs es'. induction F as [|p e ps es Sp F IH]; intros qs es' F' L L'; inversion F' as [|q o qs' es1 Sq F1]; subst; cbn [ops_same].
    - exists true. auto.
    - exists false. split; [auto|discriminate].
    - exists false. split; [auto|discriminate].
    - inversion L as [|? ? L1 L2]; subst. inversion L' as [|? ? L3 L4]; subst.
      rewrite (tree_of_ok tf h p e Sp L1), (tree_of_ok tf h q o Sq L3). cbn [rbind]. destruct (is_same e o) eqn:Sm.
      + destruct (IH qs' es1 F1 L2 L4) as (b & -> & Hb). exists b. split; [reflexivity|]. intros Eb. cbn [map]. rewrite (Hb Eb). f_equal.
        rewrite !lval_plain. apply (same_stands V (plain N) (plain_lawful N HN) h p q e o Hh Sp Sq Sm).
      + exists false. split; [auto|discriminate].
  Qed.

  Definition seen_fun (tf : nat) (o : Z) : Prop := exists f ps es, h o = Some (LFunc f, ps) /\ Forall2 (stands h) ps es /\ Forall (fun e => (height e <= tf)%nat) es.

  Lemma make_pair_ok tf m a b : all_good m -> seen_fun tf a -> seen_fun tf b ->
    exists x, make_pair tf h m a b = Ok x /\ match x with Some m' => all_good m' | None => True end.
  Proof using HN Hh.
    intros G (f & ps & es & Ha & Fa & La) (g & qs & es' & Hb & Fb & Lb). unfold make_pair. rewrite Ha, Hb.
    destruct (List.length ps =? List.length qs)%nat; [|exists None; auto].
    destruct (ops_same_ok tf ps qs es es' Fa Fb La Lb) as (s & -> & Hs). cbn [rbind].
    destruct s; [|exists None; auto]. destruct (pair_names f g) eqn:Kn; [|exists None; auto].
    assert (K1 : known_pair f g = true) by exact Kn. assert (K2 : known_pair g f = true) by (unfold known_pair; rewrite orb_comm, (andb_comm (String.eqb g "cos")), (andb_comm (String.eqb g "sin")); exact Kn).
    exists (Some (pset (pset m a b) b a)). split; [reflexivity|].
    assert (SF : forall (ps : list Z) es1 es2, Forall2 (stands h) ps es1 -> Forall2 (stands h) ps es2 -> es1 = es2).
    { clear. intros ps es1 es2 F1. revert es2. induction F1 as [|p e ps es1 S1 _ IH]; intros es2 F2; inversion F2; subst; f_equal; auto. eapply stands_fun; eauto. }
    assert (Gab : good a b).
    { exists f, g, ps, qs. repeat (split; [assumption|]). intros e1 e2 F1 F2.
      rewrite (SF ps e1 es F1 Fa), (SF qs e2 es' F2 Fb). auto. }
    assert (Gba : good b a).
    { exists g, f, qs, ps. repeat (split; [assumption|]). intros e1 e2 F1 F2.
      rewrite (SF qs e1 es' F1 Fb), (SF ps e2 es F2 Fa). symmetry. auto. }
    intros x y. unfold pset. destruct (Z.eqb_spec x b) as [->|]; [intros [= <-]; exact Gba|].
    destruct (Z.eqb_spec x a) as [->|]; [intros [= <-]; exact Gab|]. apply G.
  Qed.

  Lemma find_pair_ok tf a seen : forall m, all_good m -> seen_fun tf a -> (forall o, In o seen -> seen_fun tf o) ->
    exists m', find_pair tf h m a seen = Ok m' /\ all_good m'.
  Proof using HN Hh.
    induction seen as [|o seen IH]; intros m G Ha Hs; cbn [find_pair].
    - exists m; auto.
    - destruct (make_pair_ok tf m a o G Ha (Hs o (or_introl eq_refl))) as (x & -> & Gx). cbn [rbind]. destruct x as [m'|].
      + exists m'; auto.
      + apply IH; auto. intros; apply Hs; right; auto.
  Qed.

  Definition st_ok (tf : nat) (st : pairing * list Z) : Prop := all_good (fst st) /\ forall o, In o (snd st) -> seen_fun tf o.

  Lemma pair_visit_ok tf : forall fuel a e st, stands h a e -> (height e <= fuel)%nat -> (height e <= tf)%nat -> st_ok tf st ->
    exists st', pair_visit tf fuel h st a = Ok st' /\ st_ok tf st'.
  Proof using HN Hh.
    induction fuel as [|fuel IH]; intros a e st Se L1 L2 Hst; [destruct e; cbn in L1; lia|].
    destruct (stands_inv h a e Se) as (l & ps & es & -> & Ha & F).
    assert (LK : Forall (fun e => (height e <= fuel)%nat /\ (height e <= tf)%nat) es).
    { cbn [height] in L1, L2. clear - L1 L2. induction es as [|x es IH]; constructor; cbn [fold_right] in *; [lia|apply IH; lia]. }
    cbn [pair_visit]. rewrite Ha.
    assert (K : exists st', rfold (fun st p => pair_visit tf fuel h st p) ps st = Ok st' /\ st_ok tf st').
    { clear Ha Se L1 L2. revert st Hst. induction F as [|p e ps es Sp F IHF]; intros st Hst; cbn [rfold]; [exists st; auto|].
      inversion LK as [|? ? [K1 K2] K3]; subst. destruct (IH p e st Sp K1 K2 Hst) as (st1 & -> & H1). cbn [rbind]. apply IHF; auto. }
    destruct l; try exact K. clear K. destruct st as [m seen]. destruct Hst as [G Hs]. cbn [fst snd] in *.
    destruct (zmem a seen); [exists (m, seen); split; [reflexivity|split; auto]|].
    assert (Sa : seen_fun tf a).
    { exists f, ps, es. repeat (split; [assumption|]). eapply Forall_impl; [|exact LK]. cbn. tauto. }
    destruct (find_pair_ok tf a seen m G Sa Hs) as (m' & -> & G'). cbn [rbind]. exists (m', set_insert a seen). split; [reflexivity|].
    split; [exact G'|]. intros o Ho. apply set_insert_In in Ho. destruct Ho as [->|Ho]; auto.
  Qed.
End Plain.

Lemma Forall2_len {A B} (R : A -> B -> Prop) l m : Forall2 R l m -> List.length l = List.length m.
Proof. induction 1; cbn; congruence. Qed.

Lemma cse_kept : forall V (N : nsys V), lawful N -> forall h roots es, nodes_ok h -> no_clash h -> Forall2 (stands h) roots es ->
  exists f0, forall fuel, (f0 <= fuel)%nat -> exists h' roots' es', cse fuel h roots = Ok (h', roots') /\ nodes_ok h' /\ no_clash h' /\
    Forall2 (stands h') roots' es' /\ map (value N) es' = map (value N) es.
Proof.
  intros V N HN h roots es A B F. exists (lheight es). intros fuel Lf.
  assert (L : forall e, In e es -> (height e <= fuel)%nat).
  { intros e Ie. assert (height e <= lheight es)%nat; [|lia]. clear - Ie. unfold lheight. induction es as [|x es IH]; [contradiction|]. cbn. destruct Ie as [->|Ie]; [lia|specialize (IH Ie); lia]. }
  destruct (cse_eqs_ok V N HN fuel roots h [] es (conj A B) F L) as (h' & seen' & roots' & E1 & K & es' & E2 & E3); [intros o []|].
  destruct (shape_inv h h' (proj1 K) (conj A B)) as [A' B'].
  exists h', roots', es'. split; [unfold cse; rewrite E1; reflexivity|]. repeat (split; [assumption|]). assumption.
Qed.

Lemma height_bound V (N : nsys V) : lawful N -> forall h roots es, nodes_ok h -> no_clash h -> Forall2 (stands h) roots es ->
  forall fuel, (lheight es <= fuel)%nat -> exists m, pair_all fuel h roots = Ok m /\ pairs_ok N h m.
Proof.
  intros HN h roots es A B F fuel Lf. unfold pair_all.
  assert (K : forall st, st_ok N h fuel st -> exists st', rfold (fun st r => pair_visit fuel fuel h st r) roots st = Ok st' /\ st_ok N h fuel st').
  { induction F as [|p e ps es Sp F IH]; intros st Hst; cbn [rfold]; [exists st; auto|].
    unfold lheight in *. cbn [fold_right] in Lf.
    destruct (pair_visit_ok N HN h (conj A B) fuel fuel p e st Sp) as (st1 & -> & H1); [lia|lia|exact Hst|]. cbn [rbind]. apply IH; auto. lia. }
  destruct (K (fun _ => None, [])) as (st & -> & G & _); [split; [intros a b H; discriminate|intros o []]|].
  cbn [rbind]. exists (fst st). split; [reflexivity|]. exact G.
Qed.

Theorem pair_all_ok : forall V (N : nsys V), lawful N -> forall h roots es, nodes_ok h -> no_clash h -> Forall2 (stands h) roots es ->
  exists f0, forall fuel, (f0 <= fuel)%nat -> exists m, pair_all fuel h roots = Ok m /\ pairs_ok N h m.
Proof. intros V N HN h roots es A B F. exists (lheight es). intros fuel Lf. exact (height_bound V N HN h roots es A B F fuel Lf). Qed.

Theorem compiled_ok : forall V (N : nsys V) ix B, lawful N -> ints_exact N B -> forall h roots es,
  nodes_ok h -> no_clash h -> Forall2 (stands h) roots es ->
  exists f0, forall fuel, (f0 <= fuel)%nat -> exists h' roots' es', cse fuel h roots = Ok (h', roots') /\ Forall2 (stands h') roots' es' /\
  exists f1, forall fuel', (f1 <= fuel')%nat -> exists m, pair_all fuel' h' roots' = Ok m /\
  (Forall (printable N B) es' -> forall points count size max_size min_size, List.length points = List.length roots ->
  exists f2, forall f, (f2 <= f)%nat -> exists prog en,
    print_part h' count size m max_size min_size f (combine points roots') = Ok prog /\
    run N ix (fun _ => None) prog = Some (en, combine points (map (value N) es))).
Proof.
  intros V N ix B HN HB h roots es A1 A2 F.
  destruct (cse_kept V N HN h roots es A1 A2 F) as (f0 & H0). exists f0. intros fuel Hf.
  destruct (H0 fuel Hf) as (h' & roots' & es' & C & A1' & A2' & F' & E). exists h', roots', es'. split; [exact C|]. split; [exact F'|].
  exists (lheight es'). intros fuel' Hf'. destruct (height_bound V N HN h' roots' es' A1' A2' F' fuel' Hf') as (m & -> & P).
  exists m. split; [reflexivity|]. intros Pr points count size mx mn Hl.
  assert (Len : List.length points = List.length roots').
  { rewrite Hl. apply Forall2_len in F. apply Forall2_len in F'. rewrite F, F'. rewrite <- (map_length (value N) es), <- E. apply map_length. }
  assert (S1 : map snd (combine points roots') = roots').
  { clear - Len. revert roots' Len. induction points as [|p points IH]; intros [|r rs] L; cbn in *; try discriminate; auto. f_equal. apply IH. lia. }
  assert (S2 : map fst (combine points roots') = points).
  { clear - Len. revert roots' Len. induction points as [|p points IH]; intros [|r rs] L; cbn in *; try discriminate; auto. f_equal. apply IH. lia. }
  destruct (print_part_ok V N ix B h' count size m mx mn (combine points roots') es' HB P) as (f2 & H2); [rewrite S1; exact F'|exact Pr|].
  exists f2. intros f Hff. destruct (H2 f Hff) as (prog & en & P1 & P2). exists prog, en. split; [exact P1|].
  rewrite P2, S2, <- E. do 3 f_equal. apply map_ext_in. intros x Hx. rewrite Forall_forall in Pr. apply (lval_value N HN B). auto.
Qed.
