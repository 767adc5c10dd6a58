(* What the arguments of options stand for. *)
From Coq Require Import Ascii String ZifyBool.
From Verif Require Import Base Cmd_Model Cmd_Spec.
Open Scope Z_scope.
Open Scope list_scope.

Definition all_ascii : list ascii := map ascii_of_nat (seq 0 256).
Lemma all_ascii_In : forall c, In c all_ascii.
Proof.
  intros c. unfold all_ascii. apply in_map_iff. exists (nat_of_ascii c). split; [apply ascii_nat_embedding|].
  apply in_seq. pose proof (nat_ascii_bounded c). lia.
Qed.

Definition oa_eqb (a : option ascii) (c : ascii) : bool := match a with Some b => Ascii.eqb b c | None => false end.
Lemma digit_all : forallb (fun c => match digit_val c with
    | Some d => (0 <=? d) && (oa_eqb (nth_error (s2l "0123456789abcdefghijklmnopqrstuvwxyz") (Z.to_nat d)) c
                              || oa_eqb (nth_error (s2l "0123456789ABCDEFGHIJKLMNOPQRSTUVWXYZ") (Z.to_nat d)) c)
    | None => negb (existsb (Ascii.eqb c) (s2l "0123456789abcdefghijklmnopqrstuvwxyzABCDEFGHIJKLMNOPQRSTUVWXYZ")) end) all_ascii = true.
Proof. vm_compute. reflexivity. Qed.
Lemma oa_eqb_iff : forall a c, oa_eqb a c = true -> a = Some c.
Proof. intros [b|] c H; [|discriminate]. cbn in H. apply Ascii.eqb_eq in H. congruence. Qed.

Lemma digit_iff : forall c d, digit_val c = Some d <-> digit_is c d.
Proof.
  intros c d. split.
  - intros E. pose proof (proj1 (forallb_forall _ _) digit_all c (all_ascii_In c)) as H. cbv beta in H. rewrite E in H.
    apply andb_prop in H as (H0 & H). exists (Z.to_nat d). split; [lia|]. apply orb_prop in H as [H|H]; apply oa_eqb_iff in H; auto.
  - intros (n & -> & [H|H]).
    all: do 36 (destruct n as [|n]; [cbn in H; injection H as <-; reflexivity|]).
    all: cbn in H; destruct n; discriminate.
Qed.
Lemma digit_nonneg : forall c d, digit_is c d -> 0 <= d.
Proof. intros c d (n & -> & _). lia. Qed.

Lemma pos_value_cons : forall b d ds, pos_value b (d :: ds) = d * b ^ Z.of_nat (List.length ds) + pos_value b ds.
Proof.
  intros b d ds. unfold pos_value. cbn [List.length seq map]. cbn [zsum nth]. rewrite <- seq_shift, map_map.
  replace (S (List.length ds) - 1 - 0)%nat with (List.length ds) by lia. f_equal. f_equal. apply map_ext. intros i. replace (S (List.length ds) - 1 - S i)%nat with (List.length ds - 1 - i)%nat by lia. reflexivity.
Qed.

Lemma digits_iff : forall b s v z, digits b s v = Some z <->
  exists ds, Forall2 digit_is s ds /\ Forall (fun d => d < b) ds /\ z = v * b ^ Z.of_nat (List.length s) + pos_value b ds.
Proof.
  intros b s. induction s as [|c s IH]; intros v z; cbn [digits].
  - split.
    + intros E. injection E as <-. exists []. repeat split; [constructor..|]. cbn. lia.
    + intros (ds & F & _ & ->). inversion F; subst. cbn. f_equal. lia.
  - split.
    + destruct (digit_val c) as [d|] eqn:Ed; [|discriminate]. destruct (d <? b) eqn:L; [|discriminate]. intros E.
      apply IH in E as (ds & F & G & ->). exists (d :: ds). apply digit_iff in Ed.
      split; [constructor; assumption|]. split; [constructor; [lia|exact G]|].
      rewrite pos_value_cons. assert (List.length s = List.length ds) as -> by (clear -F; induction F; cbn; congruence).
      cbn [List.length]. assert (List.length s = List.length ds) as -> by (clear -F; induction F; cbn; congruence).
      rewrite Nat2Z.inj_succ, Z.pow_succ_r by lia. ring.
    + intros (ds & F & G & ->). inversion F as [|c1 d s1 ds1 Hd F1]; subst. inversion G as [|? ? Hb G1]; subst.
      rewrite (proj2 (digit_iff c d) Hd). replace (d <? b) with true by lia.
      apply IH. exists ds1. split; [exact F1|]. split; [exact G1|]. rewrite pos_value_cons.
      assert (List.length s = List.length ds1) as E by (clear -F1; induction F1; cbn; congruence). cbn [List.length]. rewrite <- E.
      rewrite Nat2Z.inj_succ, Z.pow_succ_r by lia. ring.
Qed.
Lemma digits0_iff : forall b s z, digits b s 0 = Some z <-> number_in b s z.
Proof.
  intros b s z. rewrite digits_iff. unfold number_in. split; intros (ds & F & G & ->); exists ds; repeat split; auto; lia.
Qed.

Lemma nat_lit_iff : forall s z, nat_lit s = Some z <-> unsigned_lit s z.
Proof.
  assert (nx : forall x r z, In x (s2l "xX") -> ~ number_in 8 (x :: r) z).
  { intros x r z I (ds & F & G & _). inversion F as [|a d l l' Hd F1]; subst. inversion G as [|? ? Hb G1]; subst.
    apply digit_iff in Hd. destruct I as [<-|[<-|[]]]; vm_compute in Hd; injection Hd as <-; lia. }
  intros s z. unfold nat_lit, unsigned_lit. destruct s as [|c r].
  - split; [discriminate|]. intros [(x & r & E & _)|[(r & E & _)|(c & r & E & _)]]; discriminate.
  - destruct (Ascii.eqb c "0"%char) eqn:Ec.
    + apply Ascii.eqb_eq in Ec. subst c.
      destruct r as [|x [|y r]].
      * rewrite digits0_iff. split; [intros H; right; left; eauto|]. intros [(x & r & E & _)|[(r & E & H)|(c & r & E & H & _)]]; [discriminate|injection E as <-; exact H|congruence].
      * rewrite digits0_iff. split; [intros H; right; left; eauto|]. intros [(x1 & r & E & I & N & _)|[(r & E & H)|(c & r & E & H & _)]]; [injection E as _ <-; congruence|injection E as <-; exact H|congruence].
      * destruct (Ascii.eqb x "x"%char || Ascii.eqb x "X"%char) eqn:Ex.
        -- assert (I : In x (s2l "xX")) by (apply orb_prop in Ex as [E|E]; apply Ascii.eqb_eq in E; subst x; cbn; auto).
           cbn [tl]. rewrite digits0_iff. split; [intros H; left; exists x, (y :: r); split; [reflexivity|split; [exact I|split; [congruence|exact H]]]|].
           intros [(x1 & r1 & E & _ & _ & H)|[(r1 & E & H)|(c & r1 & E & H & _)]]; [congruence|injection E as <-; exfalso; exact (nx x (y :: r) z I H)|congruence].
        -- assert (I : ~ In x (s2l "xX")).
           { intros [<-|[<-|[]]]; discriminate. }
           rewrite digits0_iff. split; [intros H; right; left; eauto|].
           intros [(x1 & r1 & E & I1 & _)|[(r1 & E & H)|(c & r1 & E & H & _)]]; [injection E as <- _; exfalso; exact (I I1)|congruence|congruence].
    + rewrite digits0_iff. split; [intros H; right; right; exists c, r; repeat split; auto; intros ->; rewrite Ascii.eqb_refl in Ec; discriminate|].
      intros [(x & r1 & E & _)|[(r1 & E & _)|(c1 & r1 & _ & _ & H)]]; [| |exact H]; injection E as -> _; discriminate.
Qed.

Lemma space_all : forallb (fun c => Bool.eqb (is_space c) (existsb (Ascii.eqb c) (map ascii_of_nat [9; 10; 11; 12; 13; 32]%nat))) all_ascii = true.
Proof. vm_compute. reflexivity. Qed.
Lemma space_iff : forall c, is_space c = true <-> In c (map ascii_of_nat [9; 10; 11; 12; 13; 32]%nat).
Proof.
  intros c. pose proof (proj1 (forallb_forall _ _) space_all c (all_ascii_In c)) as H. cbv beta in H. apply Bool.eqb_prop in H. rewrite H, existsb_exists.
  split; [intros (x & I & E); apply Ascii.eqb_eq in E; subst x; exact I|intros I; exists c; split; [exact I|apply Ascii.eqb_refl]].
Qed.
Lemma skip_space_iff : forall s, exists sp, s = sp ++ skip_space s /\ (forall c, In c sp -> is_space c = true).
Proof.
  induction s as [|c s (sp & E & H)]; [exists []; split; [reflexivity|intros c []]|]. cbn [skip_space]. destruct (is_space c) eqn:Ec.
  - exists (c :: sp). split; [cbn; congruence|]. intros c' [<-|I]; auto.
  - exists []. split; [reflexivity|intros c' []].
Qed.
Lemma skip_app : forall sp r, (forall c, In c sp -> is_space c = true) -> skip_space (sp ++ r) = skip_space r.
Proof. induction sp as [|c sp IH]; intros r H; [reflexivity|]. cbn [app skip_space]. rewrite (H c) by (left; reflexivity). apply IH. intros c' I. apply H. right. exact I. Qed.

Definition signed (r : str) (z : Z) : Prop :=
  (exists m, r = "-"%char :: m /\ exists u, unsigned_lit m u /\ z = - u) \/ (exists m, r = "+"%char :: m /\ unsigned_lit m z) \/ unsigned_lit r z.
Lemma unsigned_digit : forall c r z, unsigned_lit (c :: r) z -> exists d, digit_val c = Some d /\ d < 10.
Proof.
  intros c r z [(x & r1 & E & _)|[(r1 & E & _)|(c1 & r1 & _ & _ & (ds & F & G & _))]].
  - injection E as -> _. exists 0. split; [reflexivity|lia].
  - injection E as -> _. exists 0. split; [reflexivity|lia].
  - inversion F as [|a d l l' Hd F1]; subst. inversion G; subst. exists d. split; [apply digit_iff; exact Hd|lia].
Qed.
Lemma strto_iff : forall s z, strtoll0 s = Some z <-> signed (skip_space s) z.
Proof.
  intros s z. unfold strtoll0, signed. destruct (skip_space s) as [|c r].
  - split; [discriminate|]. intros [(m & E & _)|[(m & E & _)|H]]; try discriminate. destruct H as [(x & r & E & _)|[(r & E & _)|(c & r & E & _)]]; discriminate.
  - destruct (Ascii.eqb c "-"%char) eqn:Em; [|destruct (Ascii.eqb c "+"%char) eqn:Ep].
    + apply Ascii.eqb_eq in Em. subst c. split.
      * destruct (nat_lit r) as [u|] eqn:E; [|discriminate]. cbn. intros H. injection H as <-. left. exists r. split; [reflexivity|]. exists u. split; [apply nat_lit_iff; exact E|reflexivity].
      * intros [(m & E & u & H & ->)|[(m & E & _)|H]]; [|discriminate|].
        -- injection E as <-. apply nat_lit_iff in H. rewrite H. reflexivity.
        -- apply unsigned_digit in H as (d & E & _). discriminate.
    + apply Ascii.eqb_eq in Ep. subst c. rewrite nat_lit_iff. split; [intros H; right; left; eauto|].
      intros [(m & E & _)|[(m & E & H)|H]]; [discriminate|injection E as <-; exact H|]. apply unsigned_digit in H as (d & E & _). discriminate.
    + rewrite nat_lit_iff. split; [auto|]. intros [(m & E & _)|[(m & E & _)|H]]; [| |exact H]; injection E as -> _; discriminate.
Qed.
Lemma signed_nospace : forall r z, signed r z -> skip_space r = r.
Proof.
  intros r z H. destruct r as [|c r]; [reflexivity|]. cbn [skip_space]. destruct (is_space c) eqn:E; [|reflexivity]. exfalso.
  apply space_iff in E.
  destruct H as [(m & Em & _)|[(m & Em & _)|H]].
  - injection Em as -> _. cbn in E. intuition discriminate.
  - injection Em as -> _. cbn in E. intuition discriminate.
  - apply unsigned_digit in H as (d & Ed & L). cbn in E. repeat (destruct E as [<-|E]; [vm_compute in Ed; discriminate|]). exact E.
Qed.

Lemma idx_iff : forall s z, idx_of s = Some z <-> idx_lit s z.
Proof.
  intros s z. unfold idx_of, idx_lit, llong_min, llong_max. destruct s as [|c0 s0].
  - split; [discriminate|]. intros (_ & sp & r & E & _ & H). symmetry in E. apply app_eq_nil in E as (_ & ->).
    destruct H as [(m & E1 & _)|[(m & E1 & _)|[(x & r & E1 & _)|[(r & E1 & _)|(c & r & E1 & _)]]]]; discriminate.
  - set (s := c0 :: s0). split.
    + destruct (strtoll0 s) as [v|] eqn:E; [|discriminate]. destruct ((v <=? - 2 ^ 63) || (2 ^ 63 - 1 <=? v)) eqn:B; [discriminate|].
      intros H. injection H as <-. split; [lia|]. apply strto_iff in E. destruct (skip_space_iff s) as (sp & Es & Hs).
      exists sp, (skip_space s). split; [exact Es|]. split; [intros c I; apply space_iff; apply Hs; exact I|exact E].
    + intros (B & sp & r & E & Hs & H).
      assert (strtoll0 s = Some z) as ->.
      { apply strto_iff. rewrite E, skip_app by (intros c I; apply space_iff; apply Hs; exact I). rewrite (signed_nospace r z H). exact H. }
      replace ((z <=? - 2 ^ 63) || (2 ^ 63 - 1 <=? z)) with false by lia. reflexivity.
Qed.

Lemma to_int_iff : forall z i, to_int z = i <-> (- 2 ^ 31 <= i < 2 ^ 31 /\ (2 ^ 32 | z - i)).
Proof.
  intros z i. unfold to_int. split.
  - intros <-. pose proof (Z.mod_pos_bound (z + 2 ^ 31) (2 ^ 32) ltac:(lia)). split; [lia|].
    exists ((z + 2 ^ 31) / 2 ^ 32). pose proof (Z.div_mod (z + 2 ^ 31) (2 ^ 32) ltac:(lia)). lia.
  - intros (B & k & E). replace (z + 2 ^ 31) with (i + 2 ^ 31 + k * 2 ^ 32) by lia. rewrite Z.mod_add by lia. rewrite Z.mod_small by lia. lia.
Qed.

(* comma lists *)
Notation cat := (flat_map (fun i => i ++ [","%char])).
Lemma pieces_sound : forall s cur any l, pieces s cur any = l -> ~ In ","%char cur -> (any = true <-> cur <> []) ->
  Forall (fun i => ~ In ","%char i) l /\ (cur ++ s = cat l \/ exists i l', l = l' ++ [i] /\ i <> [] /\ cur ++ s = cat l' ++ i).
Proof.
  induction s as [|c s IH]; intros cur any l E N A; cbn [pieces] in E.
  - destruct any; subst l.
    + split; [constructor; [exact N|constructor]|]. right. exists cur, []. repeat split; [apply A; reflexivity|]. cbn. apply app_nil_r.
    + split; [constructor|]. left. destruct cur; [reflexivity|]. assert (false = true) by (apply A; discriminate). discriminate.
  - destruct (Ascii.eqb c ","%char) eqn:Ec.
    + apply Ascii.eqb_eq in Ec. subst c. subst l.
      destruct (IH [] false _ eq_refl ltac:(intros []) ltac:(split; [discriminate|congruence])) as (F & H).
      split; [constructor; assumption|]. cbn [app] in H. cbn [flat_map]. destruct H as [H|(i & l' & El & Ni & H)].
      * left. rewrite <- H, <- app_assoc. reflexivity.
      * right. exists i, (cur :: l'). rewrite El. split; [reflexivity|]. split; [exact Ni|]. cbn [flat_map]. rewrite H, <- !app_assoc. reflexivity.
    + assert (Hc : c <> ","%char) by (intros ->; rewrite Ascii.eqb_refl in Ec; discriminate).
      destruct (IH (cur ++ [c]) true l E) as (F & H).
      * rewrite in_app_iff. cbn. intuition congruence.
      * split; [intros _; destruct cur; discriminate|reflexivity].
      * split; [exact F|]. rewrite <- app_assoc in H. exact H.
Qed.
Lemma pieces_item : forall i s cur any, ~ In ","%char i -> pieces (i ++ ","%char :: s) cur any = (cur ++ i) :: pieces s [] false.
Proof.
  induction i as [|c i IH]; intros s cur any N; cbn [app pieces].
  - rewrite Ascii.eqb_refl, app_nil_r. reflexivity.
  - replace (Ascii.eqb c ","%char) with false.
    2: { symmetry. destruct (Ascii.eqb c ","%char) eqn:E; [|reflexivity]. apply Ascii.eqb_eq in E. exfalso. apply N. left. exact E. }
    rewrite IH by (intros I; apply N; right; exact I). rewrite <- app_assoc. reflexivity.
Qed.
Lemma pieces_last : forall i cur any, ~ In ","%char i -> (i <> [] \/ any = true) -> pieces i cur any = [cur ++ i].
Proof.
  induction i as [|c i IH]; intros cur any N H; cbn [pieces].
  - destruct H as [H| ->]; [congruence|]. rewrite app_nil_r. reflexivity.
  - replace (Ascii.eqb c ","%char) with false.
    2: { symmetry. destruct (Ascii.eqb c ","%char) eqn:E; [|reflexivity]. apply Ascii.eqb_eq in E. exfalso. apply N. left. exact E. }
    rewrite IH by (auto; intros I; apply N; right; exact I). rewrite <- app_assoc. reflexivity.
Qed.
Lemma pieces_cat : forall l s, Forall (fun i => ~ In ","%char i) l -> pieces (cat l ++ s) [] false = l ++ pieces s [] false.
Proof.
  intros l s F. induction F as [|i l N F IH]; [reflexivity|]. cbn [flat_map]. rewrite <- !app_assoc. cbn [app]. rewrite pieces_item by exact N. cbn [app]. rewrite IH. reflexivity.
Qed.
Lemma pieces_iff : forall s l, pieces s [] false = l <-> comma_list s l.
Proof.
  intros s l. split.
  - intros E. destruct (pieces_sound s [] false l E ltac:(intros []) ltac:(split; [discriminate|congruence])) as (F & H). split; [exact F|exact H].
  - intros (F & [-> |(i & l' & -> & Ni & ->)]).
    + rewrite <- (app_nil_r (cat l)). rewrite pieces_cat by exact F. cbn. apply app_nil_r.
    + apply Forall_app in F as (F & G). inversion G; subst. rewrite pieces_cat by exact F. rewrite pieces_last by auto. reflexivity.
Qed.

Lemma str_eqb_iff' : forall a b, str_eqb a b = true <-> a = b.
Proof. intros. unfold str_eqb. destruct (list_eq_dec ascii_dec a b); split; congruence. Qed.

Theorem spells_iff : forall (D : Type) (double_of : str -> option D) k a v, arg_value double_of k (Some a) = Some v <-> spells double_of k a v.
Proof.
  intros D double_of k a v. destruct k; cbn [arg_value spells].
  - split; [discriminate|intros []].
  - destruct a as [|c a]; [split; [discriminate|intros (H & _); congruence]|].
    destruct (double_of (c :: a)) as [d|]; cbn.
    + split; [intros E; injection E as <-; split; [discriminate|eauto]|]. intros (_ & d' & E & ->). congruence.
    + split; [discriminate|]. intros (_ & d' & E & _). discriminate.
  - destruct (idx_of a) as [z|] eqn:E; cbn.
    + split.
      * intros H. injection H as <-. exists z, (to_int z). split; [apply idx_iff; exact E|]. split; [reflexivity|]. apply to_int_iff. reflexivity.
      * intros (z' & i & H & -> & H'). apply idx_iff in H. assert (z' = z) by congruence. subst z'. f_equal. f_equal. apply to_int_iff. exact H'.
    + split; [discriminate|]. intros (z' & i & H & _). apply idx_iff in H. congruence.
  - destruct (idx_of a) as [z|] eqn:E; cbn.
    + split; [intros H; injection H as <-; exists z; split; [apply idx_iff; exact E|reflexivity]|]. intros (z' & H & ->). apply idx_iff in H. congruence.
    + split; [discriminate|]. intros (z' & H & _). apply idx_iff in H. congruence.
  - split; [intros E; congruence|intros ->; reflexivity].
  - set (l := pieces a [] false).
    assert (Q : Nat.ltb 0 (List.length allowed) && negb (forallb (fun p => existsb (str_eqb p) allowed) l) = false <-> (allowed = [] \/ incl l allowed)).
    { destruct allowed as [|x al]; [cbn; tauto|]. set (al' := x :: al). change (Nat.ltb 0 (List.length al')) with true. cbn [andb].
      rewrite Bool.negb_false_iff, forallb_forall. split.
      - intros H. right. intros i Ii. specialize (H i Ii). apply existsb_exists in H as (y & Iy & Ey). apply str_eqb_iff' in Ey. subst y. exact Iy.
      - intros [H|H]; [discriminate|]. intros i Ii. apply existsb_exists. exists i. split; [apply H; exact Ii|apply str_eqb_iff'; reflexivity]. }
    destruct (_ && _) eqn:B.
    + split; [discriminate|]. intros (l' & C & -> & H). apply pieces_iff in C. fold l in C. subst l'. assert (true = false) by (apply Q; exact H). discriminate.
    + split.
      * intros E. injection E as <-. exists l. split; [apply pieces_iff; reflexivity|]. split; [reflexivity|apply Q; reflexivity].
      * intros (l' & C & -> & H). apply pieces_iff in C. fold l in C. congruence.
Qed.
