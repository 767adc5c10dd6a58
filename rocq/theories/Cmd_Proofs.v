From Coq Require Import Ascii String ZifyBool.
From Verif Require Import Base Cmd_Model Cmd_Spec.
Open Scope Z_scope.
Open Scope list_scope.

Lemma has_In : forall c s, has c s = true <-> In c s.
Proof.
  intros. unfold has. rewrite existsb_exists. split.
  - intros (x & H & E). apply Ascii.eqb_eq in E. subst. exact H.
  - intros H. exists c. split; [exact H|]. apply Ascii.eqb_refl.
Qed.
Lemma has_not : forall c s, ~ In c s -> has c s = false.
Proof. intros. destruct (has c s) eqn:E; [|reflexivity]. apply has_In in E. contradiction. Qed.

Lemma code_inj : forall a b, code a = code b -> a = b.
Proof. intros a b H. unfold code in H. apply N2Z.inj in H. rewrite <- (ascii_N_embedding a), <- (ascii_N_embedding b), H. reflexivity. Qed.

(* inside quotes everything up to the closing quote is copied *)
Lemma tok_inq : forall s q r ok tmp acc, ~ In q s ->
  tok (s ++ q :: r) (Some q) ok tmp acc = tok r None true (tmp ++ s) acc.
Proof.
  induction s as [|c s IH]; intros q r ok tmp acc H; cbn [app tok].
  - rewrite Ascii.eqb_refl, app_nil_r. reflexivity.
  - destruct (Ascii.eqb_spec q c) as [->|]; [exfalso; apply H; left; reflexivity|].
    rewrite IH by (intros I; apply H; right; exact I). rewrite <- app_assoc. reflexivity.
Qed.

(* plain characters are copied *)
Definition plain (c : ascii) : Prop := is_space c = false /\ c <> quot /\ c <> apos.
Lemma tok_plain : forall s r ok tmp acc, Forall plain s -> s <> [] ->
  tok (s ++ r) None ok tmp acc = tok r None true (tmp ++ s) acc.
Proof.
  induction s as [|c s IH]; intros r ok tmp acc H Hn; [congruence|].
  inversion H as [|? ? (H1 & H2 & H3) HF]; subst. cbn [app tok]. rewrite H1.
  destruct (Ascii.eqb_spec c quot); [contradiction|]. destruct (Ascii.eqb_spec c apos); [contradiction|]. cbn [orb].
  destruct s as [|d s].
  - cbn [app]. reflexivity.
  - rewrite IH by (auto; discriminate). rewrite <- app_assoc. reflexivity.
Qed.

Lemma clean_cases : forall a, clean a ->
  (existsb is_quotable_ws a = true /\ ~ In quot a /\ ~ In apos a) \/
  (existsb is_quotable_ws a = false /\ Forall plain a /\ a <> []).
Proof.
  intros a (H0 & H1 & H2 & H3). destruct (existsb is_quotable_ws a) eqn:E; [left; auto|right].
  split; [reflexivity|]. split; [|exact H0].
  destruct H3 as [(c & Hc & Hi)|H3].
  - exfalso. assert (T : existsb is_quotable_ws a = true); [|congruence]. apply existsb_exists. exists c. split; [exact Hc|].
    cbn in Hi. repeat (destruct Hi as [<-|Hi]; [reflexivity|]). contradiction.
  - apply Forall_forall. intros c Hc. split; [|split; congruence].
    specialize (H3 c Hc). destruct (is_space c) eqn:S; [|reflexivity]. exfalso. apply H3. unfold is_space in S.
    assert (K : code c = 32 \/ code c = 9 \/ code c = 10 \/ code c = 11 \/ code c = 12 \/ code c = 13) by lia.
    repeat (destruct K as [K|K]); cbn [In]; [left|right;left|right;right;left|right;right;right;left|right;right;right;right;left|right;right;right;right;right;left]; apply code_inj; rewrite K; reflexivity.
Qed.

Lemma tok_clean : forall a r ok acc, clean a ->
  tok (quote_whitespace a ++ r) None ok [] acc = tok r None true a acc.
Proof.
  intros a r ok acc H. unfold quote_whitespace. destruct (clean_cases a H) as [(E & Hq & Ha)|(E & HP & Hn)]; rewrite E.
  - rewrite (has_not apos a Ha). cbn [negb].
    change ((quot :: a ++ [quot]) ++ r) with (quot :: ((a ++ [quot]) ++ r)). rewrite <- app_assoc. cbn [app tok].
    change (is_space quot) with false. cbn [Ascii.eqb]. rewrite Ascii.eqb_refl. cbn [orb].
    rewrite tok_inq by exact Hq. reflexivity.
  - rewrite tok_plain by assumption. reflexivity.
Qed.

Lemma quote_nonempty : forall a, a <> [] -> quote_whitespace a <> [].
Proof.
  intros a H. unfold quote_whitespace. destruct (existsb is_quotable_ws a); [|exact H].
  destruct (negb (has apos a)); [discriminate|]. destruct (negb (has quot a)); discriminate.
Qed.

Fixpoint join' (l : list str) : str :=
  match l with
  | [] => []
  | [a] => quote_whitespace a
  | a :: r => quote_whitespace a ++ spc :: join' r
  end.

Lemma join_eq : forall l, Forall (fun a => a <> []) l -> join l = join' l.
Proof.
  intros l H. unfold join. destruct l as [|a l]; [reflexivity|]. cbn [fold_left List.length Nat.ltb app].
  change (Nat.ltb 0 0) with false. cbn iota.
  inversion H as [|? ? Ha HF]; subst. change ([] ++ quote_whitespace a) with (quote_whitespace a).
  assert (G : forall l rem, Forall (fun a => a <> []) l -> rem <> [] ->
    fold_left (fun rem r => (if Nat.ltb 0 (List.length rem) then rem ++ [spc] else rem) ++ quote_whitespace r) l rem =
    rem ++ match l with [] => [] | _ => spc :: join' l end).
  { clear. induction l as [|b l IH]; intros rem H Hr; cbn [fold_left]; [rewrite app_nil_r; reflexivity|].
    inversion H as [|? ? Hb HF]; subst.
    replace (Nat.ltb 0 (List.length rem)) with true by (destruct rem; [congruence|reflexivity]).
    rewrite IH; [|exact HF|intros E; apply app_eq_nil in E as (E & _); apply app_eq_nil in E as (E & _); contradiction].
    rewrite <- !app_assoc. f_equal. cbn [app]. f_equal. destruct l; [cbn [join']; rewrite app_nil_r; reflexivity|reflexivity]. }
  rewrite G; [|exact HF|apply quote_nonempty; exact Ha].
  destruct l; [cbn [join']; rewrite app_nil_r; reflexivity|reflexivity].
Qed.

Theorem tokens_round_trip : forall args, Forall clean args -> set_args (join args) = Ok args.
Proof.
  intros args H. rewrite join_eq by (eapply Forall_impl; [|exact H]; intros a (A & _); exact A).
  unfold set_args.
  assert (G : forall args acc, Forall clean args -> tok (join' args) None false [] acc = Ok (acc ++ args)).
  { induction args0 as [|a l IH]; intros acc HF; cbn [join' tok]; [rewrite app_nil_r; reflexivity|].
    inversion HF as [|? ? Ha Hl]; subst. destruct l as [|b l].
    - rewrite <- (app_nil_r (quote_whitespace a)). rewrite tok_clean by exact Ha. reflexivity.
    - rewrite tok_clean by exact Ha. cbn [tok]. change (is_space spc) with true. cbn iota.
      rewrite IH by exact Hl. rewrite <- app_assoc. reflexivity. }
  apply (G args [] H).
Qed.

(* ---- the converse for one argument ---- *)
Definition count (c : ascii) (s : str) : nat := List.length (filter (Ascii.eqb c) s).
Lemma count_app : forall c a b, count c (a ++ b) = (count c a + count c b)%nat.
Proof. intros. unfold count. rewrite filter_app, app_length. reflexivity. Qed.

(* the tokeniser never drops a character other than white space and quotes *)
Lemma tok_count : forall c s inq ok tmp acc l, is_space c = false -> c <> quot -> c <> apos ->
  (ok = false -> inq = None -> tmp = []) -> (forall q, inq = Some q -> q = quot \/ q = apos) ->
  tok s inq ok tmp acc = Ok l -> count c (concat l) = (count c (concat acc) + count c tmp + count c s)%nat.
Proof.
  intros c s. induction s as [|d s IH]; intros inq ok tmp acc l Hs Hq Ha Hok Hin E; cbn [tok] in E.
  - destruct inq; [discriminate|]. inversion E; subst. unfold count at 4. cbn [filter List.length].
    destruct ok; [rewrite concat_app; cbn [concat]; rewrite app_nil_r, count_app; lia|].
    rewrite (Hok eq_refl eq_refl). unfold count at 3. cbn. lia.
  - assert (Hd : count c (d :: s) = ((if Ascii.eqb c d then 1 else 0) + count c s)%nat).
    { unfold count. cbn [filter]. destruct (Ascii.eqb c d); reflexivity. }
    rewrite Hd. clear Hd.
    assert (C1 : count c [d] = (if Ascii.eqb c d then 1 else 0)%nat) by (unfold count; cbn; destruct (Ascii.eqb c d); reflexivity).
    destruct inq as [q|].
    + destruct (Ascii.eqb_spec q d) as [->|Hqd].
      * pose proof (IH None true tmp acc l Hs Hq Ha ltac:(intros; discriminate) ltac:(intros; discriminate) E) as K.
        assert (Dq : d = quot \/ d = apos) by (apply Hin; reflexivity).
        replace (Ascii.eqb c d) with false; [lia|]. symmetry. apply Ascii.eqb_neq. destruct Dq; congruence.
      * pose proof (IH (Some q) ok (tmp ++ [d]) acc l Hs Hq Ha ltac:(intros ? ?; discriminate) ltac:(intros q0 Eq; apply Hin; exact Eq) E) as K.
        rewrite count_app, C1 in K. lia.
    + destruct (is_space d) eqn:Sd.
      * replace (Ascii.eqb c d) with false by (symmetry; apply Ascii.eqb_neq; congruence).
        pose proof (IH None false [] (if ok then acc ++ [tmp] else acc) l Hs Hq Ha ltac:(reflexivity) ltac:(intros; discriminate) E) as K.
        assert (C0 : count c [] = 0%nat) by reflexivity. rewrite C0 in K.
        destruct ok; [rewrite concat_app, count_app in K; cbn [concat] in K; rewrite app_nil_r in K; lia|].
        rewrite (Hok eq_refl eq_refl), C0. lia.
      * destruct (Ascii.eqb d quot || Ascii.eqb d apos) eqn:Q.
        -- pose proof (IH (Some d) ok tmp acc l Hs Hq Ha ltac:(intros; discriminate)) as K.
           assert (Dq : d = quot \/ d = apos).
           { apply orb_true_iff in Q as [Q|Q]; apply Ascii.eqb_eq in Q; auto. }
           specialize (K ltac:(intros q0 Eq; inversion Eq; subst; exact Dq) E).
           replace (Ascii.eqb c d) with false; [lia|]. symmetry. apply Ascii.eqb_neq. destruct Dq; congruence.
        -- pose proof (IH None true (tmp ++ [d]) acc l Hs Hq Ha ltac:(intros; discriminate) ltac:(intros; discriminate) E) as K.
           rewrite count_app, C1 in K. lia.
Qed.

(* with only one kind of quote in the string, that character never reaches a token *)
Lemma tok_no_quote : forall q q' s inq ok tmp acc l,
  (q = quot /\ q' = apos) \/ (q = apos /\ q' = quot) ->
  ~ In q' s -> (inq = None \/ inq = Some q) -> ~ In q tmp -> ~ In q (concat acc) ->
  tok s inq ok tmp acc = Ok l -> ~ In q (concat l).
Proof.
  intros q q' s. induction s as [|d s IH]; intros inq ok tmp acc l Hqq Hs Hi Ht Ha E; cbn [tok] in E.
  - destruct inq; [discriminate|]. inversion E; subst. destruct ok; [|exact Ha].
    rewrite concat_app, in_app_iff. cbn [concat]. rewrite app_nil_r. tauto.
  - assert (Hs' : ~ In q' s) by (intros I; apply Hs; right; exact I). assert (d <> q') by (intros ->; apply Hs; left; reflexivity).
    destruct Hi as [->| ->].
    + destruct (is_space d) eqn:Sd.
      * refine (IH None false [] _ l Hqq Hs' (or_introl eq_refl) _ _ E); [intros []|].
        destruct ok; [|exact Ha]. rewrite concat_app, in_app_iff. cbn [concat]. rewrite app_nil_r. tauto.
      * destruct (Ascii.eqb_spec d quot) as [->|N1]; cbn [orb] in E.
        -- eapply IH; [exact Hqq|exact Hs'|right|exact Ht|exact Ha|exact E]. destruct Hqq as [(-> & ->)|(-> & ->)]; [reflexivity|congruence].
        -- destruct (Ascii.eqb_spec d apos) as [->|N2].
           ++ eapply IH; [exact Hqq|exact Hs'|right|exact Ht|exact Ha|exact E]. destruct Hqq as [(-> & ->)|(-> & ->)]; [congruence|reflexivity].
           ++ refine (IH None true (tmp ++ [d]) _ l Hqq Hs' (or_introl eq_refl) _ Ha E).
              rewrite in_app_iff. cbn [In]. destruct Hqq as [(-> & ->)|(-> & ->)]; intuition congruence.
    + destruct (Ascii.eqb_spec q d) as [->|N].
      * eapply IH; [exact Hqq|exact Hs'|left; reflexivity|exact Ht|exact Ha|exact E].
      * refine (IH (Some q) ok (tmp ++ [d]) _ l Hqq Hs' (or_intror eq_refl) _ Ha E). rewrite in_app_iff. cbn [In]. intuition congruence.
Qed.

Lemma tok_len : forall s inq ok tmp acc l, tok s inq ok tmp acc = Ok l ->
  (List.length (concat l) <= List.length (concat acc) + List.length tmp + List.length s)%nat.
Proof.
  induction s as [|d s IH]; intros inq ok tmp acc l E; cbn [tok] in E.
  - destruct inq; [discriminate|]. inversion E; subst. destruct ok; [|cbn; lia]. rewrite concat_app, app_length. cbn [concat]. rewrite app_nil_r. cbn. lia.
  - cbn [List.length]. destruct inq as [q|].
    + destruct (Ascii.eqb q d); apply IH in E; [lia|]. rewrite app_length in E. cbn in E. lia.
    + destruct (is_space d).
      * apply IH in E. cbn [List.length] in E. destruct ok; [rewrite concat_app, app_length in E; cbn [concat] in E; rewrite app_nil_r in E|]; lia.
      * destruct (Ascii.eqb d quot || Ascii.eqb d apos); apply IH in E; [lia|]. rewrite app_length in E. cbn in E. lia.
Qed.

Lemma tok_len_strict : forall s ok tmp acc l, Exists (fun c => ~ plain c) s -> tok s None ok tmp acc = Ok l ->
  (List.length (concat l) < List.length (concat acc) + List.length tmp + List.length s)%nat.
Proof.
  induction s as [|d s IH]; intros ok tmp acc l H E; [inversion H|]. cbn [tok] in E. cbn [List.length].
  destruct (is_space d) eqn:Sd.
  - apply tok_len in E. cbn [List.length] in E. destruct ok; [rewrite concat_app, app_length in E; cbn [concat] in E; rewrite app_nil_r in E|]; lia.
  - destruct (Ascii.eqb d quot || Ascii.eqb d apos) eqn:Q.
    + apply tok_len in E. lia.
    + apply orb_false_iff in Q as (Q1 & Q2). apply Ascii.eqb_neq in Q1. apply Ascii.eqb_neq in Q2.
      inversion H as [? ? Hd|? ? Hd]; subst; [exfalso; apply Hd; split; auto|].
      apply IH in E; [|exact Hd]. rewrite app_length in E. cbn in E. lia.
Qed.

Lemma count_esc : forall a, count bslash (flat_map (fun c => if Ascii.eqb c apos then [bslash; apos] else [c]) a) = (count bslash a + count apos a)%nat.
Proof.
  induction a as [|c a IH]; [reflexivity|]. cbn [flat_map]. rewrite count_app, IH.
  change (c :: a) with ([c] ++ a). rewrite !count_app.
  destruct (Ascii.eqb_spec c apos) as [->|N].
  - change (count bslash [bslash; apos]) with 1%nat. change (count bslash [apos]) with 0%nat. change (count apos [apos]) with 1%nat. lia.
  - assert (count apos [c] = 0%nat); [|lia]. unfold count. cbn [filter]. destruct (Ascii.eqb_spec apos c); [congruence|reflexivity].
Qed.

Lemma quotable_space : forall c, is_quotable_ws c = true -> is_space c = true.
Proof. intros c H. unfold is_quotable_ws, is_space in *. lia. Qed.

Theorem round_trip_exact : forall a, set_args (quote_whitespace a) = Ok [a] <-> clean a.
Proof.
  intros a. split; [|intros H; generalize (tokens_round_trip [a] ltac:(constructor; [exact H|constructor])); intros K; rewrite join_eq in K by (constructor; [apply H|constructor]); exact K].
  intros E. unfold quote_whitespace in E. destruct (existsb is_quotable_ws a) eqn:W.
  - assert (Hne : a <> []) by (intros ->; discriminate).
    assert (HW : exists c, In c a /\ In c (s2l " " ++ [ascii_of_nat 9; ascii_of_nat 10; ascii_of_nat 13])).
    { apply existsb_exists in W as (c & Hc & Wc). exists c. split; [exact Hc|]. unfold is_quotable_ws in Wc. change (s2l " ") with [ascii_of_nat 32]. cbn [app In].
      assert (K : code c = 32 \/ code c = 9 \/ code c = 10 \/ code c = 13) by lia.
      repeat (destruct K as [K|K]); [left|right;left|right;right;left|right;right;right;left]; apply code_inj; rewrite K; reflexivity. }
    destruct (has apos a) eqn:HA; cbn [negb] in E.
    + exfalso. destruct (has quot a) eqn:HQ; cbn [negb] in E.
      * assert (K : count bslash (concat [a]) = (count bslash (concat []) + count bslash [] + count bslash (apos :: flat_map (fun c => if Ascii.eqb c apos then [bslash; apos] else [c]) a ++ [apos]))%nat).
        { apply (tok_count bslash _ None false [] [] [a]); auto; try discriminate. }
        cbn [concat] in K. rewrite app_nil_r in K. change (count bslash []) with 0%nat in K.
        change (apos :: flat_map (fun c => if Ascii.eqb c apos then [bslash; apos] else [c]) a ++ [apos]) with
               ([apos] ++ flat_map (fun c => if Ascii.eqb c apos then [bslash; apos] else [c]) a ++ [apos]) in K.
        rewrite !count_app, count_esc in K. change (count bslash [apos]) with 0%nat in K.
        apply has_In in HA. assert (1 <= count apos a)%nat; [|lia].
        clear - HA. induction a as [|c a IH]; [contradiction|]. change (c :: a) with ([c] ++ a). rewrite count_app.
        destruct HA as [->|HA]; [change (count apos [apos]) with 1%nat; lia|]. specialize (IH HA). lia.
      * apply (tok_no_quote apos quot _ None false [] [] [a]) in E; auto.
        -- cbn [concat] in E. rewrite app_nil_r in E. apply has_In in HA. contradiction.
        -- intros I. cbn [In] in I. destruct I as [I|I]; [discriminate|]. rewrite in_app_iff in I. destruct I as [I|[I|[]]]; [|discriminate].
           apply has_In in I. congruence.
    + assert (NA : ~ In apos a) by (intros I; apply has_In in I; congruence).
      destruct (has quot a) eqn:HQ.
      * exfalso. apply (tok_no_quote quot apos _ None false [] [] [a]) in E; auto.
        -- cbn [concat] in E. rewrite app_nil_r in E. apply has_In in HQ. contradiction.
        -- intros I. cbn [In] in I. destruct I as [I|I]; [discriminate|]. rewrite in_app_iff in I. destruct I as [I|[I|[]]]; [contradiction|discriminate].
      * assert (NQ : ~ In quot a) by (intros I; apply has_In in I; congruence). repeat split; auto.
  - assert (Hne : a <> []) by (intros ->; discriminate).
    assert (HP : Forall plain a).
    { assert (D : forall c, {plain c} + {~ plain c}).
      { intros c. unfold plain. destruct (is_space c) eqn:S; [right; intros (A & _); discriminate|].
        destruct (ascii_dec c quot); [right; tauto|]. destruct (ascii_dec c apos); [right; tauto|]. left; auto. }
      destruct (Forall_Exists_dec plain D a) as [F|X]; [exact F|]. apply (tok_len_strict _ _ _ _ _ X) in E.
      cbn [concat List.length] in E. rewrite app_nil_r in E. lia. }
    rewrite Forall_forall in HP. repeat split; auto.
    + intros I. destruct (HP _ I) as (_ & _ & K). congruence.
    + intros I. destruct (HP _ I) as (_ & K & _). congruence.
    + right. intros c Hc I. destruct (HP c Hc) as (S & _). cbn [In] in I. repeat (destruct I as [<-|I]; [discriminate|]). contradiction.
Qed.

Theorem join_fails : exists args, set_args (join args) <> Ok args.
Proof. exists [s2l "it's ok"]. discriminate. Qed.
