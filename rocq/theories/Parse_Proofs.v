From Coq Require Import Ascii String ZifyBool.
From Verif Require Import Base Cmd_Model Cmd_Spec Cmd_Proofs CmdVal_Proofs.
Open Scope Z_scope.
Open Scope list_scope.

Section PP.
  Context {D : Type}.
  Variable double_of : str -> option D.

  Lemma str_eqb_iff : forall a b, str_eqb a b = true <-> a = b.
  Proof. intros. unfold str_eqb. destruct (list_eq_dec ascii_dec a b); split; congruence. Qed.
  Lemma str_eqb_refl : forall a, str_eqb a a = true.
  Proof. intros. apply str_eqb_iff. reflexivity. Qed.
  Lemma is_opt_iff : forall t n, is_opt t n = true <-> t = dash n.
  Proof. intros. apply str_eqb_iff. Qed.
  Lemma is_opt_no : forall t n, is_opt t (s2l "no-" ++ n) = true <-> t = nodash n.
  Proof. intros. unfold is_opt, nodash. rewrite str_eqb_iff. reflexivity. Qed.
  Lemma dash_nodash : forall n, dash n <> nodash n.
  Proof. intros n E. apply (f_equal (@List.length ascii)) in E. unfold dash, nodash in E. rewrite app_length in E. cbn in E. lia. Qed.

  (* what a matching option does *)
  Lemma check_miss : forall o t r e, ~ In t (triggers o) -> check_arg double_of o t r e = Ok None.
  Proof.
    intros o t r e H. unfold check_arg, triggers in *.
    assert (A : t <> dash (o_name o)) by (intros ->; apply H; destruct (o_kind o); left; reflexivity).
    assert (A' : is_opt t (o_name o) = false) by (destruct (is_opt t (o_name o)) eqn:E; [apply is_opt_iff in E; contradiction|reflexivity]).
    rewrite A'. destruct (o_kind o); try reflexivity.
    destruct (is_opt t (s2l "no-" ++ o_name o)) eqn:E; [|reflexivity]. apply is_opt_no in E. exfalso. apply H. right. left. congruence.
  Qed.

  Lemma check_hit : forall o t r e, In t (triggers o) ->
    (exists e' r' v toks, check_arg double_of o t r e = Ok (Some (e', r')) /\ t :: r = toks ++ r' /\
       chunk_ok double_of [o] (Setting (o_name o) v toks) /\ (forall n, e' n = if list_eq_dec ascii_dec n (o_name o) then Some v else e n)) \/
    (check_arg double_of o t r e = Throw /\
      forall v toks r', t :: r = toks ++ r' -> ~ chunk_ok double_of [o] (Setting (o_name o) v toks)).
  Proof.
    intros o t r e H. unfold check_arg, triggers in *. destruct o as [n k]. cbn [o_name o_kind] in *.
    assert (ES : forall v n', eset e n v n' = if list_eq_dec ascii_dec n' n then Some v else e n') by (intros v n'; unfold eset, str_eqb; destruct (list_eq_dec ascii_dec n' n); reflexivity).
    destruct k eqn:Ek.
    - left. destruct H as [<-|[<-|[]]].
      + replace (is_opt (dash n) n) with true by (symmetry; apply is_opt_iff; reflexivity).
        exists (eset e n (VBool true)), r, (VBool true), [dash n]. split; [reflexivity|]. split; [reflexivity|]. split; [|apply ES].
        exists (mkOpt n KBool). cbn. auto.
      + assert (is_opt (nodash n) n = false) as -> by (destruct (is_opt (nodash n) n) eqn:E; [apply is_opt_iff in E; exfalso; eapply dash_nodash; symmetry; exact E|reflexivity]).
        replace (is_opt (nodash n) (s2l "no-" ++ n)) with true by (symmetry; apply is_opt_no; reflexivity).
        exists (eset e n (VBool false)), r, (VBool false), [nodash n]. split; [reflexivity|]. split; [reflexivity|]. split; [|apply ES].
        exists (mkOpt n KBool). cbn. auto.
    - all: destruct H as [<-|[]]; replace (is_opt (dash n) n) with true by (symmetry; apply is_opt_iff; reflexivity).
      all: destruct r as [|a r]; cbn [hd_error tl].
      + right. split; [reflexivity|]. intros v toks r' E (o & [<-|[]] & _ & K). cbn in K. destruct K as (a & -> & _). discriminate.
      + destruct (arg_value double_of KDouble (Some a)) as [v|] eqn:Ev.
        * left. exists (eset e n v), r, v, [dash n; a]. split; [reflexivity|]. split; [reflexivity|]. split; [|apply ES]. exists (mkOpt n KDouble). cbn [o_kind o_name]. split; [left; reflexivity|]. split; [reflexivity|]. exists a. split; [reflexivity|]. apply spells_iff. exact Ev.
        * right. split; [reflexivity|]. intros v toks r' E (o & [<-|[]] & _ & K). cbn [o_kind] in K. destruct K as (a' & -> & K). inversion E; subst. apply (spells_iff D double_of) in K. congruence.
    - destruct H as [<-|[]]; replace (is_opt (dash n) n) with true by (symmetry; apply is_opt_iff; reflexivity).
      destruct r as [|a r]; cbn [hd_error tl].
      + right. split; [reflexivity|]. intros v toks r' E (o & [<-|[]] & _ & K). cbn in K. destruct K as (a & -> & _). discriminate.
      + destruct (arg_value double_of KInt (Some a)) as [v|] eqn:Ev.
        * left. exists (eset e n v), r, v, [dash n; a]. split; [reflexivity|]. split; [reflexivity|]. split; [|apply ES]. exists (mkOpt n KInt). cbn [o_kind o_name]. split; [left; reflexivity|]. split; [reflexivity|]. exists a. split; [reflexivity|]. apply spells_iff. exact Ev.
        * right. split; [reflexivity|]. intros v toks r' E (o & [<-|[]] & _ & K). cbn [o_kind] in K. destruct K as (a' & -> & K). inversion E; subst. apply (spells_iff D double_of) in K. congruence.
    - destruct H as [<-|[]]; replace (is_opt (dash n) n) with true by (symmetry; apply is_opt_iff; reflexivity).
      destruct r as [|a r]; cbn [hd_error tl].
      + right. split; [reflexivity|]. intros v toks r' E (o & [<-|[]] & _ & K). cbn in K. destruct K as (a & -> & _). discriminate.
      + destruct (arg_value double_of KIdx (Some a)) as [v|] eqn:Ev.
        * left. exists (eset e n v), r, v, [dash n; a]. split; [reflexivity|]. split; [reflexivity|]. split; [|apply ES]. exists (mkOpt n KIdx). cbn [o_kind o_name]. split; [left; reflexivity|]. split; [reflexivity|]. exists a. split; [reflexivity|]. apply spells_iff. exact Ev.
        * right. split; [reflexivity|]. intros v toks r' E (o & [<-|[]] & _ & K). cbn [o_kind] in K. destruct K as (a' & -> & K). inversion E; subst. apply (spells_iff D double_of) in K. congruence.
    - destruct H as [<-|[]]; replace (is_opt (dash n) n) with true by (symmetry; apply is_opt_iff; reflexivity).
      destruct r as [|a r]; cbn [hd_error tl].
      + right. split; [reflexivity|]. intros v toks r' E (o & [<-|[]] & _ & K). cbn in K. destruct K as (a & -> & _). discriminate.
      + destruct (arg_value double_of KStr (Some a)) as [v|] eqn:Ev.
        * left. exists (eset e n v), r, v, [dash n; a]. split; [reflexivity|]. split; [reflexivity|]. split; [|apply ES]. exists (mkOpt n KStr). cbn [o_kind o_name]. split; [left; reflexivity|]. split; [reflexivity|]. exists a. split; [reflexivity|]. apply spells_iff. exact Ev.
        * right. split; [reflexivity|]. intros v toks r' E (o & [<-|[]] & _ & K). cbn [o_kind] in K. destruct K as (a' & -> & K). inversion E; subst. apply (spells_iff D double_of) in K. congruence.
    - destruct H as [<-|[]]; replace (is_opt (dash n) n) with true by (symmetry; apply is_opt_iff; reflexivity).
      destruct r as [|a r]; cbn [hd_error tl].
      + right. split; [reflexivity|]. intros v toks r' E (o & [<-|[]] & _ & K). cbn in K. destruct K as (a & -> & _). discriminate.
      + destruct (arg_value double_of (KList allowed) (Some a)) as [v|] eqn:Ev.
        * left. exists (eset e n v), r, v, [dash n; a]. split; [reflexivity|]. split; [reflexivity|]. split; [|apply ES]. exists (mkOpt n (KList allowed)). cbn [o_kind o_name]. split; [left; reflexivity|]. split; [reflexivity|]. exists a. split; [reflexivity|]. apply spells_iff. exact Ev.
        * right. split; [reflexivity|]. intros v toks r' E (o & [<-|[]] & _ & K). cbn [o_kind] in K. destruct K as (a' & -> & K). inversion E; subst. apply (spells_iff D double_of) in K. congruence.
  Qed.

  Lemma try_miss : forall opts t r e, ~ In t (flat_map triggers opts) -> try_opts double_of opts t r e = Ok None.
  Proof.
    induction opts as [|o opts IH]; intros t r e H; cbn [try_opts]; [reflexivity|]. cbn [flat_map] in H. rewrite in_app_iff in H.
    rewrite check_miss by tauto. cbn [rbind]. apply IH. tauto.
  Qed.

  Lemma nodup_app_disj : forall A (a b : list A) x, NoDup (a ++ b) -> In x a -> ~ In x b.
  Proof.
    induction a as [|y a IH]; intros b x H I; [contradiction|]. cbn in H. inversion H as [|? ? N H']; subst.
    destruct I as [->|I]; [intros J; apply N; apply in_app_iff; right; exact J|]. apply IH; assumption.
  Qed.
  Lemma nodup_app_r : forall A (a b : list A), NoDup (a ++ b) -> NoDup b.
  Proof. induction a; intros b H; [exact H|]. inversion H; auto. Qed.

  Lemma try_hit : forall opts o t r e, unambiguous opts -> In o opts -> In t (triggers o) ->
    try_opts double_of opts t r e = check_arg double_of o t r e.
  Proof.
    induction opts as [|o' opts IH]; intros o t r e U I T; [contradiction|]. cbn [try_opts].
    unfold unambiguous in U. cbn [flat_map] in U. destruct I as [->|I].
    - assert (NI : ~ In t (flat_map triggers opts)) by (eapply nodup_app_disj; eassumption).
      destruct (check_arg double_of o t r e) as [[p|]| | |] eqn:E; cbn [rbind]; try reflexivity. apply try_miss. exact NI.
    - assert (NI : ~ In t (triggers o')).
      { intros J. apply (nodup_app_disj _ _ _ t U J). apply in_flat_map. eauto. }
      rewrite check_miss by exact NI. cbn [rbind]. apply IH; auto. eapply nodup_app_r; exact U.
  Qed.

  Lemma chunk_ok_in : forall opts o n v toks, In o opts -> chunk_ok double_of [o] (Setting n v toks) -> chunk_ok double_of opts (Setting n v toks).
  Proof. intros opts o n v toks I (o' & [<-|[]] & K). exists o. auto. Qed.

  (* first token of a setting is a trigger of the option *)
  Lemma chunk_trigger : forall opts n v toks, chunk_ok double_of opts (Setting n v toks) ->
    exists o t rest, In o opts /\ o_name o = n /\ toks = t :: rest /\ In t (triggers o) /\ chunk_ok double_of [o] (Setting n v toks).
  Proof.
    intros opts n v toks (o & I & N & K). exists o.
    assert (CO : chunk_ok double_of [o] (Setting n v toks)) by (exists o; cbn; auto).
    unfold triggers. destruct o as [n' k]. cbn [o_name o_kind] in *. subst n'.
    destruct k; try (destruct K as (a & -> & _); exists (dash n), [a]; repeat split; auto; left; reflexivity).
    destruct K as [(_ & ->)|(_ & ->)]; [exists (dash n), []|exists (nodash n), []]; repeat split; auto; [left|right; left]; reflexivity.
  Qed.

  (* a setting is determined by its option and the tokens that follow *)
  Lemma chunk_det : forall o n v1 toks1 r1 v2 toks2 r2, chunk_ok double_of [o] (Setting n v1 toks1) -> chunk_ok double_of [o] (Setting n v2 toks2) ->
    toks1 ++ r1 = toks2 ++ r2 -> v1 = v2 /\ toks1 = toks2 /\ r1 = r2.
  Proof.
    intros o n v1 toks1 r1 v2 toks2 r2 (o1 & [<-|[]] & N1 & K1) (o2 & [<-|[]] & N2 & K2) E.
    destruct (o_kind o); try (destruct K1 as (a1 & -> & V1); destruct K2 as (a2 & -> & V2); apply (spells_iff D double_of) in V1; apply (spells_iff D double_of) in V2; cbn [app] in E; inversion E; subst; repeat split; congruence).
    assert (D1 : dash n <> nodash n) by apply dash_nodash.
    destruct K1 as [(-> & ->)|(-> & ->)]; destruct K2 as [(-> & ->)|(-> & ->)]; cbn [app] in E; pose proof (f_equal (hd []) E) as E1; pose proof (f_equal (@tl str) E) as E2; cbn [hd tl] in E1, E2; auto; exfalso; congruence.
  Qed.

  Lemma name_of_trigger : forall opts o1 o2 t, unambiguous opts -> In o1 opts -> In o2 opts -> In t (triggers o1) -> In t (triggers o2) -> o1 = o2.
  Proof.
    induction opts as [|o opts IH]; intros o1 o2 t U I1 I2 T1 T2; [contradiction|]. unfold unambiguous in U. cbn [flat_map] in U.
    assert (NI : In t (triggers o) -> forall o', In o' opts -> In t (triggers o') -> False).
    { intros J o' I' J'. apply (nodup_app_disj _ _ _ t U J). apply in_flat_map. eauto. }
    destruct I1 as [->|I1]; destruct I2 as [->|I2]; auto; try (exfalso; eapply NI; eassumption).
    eapply IH; eauto. eapply nodup_app_r; exact U.
  Qed.

  Lemma try_any : forall opts t r e,
    (exists o, In o opts /\ In t (triggers o) /\ try_opts double_of opts t r e = check_arg double_of o t r e) \/
    (~ In t (flat_map triggers opts) /\ try_opts double_of opts t r e = Ok None).
  Proof.
    induction opts as [|o opts IH]; intros t r e; [right; split; [intros []|reflexivity]|].
    destruct (in_dec (list_eq_dec ascii_dec) t (triggers o)) as [T|T].
    - left. exists o. split; [left; reflexivity|]. split; [exact T|]. cbn [try_opts].
      destruct (check_hit o t r e T) as [(e1 & r1 & v & toks & -> & _)|(-> & _)]; reflexivity.
    - cbn [try_opts flat_map]. rewrite check_miss by exact T. cbn [rbind]. destruct (IH t r e) as [(o' & I & T' & E)|(N & E)].
      + left. exists o'. split; [right; exact I|]. auto.
      + right. split; [|exact E]. rewrite in_app_iff. tauto.
  Qed.

  Lemma parse_sound : forall opts fuel args e non e' rest,
    parse_loop double_of fuel opts args e non = Ok (e', rest) ->
    exists cs, explains double_of opts args cs /\ rest = non ++ unused cs /\ forall n, e' n = setting_of n cs (e n).
  Proof.
    intros opts fuel. induction fuel as [|f IH]; intros args e non e' rest E.
    - destruct args; [|discriminate]. inversion E; subst. exists []. repeat split; [constructor|]. cbn. rewrite app_nil_r. reflexivity.
    - destruct args as [|t r]; cbn [parse_loop] in E; [inversion E; subst; exists []; repeat split; [constructor|cbn; rewrite app_nil_r; reflexivity]|].
      destruct (try_any opts t r e) as [(o & Io & It & Eo)|(N & Eo)]; rewrite Eo in E.
      + destruct (check_hit o t r e It) as [(e1 & r1 & v & toks & Ec & Et & Ck & Ee)|(Ec & _)]; rewrite Ec in E; cbn [rbind] in E; [|discriminate].
        destruct (IH r1 e1 non e' rest E) as (cs & (X1 & X2) & R & S).
        exists (Setting (o_name o) v toks :: cs). split; [split|].
        * cbn [flat_map chunk_toks]. rewrite <- X1. exact Et.
        * constructor; [apply chunk_ok_in with o; assumption|exact X2].
        * split; [exact R|]. intros n. rewrite S, Ee. reflexivity.
      + cbn [rbind] in E.
        destruct (IH r e (non ++ [t]) e' rest E) as (cs & (X1 & X2) & R & S).
        exists (Unused t :: cs). split; [split|].
        * cbn. rewrite <- X1. reflexivity.
        * constructor; [exact N|exact X2].
        * split; [cbn; rewrite R, <- app_assoc; reflexivity|exact S].
  Qed.

  Lemma parse_complete : forall opts cs args fuel e non, unambiguous opts -> explains double_of opts args cs ->
    (List.length args <= fuel)%nat ->
    exists e', parse_loop double_of fuel opts args e non = Ok (e', non ++ unused cs) /\ forall n, e' n = setting_of n cs (e n).
  Proof.
    intros opts cs. induction cs as [|c cs IH]; intros args fuel e non U (X1 & X2) L.
    - cbn in X1. subst args. exists e. cbn [unused flat_map]. rewrite app_nil_r. destruct fuel; split; reflexivity.
    - inversion X2 as [|? ? Hc Hcs]; subst. destruct c as [n v toks|t].
      + destruct (chunk_trigger opts n v toks Hc) as (o & t & rest & Io & No & Et & It & Co). subst toks.
        cbn [flat_map chunk_toks app] in L |- *. set (r := rest ++ flat_map chunk_toks cs) in *.
        destruct fuel as [|f]; [cbn in L; lia|]. cbn [parse_loop]. rewrite (try_hit opts o t r e U Io It).
        destruct (check_hit o t r e It) as [(e1 & r1 & v1 & toks1 & Ec & Et1 & Ck & Ee)|(Ec & K)].
        2: { exfalso. rewrite No in K. apply (K v (t :: rest) (flat_map chunk_toks cs)); [reflexivity|exact Co]. }
        rewrite Ec. cbn [rbind]. rewrite No in Ck.
        assert (E0 : toks1 ++ r1 = (t :: rest) ++ flat_map chunk_toks cs) by (rewrite <- Et1; reflexivity).
        destruct (chunk_det o n v1 toks1 r1 v (t :: rest) (flat_map chunk_toks cs) Ck Co E0) as (-> & -> & ->).
        destruct (IH (flat_map chunk_toks cs) f e1 non U) as (e' & R & S).
        * split; [reflexivity|exact Hcs].
        * unfold r in L. cbn [List.length] in L. rewrite app_length in L. lia.
        * exists e'. split; [exact R|]. intros n'. rewrite S, Ee, No. reflexivity.
      + cbn [flat_map chunk_toks app] in L |- *. destruct fuel as [|f]; [cbn in L; lia|]. cbn [parse_loop].
        rewrite try_miss by exact Hc. cbn [rbind].
        destruct (IH (flat_map chunk_toks cs) f e (non ++ [t]) U) as (e' & R & S).
        * split; [reflexivity|exact Hcs].
        * cbn in L. lia.
        * exists e'. split; [|exact S]. rewrite R. cbn. rewrite <- app_assoc. reflexivity.
  Qed.

  Lemma parse_total : forall opts fuel args e non, unambiguous opts -> (List.length args <= fuel)%nat ->
    (exists x, parse_loop double_of fuel opts args e non = Ok x) \/ parse_loop double_of fuel opts args e non = Throw.
  Proof.
    intros opts fuel. induction fuel as [|f IH]; intros args e non U L.
    - destruct args; [left; eexists; reflexivity|cbn in L; lia].
    - destruct args as [|t r]; [left; eexists; reflexivity|]. cbn [parse_loop].
      destruct (in_dec (list_eq_dec ascii_dec) t (flat_map triggers opts)) as [I|N].
      + apply in_flat_map in I as (o & Io & It). rewrite (try_hit opts o t r e U Io It).
        destruct (check_hit o t r e It) as [(e1 & r1 & v & toks & Ec & Et & Ck & Ee)|(Ec & _)]; rewrite Ec; cbn [rbind]; [|right; reflexivity].
        apply IH; [exact U|]. destruct (chunk_trigger [o] _ _ _ Ck) as (_ & t' & rest & _ & _ & -> & _). inversion Et; subst. rewrite app_length in L || idtac. cbn [List.length] in L. rewrite app_length in L. lia.
      + rewrite try_miss by exact N. cbn [rbind]. apply IH; [exact U|cbn in L; lia].
  Qed.

  Theorem parse_args_sound : forall opts args e e' rem, parse_args double_of opts args e = Ok (e', rem) ->
    exists cs, explains double_of opts args cs /\ rem = join (unused cs) /\ forall n, e' n = setting_of n cs (e n).
  Proof.
    intros opts args e e' rem E. unfold parse_args in E.
    destruct (parse_loop double_of (List.length args) opts args e []) as [(e1 & rest)| | |] eqn:P; cbn [rbind fst snd] in E; inversion E; subst.
    destruct (parse_sound _ _ _ _ _ _ _ P) as (cs & X & R & S). exists cs. rewrite R. auto.
  Qed.

  Theorem parse_args_complete : forall opts args e, unambiguous opts ->
    (forall cs, explains double_of opts args cs ->
       exists e', parse_args double_of opts args e = Ok (e', join (unused cs)) /\ forall n, e' n = setting_of n cs (e n)) /\
    ((forall cs, ~ explains double_of opts args cs) -> parse_args double_of opts args e = Throw).
  Proof.
    intros opts args e U. unfold parse_args. split.
    - intros cs X. destruct (parse_complete opts cs args (List.length args) e [] U X ltac:(lia)) as (e' & R & S).
      exists e'. rewrite R. cbn. auto.
    - intros K. destruct (parse_total opts (List.length args) args e [] U ltac:(lia)) as [((e1 & rest) & P)|P].
      + exfalso. destruct (parse_sound _ _ _ _ _ _ _ P) as (cs & X & _). exact (K cs X).
      + rewrite P. reflexivity.
  Qed.

  (* the returned remainder, tokenised again, is the list of unused tokens *)
  Theorem remainder_tokens : forall opts args e e' rem, parse_args double_of opts args e = Ok (e', rem) -> Forall clean args ->
    exists cs, explains double_of opts args cs /\ set_args rem = Ok (unused cs).
  Proof.
    intros opts args e e' rem E C. destruct (parse_args_sound _ _ _ _ _ E) as (cs & X & -> & _). exists cs. split; [exact X|].
    apply tokens_round_trip. apply Forall_forall. intros a I. rewrite Forall_forall in C. apply C. destruct X as (-> & _).
    unfold unused in I. apply in_flat_map in I as (c & Ic & Ia). apply in_flat_map. exists c. split; [exact Ic|].
    destruct c; [contradiction|exact Ia].
  Qed.

  (* the last setting wins *)
  Theorem last_wins : forall (cs1 cs2 : list (@chunk D)) n v toks v0,
    (forall m w t, In (Setting m w t) cs2 -> m <> n) ->
    setting_of n (cs1 ++ Setting n v toks :: cs2) v0 = Some v.
  Proof.
    intros cs1 cs2 n v toks. induction cs1 as [|c cs1 IH]; intros v0 H; cbn [app setting_of].
    - destruct (list_eq_dec ascii_dec n n); [|congruence]. clear v0. generalize (Some v). induction cs2 as [|c cs2 IH]; intros w; [reflexivity|].
      destruct c as [m u t|t]; cbn [setting_of].
      + destruct (list_eq_dec ascii_dec n m) as [->|]; [exfalso; apply (H m u t); [left; reflexivity|reflexivity]|]. apply IH. intros m' w' t' I. apply (H m' w' t'). right. exact I.
      + apply IH. intros m' w' t' I. apply (H m' w' t'). right. exact I.
    - destruct c; apply IH; exact H.
  Qed.
End PP.

Theorem int_truncated : exists a z, idx_of a = Some z /\ exists v, v <> z /\
  forall (D : Type) (double_of : str -> option D) n e, exists e',
  parse_args double_of [mkOpt n KInt] [dash n; a] e = Ok (e', []) /\ e' n = Some (VInt v).
Proof.
  exists (s2l "4294967297"), 4294967297. split; [reflexivity|]. exists 1. split; [discriminate|].
  intros D double_of n e. exists (eset e n (VInt 1)). split.
  - unfold parse_args. cbn [List.length parse_loop try_opts check_arg o_kind o_name hd_error tl].
    replace (is_opt (dash n) n) with true by (symmetry; apply is_opt_iff; reflexivity). reflexivity.
  - unfold eset. rewrite str_eqb_refl. reflexivity.
Qed.
