(* Proofs for Print_Model: the printer and the program it prints. *)
From Coq Require Import String QArith Qabs Lqa.
From Verif Require Import Base Expr_Model Expr_Spec Expr_Proofs ExprOpt_Proofs Print_Model Print_Spec Print_Proofs Dec_Proofs PrintEval_Proofs.
Open Scope Z_scope.

Fixpoint cx_ind2 (P : cx -> Prop) (H1 : forall z, P (CInt z)) (H2 : forall q, P (CReal q)) (H3 : forall n, P (CTemp n))
  (H4 : forall l, P (CLeaf l)) (H5 : forall c, P c -> P (CNeg c)) (H6 : forall o a b, P a -> P b -> P (CBin o a b))
  (H7 : forall f l, Forall P l -> P (CCall f l)) (c : cx) {struct c} : P c :=
  let rec := cx_ind2 P H1 H2 H3 H4 H5 H6 H7 in
  match c with
  | CInt z => H1 z | CReal q => H2 q | CTemp n => H3 n | CLeaf l => H4 l | CNeg a => H5 a (rec a)
  | CBin o a b => H6 o a b (rec a) (rec b)
  | CCall f l => H7 f l ((fix go (o : list cx) : Forall P o :=
      match o with [] => Forall_nil P | x :: r => Forall_cons x (rec x) (go r) end) l)
  end.

Section Run.
  Context {V : Type}.
  Variable N : nsys V.
  Variable ix : string -> itype -> Z.
  Variable B : Z.
  Hypothesis HB : ints_exact N B.
  Variable h : heap.
  Variables count size : Z -> Z.
  Variable pair : Z -> option Z.
  Variables max_size min_size : Z.
  Hypothesis Hpair : pairs_ok N h pair.
  Notation ev := (ev N ix).
  Notation lval := (lval N).
  Notation rep := (rep N).
  Notation printable := (printable N B).
  Notation td := (td h count pair).
  Notation bu := (bu h count size pair max_size min_size).
  Notation try_simple := (try_simple h count size pair max_size min_size).
  Notation run := (run N ix).
  Notation exec := (exec N ix).

  Definition reads (en : env) (t : text) (e : expr) : Prop :=
    exists c, utext t c /\ exists v, ev en c = Some v /\ rep v e.
  Definition lead (e : expr) (t : text) : Prop :=
    match e with E LNeg _ => True | E (LConst q) _ => (0 <= q)%Q -> nominus t | _ => nominus t end.

  Lemma child_nodes f (x : expr) ops : In x ops -> (S (fold_right (fun x n => (num_nodes x + n)%nat) O ops) <= S f)%nat ->
    (num_nodes x <= f)%nat.
  Proof using.
    clear. induction ops as [|y ops IH]; intros Hi Hf; [contradiction|]. cbn [fold_right] in Hf.
    destruct Hi as [->|Hi]; [lia|]. apply IH; auto. lia.
  Qed.

  Definition td_spec (f : nat) (a : Z) (e : expr) : Prop :=
    exists t nc, td f a = Ok (t, nc) /\ (forall en, reads en t e) /\ lead e t.

  Lemma reads_fun en (ts : list text) es : Forall2 (reads en) ts es ->
    exists cs, Forall2 utext ts cs /\ Forall2 (fun c e => exists v, ev en c = Some v /\ rep v e) cs es.
  Proof using.
    induction 1 as [|t e ts es (c & U & R) _ (cs & IH1 & IH2)]; [exists []; auto|].
    exists (c :: cs). split; constructor; auto.
  Qed.
  Lemma td_list f ps es : Forall2 (td_spec f) ps es ->
    exists ts, rmap (td f) ps = Ok ts /\ List.length ts = List.length es /\ forall en, Forall2 (reads en) (map fst ts) es.
  Proof using.
    induction 1 as [|p e ps es (t & nc & T1 & T2 & _) _ (ts & IH1 & IH2 & IH3)].
    - exists []. repeat split; auto. intros; constructor.
    - exists ((t, nc) :: ts). cbn [rmap]. rewrite T1. cbn [rbind]. rewrite IH1. cbn [rbind]. split; [reflexivity|].
      split; [cbn; auto|]. intros en. cbn [map fst]. constructor; auto.
  Qed.

  (* texts of compound expressions *)
  Lemma reads_bin o en t1 e1 t2 e2 : o <> OMod -> reads en t1 e1 -> reads en t2 e2 -> printable (E (LBin o) [e1; e2]) ->
    exists c v, parse (t1 ++ [TSp; bop_tok o; TSp] ++ t2) = Some c /\ ev en c = Some v /\ rep v (E (LBin o) [e1; e2]) /\
      utext (TLP :: (t1 ++ [TSp; bop_tok o; TSp] ++ t2) ++ [TRP]) c.
  Proof using HB.
    intros Ho (c1 & U1 & v1 & E1 & R1) (c2 & U2 & v2 & E2 & R2) P.
    assert (exists v, ev en (CBin (bin_of o) c1 c2) = Some v /\ rep v (E (LBin o) [e1; e2])) as (v & Ev & Rv).
    { cbn [Print_Spec.ev]. rewrite E1, E2. destruct o; [| |congruence]; cbn [bin_of].
      - destruct P as (S3 & P1 & P2). apply (sub_step N B HB); auto; apply (printable_small N B); auto.
      - destruct P as (S3 & P1 & P2 & D). apply (div_step N); auto. }
    exists (CBin (bin_of o) c1 c2), v. split; [apply parse_bin; auto|]. split; [auto|]. split; [auto|].
    apply u_paren. intros. apply bin_ok; auto.
  Qed.

  Lemma td_ok : forall e a f, stands h a e -> printable e -> (num_nodes e <= f)%nat -> td_spec f a e.
  Proof using HB.
    clear size max_size min_size Hpair. induction e as [l ops IH] using expr_ind2. intros a f St P Hf.
    destruct (stands_inv h a _ St) as (l' & ps & es & Ee & Ha & F). injection Ee as <- <-.
    destruct f as [|f]; [cbn in Hf; lia|].
    assert (CH : forall p e, In e ops -> stands h p e -> printable e -> td_spec f p e).
    { intros p e Hi Hs Hp. rewrite Forall_forall in IH. apply IH; auto. apply (child_nodes f e ops); auto. }
    unfold td_spec. cbn [Print_Model.td]. rewrite Ha.
    destruct l as [q|s|s|d ty| |o|o|g]; cbn [Print_Spec.printable] in P.
    - destruct P as (_ & -> & C). pose proof C as [C0 _]. destruct (format_ok q C0) as (t & c & p & -> & U & L & Ng & M). cbn [rbind].
      exists t, (num_common count a). split; [reflexivity|]. split.
      + intros en. exists c. split; auto. apply (const_rep N ix B HB) with (p := p); auto.
      + exact Ng.
    - destruct P as (_ & []).
    - destruct P as (_ & ->). exists [TLeaf (LVar s)], (num_common count a). split; [reflexivity|]. split; [|exact I].
      intros en. exists (CLeaf (LVar s)). split; [apply u_leaf|]. eexists; split; reflexivity.
    - destruct P as (_ & []).
    - destruct ops as [|e1 [|]]; try (destruct P as (_ & []); fail).
      inversion F as [|p1 ? ps1 ? F1 F2]; subst. inversion F2; subst. destruct P as (_ & P1 & P2).
      destruct (CH p1 e1 (or_introl eq_refl) F1 P1) as (t & nc & -> & T2 & T3). cbn [rbind].
      exists (TMinus :: t), (num_common count a + nc). split; [reflexivity|]. split; [|exact I].
      intros en. destruct (T2 en) as (c & U & v & Ev & R).
      assert (Nm : nominus t). { destruct e1 as [l1 o1]. destruct l1; cbn [lead] in T3; auto. contradiction. }
      exists (CNeg c). split; [apply u_neg; auto|].
      apply (neg_step N ix B HB) with (v := v); auto. apply (printable_small N B); auto.
    - destruct ops as [|e1 [|e2 [|]]]; try (destruct P as (_ & P); destruct o; contradiction).
      inversion F as [|p1 ? ps1 ? F1 F2]; subst. inversion F2 as [|p2 ? ps2 ? F3 F4]; subst. inversion F4; subst.
      assert (Ho : o <> OMod) by (destruct P as (_ & P); destruct o; [discriminate|discriminate|contradiction]).
      assert (P12 : printable e1 /\ printable e2) by (destruct P as (_ & P); destruct o; tauto).
      destruct (CH p1 e1 (or_introl eq_refl) F1 (proj1 P12)) as (t1 & n1 & -> & T1 & _).
      destruct (CH p2 e2 (or_intror (or_introl eq_refl)) F3 (proj2 P12)) as (t2 & n2 & -> & T2 & _). cbn [rbind].
      eexists; eexists; split; [reflexivity|]. split; [|exact I].
      intros en. destruct (reads_bin o en t1 e1 t2 e2 Ho (T1 en) (T2 en) P) as (c & v & _ & Ev & R & U).
      rewrite <- !app_assoc in U. exists c. split; [exact U|]. exists v. auto.
    - destruct P as (_ & Pl & Hlen & Hk). apply printable_list in Pl.
      assert (FF : Forall2 (td_spec f) ps ops).
      { clear Hlen Hk Hf St Ha. revert CH. revert Pl. clear IH. induction F as [|p e ps es Hs _ IHF]; intros Pl CH; constructor.
        - inversion Pl; subst. apply CH; auto. left; auto.
        - inversion Pl; subst. apply IHF; auto. intros; apply CH; auto. right; auto. }
      destruct (td_list f ps ops FF) as (ts & -> & L & R). cbn [rbind].
      eexists; eexists; split; [reflexivity|]. split; [|exact I]. intros en.
      destruct (reads_fun en _ _ (R en)) as (cs & U & Rc).
      destruct ops as [|e1 es1]; [cbn in Hlen; lia|]. inversion Rc as [|c1 ? cs1 ? Rc1 Rc2]; subst.
      inversion U as [|t1 ? ts1 ? U1 U2 Ht1]; subst. inversion Pl; subst.
      destruct (chain_rep N ix B HB o en c1 e1 cs1 es1 Rc1 Rc2) as (v & Ev & Rv); auto.
      exists (chain_cx o c1 cs1). split; [|exists v; auto].
      rewrite sep_tails. apply u_paren. intros. apply chain_ok; auto.
    - destruct P as (_ & Hn & Pl). apply printable_list in Pl.
      assert (FF : Forall2 (td_spec f) ps ops).
      { clear Hn Hf St Ha. revert CH. revert Pl. clear IH. induction F as [|p e ps es Hs _ IHF]; intros Pl CH; constructor.
        - inversion Pl; subst. apply CH; auto. left; auto.
        - inversion Pl; subst. apply IHF; auto. intros; apply CH; auto. right; auto. }
      destruct (td_list f ps ops FF) as (ts & -> & L & R). cbn [rbind].
      eexists; eexists; split; [reflexivity|]. split; [|exact I]. intros en.
      destruct (reads_fun en _ _ (R en)) as (cs & U & Rc).
      exists (CCall g cs). split.
      + apply u_call; auto. destruct ts; [destruct ops; [congruence|discriminate]|discriminate].
      + destruct (call_rep N ix en cs ops Rc) as (vs & E1 & E2). cbn [Print_Spec.ev]. rewrite E1. eexists; split; [reflexivity|].
        unfold PrintEval_Proofs.rep, racc. rewrite E2. reflexivity.
  Qed.

  Definition ext (en en' : env (V:=V)) : Prop := forall n v, en n = Some v -> en' n = Some v.
  Lemma ext_trans a b c : ext a b -> ext b c -> ext a c.
  Proof using. intros H1 H2 n v H. apply H2, H1, H. Qed.
  Lemma ev_ext en en' : ext en en' -> forall c v, ev en c = Some v -> ev en' c = Some v.
  Proof using.
    intros X. induction c as [z|q|n|l|a IH|o a b IHa IHb|f l IH] using cx_ind2; intros v Hv; cbn [Print_Spec.ev] in *; auto.
    - destruct (en n) as [x|] eqn:E1; [|discriminate]. rewrite (X n x E1). exact Hv.
    - destruct (ev en a) as [x|] eqn:E1; [|discriminate]. rewrite (IH x eq_refl). exact Hv.
    - destruct (ev en a) as [x|] eqn:E1; [|discriminate]. destruct (ev en b) as [y|] eqn:E2; [|discriminate].
      rewrite (IHa x eq_refl), (IHb y eq_refl). exact Hv.
    - assert (L : forall vs, opts (map (ev en) l) = Some vs -> opts (map (ev en') l) = Some vs).
      { clear Hv v. induction IH as [|c l Hc _ IHl]; intros vs Hv; cbn [map opts] in *; auto.
        destruct (ev en c) as [x|] eqn:E1; [|discriminate]. rewrite (Hc x eq_refl).
        destruct (opts (map (ev en) l)) as [ys|] eqn:E2; [|discriminate]. rewrite (IHl ys eq_refl). exact Hv. }
      destruct (opts (map (ev en) l)) as [vs|] eqn:E1; [|discriminate]. rewrite (L vs eq_refl). exact Hv.
  Qed.
  Lemma reads_ext en en' t e : ext en en' -> reads en t e -> reads en' t e.
  Proof using. intros X (c & U & v & Ev & R). exists c. split; auto. exists v. split; auto. apply (ev_ext en en' X). auto. Qed.

  Lemma run_app en l1 l2 : run en (l1 ++ l2) =
    match run en l1 with
    | Some (en1, w1) => match run en1 l2 with Some (en2, w2) => Some (en2, w1 ++ w2) | None => None end
    | None => None
    end.
  Proof using.
    revert en; induction l1 as [|s l1 IH]; intros en; cbn [app Print_Spec.run].
    - destruct (run en l2) as [[? ?]|]; reflexivity.
    - destruct (exec en s) as [[en1 w1]|]; [|reflexivity]. rewrite IH. destruct (run en1 l1) as [[en2 w2]|]; [|reflexivity].
      destruct (run en2 l2) as [[en3 w3]|]; [|reflexivity]. rewrite app_assoc. reflexivity.
  Qed.
  Lemma run_app0 en l1 l2 en1 r : run en l1 = Some (en1, []) -> run en1 l2 = Some r -> run en (l1 ++ l2) = Some r.
  Proof using. intros H1 H2. rewrite run_app, H1, H2. destruct r; reflexivity. Qed.

  Definition inv (st : pst) (en : env (V:=V)) : Prop :=
    (forall n, p_next st <= n -> en n = None) /\
    (forall a n e, temp_of a (p_temps st) = Some n -> stands h a e -> en n = Some (lval e)).

  Lemma temp_cons a b n l : temp_of a ((b, n) :: l) = if b =? a then Some n else temp_of a l.
  Proof using. unfold temp_of. cbn [find fst]. destruct (b =? a); reflexivity. Qed.

  Lemma new_temp_ok st en ex t c v : inv st en -> parse t = Some c -> ev en c = Some v ->
    match ex with Some a => exists e, stands h a e /\ to_real N v = lval e | None => True end ->
    exists n st' en', new_temp st ex t = (n, st') /\ p_out st' = p_out st ++ [SSet n t] /\ p_next st' = n + 1 /\ n = p_next st /\
      run en [SSet n t] = Some (en', []) /\ inv st' en' /\ ext en en' /\ en' = upd en n (to_real N v).
  Proof using.
    intros [I1 I2] Hp Hv Hx. unfold new_temp. do 3 eexists. split; [reflexivity|]. cbn [p_out p_next].
    split; [reflexivity|]. split; [reflexivity|]. split; [reflexivity|].
    pose proof (I1 (p_next st) ltac:(lia)) as E0. cbn [Print_Spec.run Print_Spec.exec]. rewrite E0, Hp, Hv. split; [reflexivity|].
    assert (X : ext en (upd en (p_next st) (to_real N v))).
    { intros n w Hn. unfold upd. destruct (Z.eqb_spec n (p_next st)); [subst; congruence|auto]. }
    split; [|split; [exact X|reflexivity]]. split; cbn [p_next p_temps].
    - intros n Hn. unfold upd. replace (n =? p_next st) with false by lia. apply I1. lia.
    - intros a n e Ht Hs. destruct ex as [b|]; [|apply X; eapply I2; eauto].
      rewrite temp_cons in Ht. destruct (Z.eqb_spec b a) as [->|Nb]; [|apply X; eapply I2; eauto].
      injection Ht as <-. destruct Hx as (e' & Hs' & Hl). rewrite (stands_fun h e a e' Hs Hs'). unfold upd. rewrite Z.eqb_refl, Hl. reflexivity.
  Qed.

  Definition outcome (r : res (text * pst)) (st : pst) (en : env (V:=V)) (post : text -> pst -> env -> Prop) : Prop :=
    exists t st' new en', r = Ok (t, st') /\ p_out st' = p_out st ++ new /\ run en new = Some (en', []) /\ ext en en' /\
      inv st' en' /\ post t st' en'.
  Definition done (e : expr) (t : text) (st : pst) (en : env (V:=V)) : Prop := reads en t e /\ lead e t.

  Lemma outcome_ret t st en (post : text -> pst -> env -> Prop) : inv st en -> post t st en -> outcome (Ok (t, st)) st en post.
  Proof using.
    intros Hi Hp. exists t, st, [], en. rewrite app_nil_r. repeat split; auto. intros ? ? ?; auto. all: apply Hi.
  Qed.
  Lemma outcome_bind {A} (r : res (A * pst)) (g : A * pst -> res (text * pst)) st en post :
    (exists t st' new en', r = Ok (t, st') /\ p_out st' = p_out st ++ new /\ run en new = Some (en', []) /\ ext en en' /\
      inv st' en' /\ outcome (g (t, st')) st' en' post) -> outcome (rbind r g) st en post.
  Proof using.
    intros (t & st1 & new & en1 & -> & O1 & R1 & X1 & I1 & (t2 & st2 & new2 & en2 & G & O2 & R2 & X2 & I2 & P2)).
    cbn [rbind]. exists t2, st2, (new ++ new2), en2. split; [exact G|]. split; [rewrite O2, O1, app_assoc; reflexivity|].
    split; [eapply run_app0; eauto|]. split; [eapply ext_trans; eauto|]. split; auto.
  Qed.
  (* a new temporary variable for the whole expression, and its name as the result *)
  Lemma outcome_temp st en a e t c v : inv st en -> stands h a e -> parse t = Some c -> ev en c = Some v -> rep v e ->
    outcome (let '(n, st') := new_temp st (Some a) t in Ok ([TTemp n], st')) st en (done e).
  Proof using.
    intros Hi Hs Hp Hv Hr. pose proof (racc_real N v _ _ Hr) as Tr.
    destruct (new_temp_ok st en (Some a) t c v Hi Hp Hv) as (n & st' & en' & -> & O & _ & _ & R & I' & X & E').
    { exists e. auto. }
    exists [TTemp n], st', [SSet n t], en'. split; [reflexivity|]. split; [exact O|]. split; [exact R|]. split; [exact X|].
    split; [exact I'|]. split.
    - exists (CTemp n). split; [apply u_temp|]. exists (VR (lval e)). cbn [Print_Spec.ev]. rewrite E'. unfold upd. rewrite Z.eqb_refl, Tr.
      split; reflexivity.
    - destruct e as [l ?]; destruct l; cbn [lead nominus]; auto.
  Qed.
  Lemma temp_done st en a n e : inv st en -> stands h a e -> temp_of a (p_temps st) = Some n -> done e [TTemp n] st en.
  Proof using.
    intros [_ I2] Hs Ht. split.
    - exists (CTemp n). split; [apply u_temp|]. exists (VR (lval e)). cbn [Print_Spec.ev]. rewrite (I2 a n e Ht Hs). split; reflexivity.
    - destruct e as [l ?]; destruct l; cbn [lead nominus]; auto.
  Qed.

  Lemma try_ok f a e force st en : stands h a e -> printable e -> (num_nodes e <= f)%nat -> inv st en ->
    outcome (try_simple f a force st) st en
      (fun t st' en' => (t = [] /\ force = false /\ st' = st) \/ (t <> [] /\ done e t st' en')).
  Proof using HB.
    intros Hs P Hf Hi. unfold Print_Model.try_simple. destruct (temp_of a (p_temps st)) as [n|] eqn:Et.
    - apply outcome_ret; auto. right. split; [discriminate|]. eapply temp_done; eauto.
    - destruct (td_ok e a f Hs P Hf) as (t & nc & -> & Rd & Ld).
      assert (Tn : t <> []) by (destruct (Rd en) as (c & (U & _) & _); exact U).
      destruct force; cbn [orb].
      + cbn [rbind]. destruct (nc =? 0); [apply outcome_ret; auto; right; split; [auto|split; auto]|].
        destruct (size a <? min_size); [apply outcome_ret; auto; right; split; [auto|split; auto]|].
        destruct (Rd en) as (c & U & v & Ev & R).
        destruct (outcome_temp st en a e t c v Hi Hs (parse_u t c U) Ev R) as (t' & st' & new & en' & O1 & O2 & O3 & O4 & O5 & O6).
        exists t', st', new, en'. repeat (split; auto). right. split; [|exact O6].
        destruct O6 as ((c' & (U' & _) & _) & _). exact U'.
      + destruct (negb (max_size <? size a)); [|apply outcome_ret; auto; left; repeat split; auto]. cbn [rbind].
        destruct (nc =? 0); [apply outcome_ret; auto; right; split; [auto|split; auto]|].
        apply outcome_ret; auto; left; repeat split; auto.
  Qed.

  Definition bu_spec (f : nat) (a : Z) (e : expr) : Prop := forall st en, inv st en -> outcome (bu f a st) st en (done e).

  (* try_simple, then something else if it printed nothing *)
  Lemma try_then f a e st en (k : pst -> res (text * pst)) : stands h a e -> printable e -> (num_nodes e <= f)%nat -> inv st en ->
    outcome (k st) st en (done e) ->
    outcome (rbind (try_simple f a false st) (fun '(r, st1) => match r with _ :: _ => Ok (r, st1) | [] => k st1 end)) st en (done e).
  Proof using HB.
    intros Hs P Hf Hi Hk. apply outcome_bind.
    destruct (try_ok f a e false st en Hs P Hf Hi) as (t & st1 & new & en1 & E1 & O1 & R1 & X1 & I1 & [(-> & _ & ->)|(Tn & D)]).
    - destruct Hk as (t2 & st2 & new2 & en2 & K1 & K2 & K3 & K4 & K5 & K6).
      exists [], st, [], en. split; [exact E1|]. split; [rewrite app_nil_r; reflexivity|]. split; [reflexivity|].
      split; [intros ? ? ?; auto|]. split; [exact Hi|].
      exists t2, st2, new2, en2. repeat (split; [assumption|]). assumption.
    - exists t, st1, new, en1. repeat (split; auto). destruct t as [|k0 t0]; [congruence|]. apply outcome_ret; auto.
  Qed.

  Lemma bu_list_ok f ps es : Forall2 (bu_spec f) ps es -> forall st en, inv st en ->
    exists ts st' new en', bu_list (bu f) ps st = Ok (ts, st') /\ p_out st' = p_out st ++ new /\ run en new = Some (en', []) /\
      ext en en' /\ inv st' en' /\ Forall2 (reads en') ts es.
  Proof using.
    induction 1 as [|p e ps es Hp _ IH]; intros st en Hi.
    - exists [], st, [], en. rewrite app_nil_r. repeat split; auto. 1: intros ? ? ?; auto. all: apply Hi.
    - destruct (Hp st en Hi) as (t & st1 & n1 & en1 & A1 & A2 & A3 & A4 & A5 & A6 & _).
      destruct (IH st1 en1 A5) as (ts & st2 & n2 & en2 & B1 & B2 & B3 & B4 & B5 & B6).
      exists (t :: ts), st2, (n1 ++ n2), en2. cbn [bu_list]. rewrite A1. cbn [rbind]. rewrite B1. cbn [rbind]. split; [reflexivity|].
      split; [rewrite B2, A2, app_assoc; reflexivity|]. split; [eapply run_app0; eauto|]. split; [eapply ext_trans; eauto|].
      split; [auto|]. constructor; auto. eapply reads_ext; eauto.
  Qed.

  Lemma comm_loop_ok f o a e1 : forall ps es, Forall2 (bu_spec f) ps es -> Forall printable es -> es <> [] ->
    forall pre lhs st en, stands h a (E (LComm o) (e1 :: pre ++ es)) ->
    (forall k, small B (ival (E (LComm o) (firstn k (e1 :: pre ++ es))))) ->
    inv st en -> (exists c, utext lhs c /\ exists v, ev en c = Some v /\ 
       racc N v (ival (match pre with [] => e1 | _ => E (LComm o) (e1 :: pre) end)) (lval (match pre with [] => e1 | _ => E (LComm o) (e1 :: pre) end))) ->
    outcome (comm_loop (bu f) o a lhs ps st) st en (done (E (LComm o) (e1 :: pre ++ es))).
  Proof using HB.
    assert (Acc : forall o e1 pre, (ival (match pre with [] => e1 | _ => E (LComm o) (e1 :: pre) end), lval (match pre with [] => e1 | _ => E (LComm o) (e1 :: pre) end)) =
       (fold_left (fun s y => opt2 (comm_i o) s (ival y)) pre (ival e1), fold_left (fun s y => comm_v N o s (lval y)) pre (lval e1))).
    { intros o' e' [|x pre]; [reflexivity|]. rewrite ival_comm, (lval_comm N). reflexivity. }
    induction 1 as [|p e ps es Hp F IH]; intros Pl Hn pre lhs st en Hs Hk Hi (c & U & v & Ev & R); [congruence|].
    inversion Pl as [|? ? P1 P2]; subst. cbn [comm_loop]. apply outcome_bind.
    destruct (Hp st en Hi) as (t & st1 & n1 & en1 & A1 & A2 & A3 & A4 & A5 & (c2 & U2 & v2 & Ev2 & R2) & _).
    exists t, st1, n1, en1. repeat (split; auto).
    pose proof (Acc o e1 pre) as AA. injection AA as AA1 AA2. rewrite AA1, AA2 in R.
    assert (S1 : small B (fold_left (fun s y => opt2 (comm_i o) s (ival y)) pre (ival e1))).
    { specialize (Hk (S (List.length pre))). cbn [firstn] in Hk. rewrite ival_comm in Hk.
      rewrite firstn_app, Nat.sub_diag, firstn_all, app_nil_r in Hk. exact Hk. }
    assert (S2 : small B (opt2 (comm_i o) (fold_left (fun s y => opt2 (comm_i o) s (ival y)) pre (ival e1)) (ival e))).
    { specialize (Hk (S (S (List.length pre)))). rewrite firstn_cons in Hk. rewrite ival_comm in Hk.
      replace (pre ++ e :: es) with ((pre ++ [e]) ++ es) in Hk by (rewrite <- app_assoc; reflexivity).
      rewrite firstn_app in Hk. rewrite app_length in Hk. cbn [List.length] in Hk.
      replace (S (List.length pre) - (List.length pre + 1))%nat with 0%nat in Hk by lia.
      rewrite firstn_O, app_nil_r, firstn_all2 in Hk by (rewrite app_length; cbn; lia). rewrite fold_left_app in Hk. exact Hk. }
    destruct (comm_step N B HB o v _ _ v2 _ _ R R2 S1 (printable_small N B e P1) S2) as (v3 & Bv & Rv).
    assert (Pt : parse (lhs ++ [TSp; cop_tok o; TSp] ++ t) = Some (CBin (chain_bin o) c c2)) by (apply parse_comm; auto).
    assert (Ev3 : ev en1 (CBin (chain_bin o) c c2) = Some v3).
    { cbn [Print_Spec.ev]. rewrite (ev_ext en en1 A4 c v Ev), Ev2. exact Bv. }
    destruct ps as [|p' ps'].
    - inversion F; subst. cbn [comm_loop].
      apply (outcome_temp st1 en1 a (E (LComm o) (e1 :: pre ++ [e])) _ (CBin (chain_bin o) c c2) v3); auto.
      unfold PrintEval_Proofs.rep. rewrite ival_comm, (lval_comm N), !fold_left_app. exact Rv.
    - destruct (new_temp_ok st1 en1 None _ (CBin (chain_bin o) c c2) v3 A5 Pt Ev3 I) as (n & st2 & en2 & -> & O2 & _ & _ & R3 & I2 & X2 & E2).
      replace (e1 :: pre ++ e :: es) with (e1 :: (pre ++ [e]) ++ es) in * by (rewrite <- app_assoc; reflexivity).
      destruct (IH P2 ltac:(inversion F; discriminate) (pre ++ [e]) [TTemp n] st2 en2 Hs Hk I2) as (t4 & st4 & n4 & en4 & K1 & K2 & K3 & K4 & K5 & K6).
      { exists (CTemp n). split; [apply u_temp|]. exists (VR (to_real N v3)). cbn [Print_Spec.ev]. rewrite E2. unfold upd. rewrite Z.eqb_refl.
        split; [reflexivity|]. cbn [racc]. rewrite (racc_real N _ _ _ Rv).
        pose proof (Acc o e1 (pre ++ [e])) as A9. injection A9 as _ A9. rewrite A9, fold_left_app. reflexivity. }
      exists t4, st4, (SSet n (lhs ++ [TSp; cop_tok o; TSp] ++ t) :: n4), en4. split; [exact K1|].
      split; [rewrite K2, O2, <- app_assoc; reflexivity|].
      split; [change (SSet n (lhs ++ [TSp; cop_tok o; TSp] ++ t) :: n4) with ([SSet n (lhs ++ [TSp; cop_tok o; TSp] ++ t)] ++ n4); eapply run_app0; eauto|].
      split; [eapply ext_trans; eauto|]. split; auto.
  Qed.

  Lemma leaf_ok f a e st en : stands h a e -> printable e -> (num_nodes e <= f)%nat -> inv st en ->
    outcome (try_simple f a true st) st en (done e).
  Proof using HB.
    intros Hs P Hf Hi. destruct (try_ok f a e true st en Hs P Hf Hi) as (t & st1 & new & en1 & A1 & A2 & A3 & A4 & A5 & [(_ & C & _)|(_ & D)]); [discriminate|].
    exists t, st1, new, en1. repeat (split; [assumption|]). assumption.
  Qed.

  Lemma pair_ok f a b g ps es st en : pair a = Some b -> h a = Some (LFunc g, ps) -> Forall2 (stands h) ps es -> es <> [] ->
    Forall2 (bu_spec f) ps es -> inv st en -> stands h a (E (LFunc g) es) ->
    outcome (match h b with
             | Some (LFunc g2, _) =>
                 rbind (bu_list (bu f) ps st) (fun '(ts, st1) =>
                   let '(n1, st2) := new_temp st1 (Some a) [TInt 0] in
                   let '(n2, st3) := new_temp st2 (Some b) [TInt 0] in
                   Ok ([TTemp n1], mkPst (p_next st3) (p_temps st3) (p_out st3 ++ [SPair g g2 n1 n2 (sep [TComma; TSp] ts)])))
             | _ => UB
             end) st en (done (E (LFunc g) es)).
  Proof using HB Hpair.
    intros Hp Ha F Hn FB Hi Hs. destruct (Hpair a b Hp) as (g' & g2 & ps' & qs & Ha' & Hb & Hk0 & Heq).
    rewrite Ha in Ha'. injection Ha' as <- <-. rewrite Hb.
    apply outcome_bind. destruct (bu_list_ok f ps es FB st en Hi) as (ts & st1 & n0 & en1 & A1 & A2 & A3 & A4 & A5 & A6).
    exists ts, st1, n0, en1. repeat (split; [assumption|]). clear A1 A2 A3.
    destruct (reads_fun en1 ts es A6) as (cs & U & Rc). destruct (call_rep N ix en1 cs es Rc) as (vs & V1 & V2).
    assert (Tn : ts <> []) by (destruct A6; [congruence|discriminate]).
    pose proof A5 as [J1 J2]. set (k := p_next st1).
    assert (K0 : en1 k = None) by (apply J1; unfold k; lia). assert (K1 : en1 (k + 1) = None) by (apply J1; unfold k; lia).
    assert (Z0 : vi 0 = Some (VI (V:=V) 0)) by reflexivity.
    set (z := n_const N (inject_Z 0)). set (ea := upd (upd en1 k z) (k + 1) z).
    assert (X1 : ext en1 ea).
    { intros n w Hw. unfold ea, upd. destruct (Z.eqb_spec n (k + 1)); [subst; congruence|]. destruct (Z.eqb_spec n k); [subst; congruence|auto]. }
    set (xs := map lval es). set (eb := upd (upd ea k (n_fun N g xs)) (k + 1) (n_fun N g2 xs)).
    assert (EV : opts (map (ev ea) cs) = Some vs).
    { clear - V1 X1. revert vs V1. induction cs as [|c cs IH]; intros vs V1; cbn [map opts] in *; auto.
      destruct (ev en1 c) as [x|] eqn:E1; [|discriminate]. rewrite (ev_ext en1 ea X1 c x E1).
      destruct (opts (map (ev en1) cs)) as [ys|]; [|discriminate]. rewrite (IH ys eq_refl). exact V1. }
    unfold new_temp. cbn [p_next p_temps p_out]. fold k.
    exists [TTemp k], (mkPst (k + 1 + 1) ((b, k + 1) :: (a, k) :: p_temps st1)
        (((p_out st1 ++ [SSet k [TInt 0]]) ++ [SSet (k + 1) [TInt 0]]) ++ [SPair g g2 k (k + 1) (sep [TComma; TSp] ts)])),
      [SSet k [TInt 0]; SSet (k + 1) [TInt 0]; SPair g g2 k (k + 1) (sep [TComma; TSp] ts)], eb.
    split; [reflexivity|]. cbn [p_out]. split; [rewrite <- !app_assoc; reflexivity|].
    assert (PZ : parse [TInt 0] = Some (CInt 0)) by reflexivity.
    assert (E1 : exec en1 (SSet k [TInt 0]) = Some (upd en1 k z, [])).
    { cbn [Print_Spec.exec]. rewrite K0, PZ. cbn [Print_Spec.ev]. rewrite Z0. reflexivity. }
    assert (E2 : exec (upd en1 k z) (SSet (k + 1) [TInt 0]) = Some (ea, [])).
    { cbn [Print_Spec.exec]. rewrite PZ. unfold upd at 1. replace (k + 1 =? k) with false by lia. rewrite K1. cbn [Print_Spec.ev]. rewrite Z0. reflexivity. }
    assert (L1 : ea k = Some z). { unfold ea, upd. replace (k =? k + 1) with false by lia. rewrite Z.eqb_refl. reflexivity. }
    assert (L2 : ea (k + 1) = Some z). { unfold ea, upd. rewrite Z.eqb_refl. reflexivity. }
    assert (E3 : exec ea (SPair g g2 k (k + 1) (sep [TComma; TSp] ts)) = Some (eb, [])).
    { cbn [Print_Spec.exec]. rewrite L1, L2, (parse_args_ok ts cs U Tn), Hk0, EV, V2. reflexivity. }
    split; [cbn [Print_Spec.run]; rewrite E1; cbn [Print_Spec.run]; rewrite E2; cbn [Print_Spec.run]; rewrite E3; reflexivity|].
    assert (Hk : eb k = Some (n_fun N g xs)).
    { unfold eb, upd. replace (k =? k + 1) with false by lia. rewrite Z.eqb_refl. reflexivity. }
    assert (Hk1 : eb (k + 1) = Some (n_fun N g2 xs)) by (unfold eb, upd; rewrite Z.eqb_refl; reflexivity).
    assert (Ho : forall n, n <> k -> n <> k + 1 -> eb n = en1 n).
    { intros n N1 N2. unfold eb, ea, upd. replace (n =? k) with false by lia. replace (n =? k + 1) with false by lia. reflexivity. }
    assert (X2 : ext en1 eb).
    { intros n w Hw. rewrite Ho; auto; intros ->; congruence. }
    split; [exact X2|]. split.
    - split; cbn [p_next p_temps].
      + intros n Hge. rewrite Ho by lia. apply J1. unfold k in *. lia.
      + intros a' n e Ht Hs'. rewrite !temp_cons in Ht. destruct (Z.eqb_spec b a') as [<-|Nb].
        * injection Ht as <-. destruct (stands_inv h b _ Hs') as (l' & ps'' & es' & -> & Hb' & F'). rewrite Hb in Hb'. injection Hb' as <- <-.
          rewrite Hk1. cbn [Print_Spec.lval]. unfold xs. rewrite (Heq es es' F F'). reflexivity.
        * destruct (Z.eqb_spec a a') as [<-|Na].
          -- injection Ht as <-. rewrite (stands_fun h e a _ Hs' Hs). rewrite Hk. reflexivity.
          -- apply X2. eapply J2; eauto.
    - split; [|exact I]. exists (CTemp k). split; [apply u_temp|]. exists (VR (n_fun N g xs)). cbn [Print_Spec.ev]. rewrite Hk. split; reflexivity.
  Qed.

  Lemma bu_ok : forall e a f, stands h a e -> printable e -> (num_nodes e <= f)%nat -> bu_spec f a e.
  Proof using HB Hpair.
    induction e as [l ops IH] using expr_ind2. intros a f St P Hf st en Hi.
    destruct (stands_inv h a _ St) as (l' & ps & es & Ee & Ha & F). injection Ee as <- <-.
    destruct f as [|f]; [cbn in Hf; lia|].
    assert (CH : forall p e, In e ops -> stands h p e -> printable e -> bu_spec f p e).
    { intros p e Hin Hs Hp. rewrite Forall_forall in IH. apply IH; auto. apply (child_nodes f e ops); auto. }
    assert (CL : Forall printable ops -> Forall2 (bu_spec f) ps ops).
    { clear - CH F. induction F as [|p e ps es Hs _ IHF]; intros Pl; constructor.
      - inversion Pl; subst. apply CH; auto. left; auto.
      - inversion Pl; subst. apply IHF; auto. intros; apply CH; auto. right; auto. }
    pose proof P as P0. cbn [Print_Model.bu]. rewrite Ha.
    destruct l as [q|s|s|d ty| |o|o|g]; cbn [Print_Spec.printable] in P.
    - apply leaf_ok; auto.
    - destruct P as (_ & []).
    - apply leaf_ok; auto.
    - destruct P as (_ & []).
    - destruct ops as [|e1 [|]]; try (destruct P as (_ & []); fail).
      inversion F as [|p1 ? ps1 ? F1 F2]; subst. inversion F2; subst. destruct P as (_ & P1 & P2).
      apply (try_then (S f) a _ st en (fun st1 => rbind (bu f p1 st1) (fun '(t, st2) =>
                        let '(n, st3) := new_temp st2 (Some a) (TMinus :: t) in Ok ([TTemp n], st3)))); auto.
      apply outcome_bind. destruct (CH p1 e1 (or_introl eq_refl) F1 P1 st en Hi) as (t & st1 & n1 & en1 & A1 & A2 & A3 & A4 & A5 & (c & U & v & Ev & R) & Ld).
      exists t, st1, n1, en1. repeat (split; [assumption|]).
      assert (Nm : nominus t). { destruct e1 as [l1 o1]. destruct l1; cbn [lead] in Ld; auto. contradiction. }
      destruct (neg_step N ix B HB en1 c v e1 Ev R (printable_small N B e1 P1)) as (v' & Ev' & R').
      apply (outcome_temp st1 en1 a _ _ (CNeg c) v'); auto. apply parse_u. apply u_neg; auto.
    - destruct ops as [|e1 [|e2 [|]]]; try (destruct P as (_ & P); destruct o; contradiction).
      inversion F as [|p1 ? ps1 ? F1 F2]; subst. inversion F2 as [|p2 ? ps2 ? F3 F4]; subst. inversion F4; subst.
      assert (Ho : o <> OMod) by (destruct P as (_ & P); destruct o; [discriminate|discriminate|contradiction]).
      assert (P12 : printable e1 /\ printable e2) by (destruct P as (_ & P); destruct o; tauto).
      apply (try_then (S f) a _ st en (fun st1 => rbind (bu f p1 st1) (fun '(t1, st2) => rbind (bu f p2 st2) (fun '(t2, st3) =>
                        let '(n, st4) := new_temp st3 (Some a) (t1 ++ [TSp; bop_tok o; TSp] ++ t2) in Ok ([TTemp n], st4))))); auto.
      apply outcome_bind. destruct (CH p1 e1 (or_introl eq_refl) F1 (proj1 P12) st en Hi) as (t1 & st1 & n1 & en1 & A1 & A2 & A3 & A4 & A5 & Rd1 & _).
      exists t1, st1, n1, en1. repeat (split; [assumption|]).
      apply outcome_bind. destruct (CH p2 e2 (or_intror (or_introl eq_refl)) F3 (proj2 P12) st1 en1 A5) as (t2 & st2 & n2 & en2 & B1 & B2 & B3 & B4 & B5 & Rd2 & _).
      exists t2, st2, n2, en2. repeat (split; [assumption|]).
      destruct (reads_bin o en2 t1 e1 t2 e2 Ho (reads_ext en1 en2 t1 e1 B4 Rd1) Rd2 P0) as (c & v & Pc & Ev & R & _).
      apply (outcome_temp st2 en2 a _ _ c v); auto.
    - destruct P as (_ & Pl & Hlen & Hk). apply printable_list in Pl. specialize (CL Pl).
      apply (try_then (S f) a _ st en (fun st1 => match ps with
                      | p :: ((_ :: _) as r) => rbind (bu f p st1) (fun '(t, st2) => comm_loop (bu f) o a t r st2)
                      | _ => UB
                      end)); auto.
      inversion CL as [|p1 e1 ps1 es1 C1 C2]; subst; [cbn in Hlen; lia|].
      inversion C2 as [|p2 e2 ps2 es2 C3 C4]; subst; [cbn in Hlen; lia|].
      apply outcome_bind. destruct (C1 st en Hi) as (t1 & st1 & n1 & en1 & A1 & A2 & A3 & A4 & A5 & Rd1 & _).
      exists t1, st1, n1, en1. repeat (split; [assumption|]).
      inversion Pl as [|? ? P1 P2]; subst.
      exact (comm_loop_ok f o a e1 _ _ C2 P2 ltac:(discriminate) [] t1 st1 en1 St Hk A5 Rd1).
    - destruct P as (_ & Hn & Pl). apply printable_list in Pl. specialize (CL Pl).
      destruct (pair a) as [b|] eqn:Ep.
      + destruct (temp_of a (p_temps st)) as [n|] eqn:Et.
        * apply outcome_ret; auto. eapply temp_done; eauto.
        * apply (pair_ok f a b g ps ops st en); auto.
      + apply (try_then (S f) a _ st en (fun st1 => rbind (bu_list (bu f) ps st1) (fun '(ts, st2) =>
                            let '(n, st3) := new_temp st2 (Some a) (TFun g :: TLP :: sep [TComma; TSp] ts ++ [TRP]) in
                            Ok ([TTemp n], st3)))); auto.
        apply outcome_bind. destruct (bu_list_ok f ps ops CL st en Hi) as (ts & st1 & n0 & en1 & A1 & A2 & A3 & A4 & A5 & A6).
        exists ts, st1, n0, en1. repeat (split; [assumption|]).
        destruct (reads_fun en1 ts ops A6) as (cs & U & Rc). destruct (call_rep N ix en1 cs ops Rc) as (vs & V1 & V2).
        assert (Tn : ts <> []) by (destruct A6; [congruence|discriminate]).
        apply (outcome_temp st1 en1 a _ _ (CCall g cs) (VR (n_fun N g (map lval ops)))); auto.
        * apply parse_u. apply u_call; auto.
        * cbn [Print_Spec.ev]. rewrite V1, V2. reflexivity.
        * reflexivity.
  Qed.

  Lemma print_eq_ok f p a e st en : stands h a e -> printable e -> (num_nodes e <= f)%nat -> inv st en ->
    exists st' new en', print_eq h count size pair max_size min_size f (p, a) st = Ok st' /\ p_out st' = p_out st ++ new /\
      run en new = Some (en', [(p, lval e)]) /\ inv st' en'.
  Proof using HB Hpair.
    intros Hs P Hf Hi. unfold print_eq. cbn [snd fst].
    destruct (bu_ok e a f Hs P Hf st en Hi) as (t & st1 & n1 & en1 & -> & A2 & A3 & A4 & A5 & (c & U & v & Ev & R) & _).
    cbn [rbind]. pose proof (racc_real N v _ _ R) as Tr.
    destruct (new_temp_ok st1 en1 (Some a) t c v A5 (parse_u t c U) Ev) as (n & st2 & en2 & -> & O2 & _ & _ & R2 & I2 & X2 & E2); [exists e; auto|].
    do 3 eexists. split; [reflexivity|]. cbn [p_out]. split; [rewrite O2, A2, <- !app_assoc; reflexivity|].
    split; [|exact I2]. eapply run_app0; [exact A3|]. eapply run_app0; [exact R2|].
    cbn [Print_Spec.run Print_Spec.exec]. rewrite E2. unfold upd. rewrite Z.eqb_refl, Tr. reflexivity.
  Qed.

  Lemma print_eqs_ok f : forall eqs es, Forall2 (fun q e => stands h (snd q) e /\ printable e /\ (num_nodes e <= f)%nat) eqs es ->
    forall st en, inv st en -> exists st' new en',
      rfold (fun st e => print_eq h count size pair max_size min_size f e st) eqs st = Ok st' /\ p_out st' = p_out st ++ new /\
      run en new = Some (en', combine (map fst eqs) (map lval es)).
  Proof using HB Hpair.
    induction 1 as [|[p a] e eqs es (H1 & H2 & H3) _ IH]; intros st en Hi.
    - exists st, [], en. rewrite app_nil_r. repeat split; auto.
    - destruct (print_eq_ok f p a e st en H1 H2 H3 Hi) as (st1 & n1 & en1 & A1 & A2 & A3 & A4).
      destruct (IH st1 en1 A4) as (st2 & n2 & en2 & B1 & B2 & B3).
      exists st2, (n1 ++ n2), en2. cbn [rfold]. rewrite A1. cbn [rbind]. split; [exact B1|].
      split; [rewrite B2, A2, app_assoc; reflexivity|]. rewrite run_app, A3, B3. reflexivity.
  Qed.
End Run.

Theorem print_part_ok : forall V (N : nsys V) ix B h count size pair max_size min_size eqs es,
  ints_exact N B -> pairs_ok N h pair -> Forall2 (stands h) (map snd eqs) es -> Forall (printable N B) es ->
  exists f0, forall f, (f0 <= f)%nat -> exists prog en,
    print_part h count size pair max_size min_size f eqs = Ok prog /\
    run N ix (fun _ => None) prog = Some (en, combine (map fst eqs) (map (lval N) es)).
Proof.
  intros V N ix B h count size pair max_size min_size eqs es HB HP F P.
  exists (fold_right (fun e n => (num_nodes e + n)%nat) O es). intros f Hf.
  assert (FF : Forall2 (fun q e => stands h (snd q) e /\ printable N B e /\ (num_nodes e <= f)%nat) eqs es).
  { revert es F P Hf. induction eqs as [|q eqs IH]; intros es F P Hf; inversion F; subst; constructor.
    - inversion P; subst. cbn [fold_right] in Hf. repeat split; auto. lia.
    - inversion P; subst. cbn [fold_right] in Hf. apply IH; auto. lia. }
  destruct (print_eqs_ok N ix B HB h count size pair max_size min_size HP f eqs es FF (mkPst 1 [] []) (fun _ => None)) as (st & new & en & A1 & A2 & A3).
  { split; [auto|]. intros a n e H. discriminate. }
  exists new, en. unfold print_part. rewrite A1. cbn [rbind]. split; [rewrite A2; reflexivity|exact A3].
Qed.
