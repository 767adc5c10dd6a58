(* Proofs for Print_Model: the printed code computes the values of the expressions. *)
From Coq Require Import String QArith Qabs Lqa.
From Verif Require Import Base Expr_Model Expr_Spec Expr_Proofs ExprOpt_Proofs Print_Model Print_Spec Print_Proofs Dec_Proofs.
Open Scope Z_scope.

(* Literals *)
Lemma q_int_some q z : q_int q = Some z -> (inject_Z z == q)%Q.
Proof.
  unfold q_int. destruct (Z.eqb_spec (Qnum q mod Zpos (Qden q)) 0) as [E|E]; intros H; [|discriminate]. injection H as <-.
  unfold Qeq, inject_Z; cbn [Qnum Qden]. pose proof (Z.div_mod (Qnum q) (Zpos (Qden q)) ltac:(lia)). lia.
Qed.
Lemma q_int_eq q z : (inject_Z z == q)%Q -> q_int q = Some z.
Proof.
  unfold Qeq, inject_Z; cbn [Qnum Qden]. intros H. unfold q_int. replace (Qnum q) with (z * Zpos (Qden q)) by lia.
  rewrite Z.mod_mul by lia. cbn [Z.eqb]. rewrite Z.div_mul by lia. reflexivity.
Qed.
Lemma to_int_small q : (Qabs q < inject_Z (2 ^ 31))%Q -> to_int 32 q = Ok (Z.quot (Qnum q) (Zpos (Qden q))).
Proof.
  intros H. unfold to_int. change (32 - 1) with 31.
  destruct q as [n d]. unfold Qabs, Qlt, inject_Z in H; cbn [Qnum Qden] in *. rewrite Z.mul_1_r in H.
  set (Q := Z.quot n (Zpos d)). assert (A : Z.abs Q < 2 ^ 31).
  { unfold Q. rewrite <- Z.quot_abs by lia. apply Z.quot_lt_upper_bound; lia. }
  replace ((- 2 ^ 31 <=? Q) && (Q <? 2 ^ 31)) with true by lia. reflexivity.
Qed.
Lemma quot_int q z : (inject_Z z == q)%Q -> Z.quot (Qnum q) (Zpos (Qden q)) = z.
Proof.
  unfold Qeq, inject_Z; cbn [Qnum Qden]. intros H. replace (Qnum q) with (z * Zpos (Qden q)) by lia. apply Z.quot_mul. lia.
Qed.

Lemma format_ok q : (Qabs q < inject_Z (2 ^ 31))%Q ->
  exists t c p, format_real q = Ok t /\ utext t c /\ lit_val c = Some p /\ ((0 <= q)%Q -> nominus t) /\
    match q_int q with
    | Some z => p = inject_Z z /\ (c = CInt z /\ 0 <= z \/ c = CNeg (CInt (- z)) /\ z < 0)
    | None => nearest16 q p /\ (c = CReal p \/ exists p', c = CNeg (CReal p') /\ p = (- p')%Q)
    end.
Proof.
  intros H. unfold format_real. rewrite (to_int_small q H). cbn [rbind].
  destruct (q_int q) as [z|] eqn:Eq.
  - pose proof (q_int_some q z Eq) as Ez. rewrite (quot_int q z Ez).
    replace (Qeq_bool (inject_Z z) q) with true by (symmetry; apply Qeq_bool_iff; auto).
    unfold int_text. destruct (Z.ltb_spec z 0) as [E|E].
    + exists [TMinus; TInt (- z)], (CNeg (CInt (- z))), (- inject_Z (- z))%Q. split; [reflexivity|].
      split; [apply u_neg; [apply u_int|exact I]|]. split; [reflexivity|]. split.
      * intros Q0. exfalso. rewrite <- Ez in Q0. change 0%Q with (inject_Z 0) in Q0. rewrite <- Zle_Qle in Q0. lia.
      * split; [|right; auto]. unfold Qopp, inject_Z. cbn [Qnum Qden]. rewrite Z.opp_involutive. reflexivity.
    + exists [TInt z], (CInt z), (inject_Z z). split; [reflexivity|]. split; [apply u_int|]. split; [reflexivity|].
      split; [intros; exact I|]. split; [reflexivity|left; auto].
  - destruct (Qeq_bool (inject_Z (Z.quot (Qnum q) (Zpos (Qden q)))) q) eqn:E.
    { apply Qeq_bool_iff in E. rewrite (q_int_eq q _ E) in Eq. discriminate. }
    assert (Hz : ~ (q == 0)%Q). { intros C. rewrite (q_int_eq q 0) in Eq; [discriminate|]. rewrite C. reflexivity. }
    destruct (dec16_ok q Hz) as (p & -> & Hp & Pp). cbn [rbind].
    destruct (Z.ltb_spec (Qnum q) 0) as [N0|N0].
    + exists [TMinus; TReal p], (CNeg (CReal p)), (- p)%Q. split; [reflexivity|].
      split; [apply u_neg; [apply u_real|exact I]|]. split; [reflexivity|].
      assert (Ql : (q < 0)%Q) by (unfold Qlt; cbn; lia). split; [intros C; exfalso; lra|].
      split; [|right; exists p; auto].
      apply (nearest_comp (- Qabs q) q (- p) (- p)); [rewrite Qabs_neg by lra; ring|reflexivity|apply nearest_opp; auto].
    + exists [TReal p], (CReal p), p. split; [reflexivity|]. split; [apply u_real|]. split; [reflexivity|].
      split; [intros; exact I|]. split; [|left; auto].
      assert (Qg : (0 <= q)%Q) by (unfold Qle; cbn; lia).
      apply (nearest_comp (Qabs q) q p p); [apply Qabs_pos; auto|reflexivity|auto].
Qed.

Section Eval.
  Context {V : Type}.
  Variable N : nsys V.
  Variable ix : string -> itype -> Z.
  Variable B : Z.
  Hypothesis HB : ints_exact N B.
  Notation ev := (ev N ix).
  Notation lval := (lval N).
  Notation cst z := (n_const N (inject_Z z)).

  Definition racc (v : cval) (i : option Z) (x : V) : Prop :=
    match v with VI z => i = Some z /\ cst z = x | VR y => y = x end.
  Definition rep (v : cval) (e : expr) : Prop := racc v (ival e) (lval e).
  Lemma racc_real v i x : racc v i x -> to_real N v = x.
  Proof using. destruct v; cbn; tauto. Qed.

  Lemma vi_small z : - B <= z <= B -> vi z = Some (VI (V:=V) z).
  Proof using HB.
    intros H. destruct HB as (H0 & _). unfold vi, in_int. replace ((- 2 ^ 31 <=? z) && (z <? 2 ^ 31)) with true by lia. reflexivity.
  Qed.

  Definition comm_i (o : cop) : Z -> Z -> Z := match o with OAdd => Z.add | OMul => Z.mul end.
  Definition comm_v (o : cop) : V -> V -> V := match o with OAdd => n_add N | OMul => n_mul N end.
  Lemma comm_step o v1 i1 x1 v2 i2 x2 : racc v1 i1 x1 -> racc v2 i2 x2 -> small B i1 -> small B i2 ->
    small B (opt2 (comm_i o) i1 i2) ->
    exists v, bin_val N (chain_bin o) v1 v2 = Some v /\ racc v (opt2 (comm_i o) i1 i2) (comm_v o x1 x2).
  Proof using HB.
    intros R1 R2 S1 S2 S3. pose proof (racc_real _ _ _ R1) as T1. pose proof (racc_real _ _ _ R2) as T2.
    destruct v1 as [z1|y1], v2 as [z2|y2]; cbn [bin_val].
    - destruct R1 as [-> E1], R2 as [-> E2]. cbn [opt2 small] in *. destruct HB as (_ & _ & _ & HH).
      destruct (HH z1 z2 S1 S2) as (Ha & _ & Hm).
      destruct o; cbn [chain_bin comm_i comm_v] in *; rewrite (vi_small _ S3); eexists; (split; [reflexivity|]);
        cbn [racc]; (split; [reflexivity|]); rewrite <- E1, <- E2; symmetry; auto.
    - rewrite T1, T2. destruct o; eexists; (split; [reflexivity|]); reflexivity.
    - rewrite T1, T2. destruct o; eexists; (split; [reflexivity|]); reflexivity.
    - rewrite T1, T2. destruct o; eexists; (split; [reflexivity|]); reflexivity.
  Qed.
  Lemma sub_step v1 e1 v2 e2 : rep v1 e1 -> rep v2 e2 -> small B (ival e1) -> small B (ival e2) ->
    small B (opt2 Z.sub (ival e1) (ival e2)) ->
    exists v, bin_val N BSub v1 v2 = Some v /\ rep v (E (LBin OSub) [e1; e2]).
  Proof using HB.
    intros R1 R2 S1 S2 S3. pose proof (racc_real _ _ _ R1) as T1. pose proof (racc_real _ _ _ R2) as T2.
    destruct v1 as [z1|y1], v2 as [z2|y2]; cbn [bin_val].
    - destruct R1 as [I1 E1], R2 as [I2 E2]. rewrite I1, I2 in *. cbn [opt2 small] in *. destruct HB as (_ & _ & _ & HH).
      destruct (HH z1 z2 S1 S2) as (_ & Hs & _). rewrite (vi_small _ S3). eexists. split; [reflexivity|].
      unfold rep, racc. cbn [Print_Spec.ival Print_Spec.lval]. rewrite I1, I2. split; [reflexivity|]. rewrite <- E1, <- E2. symmetry. auto.
    - rewrite T1, T2. eexists; (split; [reflexivity|]); reflexivity.
    - rewrite T1, T2. eexists; (split; [reflexivity|]); reflexivity.
    - rewrite T1, T2. eexists; (split; [reflexivity|]); reflexivity.
  Qed.
  Lemma div_step v1 e1 v2 e2 : rep v1 e1 -> rep v2 e2 -> ival e1 = None \/ ival e2 = None ->
    exists v, bin_val N BDiv v1 v2 = Some v /\ rep v (E (LBin ODiv) [e1; e2]).
  Proof using.
    intros R1 R2 D. pose proof (racc_real _ _ _ R1) as T1. pose proof (racc_real _ _ _ R2) as T2.
    destruct v1 as [z1|y1], v2 as [z2|y2]; cbn [bin_val].
    - destruct R1 as [I1 _], R2 as [I2 _]. destruct D; congruence.
    - rewrite T1, T2. eexists; (split; [reflexivity|]); reflexivity.
    - rewrite T1, T2. eexists; (split; [reflexivity|]); reflexivity.
    - rewrite T1, T2. eexists; (split; [reflexivity|]); reflexivity.
  Qed.
  Lemma neg_step en c v e : ev en c = Some v -> rep v e -> small B (ival e) ->
    exists v', ev en (CNeg c) = Some v' /\ rep v' (E LNeg [e]).
  Proof using HB.
    intros Ec R S1. cbn [Print_Spec.ev]. rewrite Ec. pose proof (racc_real _ _ _ R) as T. destruct v as [z|y].
    - destruct R as [I1 E1]. rewrite I1 in S1. cbn [small] in S1. rewrite vi_small by lia. eexists; split; [reflexivity|].
      unfold rep, racc. cbn [Print_Spec.ival Print_Spec.lval]. rewrite I1. split; [reflexivity|].
      destruct HB as (_ & He & Hn & _). rewrite <- E1, Hn. apply He. rewrite inject_Z_opp. reflexivity.
    - cbn [to_real] in T. subst y. eexists; split; [reflexivity|]. reflexivity.
  Qed.

  (* Left-to-right chains *)
  Lemma chain_step o en cs es : Forall2 (fun c e => exists v, ev en c = Some v /\ rep v e) cs es ->
    Forall (fun e => small B (ival e)) es -> forall c v i x, ev en c = Some v -> racc v i x ->
    (forall k, small B (fold_left (fun s y => opt2 (comm_i o) s (ival y)) (firstn k es) i)) ->
    exists v', ev en (chain_cx o c cs) = Some v' /\
      racc v' (fold_left (fun s y => opt2 (comm_i o) s (ival y)) es i) (fold_left (fun s y => comm_v o s (lval y)) es x).
  Proof using HB.
    induction 1 as [|c1 e1 cs es (v1 & E1 & R1) _ IH]; intros Hs c v i x Ec R Hp.
    - exists v. auto.
    - inversion Hs as [|? ? Hs1 Hs2]; subst. pose proof (Hp 0%nat) as P0. pose proof (Hp 1%nat) as P1. cbn [firstn fold_left] in P0, P1.
      destruct (comm_step o v i x v1 (ival e1) (lval e1) R R1 P0 Hs1 P1) as (v2 & B2 & R2).
      cbn [chain_cx fold_left]. apply (IH Hs2 (CBin (chain_bin o) c c1) v2 _ _).
      + cbn [Print_Spec.ev]. rewrite Ec, E1. exact B2.
      + exact R2.
      + intros k. exact (Hp (S k)).
  Qed.
  Lemma ival_comm o a l : ival (E (LComm o) (a :: l)) = fold_left (fun s y => opt2 (comm_i o) s (ival y)) l (ival a).
  Proof using. destruct o; reflexivity. Qed.
  Lemma lval_comm o a l : lval (E (LComm o) (a :: l)) = fold_left (fun s y => comm_v o s (lval y)) l (lval a).
  Proof using. destruct o; reflexivity. Qed.

  Lemma printable_small e : printable N B e -> small B (ival e).
  Proof using. destruct e as [l ops]. cbn. tauto. Qed.
  Lemma printable_list l : fold_right (fun x P => printable N B x /\ P) True l <-> Forall (printable N B) l.
  Proof using.
    induction l as [|x l IH]; cbn; split; auto; intros H.
    - constructor; tauto.
    - inversion H; subst. tauto.
  Qed.
  Lemma small_prefix o a l : (forall k, small B (ival (E (LComm o) (firstn k (a :: l))))) ->
    forall k, small B (fold_left (fun s y => opt2 (comm_i o) s (ival y)) (firstn k l) (ival a)).
  Proof using. intros H k. specialize (H (S k)). cbn [firstn] in H. rewrite ival_comm in H. exact H. Qed.

  Lemma chain_rep o en c1 e1 cs es : (exists v, ev en c1 = Some v /\ rep v e1) ->
    Forall2 (fun c e => exists v, ev en c = Some v /\ rep v e) cs es ->
    Forall (printable N B) es -> (forall k, small B (ival (E (LComm o) (firstn k (e1 :: es))))) ->
    exists v, ev en (chain_cx o c1 cs) = Some v /\ rep v (E (LComm o) (e1 :: es)).
  Proof using HB.
    intros (v1 & E1 & R1) H2 Hp Hk. unfold rep. rewrite ival_comm, lval_comm.
    apply (chain_step o en cs es H2) with (v := v1); auto.
    - eapply Forall_impl; [|exact Hp]. intros; apply printable_small; auto.
    - apply small_prefix; auto.
  Qed.
  Lemma call_rep en cs es : Forall2 (fun c e => exists v, ev en c = Some v /\ rep v e) cs es ->
    exists vs, opts (map (ev en) cs) = Some vs /\ map (to_real N) vs = map lval es.
  Proof using.
    induction 1 as [|c e cs es (v & E1 & R1) _ (vs & IH1 & IH2)].
    - exists []. auto.
    - exists (v :: vs). cbn [map opts]. rewrite E1, IH1. split; [reflexivity|]. rewrite IH2, (racc_real _ _ _ R1). reflexivity.
  Qed.

  Lemma const_rep q en c : const_ok N B q -> forall p, lit_val c = Some p ->
    match q_int q with
    | Some z => p = inject_Z z /\ (c = CInt z /\ 0 <= z \/ c = CNeg (CInt (- z)) /\ z < 0)
    | None => nearest16 q p /\ (c = CReal p \/ exists p', c = CNeg (CReal p') /\ p = (- p')%Q)
    end -> exists v, ev en c = Some v /\ rep v (E (LConst q) []).
  Proof using HB.
    intros [_ C] p Hl H. destruct HB as (HB0 & He & Hn & _). unfold rep. cbn [Print_Spec.ival Print_Spec.lval].
    destruct (q_int q) as [z|] eqn:Eq.
    - pose proof (q_int_some q z Eq) as Ez. destruct H as (_ & [[-> Hz]|[-> Hz]]); cbn [Print_Spec.ev].
      + rewrite vi_small by lia. exists (VI z). split; [reflexivity|]. split; [reflexivity|]. apply He; auto.
      + rewrite vi_small by lia. rewrite vi_small by lia. exists (VI z). rewrite Z.opp_involutive. split; [reflexivity|].
        split; [reflexivity|]. apply He; auto.
    - destruct H as (Hp & [->|(p' & -> & ->)]); cbn [Print_Spec.ev].
      + eexists; split; [reflexivity|]. cbn [racc]. apply C. auto.
      + eexists; split; [reflexivity|]. cbn [racc]. rewrite Hn. apply C. auto.
  Qed.
End Eval.
