(* Proofs for Cond_Model: the value of the printed conditions. *)
From Coq Require Import String QArith Qabs Lqa.
From Verif Require Import Base Expr_Model Expr_Spec Expr_Proofs Print_Model Print_Spec Dec_Proofs PrintEval_Proofs Cond_Model Cond_Spec Cond_Proofs CondConst_Proofs.
Open Scope Z_scope.

Lemma kjoin_l k : kjoin K32 k = k. Proof. destruct k; reflexivity. Qed.
Lemma qtrunc_int v z : (v == inject_Z z)%Q -> qtrunc v = z.
Proof. intros H. symmetry in H. unfold qtrunc. apply (quot_int v z H). Qed.
Lemma Qlt_int a b : (inject_Z a < inject_Z b)%Q <-> a < b. Proof. rewrite <- Zlt_Qlt. tauto. Qed.
Lemma Qle_int a b : (inject_Z a <= inject_Z b)%Q <-> a <= b. Proof. rewrite <- Zle_Qle. tauto. Qed.

Section Eval.
  Variable rnd : Q -> Q.
  Hypothesis RD : dbl_rounding rnd.
  Variable vars : string -> option Z.
  Variable gsize : string -> Z.
  Variable w : string -> itype -> Z.
  Notation xev := (xev rnd vars gsize).
  Notation num := (num rnd w).

  Let RM : forall a b, (a <= b)%Q -> (rnd a <= rnd b)%Q := proj1 RD.
  Let RE := rnd_eq rnd RM.
  Let RI : forall z, - 2 ^ 53 <= z <= 2 ^ 53 -> (rnd (inject_Z z) == inject_Z z)%Q := proj2 RD.

  (* an integer that is in range after rounding was in range before *)
  Lemma rnd_in_range z B : 0 < B <= 2 ^ 53 -> (Qabs (rnd (inject_Z z)) < inject_Z B)%Q -> - B < z < B.
  Proof.
    intros HB H. change (2 ^ 53) with 9007199254740992 in *.
    apply Qabs_Qlt_condition in H. destruct H as [H1 H2].
    assert (z < B).
    { destruct (Z_lt_le_dec z B) as [L|L]; auto. exfalso. pose proof (RM (inject_Z B) (inject_Z z) (proj2 (Qle_int _ _) L)) as M.
      rewrite (RI B) in M by lia. lra. }
    assert (- B < z).
    { destruct (Z_lt_le_dec (- B) z) as [L|L]; auto. exfalso. pose proof (RM (inject_Z z) (inject_Z (- B)) (proj2 (Qle_int _ _) L)) as M.
      rewrite (RI (- B)) in M by lia. rewrite inject_Z_opp in M. lra. }
    lia.
  Qed.

  Definition is64 (k : kind) : bool := match k with K64 => true | _ => false end.
  Definition vok (k : kind) (v : Q) (cv : xval) : Prop :=
    match k with
    | KR => exists q, cv = VDbl q /\ (q == v)%Q
    | _ => exists z, cv = VInt (is64 k) z /\ (v == inject_Z z)%Q
    end.
  Lemma vok_int k v cv : k <> KR -> vok k v cv -> exists z, cv = VInt (is64 k) z /\ (v == inject_Z z)%Q.
  Proof. destruct k; cbn; auto; congruence. Qed.
  Lemma int_vok k v z : k <> KR -> (v == inject_Z z)%Q -> vok k v (VInt (is64 k) z).
  Proof. destruct k; cbn; intros; try congruence; exists z; auto. Qed.

  Lemma within_53 k z v : k <> KR -> (v == inject_Z z)%Q -> within k v -> - 2 ^ 53 < z < 2 ^ 53.
  Proof.
    intros Hk E H. change (2 ^ 53) with 9007199254740992 in *. destruct k; [| |congruence]; cbn [within] in H; rewrite E, Qabs_inject, Qlt_int in H.
    - change (2 ^ 31) with 2147483648 in H. lia.
    - change (2 ^ 53) with 9007199254740992 in H. lia.
  Qed.
  Lemma mk_int_ok k z : k <> KR -> within k (inject_Z z) -> mk_int (is64 k) z = Some (VInt (is64 k) z).
  Proof.
    intros Hk H. unfold mk_int. destruct k; [| |congruence]; cbn [within is64] in *; rewrite Qabs_inject, Qlt_int in H.
    - change (2 ^ 31) with 2147483648 in H. replace (in_int z) with true; [reflexivity|]. unfold in_int. lia.
    - change (2 ^ 53) with 9007199254740992 in H. replace (in_long z) with true; [reflexivity|]. unfold in_long.
      change (2 ^ 63) with 9223372036854775808. lia.
  Qed.
  Lemma within_comp k a b : (a == b)%Q -> within k a -> within k b.
  Proof. intros E. destruct k; cbn; auto; rewrite E; auto. Qed.
  Lemma rnd_within k z : k <> KR -> within k (rnd (inject_Z z)) -> (rnd (inject_Z z) == inject_Z z)%Q.
  Proof.
    intros Hk H. apply RI. destruct k; [| |congruence]; cbn [within] in H.
    - apply rnd_in_range in H; [|split; vm_compute; congruence]. change (2 ^ 31) with 2147483648 in H. change (2 ^ 53) with 9007199254740992. lia.
    - apply rnd_in_range in H; [|split; vm_compute; congruence]. lia.
  Qed.
  Lemma dbl_ok k v cv : within k v -> vok k v cv -> exists q, dbl rnd cv = Some q /\ (q == v)%Q.
  Proof.
    intros H Hv. assert (k = KR \/ k <> KR) as [->|Hk] by (destruct k; auto; right; discriminate).
    - destruct Hv as (q & -> & E). exists q. auto.
    - destruct (vok_int _ _ _ Hk Hv) as (z & -> & E). exists (rnd (inject_Z z)). split; [reflexivity|].
      pose proof (within_53 k z v Hk E H). rewrite RI by lia. symmetry. exact E.
  Qed.
  Lemma kjoin_int k1 k2 : kjoin k1 k2 <> KR -> k1 <> KR /\ k2 <> KR /\ is64 (kjoin k1 k2) = is64 k1 || is64 k2.
  Proof. destruct k1, k2; cbn; intros; repeat split; congruence. Qed.
  Lemma kjoin_real k1 k2 : kjoin k1 k2 = KR -> k1 = KR \/ k2 = KR.
  Proof. destruct k1, k2; cbn; auto; discriminate. Qed.

  (* The operation on doubles *)
  Lemma x_bin_dbl o a b x y : dbl rnd a = Some x -> dbl rnd b = Some y -> (exists q, a = VDbl q) \/ (exists q, b = VDbl q) ->
    x_bin rnd o a b =
      match o with
      | XAdd => Some (VDbl (rnd (x + y))) | XSub => Some (VDbl (rnd (x - y))) | XMul => Some (VDbl (rnd (x * y)))
      | XDiv => if Qeq_bool y 0 then None else Some (VDbl (rnd (x / y)))
      | XCmp c => Some (VBool (cmp_q c x y))
      | _ => None
      end.
  Proof.
    intros Ha Hb [[q ->]|[q ->]]; unfold x_bin.
    - rewrite Ha, Hb. reflexivity.
    - destruct a; rewrite Ha, Hb; reflexivity.
  Qed.
  Lemma some_real k1 k2 v1 v2 a b : kjoin k1 k2 = KR -> vok k1 v1 a -> vok k2 v2 b -> (exists q, a = VDbl q) \/ (exists q, b = VDbl q).
  Proof.
    intros H H1 H2. apply kjoin_real in H. destruct H; subst; [left; destruct H1 as (q & -> & _)|right; destruct H2 as (q & -> & _)]; eauto.
  Qed.

  Inductive ring_op : xop -> (Q -> Q -> Q) -> (Z -> Z -> Z) -> Prop :=
  | r_add : ring_op XAdd Qplus Z.add | r_sub : ring_op XSub Qminus Z.sub | r_mul : ring_op XMul Qmult Z.mul.
  Lemma ring_inj o F G x y : ring_op o F G -> (F (inject_Z x) (inject_Z y) == inject_Z (G x y))%Q.
  Proof.
    intros []; [rewrite inject_Z_plus|unfold Z.sub; rewrite inject_Z_plus, inject_Z_opp|rewrite inject_Z_mult]; reflexivity.
  Qed.
  Lemma ring_comp o F G a b x y : ring_op o F G -> (a == x)%Q -> (b == y)%Q -> (F a b == F x y)%Q.
  Proof. intros [] E1 E2; rewrite E1, E2; reflexivity. Qed.
  Lemma ring_ok o F G k1 k2 v1 v2 a b : ring_op o F G -> vok k1 v1 a -> vok k2 v2 b -> within k1 v1 -> within k2 v2 ->
    within (kjoin k1 k2) (rnd (F v1 v2)) ->
    exists cv, x_bin rnd o a b = Some cv /\ vok (kjoin k1 k2) (rnd (F v1 v2)) cv.
  Proof.
    intros HF H1 H2 W1 W2 W. assert (kjoin k1 k2 = KR \/ kjoin k1 k2 <> KR) as [E|E] by (destruct (kjoin k1 k2); auto; right; discriminate).
    - destruct (dbl_ok k1 v1 a W1 H1) as (x & D1 & E1). destruct (dbl_ok k2 v2 b W2 H2) as (y & D2 & E2).
      rewrite (x_bin_dbl o a b x y D1 D2 (some_real _ _ _ _ _ _ E H1 H2)).
      exists (VDbl (rnd (F x y))). split; [destruct HF; reflexivity|]. rewrite E. exists (rnd (F x y)). split; [reflexivity|].
      apply RE. apply (ring_comp o F G); auto.
    - destruct (kjoin_int _ _ E) as (N1 & N2 & E64).
      destruct (vok_int _ _ _ N1 H1) as (x & -> & E1). destruct (vok_int _ _ _ N2 H2) as (y & -> & E2).
      assert (EF : (F v1 v2 == inject_Z (G x y))%Q).
      { rewrite <- (ring_inj o F G x y HF). apply (ring_comp o F G); auto. }
      pose proof (within_comp _ _ _ (RE _ _ EF) W) as W'. pose proof (rnd_within _ _ E W') as ER.
      exists (VInt (is64 (kjoin k1 k2)) (G x y)). split.
      + pose proof (within_comp _ _ _ ER W') as W2'. pose proof (mk_int_ok _ _ E W2') as M. rewrite E64 in *.
        destruct HF; exact M.
      + apply int_vok; auto. rewrite (RE _ _ EF). exact ER.
  Qed.
  Lemma cmp_z_ok c x y : cmp_z c x y = true <-> compares c (inject_Z x) (inject_Z y).
  Proof.
    assert (EQ : (inject_Z x == inject_Z y)%Q <-> x = y).
    { split; [apply inject_Z_injective|intros ->; reflexivity]. }
    destruct c; cbn [cmp_z compares]; rewrite ?negb_true_iff, ?Qlt_int, ?Qle_int, ?EQ; lia.
  Qed.
  Lemma cmp_q_ok c x y : cmp_q c x y = true <-> compares c x y.
  Proof.
    assert (L : forall a b, Qle_bool a b = false <-> (b < a)%Q).
    { intros a b. split; intros H.
      - destruct (Qlt_le_dec b a) as [K|K]; auto. apply Qle_bool_iff in K. congruence.
      - destruct (Qle_bool a b) eqn:E; auto. apply Qle_bool_iff in E. exfalso. lra. }
    destruct c; cbn [cmp_q compares]; rewrite ?negb_true_iff, ?L, ?Qle_bool_iff, ?Qeq_bool_iff; try tauto.
    split; [intros H E; apply Qeq_bool_iff in E; congruence|]. intros H. destruct (Qeq_bool x y) eqn:E; auto. apply Qeq_bool_iff in E. contradiction.
  Qed.
  Lemma compares_comp c a b x y : (a == x)%Q -> (b == y)%Q -> (compares c a b <-> compares c x y).
  Proof. intros E1 E2. destruct c; cbn; rewrite E1, E2; reflexivity. Qed.
  Lemma cmp_ok c k1 k2 v1 v2 a b : vok k1 v1 a -> vok k2 v2 b -> within k1 v1 -> within k2 v2 ->
    exists t, x_bin rnd (XCmp c) a b = Some (VBool t) /\ (t = true <-> compares c v1 v2).
  Proof.
    intros H1 H2 W1 W2. assert (kjoin k1 k2 = KR \/ kjoin k1 k2 <> KR) as [E|E] by (destruct (kjoin k1 k2); auto; right; discriminate).
    - destruct (dbl_ok k1 v1 a W1 H1) as (x & D1 & E1). destruct (dbl_ok k2 v2 b W2 H2) as (y & D2 & E2).
      rewrite (x_bin_dbl _ a b x y D1 D2 (some_real _ _ _ _ _ _ E H1 H2)).
      eexists. split; [reflexivity|]. rewrite cmp_q_ok. apply compares_comp; auto.
    - destruct (kjoin_int _ _ E) as (N1 & N2 & _).
      destruct (vok_int _ _ _ N1 H1) as (x & -> & E1). destruct (vok_int _ _ _ N2 H2) as (y & -> & E2).
      eexists. split; [reflexivity|]. rewrite cmp_z_ok. apply compares_comp; symmetry; auto.
  Qed.

  Variable fmt : Q -> res ctext.
  Variable const_ok : Q -> Prop.
  Variable declared : string -> itype -> Prop.
  Hypothesis CO : forall q, const_ok q -> const_good rnd vars gsize fmt q.
  Hypothesis DE : forall d t, declared d t ->
    match t with FirstI => w d t = 0 | LastI => w d t = gsize d - 1 | _ => vars d = Some (w d t) end.
  Notation pnum := (printable_num rnd w const_ok declared).

  Definition good (e : expr) : Prop := pnum e -> forall v, num e = Some v ->
    exists t c cv, ntext fmt e = Ok t /\ utx t c /\
      (match e with E LNeg _ => True | E (LConst q) _ => (0 <= q)%Q -> nomin t | _ => nomin t end) /\
      decs c = [] /\ xev c = Some cv /\ vok (kind_of e) v cv.

  Lemma pnum_sized e : pnum e -> sized rnd w e.
  Proof. destruct e as [l ops]. cbn. tauto. Qed.

  Definition op_of (o : cop) : Q -> Q -> Q := match o with OAdd => Qplus | OMul => Qmult end.
  Definition zop_of (o : cop) : Z -> Z -> Z := match o with OAdd => Z.add | OMul => Z.mul end.
  Lemma op_ring o : ring_op (cop_x o) (op_of o) (zop_of o). Proof. destruct o; constructor. Qed.
  Lemma num_comm o a l : num (E (LComm o) (a :: l)) = fold_left (fun s x => oq2 (fun p q => rnd (op_of o p q)) s (num x)) l (num a).
  Proof. destruct o; reflexivity. Qed.
  Lemma kind_comm o l : kind_of (E (LComm o) l) = fold_left (fun k x => kjoin k (kind_of x)) l K32.
  Proof. reflexivity. Qed.

  Lemma fold_none (f : option Q -> expr -> option Q) l : (forall x, f None x = None) -> fold_left f l None = None.
  Proof. intros H. induction l as [|x l IH]; [reflexivity|]. cbn. rewrite H. exact IH. Qed.

  (* The rest of a sum or product; [pre] is the part already seen. *)
  Lemma comm_rest o a0 : forall r pre va ca cva v,
    (forall k, sized rnd w (E (LComm o) (firstn k ((a0 :: pre) ++ r)))) ->
    Forall good r -> fold_right (fun x P => pnum x /\ P) True r ->
    num (E (LComm o) (a0 :: pre)) = Some va -> xev ca = Some cva -> decs ca = [] -> vok (kind_of (E (LComm o) (a0 :: pre))) va cva ->
    num (E (LComm o) ((a0 :: pre) ++ r)) = Some v ->
    exists ts cs cv, rall (map (ntext fmt) r) = Ok ts /\ Forall2 utx ts cs /\ decs (chain_xx (cop_x o) ca cs) = [] /\
      xev (chain_xx (cop_x o) ca cs) = Some cv /\ vok (kind_of (E (LComm o) ((a0 :: pre) ++ r))) v cv.
  Proof.
    induction r as [|x r IH]; intros pre va ca cva v SZ Hg Hp Nv Xa Da Va Hv.
    - rewrite app_nil_r in *. assert (va = v) by congruence. subst v. exists [], [], cva. cbn. auto.
    - inversion Hg as [|? ? Gx Gr]; subst. cbn in Hp. destruct Hp as [Px Pr].
      assert (Nx : exists vx, num x = Some vx).
      { rewrite num_comm in Nv. cbn [app] in Hv. rewrite num_comm, fold_left_app in Hv. cbn [fold_left] in Hv. rewrite Nv in Hv.
        destruct (num x) as [vx|]; [eauto|]. cbn [oq2] in Hv. rewrite fold_none in Hv; [discriminate|reflexivity]. }
      destruct Nx as (vx & Nx). destruct (Gx Px vx Nx) as (t & c & cvx & T & U & _ & Dc & Xc & Vx).
      assert (N1 : num (E (LComm o) (a0 :: (pre ++ [x]))) = Some (rnd (op_of o va vx))).
      { rewrite num_comm, fold_left_app, <- num_comm. cbn [fold_left]. rewrite Nv, Nx. reflexivity. }
      assert (K1 : kind_of (E (LComm o) (a0 :: (pre ++ [x]))) = kjoin (kind_of (E (LComm o) (a0 :: pre))) (kind_of x)).
      { rewrite !kind_comm. change (a0 :: pre ++ [x]) with ((a0 :: pre) ++ [x]). rewrite fold_left_app. reflexivity. }
      assert (SA : within (kind_of (E (LComm o) (a0 :: pre))) va).
      { specialize (SZ (List.length (a0 :: pre))). rewrite firstn_app, firstn_all, Nat.sub_diag in SZ. cbn [firstn] in SZ.
        rewrite app_nil_r in SZ. exact (SZ va Nv). }
      assert (S1 : within (kind_of (E (LComm o) (a0 :: (pre ++ [x])))) (rnd (op_of o va vx))).
      { specialize (SZ (List.length (a0 :: pre ++ [x]))). replace ((a0 :: pre) ++ x :: r) with ((a0 :: pre ++ [x]) ++ r) in SZ
          by (cbn; rewrite <- app_assoc; reflexivity). rewrite firstn_app, firstn_all, Nat.sub_diag in SZ. cbn [firstn] in SZ.
        rewrite app_nil_r in SZ. exact (SZ _ N1). }
      rewrite K1 in S1.
      destruct (ring_ok _ _ _ _ _ va vx cva cvx (op_ring o) Va Vx SA (pnum_sized x Px vx Nx) S1) as (cv1 & X1 & V1).
      assert (Ex : xev (XBin (cop_x o) ca c) = Some cv1).
      { replace (xev (XBin (cop_x o) ca c)) with (match xev ca, xev c with Some p, Some q => x_bin rnd (cop_x o) p q | _, _ => None end)
          by (destruct o; reflexivity). rewrite Xa, Xc. exact X1. }
      rewrite <- K1 in V1.
      destruct (IH (pre ++ [x]) (rnd (op_of o va vx)) (XBin (cop_x o) ca c) cv1 v) as (ts & cs & cv & R1 & R2 & R3 & R4 & R5); auto.
      + intros k. specialize (SZ k). replace ((a0 :: pre) ++ x :: r) with ((a0 :: pre ++ [x]) ++ r) in SZ by (cbn; rewrite <- app_assoc; reflexivity). exact SZ.
      + cbn [decs]. rewrite Da, Dc. reflexivity.
      + replace ((a0 :: pre ++ [x]) ++ r) with ((a0 :: pre) ++ x :: r) by (cbn; rewrite <- app_assoc; reflexivity). exact Hv.
      + exists (t :: ts), (c :: cs), cv. split; [cbn [map rall]; rewrite T; cbn [rbind]; rewrite R1; reflexivity|].
        split; [constructor; auto|]. split; [exact R3|]. split; [exact R4|].
        replace ((a0 :: pre ++ [x]) ++ r) with ((a0 :: pre) ++ x :: r) in R5 by (cbn; rewrite <- app_assoc; reflexivity). exact R5.
  Qed.

  Lemma good_all e : good e.
  Proof.
    induction e as [l ops IH] using expr_ind2. intros P v Hv. pose proof (pnum_sized _ P v Hv) as SZ.
    destruct l as [q|s|s|d ty| |o|o|f]; try (cbn in P; tauto).
    - destruct P as (_ & -> & C). injection Hv as <-. destruct (CO q C) as (t & c & F & U & M & D & X).
      destruct (q_int q) as [z|] eqn:Eq.
      + exists t, c, (VInt false z). cbn [ntext kind_of]. rewrite Eq. repeat (split; [assumption|]). exists z.
        split; [reflexivity|]. symmetry. apply q_int_some; auto.
      + destruct X as (p & X & E). exists t, c, (VDbl p). cbn [ntext kind_of]. rewrite Eq. repeat (split; [assumption|]). exists p. auto.
    - destruct P as (_ & -> & C). injection Hv as <-. specialize (DE d ty C).
      destruct ty; cbn [ntext kind_of].
      + exists [KName d], (XVar d), (VInt true (w d StepI)). split; [reflexivity|]. split; [apply u_tok; reflexivity|].
        split; [exact I|]. split; [reflexivity|]. cbn [Cond_Spec.xev]. rewrite DE. split; [reflexivity|]. eexists; split; reflexivity.
      + exists [KName d], (XVar d), (VInt true (w d DomainI)). split; [reflexivity|]. split; [apply u_tok; reflexivity|].
        split; [exact I|]. split; [reflexivity|]. cbn [Cond_Spec.xev]. rewrite DE. split; [reflexivity|]. eexists; split; reflexivity.
      + exists [KName d], (XVar d), (VInt true (w d MiscI)). split; [reflexivity|]. split; [apply u_tok; reflexivity|].
        split; [exact I|]. split; [reflexivity|]. cbn [Cond_Spec.xev]. rewrite DE. split; [reflexivity|]. eexists; split; reflexivity.
      + exists [KFirst d], (XFirst d), (VInt false 0). split; [reflexivity|]. split; [apply u_tok; reflexivity|].
        split; [exact I|]. split; [reflexivity|]. split; [reflexivity|]. exists 0. rewrite DE. split; reflexivity.
      + exists [KLast d], (XLast d), (VInt true (w d LastI)). split; [reflexivity|]. split; [apply u_tok; reflexivity|].
        split; [exact I|]. split; [reflexivity|]. cbn [Cond_Spec.xev]. rewrite <- DE. cbn [kind_of] in SZ.
        split; [apply (mk_int_ok K64); [discriminate|exact SZ]|]. eexists; split; reflexivity.
    - destruct ops as [|a [|? ?]]; try (cbn in P; tauto). destruct P as (_ & Pa & Pn). inversion IH as [|? ? Ga _]; subst.
      cbn in Hv. destruct (num a) as [va|] eqn:Na; [|discriminate]. injection Hv as <-.
      destruct (Ga Pa va Na) as (t & c & cv & T & U & M & D & X & V).
      assert (NM : nomin t). { destruct a as [[q| | | | | | | ] la]; auto. contradiction. }
      assert (Kk : kind_of (E LNeg [a]) = kind_of a) by (cbn; apply kjoin_l). rewrite Kk in *.
      cbn [ntext]. rewrite T. cbn [rbind]. exists (KOp XSub :: t), (XNeg c).
      assert (kind_of a = KR \/ kind_of a <> KR) as [Ek|Ek] by (destruct (kind_of a); auto; right; discriminate).
      + rewrite Ek in *. destruct V as (q & -> & E). exists (VDbl (- q)). split; [reflexivity|]. split; [apply u_neg; auto|].
        split; [exact I|]. split; [exact D|]. cbn [Cond_Spec.xev]. rewrite X. split; [reflexivity|]. exists (- q)%Q. split; [reflexivity|]. rewrite E. reflexivity.
      + destruct (vok_int _ _ _ Ek V) as (z & -> & E). exists (VInt (is64 (kind_of a)) (- z)). split; [reflexivity|]. split; [apply u_neg; auto|].
        split; [exact I|]. split; [exact D|]. cbn [Cond_Spec.xev]. rewrite X.
        assert (E' : (- va == inject_Z (- z))%Q) by (rewrite inject_Z_opp, E; reflexivity).
        split; [apply mk_int_ok; auto; apply (within_comp _ _ _ E' SZ)|]. apply int_vok; auto.
    - destruct ops as [|a [|b [|? ?]]]; try (cbn in P; destruct o; tauto).
      assert (Pab : pnum a /\ pnum b) by (cbn in P; destruct o; tauto). destruct Pab as [Pa Pb].
      inversion IH as [|? ? Ga IH2]; subst. inversion IH2 as [|? ? Gb _]; subst. clear IH IH2.
      assert (Nab : exists va vb, num a = Some va /\ num b = Some vb).
      { cbn in Hv. destruct o; unfold oq2 in Hv; destruct (num a), (num b); try discriminate; eauto. }
      destruct Nab as (va & vb & Na & Nb).
      destruct (Ga Pa va Na) as (t1 & c1 & cv1 & T1 & U1 & _ & D1 & X1 & V1).
      destruct (Gb Pb vb Nb) as (t2 & c2 & cv2 & T2 & U2 & _ & D2 & X2 & V2).
      pose proof (pnum_sized a Pa va Na) as W1. pose proof (pnum_sized b Pb vb Nb) as W2.
      assert (Kk : kind_of (E (LBin o) [a; b]) = kjoin (kind_of a) (kind_of b)) by (cbn [kind_of fold_left]; rewrite kjoin_l; reflexivity). rewrite Kk in *.
      assert (R : exists cv, x_bin rnd (bop_x o) cv1 cv2 = Some cv /\ vok (kjoin (kind_of a) (kind_of b)) v cv).
      { cbn in Hv. rewrite Na, Nb in Hv. destruct o; cbn [bop_x].
        - injection Hv as <-. exact (ring_ok _ _ _ _ _ va vb cv1 cv2 r_sub V1 V2 W1 W2 SZ).
        - destruct (Qeq_bool vb 0) eqn:E0; [discriminate|]. injection Hv as <-.
          assert (E : kjoin (kind_of a) (kind_of b) = KR) by (cbn in P; tauto).
          destruct (dbl_ok _ va cv1 W1 V1) as (x & Dx & E1). destruct (dbl_ok _ vb cv2 W2 V2) as (y & Dy & E2).
          rewrite (x_bin_dbl XDiv cv1 cv2 x y Dx Dy (some_real _ _ _ _ _ _ E V1 V2)).
          replace (Qeq_bool y 0) with false.
          2:{ symmetry. destruct (Qeq_bool y 0) eqn:E3; auto. apply Qeq_bool_iff in E3. rewrite E2 in E3. apply Qeq_bool_iff in E3. congruence. }
          exists (VDbl (rnd (x / y))). split; [reflexivity|]. rewrite E. exists (rnd (x / y)). split; [reflexivity|]. apply RE. rewrite E1, E2. reflexivity.
        - assert (PM : kjoin (kind_of a) (kind_of b) <> KR /\ (0 <= va)%Q /\ (0 < vb)%Q).
          { cbn in P. destruct P as (_ & _ & _ & P1 & P2 & P3). auto. }
          destruct PM as (E & Pos1 & Pos2). destruct (kjoin_int _ _ E) as (N1 & N2 & E64).
          destruct (vok_int _ _ _ N1 V1) as (x & -> & E1). destruct (vok_int _ _ _ N2 V2) as (y & -> & E2).
          rewrite (qtrunc_int va x E1), (qtrunc_int vb y E2) in Hv.
          rewrite E1 in Pos1. change 0%Q with (inject_Z 0) in Pos1, Pos2. rewrite Qle_int in Pos1. rewrite E2, Qlt_int in Pos2.
          destruct (Z.eqb_spec y 0) as [Y0|Y0]; [discriminate|]. injection Hv as <-.
          cbn [x_bin]. replace (y =? 0) with false by lia. replace (x =? - 2 ^ 63) with false by lia. rewrite andb_false_r. cbn [andb].
          rewrite Z.rem_mod_nonneg by lia. rewrite <- E64. rewrite (mk_int_ok _ _ E SZ). eexists. split; [reflexivity|]. apply int_vok; auto. reflexivity. }
      destruct R as (cv & Xb & Vb). cbn [ntext]. rewrite T1, T2. cbn [rbind].
      exists (KLP :: (t1 ++ spaced (bop_x o) ++ t2) ++ [KRP]), (XBin (bop_x o) c1 c2), cv.
      split; [reflexivity|]. split; [apply u_bin; auto|]. split; [exact I|]. split; [cbn [decs]; rewrite D1, D2; reflexivity|].
      split; [|exact Vb].
      replace (xev (XBin (bop_x o) c1 c2)) with (match xev c1, xev c2 with Some p, Some q => x_bin rnd (bop_x o) p q | _, _ => None end)
        by (destruct o; reflexivity). rewrite X1, X2. exact Xb.
    - destruct P as (_ & Hn & Hp & Hs). destruct ops as [|a r]; [congruence|]. clear Hn.
      inversion IH as [|? ? Ga Gr]; subst. cbn in Hp. destruct Hp as [Pa Pr].
      assert (Na : exists va, num a = Some va).
      { rewrite num_comm in Hv. destruct (num a); [eauto|]. rewrite fold_none in Hv; [discriminate|reflexivity]. }
      destruct Na as (va & Na). destruct (Ga Pa va Na) as (t & c & cva & T & U & _ & D & X & V).
      destruct (comm_rest o a r [] va c cva v) as (ts & cs & cv & R1 & R2 & R3 & R4 & R5); auto.
      + rewrite num_comm. exact Na.
      + rewrite kind_comm. cbn [fold_left]. rewrite kjoin_l. exact V.
      + cbn [ntext map rall]. rewrite T. cbn [rbind]. rewrite R1. cbn [rbind].
        eexists _, _, cv. split; [reflexivity|]. split; [apply u_chain; eauto|]. split; [exact I|]. split; [exact R3|]. split; [exact R4|exact R5].
  Qed.

  Notation pcond := (printable_cond rnd w const_ok declared).
  Lemma cond_all b : pcond b -> forall v, truth rnd w b v ->
    exists t c, btext fmt b = Ok t /\ utx t c /\ decs c = [] /\ xev c = Some (VBool v).
  Proof.
    induction b as [c l r|b IH|l IHl r IHr|l IHl r IHr]; cbn [printable_cond btext]; intros P v Hv; inversion Hv as [? ? ? x y ? Nx Ny Hc|? ? Hb|? ? x y Hl Hr|? ? x y Hl Hr]; subst.
    - destruct P as [Pl Pr].
      destruct (good_all l Pl x Nx) as (t1 & c1 & cv1 & T1 & U1 & _ & D1 & X1 & V1).
      destruct (good_all r Pr y Ny) as (t2 & c2 & cv2 & T2 & U2 & _ & D2 & X2 & V2).
      destruct (cmp_ok c _ _ x y cv1 cv2 V1 V2 (pnum_sized l Pl x Nx) (pnum_sized r Pr y Ny)) as (t & Xt & Ht).
      rewrite T1, T2. cbn [rbind]. eexists _, (XBin (XCmp c) c1 c2). split; [reflexivity|]. split; [apply u_bin; auto|].
      split; [cbn [decs]; rewrite D1, D2; reflexivity|]. cbn [Cond_Spec.xev]. rewrite X1, X2, Xt. f_equal. f_equal.
      destruct t, v; auto; [symmetry; apply Hc, Ht; reflexivity|apply Ht, Hc; reflexivity].
    - destruct (IH P _ Hb) as (t & c & T & U & D & X). rewrite T. cbn [rbind]. exists (KNot :: t), (XNotE c).
      split; [reflexivity|]. split; [apply u_not; auto|]. split; [exact D|]. cbn [Cond_Spec.xev]. rewrite X. reflexivity.
    - destruct P as [Pl Pr]. destruct (IHl Pl _ Hl) as (t1 & c1 & T1 & U1 & D1 & X1). destruct (IHr Pr _ Hr) as (t2 & c2 & T2 & U2 & D2 & X2).
      rewrite T1, T2. cbn [rbind]. eexists _, (XBin XAnd c1 c2). split; [reflexivity|]. split; [apply u_bin; auto|].
      split; [cbn [decs]; rewrite D1, D2; reflexivity|]. cbn [Cond_Spec.xev]. rewrite X1, X2. destruct x; reflexivity.
    - destruct P as [Pl Pr]. destruct (IHl Pl _ Hl) as (t1 & c1 & T1 & U1 & D1 & X1). destruct (IHr Pr _ Hr) as (t2 & c2 & T2 & U2 & D2 & X2).
      rewrite T1, T2. cbn [rbind]. eexists _, (XBin XOr c1 c2). split; [reflexivity|]. split; [apply u_bin; auto|].
      split; [cbn [decs]; rewrite D1, D2; reflexivity|]. cbn [Cond_Spec.xev]. rewrite X1, X2. destruct x; reflexivity.
  Qed.
End Eval.

Lemma find_number (dims : list string) d : In d dims -> NoDup dims -> forall i,
  exists k, find (fun p => String.eqb (fst p) d) (number_from i dims) = Some (d, (i + k)%nat) /\ nth_error dims k = Some d.
Proof.
  induction dims as [|e r IH]; intros Hin ND i; [contradiction|]. inversion ND; subst. cbn [number_from find fst].
  destruct (String.eqb_spec e d) as [->|N].
  - exists 0%nat. rewrite Nat.add_0_r. auto.
  - destruct Hin as [?|Hin]; [congruence|]. destruct (IH Hin H2 (S i)) as (k & E & F). exists (S k).
    rewrite E. split; [rewrite <- plus_n_Sm; reflexivity|exact F].
Qed.
Lemma nth_map_some {A B} (f : A -> B) l k a : nth_error l k = Some a -> nth_error (map f l) k = Some (f a).
Proof. intros H. apply map_nth_error. exact H. Qed.

Lemma domain_fun_ok rnd dims ix gsize cond b : dbl_rounding rnd -> NoDup dims ->
  printable_cond rnd (index_val ix gsize) (short_const rnd) (domain_decl dims) cond ->
  truth rnd (index_val ix gsize) cond b ->
  exists f, valid_domain dims cond = Ok f /\ call_fun rnd gsize f (map ix dims) = Some b.
Proof.
  intros RD ND P T. set (vars := var_of (number_from 0 dims) (map ix dims)).
  destruct (cond_all rnd RD vars gsize (index_val ix gsize) fmt_domain (short_const rnd) (domain_decl dims)) with (b := cond) (v := b)
    as (t & c & E & U & D & X); auto.
  - intros q. apply short_ok. exact (proj1 RD).
  - intros d ty H. unfold domain_decl in H. destruct (find_number dims d H ND 0) as (k & F & G).
    assert (V : vars d = Some (ix d)).
    { unfold vars, var_of. rewrite F. cbn [snd Nat.add]. apply nth_map_some. auto. }
    destruct ty; auto.
  - unfold valid_domain. rewrite E. cbn [rbind]. eexists. split; [reflexivity|]. unfold call_fun. cbn [f_ret f_vars].
    rewrite (cparse_u t c U), D. cbn [forallb]. fold vars. rewrite X. reflexivity.
Qed.
Lemma step_fun_ok rnd dims step_dim ix gsize cond b : dbl_rounding rnd ->
  printable_cond rnd (index_val ix gsize) (long_const rnd) (step_decl dims step_dim) cond ->
  truth rnd (index_val ix gsize) cond b ->
  exists f, valid_step step_dim cond = Ok f /\ call_fun rnd gsize f [ix step_dim] = Some b.
Proof.
  intros RD P T. set (vars := var_of [(step_dim, 0%nat)] [ix step_dim]).
  destruct (cond_all rnd RD vars gsize (index_val ix gsize) fmt_step (long_const rnd) (step_decl dims step_dim)) with (b := cond) (v := b)
    as (t & c & E & U & D & X); auto.
  - intros q. apply long_ok.
  - intros d ty H. unfold step_decl in H.
    assert (V : d = step_dim -> vars d = Some (ix d)).
    { intros ->. unfold vars, var_of. cbn [find fst]. rewrite String.eqb_refl. reflexivity. }
    destruct ty; auto.
  - unfold valid_step. rewrite E. cbn [rbind]. eexists. split; [reflexivity|]. unfold call_fun. cbn [f_ret f_vars].
    rewrite (cparse_u t c U), D. cbn [forallb]. fold vars. rewrite X. reflexivity.
Qed.
