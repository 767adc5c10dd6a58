(* Proofs for Print_Model: reading the printed text back. *)
From Coq Require Import String QArith Qabs.
From Verif Require Import Base Expr_Model Expr_Spec Print_Model Print_Spec.
Open Scope Z_scope.
Open Scope nat_scope.
Notation len := List.length.

Definition nominus (t : text) : Prop := match t with TMinus :: _ => False | _ => True end.
(* t is read as the operand c, whatever follows it *)
Definition utext (t : text) (c : cx) : Prop :=
  t <> [] /\ (forall r, ws (t ++ r) = t ++ r) /\
  forall rest f, 4 * len t + 1 <= f -> p_un f (t ++ rest) = Some (c, rest).
Definition no_mul (r : text) : Prop := match ws r with TStar :: _ | TSlash :: _ | TPct :: _ => False | _ => True end.
Definition no_op (r : text) : Prop :=
  match ws r with TStar :: _ | TSlash :: _ | TPct :: _ | TPlus :: _ | TMinus :: _ => False | _ => True end.

Lemma no_op_mul r : no_op r -> no_mul r.
Proof. unfold no_op, no_mul. destruct (ws r) as [|[] ?]; auto. Qed.

Lemma u_tok k c : (forall f r, p_un (S f) (k :: r) = Some (c, r)) -> k <> TSp -> utext [k] c.
Proof.
  intros H Hk. split; [discriminate|]. split.
  - intros r. cbn [app ws]. destruct k; congruence.
  - intros rest f Hf. destruct f; [lia|]. apply H.
Qed.
Lemma u_int z : utext [TInt z] (CInt z). Proof. apply u_tok; [reflexivity|discriminate]. Qed.
Lemma u_real z : utext [TReal z] (CReal z). Proof. apply u_tok; [reflexivity|discriminate]. Qed.
Lemma u_temp z : utext [TTemp z] (CTemp z). Proof. apply u_tok; [reflexivity|discriminate]. Qed.
Lemma u_leaf z : utext [TLeaf z] (CLeaf z). Proof. apply u_tok; [reflexivity|discriminate]. Qed.

Lemma u_neg t c : utext t c -> nominus t -> utext (TMinus :: t) (CNeg c).
Proof.
  intros (H0 & H1 & H2) Hm. split; [discriminate|]. split; [reflexivity|].
  intros rest f Hf. cbn [len] in Hf. destruct f; [lia|]. cbn [app p_un ws].
  destruct t as [|k t']; [congruence|].
  pose proof (H2 rest f ltac:(cbn [len] in *; lia)) as E.
  destruct k; cbn [nominus] in Hm; try contradiction; cbn [app] in *; rewrite E; reflexivity.
Qed.

Lemma mul_rest_stop f l r : 1 <= f -> no_mul r -> p_mul_rest f l r = Some (l, r).
Proof.
  intros Hf H. destruct f; [lia|]. cbn [p_mul_rest]. unfold no_mul in H. destruct (ws r) as [|[] ?]; auto; contradiction.
Qed.
Lemma add_rest_stop f l r : 1 <= f -> no_op r -> p_add_rest f l r = Some (l, r).
Proof.
  intros Hf H. destruct f; [lia|]. cbn [p_add_rest]. unfold no_op in H. destruct (ws r) as [|[] ?]; auto; contradiction.
Qed.

Lemma mul_one t c rest f : utext t c -> no_mul rest -> 4 * len t + 2 <= f -> p_mul f (t ++ rest) = Some (c, rest).
Proof.
  intros (_ & _ & H) Hr Hf. destruct f; [lia|]. cbn [p_mul]. rewrite H by lia. apply mul_rest_stop; [lia|auto].
Qed.

Definition chain_bin (o : cop) : binop := match o with OAdd => BAdd | OMul => BMul end.
Definition chain_cx (o : cop) (c : cx) (cs : list cx) : cx := fold_left (fun s x => CBin (chain_bin o) s x) cs c.
Definition tails (o : cop) (ts : list text) : text := flat_map (fun t => [TSp; cop_tok o; TSp] ++ t) ts.
Lemma tails_cons o t ts : tails o (t :: ts) = TSp :: cop_tok o :: TSp :: t ++ tails o ts.
Proof. reflexivity. Qed.
Lemma sep_tails o t ts : sep [TSp; cop_tok o; TSp] (t :: ts) = t ++ tails o ts.
Proof.
  revert t; induction ts as [|u r IH]; intros t; [cbn; rewrite app_nil_r; reflexivity|].
  cbn [sep] in *. rewrite IH. reflexivity.
Qed.

Lemma un_sp f t : p_un f (TSp :: t) = p_un f t.
Proof. destruct f; reflexivity. Qed.
Lemma mul_sp f t : p_mul f (TSp :: t) = p_mul f t.
Proof. destruct f; [reflexivity|]. cbn [p_mul]. rewrite un_sp. reflexivity. Qed.
Lemma add_sp f t : p_add f (TSp :: t) = p_add f t.
Proof. destruct f; [reflexivity|]. cbn [p_add]. rewrite mul_sp. reflexivity. Qed.
Lemma args_sp f t : p_args f (TSp :: t) = p_args f t.
Proof. destruct f; [reflexivity|]. cbn [p_args]. rewrite add_sp. reflexivity. Qed.

Lemma mul_chain ts cs : Forall2 utext ts cs -> forall c rest f, no_mul rest -> 4 * len (tails OMul ts) + 1 <= f ->
  p_mul_rest f c (tails OMul ts ++ rest) = Some (chain_cx OMul c cs, rest).
Proof.
  induction 1 as [|t c' ts cs Ht _ IH]; intros c rest f Hr Hf.
  - cbn. apply mul_rest_stop; [cbn in Hf; lia|auto].
  - rewrite tails_cons in *. cbn [app cop_tok len] in *. rewrite app_length in Hf.
    destruct f; [lia|]. cbn [p_mul_rest ws]. rewrite un_sp, <- app_assoc.
    destruct Ht as (_ & _ & Ht). rewrite Ht by lia. cbn [chain_cx fold_left]. apply IH; [auto|lia].
Qed.
Lemma add_no_mul ts rest : no_mul rest -> no_mul (tails OAdd ts ++ rest).
Proof. destruct ts; [cbn; auto|]. intros _. cbn. exact I. Qed.
Lemma add_chain ts cs : Forall2 utext ts cs -> forall c rest f, no_op rest -> 4 * len (tails OAdd ts) + 1 <= f ->
  p_add_rest f c (tails OAdd ts ++ rest) = Some (chain_cx OAdd c cs, rest).
Proof.
  induction 1 as [|t c' ts cs Ht _ IH]; intros c rest f Hr Hf.
  - cbn. apply add_rest_stop; [cbn in Hf; lia|auto].
  - rewrite tails_cons in *. cbn [app cop_tok len] in *. rewrite app_length in Hf.
    destruct f; [lia|]. cbn [p_add_rest ws]. rewrite mul_sp, <- app_assoc.
    rewrite (mul_one t c' _ f Ht) by (try apply add_no_mul; try apply no_op_mul; auto; lia).
    cbn [chain_cx fold_left]. apply IH; [auto|lia].
Qed.
Lemma chain_ok o t c ts cs rest f : utext t c -> Forall2 utext ts cs -> no_op rest ->
  4 * len (t ++ tails o ts) + 3 <= f -> p_add f ((t ++ tails o ts) ++ rest) = Some (chain_cx o c cs, rest).
Proof.
  intros Ht Hts Hr Hf. rewrite app_length in Hf. destruct f; [lia|]. cbn [p_add]. rewrite <- app_assoc. destruct o.
  - rewrite (mul_one t c) by (try apply add_no_mul; try apply no_op_mul; auto; lia). apply add_chain; auto; lia.
  - destruct f; [lia|]. cbn [p_mul]. pose proof Ht as (_ & _ & Hu). rewrite Hu by lia.
    rewrite (mul_chain ts cs Hts) by (try apply no_op_mul; auto; lia). apply add_rest_stop; [lia|auto].
Qed.

Definition bin_of (o : bop) : binop := match o with OSub => BSub | ODiv => BDiv | OMod => BMod end.
Lemma bin_ok o t1 c1 t2 c2 rest f : utext t1 c1 -> utext t2 c2 -> no_op rest ->
  4 * len (t1 ++ [TSp; bop_tok o; TSp] ++ t2) + 3 <= f ->
  p_add f ((t1 ++ [TSp; bop_tok o; TSp] ++ t2) ++ rest) = Some (CBin (bin_of o) c1 c2, rest).
Proof.
  intros H1 H2 Hr Hf. rewrite !app_length in Hf. cbn [len] in Hf. destruct f; [lia|]. cbn [p_add].
  rewrite <- !app_assoc. cbn [app]. pose proof H1 as (_ & _ & U1). pose proof H2 as (_ & _ & U2). destruct o; cbn [bop_tok].
  - rewrite (mul_one t1 c1) by (try (cbn; exact I); auto; lia).
    destruct f; [lia|]. cbn [p_add_rest ws]. rewrite mul_sp.
    rewrite (mul_one t2 c2) by (try apply no_op_mul; auto; lia). apply add_rest_stop; [lia|auto].
  - destruct f; [lia|]. cbn [p_mul]. rewrite U1 by lia. destruct f; [lia|]. cbn [p_mul_rest ws]. rewrite un_sp, U2 by lia.
    rewrite mul_rest_stop by (try apply no_op_mul; auto; lia). apply add_rest_stop; [lia|auto].
  - destruct f; [lia|]. cbn [p_mul]. rewrite U1 by lia. destruct f; [lia|]. cbn [p_mul_rest ws]. rewrite un_sp, U2 by lia.
    rewrite mul_rest_stop by (try apply no_op_mul; auto; lia). apply add_rest_stop; [lia|auto].
Qed.

(* An expression in parentheses *)
Lemma u_paren b c : (forall rest f, no_op rest -> 4 * len b + 3 <= f -> p_add f (b ++ rest) = Some (c, rest)) ->
  utext (TLP :: b ++ [TRP]) c.
Proof.
  intros H. split; [discriminate|]. split; [reflexivity|]. intros rest f Hf. cbn [len] in Hf. rewrite app_length in Hf.
  cbn [len] in Hf. destruct f; [lia|]. cbn [app p_un ws]. rewrite <- app_assoc. cbn [app].
  rewrite H by (try exact I; lia). reflexivity.
Qed.

Lemma add_one t c rest f : utext t c -> no_op rest -> 4 * len t + 3 <= f -> p_add f (t ++ rest) = Some (c, rest).
Proof.
  intros Ht Hr Hf. destruct f; [lia|]. cbn [p_add]. rewrite (mul_one t c) by (try apply no_op_mul; auto; lia).
  apply add_rest_stop; [lia|auto].
Qed.
Definition no_arg (r : text) : Prop := match ws r with [] => True | TRP :: _ => True | _ => False end.
Lemma no_arg_op r : no_arg r -> no_op r.
Proof. unfold no_arg, no_op. destruct (ws r) as [|[] ?]; auto; contradiction. Qed.
Lemma args_ok ts cs : Forall2 utext ts cs -> ts <> [] -> forall rest f, no_arg rest ->
  4 * len (sep [TComma; TSp] ts) + 5 <= f -> p_args f (sep [TComma; TSp] ts ++ rest) = Some (cs, rest).
Proof.
  induction 1 as [|t c ts cs Ht H IH]; intros Hn rest f Hr Hf; [congruence|].
  destruct ts as [|u ts].
  - inversion H; subst. cbn [sep] in *. destruct f; [lia|]. cbn [p_args].
    rewrite (add_one t c) by (try apply no_arg_op; auto; lia).
    unfold no_arg in Hr. destruct (ws rest) as [|[] ?]; auto; contradiction.
  - change (sep [TComma; TSp] (t :: u :: ts)) with (t ++ [TComma; TSp] ++ sep [TComma; TSp] (u :: ts)) in *.
    rewrite !app_length in Hf. cbn [len] in Hf. destruct f; [lia|]. cbn [p_args].
    rewrite <- app_assoc. rewrite (add_one t c) by (try exact I; auto; lia). cbn [app ws].
    rewrite args_sp. rewrite IH by (auto; try discriminate; lia). reflexivity.
Qed.
Lemma u_call g ts cs : Forall2 utext ts cs -> ts <> [] -> utext (TFun g :: TLP :: sep [TComma; TSp] ts ++ [TRP]) (CCall g cs).
Proof.
  intros H Hn. split; [discriminate|]. split; [reflexivity|]. intros rest f Hf. cbn [len] in Hf. rewrite app_length in Hf.
  cbn [len] in Hf. destruct f; [lia|]. cbn [app p_un ws]. rewrite <- app_assoc. cbn [app].
  rewrite (args_ok ts cs) by (try exact I; auto; lia). reflexivity.
Qed.

Lemma parse_of b c : (forall rest f, no_op rest -> 4 * len b + 3 <= f -> p_add f (b ++ rest) = Some (c, rest)) -> parse b = Some c.
Proof.
  intros H. unfold parse. rewrite <- (app_nil_r b) at 2. rewrite H by (try exact I; lia). reflexivity.
Qed.
Lemma parse_u t c : utext t c -> parse t = Some c.
Proof. intros H. apply parse_of. intros. apply add_one; auto. Qed.
Lemma parse_bin o t1 c1 t2 c2 : utext t1 c1 -> utext t2 c2 ->
  parse (t1 ++ [TSp; bop_tok o; TSp] ++ t2) = Some (CBin (bin_of o) c1 c2).
Proof. intros. apply parse_of. intros. apply bin_ok; auto. Qed.
Lemma parse_comm o t1 c1 t2 c2 : utext t1 c1 -> utext t2 c2 ->
  parse (t1 ++ [TSp; cop_tok o; TSp] ++ t2) = Some (CBin (chain_bin o) c1 c2).
Proof.
  intros H1 H2. apply parse_of. intros rest f Hr Hf.
  replace ([TSp; cop_tok o; TSp] ++ t2) with (tails o [t2]) in * by (cbn; rewrite app_nil_r; reflexivity).
  apply (chain_ok o t1 c1 [t2] [c2]); auto.
Qed.
Lemma parse_args_ok ts cs : Forall2 utext ts cs -> ts <> [] -> parse_args (sep [TComma; TSp] ts) = Some cs.
Proof.
  intros H Hn. unfold parse_args. rewrite <- (app_nil_r (sep _ ts)) at 2. rewrite (args_ok ts cs) by (try exact I; auto; lia). reflexivity.
Qed.
Open Scope Z_scope.
