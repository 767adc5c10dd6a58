(* Proofs for Cond_Model: reading the printed conditions back. *)
From Coq Require Import String QArith Qabs.
From Verif Require Import Base Expr_Model Print_Model Cond_Model Cond_Spec.
Open Scope Z_scope.
Open Scope nat_scope.
Notation len := List.length.

(* t is read as the operand c, whatever follows it *)
Definition utx (t : ctext) (c : xx) : Prop :=
  t <> [] /\ forall rest f, 10 * len t <= f -> q_un f (t ++ rest) = Some (c, rest).
Definition nomin (t : ctext) : Prop := match t with KOp XSub :: _ => False | _ => True end.
Definition stops (k : nat) (r : ctext) : Prop :=
  match cws r with KOp XSub :: KOp XSub :: _ => False | KOp o :: _ => level o < k | _ => True end.

Lemma stops_S k r : stops k r -> stops (S k) r.
Proof. unfold stops. destruct (cws r) as [|[| | | | |o| | | |] r']; auto. destruct o, r' as [|[| | | | |[]| | | |] ?]; auto. Qed.

Lemma u_tok k c : (forall f r, q_un (S f) (k :: r) = Some (c, r)) -> utx [k] c.
Proof. intros H. split; [discriminate|]. intros rest f Hf. destruct f; [cbn in Hf; lia|]. apply H. Qed.
Lemma u_neg t c : utx t c -> nomin t -> utx (KOp XSub :: t) (XNeg c).
Proof.
  intros (H0 & H2) Hm. split; [discriminate|]. intros rest f Hf. cbn [len] in Hf. destruct f; [lia|]. cbn [app q_un cws].
  destruct t as [|k t']; [congruence|]. pose proof (H2 rest f ltac:(cbn [len] in *; lia)) as E. cbn [app] in *.
  destruct k as [| | | | |[]| | | |]; cbn [nomin] in Hm; try contradiction; rewrite E; reflexivity.
Qed.
Lemma u_not t c : utx t c -> utx (KNot :: t) (XNotE c).
Proof.
  intros (H0 & H2). split; [discriminate|]. intros rest f Hf. cbn [len] in Hf. destruct f; [lia|]. cbn [app q_un cws].
  rewrite H2 by lia. reflexivity.
Qed.

Lemma rest_stop f k l r : 1 <= f -> stops k r -> q_rest f k l r = Some (l, r).
Proof.
  intros Hf H. destruct f; [lia|]. cbn [q_rest]. unfold stops in H.
  destruct (cws r) as [|[| | | | |o| | | |] r']; auto.
  destruct (Nat.eqb_spec (level o) k) as [E|E]; [|destruct o, r' as [|[| | | | |[]| | | |] ?]; auto; contradiction].
  exfalso. destruct o, r' as [|[| | | | |[]| | | |] ?]; auto; lia.
Qed.
Lemma lev_one t c : utx t c -> forall n k f rest, k + n = 6 -> stops k rest -> 10 * len t + n + 1 <= f ->
  q_lev f k (t ++ rest) = Some (c, rest).
Proof.
  intros (_ & H) n. induction n as [|n IH]; intros k f rest Hk Hs Hf; destruct f; try lia; cbn [q_lev].
  - replace k with 6 by lia. apply H. lia.
  - replace (6 <=? k) with false by (symmetry; apply Nat.leb_gt; lia).
    rewrite IH by (try apply stops_S; auto; lia). apply rest_stop; [lia|auto].
Qed.
Lemma level_max o : level o <= 5. Proof. destruct o as [| |[]| | | | |]; cbn; lia. Qed.
Lemma un_sp f t : q_un f (KSp :: t) = q_un f t. Proof. destruct f; reflexivity. Qed.
Lemma lev_sp f : forall k t, q_lev f k (KSp :: t) = q_lev f k t.
Proof. induction f as [|f IH]; intros k t; [reflexivity|]. cbn [q_lev]. rewrite un_sp, IH. reflexivity. Qed.

Lemma stops_sp k o t : level o < k -> stops k (spaced o ++ t).
Proof. intros H. unfold stops. cbn. destruct o; auto. Qed.
(* one operator at its level *)
Lemma rest_one o t2 c2 l rest f : utx t2 c2 -> stops (S (level o)) rest -> 10 * len t2 + 10 <= f ->
  q_rest (S f) (level o) l ((spaced o ++ t2) ++ rest) = q_rest f (level o) (XBin o l c2) rest.
Proof.
  intros H2 Hr Hf. cbn [q_rest spaced app cws].
  assert (E : q_lev f (S (level o)) (KSp :: t2 ++ rest) = Some (c2, rest)).
  { rewrite lev_sp. pose proof (level_max o). apply (lev_one t2 c2 H2 (5 - level o)); auto; lia. }
  rewrite Nat.eqb_refl, E. destruct o; reflexivity.
Qed.
Definition chain (o : xop) (ts : list ctext) : ctext := flat_map (fun t => spaced o ++ t) ts.
Definition chain_xx (o : xop) (c : xx) (cs : list xx) : xx := fold_left (fun s x => XBin o s x) cs c.
Lemma csep_chain o t ts : csep (spaced o) (t :: ts) = t ++ chain o ts.
Proof.
  revert t; induction ts as [|u r IH]; intros t; [cbn; rewrite app_nil_r; reflexivity|].
  change (csep (spaced o) (t :: u :: r)) with (t ++ spaced o ++ csep (spaced o) (u :: r)). rewrite IH.
  unfold chain. cbn [flat_map]. rewrite <- !app_assoc. reflexivity.
Qed.
Lemma chain_cons o t ts : chain o (t :: ts) = (spaced o ++ t) ++ chain o ts.
Proof. reflexivity. Qed.
Lemma chain_stops o ts rest : stops (S (level o)) rest -> stops (S (level o)) (chain o ts ++ rest).
Proof. destruct ts as [|t ts]; [auto|]. intros _. rewrite chain_cons, <- !app_assoc. apply stops_sp. lia. Qed.
Lemma rest_chain o ts cs : Forall2 utx ts cs -> forall c rest f, stops (level o) rest -> 10 * len (chain o ts) + 1 <= f ->
  q_rest f (level o) c (chain o ts ++ rest) = Some (chain_xx o c cs, rest).
Proof.
  induction 1 as [|t c' ts cs Ht _ IH]; intros c rest f Hr Hf.
  - cbn. apply rest_stop; [cbn in Hf; lia|auto].
  - rewrite chain_cons in *. rewrite !app_length in Hf. cbn [spaced len] in Hf. destruct f; [lia|].
    rewrite <- app_assoc. rewrite (rest_one o t c') by (auto; try (apply chain_stops; apply stops_S; auto); lia).
    apply IH; [auto|lia].
Qed.
Lemma lev_chain o t c ts cs rest : utx t c -> Forall2 utx ts cs -> stops 0 rest ->
  forall n k f, k + n = level o -> 10 * len (t ++ chain o ts) + 8 + n <= f ->
  q_lev f k ((t ++ chain o ts) ++ rest) = Some (chain_xx o c cs, rest).
Proof.
  intros Ht Hts Hr. assert (Hr' : forall k, stops k rest) by (induction k; auto; apply stops_S; auto).
  induction n as [|n IH]; intros k f Hk Hf; rewrite ?app_length in Hf; destruct f; try lia; cbn [q_lev];
    pose proof (level_max o);
    (replace (6 <=? k) with false by (symmetry; apply Nat.leb_gt; lia)).
  - replace k with (level o) by lia. rewrite <- app_assoc.
    rewrite (lev_one t c Ht (5 - level o)) by (try apply chain_stops; auto; lia). apply rest_chain; auto; lia.
  - rewrite IH by (rewrite ?app_length; lia). apply rest_stop; [lia|auto].
Qed.
Lemma u_paren b c : (forall rest f, stops 0 rest -> 10 * len b + 13 <= f -> q_lev f 0 (b ++ rest) = Some (c, rest)) ->
  utx (KLP :: b ++ [KRP]) c.
Proof.
  intros H. split; [discriminate|]. intros rest f Hf. cbn [len] in Hf. rewrite app_length in Hf. cbn [len] in Hf.
  destruct f; [lia|]. cbn [app q_un cws]. rewrite <- app_assoc. cbn [app]. rewrite H by (try exact I; lia). reflexivity.
Qed.
Lemma u_chain o t c ts cs : utx t c -> Forall2 utx ts cs -> utx (KLP :: csep (spaced o) (t :: ts) ++ [KRP]) (chain_xx o c cs).
Proof.
  intros Ht Hts. rewrite csep_chain. apply u_paren. intros rest f Hr Hf. pose proof (level_max o).
  apply (lev_chain o t c ts cs rest Ht Hts Hr (level o)); lia.
Qed.
Lemma u_bin o t1 c1 t2 c2 : utx t1 c1 -> utx t2 c2 -> utx (KLP :: (t1 ++ spaced o ++ t2) ++ [KRP]) (XBin o c1 c2).
Proof.
  intros H1 H2. pose proof (u_chain o t1 c1 [t2] [c2] H1 ltac:(repeat constructor; apply H2)) as H.
  cbn [csep] in H. exact H.
Qed.
Lemma cparse_u t c : utx t c -> cparse t = Some c.
Proof.
  intros H. unfold cparse. rewrite <- (app_nil_r t) at 2. rewrite (lev_one t c H 6) by (try exact I; lia). reflexivity.
Qed.
Open Scope Z_scope.
