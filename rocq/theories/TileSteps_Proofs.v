(* The steps of the step loops of the tiling levels. *)
From Coq Require Import ZifyBool.
From Verif Require Import Base Idiv_Model Idiv_Proofs Loops_Model Tile_Model TileLoops_Proofs.

Lemma ceil1 : forall x, 0 <= x -> CEIL_DIV x 1 = x.
Proof. intros x H. unfold CEIL_DIV. replace (x + 1 - 1) with x by lia. apply Z.quot_1_r. Qed.
Lemma micro_steps_eq : forall b e, micro_steps b e = map (fun i => b + i * dir_of b e) (zseq (Z.abs (e - b))).
Proof.
  intros b e. unfold micro_steps, step_chunks. rewrite map_map. cbn [fst].
  assert (E : Z.abs (dir_of b e) = 1) by (unfold dir_of; destruct (b <=? e); reflexivity). rewrite E, ceil1 by lia. reflexivity.
Qed.
Lemma micro_steps_len : forall b e, Z.of_nat (length (micro_steps b e)) = Z.abs (e - b).
Proof. intros. rewrite micro_steps_eq, map_length, zseq_length. lia. Qed.
Lemma chunk_In : forall m b e b' e', 1 <= m -> In (b', e') (step_chunks b e (m * dir_of b e)) ->
  exists i, 0 <= i /\ i * m < Z.abs (e - b) /\ b' = b + i * m * dir_of b e /\ e' = b + Z.min ((i + 1) * m) (Z.abs (e - b)) * dir_of b e /\ dir_of b' e' = dir_of b e.
Proof.
  intros m b e b' e' Hm H. unfold step_chunks in H. apply in_map_iff in H. destruct H as (i & E & Hi). apply zseq_In in Hi. injection E as E1 E2.
  assert (Ed : (b <= e /\ dir_of b e = 1) \/ (e < b /\ dir_of b e = -1)) by (unfold dir_of; destruct (b <=? e) eqn:X; lia).
  assert (Ea : Z.abs (m * dir_of b e) = m) by (destruct Ed as [(_ & ->)|(_ & ->)]; lia). rewrite Ea in Hi.
  pose proof (CEIL_DIV_bounds (Z.abs (e - b)) m ltac:(lia) ltac:(lia)) as C. exists i. 
  assert (Hb : i * m < Z.abs (e - b)) by nia. split; [lia|]. split; [exact Hb|]. split; [lia|].
  destruct Ed as [(L & Ed)|(L & Ed)]; rewrite Ed in *.
  - destruct (0 <? m * 1) eqn:X; [|lia]. split; [lia|]. unfold dir_of. destruct (b' <=? e') eqn:Y; nia.
  - destruct (0 <? m * -1) eqn:X; [lia|]. split; [lia|]. unfold dir_of. destruct (b' <=? e') eqn:Y; nia.
Qed.
Lemma chunk_flat : forall (A : Type) (f : Z -> A) m L q, 1 <= m -> 0 <= L -> 0 <= q ->
  flat_map (fun i => map (fun u => f (i * m + u)) (zseq (Z.min ((i + 1) * m) L - i * m))) (zseq q) = map f (zseq (Z.min (q * m) L)).
Proof.
  intros A f m L q Hm HL Hq. replace q with (Z.of_nat (Z.to_nat q)) by lia. generalize (Z.to_nat q) as k. clear q Hq.
  induction k as [|k IH]; [replace (Z.min (Z.of_nat 0 * m) L) with 0 by lia; reflexivity|].
  replace (Z.of_nat (S k)) with (Z.of_nat k + 1) by lia. rewrite zseq_succ by lia. rewrite flat_map_app, IH. cbn [flat_map]. rewrite app_nil_r.
  set (a := Z.min (Z.of_nat k * m) L). set (w := Z.min ((Z.of_nat k + 1) * m) L - Z.of_nat k * m).
  destruct (Z_le_gt_dec (Z.of_nat k * m) L) as [H|H].
  - replace (Z.min ((Z.of_nat k + 1) * m) L) with (a + w) by lia. rewrite zseq_app by nia. rewrite map_app, map_map. f_equal.
    apply map_ext. intros u. f_equal. subst a. lia.
  - assert (w < 0) by nia. replace (zseq w) with (@nil Z) by (unfold zseq; replace (Z.to_nat w) with 0%nat by lia; reflexivity).
    cbn [map]. rewrite app_nil_r. f_equal. f_equal. subst a. nia.
Qed.
Lemma chunks_concat : forall m b e, 1 <= m -> flat_map (fun be => micro_steps (fst be) (snd be)) (step_chunks b e (m * dir_of b e)) = micro_steps b e.
Proof.
  intros m b e Hm. rewrite (micro_steps_eq b e).
  pose proof (CEIL_DIV_bounds (Z.abs (e - b)) m ltac:(lia) ltac:(lia)) as C.
  assert (Ea : Z.abs (m * dir_of b e) = m) by (unfold dir_of; destruct (b <=? e); lia).
  transitivity (flat_map (fun i => map (fun u => (fun v => b + v * dir_of b e) (i * m + u)) (zseq (Z.min ((i + 1) * m) (Z.abs (e - b)) - i * m))) (zseq (CEIL_DIV (Z.abs (e - b)) m))).
  - pose proof (chunk_In m b e) as CI. unfold step_chunks in *. rewrite Ea in *. rewrite flat_map_concat_map, map_map, <- flat_map_concat_map.
    rewrite !flat_map_concat_map. f_equal. apply map_ext_in. intros i Hi. apply zseq_In in Hi.
    set (x := (b + i * (m * dir_of b e), if 0 <? m * dir_of b e then Z.min (b + i * (m * dir_of b e) + m * dir_of b e) e else Z.max (b + i * (m * dir_of b e) + m * dir_of b e) e)).
    destruct (CI (fst x) (snd x) Hm) as (i' & H1 & H2 & H3 & H4 & H5); [rewrite <- surjective_pairing; apply in_map_iff; exists i; split; [reflexivity|apply zseq_In; exact Hi]|].
    assert (Ei : i' = i) by (cbn [fst x] in H3; unfold dir_of in H3; destruct (b <=? e); nia). subst i'.
    rewrite micro_steps_eq, H5, H3, H4. replace (Z.abs (b + Z.min ((i + 1) * m) (Z.abs (e - b)) * dir_of b e - (b + i * m * dir_of b e))) with (Z.min ((i + 1) * m) (Z.abs (e - b)) - i * m).
    + apply map_ext. intros u. lia.
    + assert (Ed : dir_of b e = 1 \/ dir_of b e = -1) by (unfold dir_of; destruct (b <=? e); lia). destruct Ed as [-> | ->]; nia.
  - assert (0 <= CEIL_DIV (Z.abs (e - b)) m) by nia.
    etransitivity; [apply (chunk_flat _ (fun v => b + v * dir_of b e) m (Z.abs (e - b))); lia|]. do 2 f_equal. nia.
Qed.

Lemma todo_len : forall c sel b e, Z.of_nat (length (todo_of c sel b e)) = Z.abs (e - b) * Z.of_nat (length (sel_stages c sel)).
Proof.
  intros c sel b e. rewrite <- micro_steps_len. unfold todo_of. generalize (micro_steps b e). intros l. induction l as [|t l IH]; [cbn; lia|].
  cbn [flat_map length]. rewrite app_length, map_length. lia.
Qed.
Lemma sel_all_len : forall c, Z.of_nat (length (sel_stages c None)) = c_nst c.
Proof. intros c. cbn [sel_stages]. rewrite zseq_length. unfold c_nst. lia. Qed.
Lemma todo_chunks : forall c sel m b e, 1 <= m -> flat_map (fun be => todo_of c sel (fst be) (snd be)) (step_chunks b e (m * dir_of b e)) = todo_of c sel b e.
Proof.
  intros c sel m b e Hm. unfold todo_of at 2. rewrite <- (chunks_concat m b e Hm). generalize (step_chunks b e (m * dir_of b e)). intros l.
  induction l as [|x l IH]; [reflexivity|]. cbn [flat_map]. rewrite flat_map_app, IH. reflexivity.
Qed.
Lemma todo_In : forall c sel b e t s, In (t, s) (todo_of c sel b e) <-> (exists u, 0 <= u < Z.abs (e - b) /\ t = b + u * dir_of b e) /\ In s (sel_stages c sel).
Proof.
  intros c sel b e t s. unfold todo_of. rewrite in_flat_map, micro_steps_eq. split.
  - intros (t0 & H & Hs). apply in_map_iff in H. destruct H as (u & <- & Hu). apply zseq_In in Hu. apply in_map_iff in Hs. destruct Hs as (s0 & E & Hs). injection E as <- <-.
    split; [exists u; split; [exact Hu|reflexivity]|exact Hs].
  - intros ((u & Hu & ->) & Hs). exists (b + u * dir_of b e). split; [apply in_map_iff; exists u; split; [reflexivity|apply zseq_In; exact Hu]|].
    apply in_map_iff. exists s. split; [reflexivity|exact Hs].
Qed.
Lemma todo_one : forall c s b e, Z.abs (e - b) = 1 -> todo_of c (Some s) b e = [(b, s)].
Proof.
  intros c s b e H. unfold todo_of. rewrite micro_steps_eq, H. change (zseq 1) with [0]. cbn [map flat_map sel_stages app].
  replace (b + 0 * dir_of b e) with b by lia. reflexivity.
Qed.
