(* A 1D part with two equations: the first reads A at vector offsets -1, 0 and 2, the second reads B at
   offset 0 and A at offset 1; fold length 4. *)
From Verif Require Import Base Buf_Model Buf_Spec.
Open Scope Z_scope.

Definition ex_cfg : bcfg := mkB 4 1 true true.
Definition ex_reads : list vpt :=
  [mkPt 0 (Some (-4)); mkPt 0 (Some 0); mkPt 0 (Some 4); mkPt 0 (Some 8); mkPt 1 (Some 0)].
Definition ex_eqs : list (nat * list vpt) :=
  [(2%nat, [mkPt 0 (Some (-4)); mkPt 0 (Some 0); mkPt 0 (Some 8)]);
   (3%nat, [mkPt 1 (Some 0); mkPt 0 (Some 4)])].
Definition ex_loc (k : nat) (i : Z) : Z := 100 * Z.of_nat k + i.
Definition ex_f (e : nat) (old : Z) (xs : list Z) : Z := fold_left (fun a x => 3 * a + x) xs (Z.of_nat e).
Definition ex_mem (a : Z) : Z := a * a.

(* A point is one of a few. *)
Lemma ex_loc_inj : forall k k' i i', 0 <= i < 100 -> 0 <= i' < 100 -> k <> k' -> ex_loc k i <> ex_loc k' i'.
Proof. intros. unfold ex_loc. lia. Qed.

Lemma ex_aligned : aligned 4 ex_reads.
Proof.
  intros p o H Ho. unfold ex_reads in H. cbn in H.
  repeat destruct H as [<-|H]; try contradiction; injection Ho as <-;
    [exists (-1)|exists 0|exists 1|exists 2|exists 0]; reflexivity.
Qed.

Lemma ex_listed : all_listed ex_reads ex_eqs.
Proof. intros w rs [H|[H|[]]]; injection H as <- <-; intros p; cbn; tauto. Qed.

Lemma ex_independent : independent ex_loc 4 ex_eqs 10 5.
Proof.
  intros e1 e2 w1 rs1 w2 rs2 p j H1 H2 He Hp Hj.
  destruct e2 as [|[|[|e2]]]; [lia| |discriminate|destruct e2; discriminate].
  destruct e1 as [|e1]; [|lia]. injection H1 as <- <-. injection H2 as <- <-.
  cbn in Hp. destruct Hp as [<-|[<-|[]]]; unfold cell, ex_loc, vec_ofs; cbn [p_key p_ofs];
    [change (0 / 4) with 0|change (4 / 4) with 1]; lia.
Qed.

Lemma ex_not_carried : not_carried ex_loc 4 ex_reads ex_eqs 10 5.
Proof.
  intros w rs p q i j Hw Hp Hq Hk Ho1 Ho2 Ho Hb Hij Hn.
  assert (Kp : p_key p = 0%nat).
  { cbn in Hp, Hq. repeat destruct Hp as [<-|Hp]; try reflexivity; [|contradiction].
    repeat destruct Hq as [<-|Hq]; cbn in *; try congruence; contradiction. }
  assert (Vp : -1 <= vec_ofs 4 p <= 2).
  { cbn in Hp. repeat destruct Hp as [<-|Hp]; try contradiction; vm_compute; split; discriminate. }
  unfold cell, ex_loc. rewrite Kp.
  destruct Hw as [H|[H|[]]]; injection H as <- <-; lia.
Qed.
