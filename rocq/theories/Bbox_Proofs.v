From Coq Require Import String.
From Verif Require Import Base Idiv_Model Idiv_Proofs MixedRadix Cover_Spec Cover_Proofs Visit_Spec
  ParFor_Model ParFor_Proofs Tuple_Model Tuple_Proofs Bbox_Model.

(* ---- boxes ---- *)
Lemma in_bb_in_box : forall bb p, List.length p = List.length bb -> is_in_bb bb p = in_box bb p.
Proof.
  induction bb as [|[b e] bb IH]; intros [|x p] H; cbn in *; try discriminate; [reflexivity|].
  unfold in_iv. cbn [fst snd]. rewrite <- IH by lia.
  destruct (x <? b) eqn:E1, (e <=? x) eqn:E2, (b <=? x) eqn:E3, (x <? e) eqn:E4; cbn; try reflexivity; lia.
Qed.

Lemma in_box_len : forall bb p, in_box bb p = true -> List.length p = List.length bb.
Proof.
  induction bb as [|c bb IH]; intros [|x p] H; cbn in *; try discriminate; [reflexivity|].
  apply andb_prop in H. rewrite (IH p); tauto.
Qed.

Lemma in_box_F2 : forall bb p, in_box bb p = true <-> Forall2 (fun c x => fst c <= x < snd c) bb p.
Proof.
  induction bb as [|c bb IH]; intros [|x p]; cbn; split; intros H; try discriminate; try (inversion H; fail).
  - constructor.
  - reflexivity.
  - apply andb_prop in H. destruct H as [A B]. unfold in_iv in A. constructor; [lia|]. apply IH; assumption.
  - inversion H; subst. unfold in_iv. rewrite (proj2 (IH p)) by assumption. lia.
Qed.

Lemma add_el_len : forall a b, List.length (add_el a b) = List.length a.
Proof. induction a as [|x a IH]; intros [|y b]; cbn; auto. Qed.

(* ---- the visitor that stops at the first invalid point ---- *)
Lemma run_first : forall (St : Type) (visitor : St -> list Z -> Z -> St * bool) (good : list Z -> bool)
    (fail : list Z -> St) st,
  (forall p i, good p = true -> visitor st p i = (st, true)) ->
  forall l, (forall p i, In (p, i) l -> good p = false -> visitor st p i = (fail p, false)) ->
  (Forall (fun pi => good (fst pi) = true) l /\ run_visitor St visitor l st = (st, true)) \/
  (exists l1 p i l2, l = l1 ++ (p, i) :: l2 /\ Forall (fun pi => good (fst pi) = true) l1 /\ good p = false /\
     run_visitor St visitor l st = (fail p, false)).
Proof.
  intros St visitor good fail st Hg. induction l as [|[p i] l IH]; intros Hf.
  - left. split; [constructor|reflexivity].
  - destruct (good p) eqn:E.
    + cbn. rewrite (Hg p i E). destruct IH as [[A B]|(l1 & q & k & l2 & A & B & C & D)].
      * intros; eapply Hf; [right; eassumption|assumption].
      * left. split; [constructor; assumption|assumption].
      * right. exists ((p, i) :: l1), q, k, l2. split; [subst; reflexivity|].
        split; [constructor; assumption|]. split; assumption.
    + right. exists [], p, i, l. split; [reflexivity|]. split; [constructor|]. split; [assumption|].
      cbn. rewrite (Hf p i) by (cbn; auto). reflexivity.
Qed.

Lemma numbered_split : forall ss l1 p i l2, allpos ss ->
  numbered_points true ss = l1 ++ (p, i) :: l2 ->
  in_sizes ss p /\ (forall q, in_sizes ss q -> mr_pos ss q < mr_pos ss p -> In q (map fst l1)).
Proof.
  intros ss l1 p i l2 Hs E.
  destruct (numbered_enum true ss Hs) as (A & B & C & D). cbn zeta in C.
  assert (Hp : in_sizes ss p).
  { apply B. rewrite E, map_app. apply in_or_app. right. left. reflexivity. }
  split; [assumption|]. intros q Hq Hlt.
  pose proof (proj2 (B q) Hq) as Hin. apply in_map_iff in Hin. destruct Hin as [[q' k] [<- Hin]].
  cbn [fst] in *.
  assert (Ek : k = mr_pos ss q') by (apply (C q' k); assumption).
  assert (Ei : i = mr_pos ss p).
  { apply (C p i). rewrite E. apply in_or_app. right. left. reflexivity. }
  rewrite E in Hin. apply in_app_or in Hin. destruct Hin as [Hin|[Hin|Hin]].
  - apply in_map_iff. exists (q', k). split; [reflexivity|assumption].
  - inversion Hin. subst. lia.
  - exfalso. rewrite E, map_app in D. cbn in D.
    (* the numbers are increasing *)
    apply in_split in Hin. destruct Hin as (m1 & m2 & ->).
    rewrite map_app in D. cbn in D.
    assert (P1 : nth (List.length (map snd l1)) (zseq (zprod ss)) 0 = i).
    { rewrite <- D. rewrite app_nth2 by lia. rewrite Nat.sub_diag. reflexivity. }
    assert (P2 : nth (List.length (map snd l1) + S (List.length (map snd m1))) (zseq (zprod ss)) 0 = k).
    { rewrite <- D. rewrite app_nth2 by lia.
      replace (List.length (map snd l1) + S (List.length (map snd m1)) - List.length (map snd l1))%nat
        with (S (List.length (map snd m1))) by lia.
      cbn [nth]. rewrite app_nth2 by lia. rewrite Nat.sub_diag. reflexivity. }
    assert (L : (List.length (map snd l1) + S (List.length (map snd m1)) < List.length (zseq (zprod ss)))%nat).
    { rewrite <- D, app_length. cbn [List.length]. rewrite app_length. cbn [List.length]. lia. }
    rewrite zseq_length in L. unfold zseq in P1, P2. revert P1 P2 L.
    generalize (List.length (map snd l1)) (List.length (map snd m1)). intros x y P1 P2 L.
    rewrite (nth_indep _ 0 (Z.of_nat 0)) in P1 by (rewrite map_length, seq_length; lia).
    rewrite (nth_indep _ 0 (Z.of_nat 0)) in P2 by (rewrite map_length, seq_length; lia).
    rewrite map_nth, seq_nth in P1 by lia. rewrite map_nth, seq_nth in P2 by lia. lia.
Qed.

(* ---- one scan ---- *)
Lemma adjust_spec : forall ib o len, in_sizes len o -> List.length ib = List.length len ->
  (exists x, In x o /\ x <> 0) ->
  exists len' again, adjust ib (add_el ib o) len = Some (len', again) /\
    Forall2 (fun l l' => 0 < l' <= l) len len' /\ zsum len' < zsum len /\
    (again = false -> forall q, in_sizes len' q -> in_sizes len q /\ mr_pos len q < mr_pos len o).
Proof.
  intros ib o len H. revert ib.
  induction H as [|l x len o Hx H IH]; intros ib HL (z & Hz & Hnz).
  - destruct Hz.
  - destruct ib as [|b ib]; [discriminate|]. cbn in HL. cbn [add_el adjust].
    assert (P : allpos len) by (eapply in_sizes_pos; eassumption).
    assert (Refl : Forall2 (fun l l' => 0 < l' <= l) len len).
    { clear -P. induction P; constructor; [lia|assumption]. }
    destruct (b <? b + x) eqn:E.
    + eexists _, _. split; [reflexivity|]. replace (b + x - b) with x by lia.
      split; [constructor; [lia|assumption]|]. split; [cbn; lia|].
      intros Ha q Hq. destruct len; [|discriminate]. inversion H; subst.
      inversion Hq as [|? y ? q' Hy Hq']; subst. inversion Hq'; subst.
      split; [constructor; [lia|constructor]|]. cbn. lia.
    + assert (x = 0) by lia. subst x.
      destruct (IH ib) as (len' & again & A & B & C & D); [lia| |].
      { exists z. destruct Hz as [Hz|Hz]; [congruence|]. split; assumption. }
      rewrite A. eexists _, _. split; [reflexivity|]. split; [constructor; [lia|assumption]|].
      split; [cbn; lia|]. intros Ha q Hq. inversion Hq as [|? y ? q' Hy Hq']; subst.
      destruct (D eq_refl q' Hq') as [D1 D2]. split; [constructor; [lia|assumption]|].
      cbn [mr_pos]. nia.
Qed.

Lemma add_el_zeros : forall ib (o : list Z), (forall x, In x o -> x = 0) -> add_el ib o = ib.
Proof.
  induction ib as [|b ib IH]; intros [|x o] H; cbn; try reflexivity.
  rewrite (H x) by (left; reflexivity). rewrite IH by (intros; apply H; right; assumption). f_equal. lia.
Qed.

Section Scan.
  Variable cond : list Z -> bool.
  Variable found : list dbox.
  Notation valid := (is_valid cond found).

  Lemma scan_once_spec : forall ib len, allpos len -> List.length ib = List.length len ->
    valid ib = true ->
    let '(len', again) := scan_once cond found ib len in
    Forall2 (fun l l' => 0 < l' <= l) len len' /\
    (again = true -> zsum len' < zsum len) /\
    (again = false -> forall o, in_sizes len' o -> valid (add_el ib o) = true).
  Proof.
    intros ib len Hpos HL Hib. unfold scan_once. rewrite indices_visit_run by assumption.
    assert (Refl : Forall2 (fun l l' => 0 < l' <= l) len len).
    { clear -Hpos. induction Hpos; constructor; [lia|assumption]. }
    match goal with |- context [run_visitor _ ?v _ _] => set (visitor := v) end.
    set (fail := fun o => match adjust ib (add_el ib o) len with
                          | Some (len', again) => (len', again) | None => (len, false) end).
    destruct (numbered_enum true len Hpos) as (_ & B & _ & _).
    destruct (run_first _ visitor (fun o => valid (add_el ib o)) fail (len, false)) with (l := numbered_points true len)
      as [[A1 A2]|(l1 & o & i & l2 & A1 & A2 & A3 & A4)].
    - intros p i Hp. unfold visitor. rewrite Hp. reflexivity.
    - intros p i Hin Hp. unfold visitor, fail. rewrite Hp. cbn [fst snd].
      assert (Hsz : in_sizes len p).
      { apply B. apply in_map_iff. exists (p, i). split; [reflexivity|assumption]. }
      destruct (adjust_spec ib p len Hsz HL) as (len' & again & Q & _).
      { destruct (Exists_dec (fun x => x <> 0) p) as [X|X].
        - intros x. destruct (Z.eq_dec x 0); [right; lia|left; lia].
        - apply Exists_exists in X. destruct X as (x & X1 & X2). exists x. split; assumption.
        - exfalso. rewrite add_el_zeros in Hp; [congruence|].
          intros x Hx. destruct (Z.eq_dec x 0); [assumption|]. exfalso. apply X. apply Exists_exists.
          exists x. split; assumption. }
      rewrite Q. reflexivity.
    - rewrite A2. cbn [fst]. split; [assumption|]. split; [discriminate|]. intros _ o Ho.
      rewrite Forall_forall in A1. apply B in Ho. apply in_map_iff in Ho. destruct Ho as ([o' k] & <- & Ho).
      apply (A1 _ Ho).
    - rewrite A4. cbn [fst].
      destruct (numbered_split _ _ _ _ _ Hpos A1) as [Hsz Hlt].
      destruct (adjust_spec ib o len Hsz HL) as (len' & again & Q1 & Q2 & Q3 & Q4).
      { destruct (Exists_dec (fun x => x <> 0) o) as [X|X].
        - intros x. destruct (Z.eq_dec x 0); [right; lia|left; lia].
        - apply Exists_exists in X. destruct X as (x & X1 & X2). exists x. split; assumption.
        - exfalso. rewrite add_el_zeros in A3; [congruence|].
          intros x Hx. destruct (Z.eq_dec x 0); [assumption|]. exfalso. apply X. apply Exists_exists.
          exists x. split; assumption. }
      unfold fail. rewrite Q1. split; [assumption|]. split; [intros _; assumption|].
      intros Ha q Hq. destruct (Q4 Ha q Hq) as [R1 R2]. specialize (Hlt q R1 R2).
      apply in_map_iff in Hlt. destruct Hlt as ([q' k] & <- & Hk).
      rewrite Forall_forall in A2. apply (A2 _ Hk).
  Qed.

  Lemma shrink_pos : forall len len', Forall2 (fun l l' => 0 < l' <= l) len len' -> allpos len'.
  Proof. induction 1; constructor; [lia|assumption]. Qed.
  Lemma zsum_nonneg : forall l, allpos l -> 0 <= zsum l.
  Proof. induction 1; cbn; lia. Qed.
  Lemma shrink_len : forall len len', Forall2 (fun l l' => 0 < l' <= l) len len' -> List.length len = List.length len'.
  Proof. induction 1; cbn; congruence. Qed.
  Lemma shrink_trans : forall a b c, Forall2 (fun l l' => 0 < l' <= l) a b -> Forall2 (fun l l' => 0 < l' <= l) b c ->
    Forall2 (fun l l' => 0 < l' <= l) a c.
  Proof.
    intros a b c H. revert c. induction H; intros c Hc; inversion Hc; subst; constructor; [lia|auto].
  Qed.

  Lemma scan_rect_spec : forall fuel ib len, allpos len -> List.length ib = List.length len ->
    valid ib = true -> zsum len < Z.of_nat fuel ->
    exists len', scan_rect cond fuel found ib len = Ok len' /\
      Forall2 (fun l l' => 0 < l' <= l) len len' /\
      (forall o, in_sizes len' o -> valid (add_el ib o) = true).
  Proof.
    induction fuel as [|fuel IH]; intros ib len Hpos HL Hib Hf.
    - pose proof (zsum_nonneg len Hpos). lia.
    - cbn [scan_rect]. pose proof (scan_once_spec ib len Hpos HL Hib) as S1.
      destruct (scan_once cond found ib len) as [len' again]. destruct S1 as (A & B & C).
      destruct again.
      + specialize (B eq_refl).
        destruct (IH ib len') as (len2 & D & E & F); [eapply shrink_pos; eassumption| |assumption|lia|].
        { rewrite HL. apply shrink_len; assumption. }
        exists len2. split; [assumption|]. split; [eapply shrink_trans; eassumption|assumption].
      + exists len'. split; [reflexivity|]. split; [assumption|]. apply C. reflexivity.
  Qed.
End Scan.

(* ---- boxes of one slice ---- *)
Definition box_pos (bb : dbox) : Prop := Forall (fun c => fst c < snd c) bb.

Lemma box_pos_len : forall bb, box_pos bb -> allpos (bb_len bb).
Proof. induction 1 as [|[b e] bb H1 H IH]; cbn in *; constructor; [lia|assumption]. Qed.

Lemma in_box_offset : forall bb p, in_box bb p = true ->
  exists o, in_sizes (bb_len bb) o /\ p = add_el (bb_begin bb) o.
Proof.
  intros bb p H. apply in_box_F2 in H.
  induction H as [|[b e] x bb p Hx H (o & A & B)]; cbn in *.
  - exists []. split; [constructor|reflexivity].
  - exists (x - b :: o). split; [constructor; [lia|assumption]|]. cbn. f_equal; [lia|assumption].
Qed.

Lemma offset_in_box : forall bb o, in_sizes (bb_len bb) o -> in_box bb (add_el (bb_begin bb) o) = true.
Proof.
  induction bb as [|[b e] bb IH]; intros o H; cbn in *; inversion H as [|? x ? o' Hx Ho]; subst; [reflexivity|].
  cbn. rewrite IH by assumption. unfold in_iv. cbn [fst snd]. lia.
Qed.

(* A new box at [ib] inside the slice. *)
Lemma new_box : forall slice ib len', in_box slice ib = true ->
  Forall2 (fun l l' => 0 < l' <= l) (sub_el (map snd slice) ib) len' ->
  List.length (combine ib (add_el ib len')) = List.length slice /\
  box_pos (combine ib (add_el ib len')) /\
  bb_len (combine ib (add_el ib len')) = len' /\
  bb_begin (combine ib (add_el ib len')) = ib /\
  (forall p, in_box (combine ib (add_el ib len')) p = true -> in_box slice p = true).
Proof.
  intros slice ib len' H. apply in_box_F2 in H. revert len'.
  induction H as [|[b e] x bb p Hx H IH]; intros len' HF; cbn in *; inversion HF as [|? l ? r Hl Hr]; subst.
  - cbn. repeat split; auto. constructor.
  - destruct (IH r Hr) as (A & B & C & D & E). cbn.
    split; [f_equal; assumption|]. split; [constructor; [cbn; lia|assumption]|].
    split; [f_equal; [lia|assumption]|]. split; [f_equal; assumption|].
    intros [|y q] Hq; [discriminate|]. cbn in Hq. apply andb_prop in Hq. destruct Hq as [Q1 Q2].
    unfold in_iv in *. cbn [fst snd] in *. rewrite (E q Q2). lia.
Qed.

Definition bb_hits := hits in_box.

Lemma hits_zero : forall l p, hits in_box l p = 0%nat <-> forall bb, In bb l -> in_box bb p = false.
Proof.
  induction l as [|b l IH]; intros p; cbn; [split; [intros _ bb []|reflexivity]|].
  unfold hits in *. cbn. destruct (in_box b p) eqn:E; cbn; split; intros H.
  - discriminate.
  - specialize (H b (or_introl eq_refl)). congruence.
  - intros bb [<-|Hb]; [assumption|]. apply IH; assumption.
  - apply IH. intros bb Hb. apply H. right; assumption.
Qed.

Lemma existsb_hits : forall l p n, List.length p = n -> Forall (fun bb : dbox => List.length bb = n) l ->
  existsb (fun bb => is_in_bb bb p) l = negb (Nat.eqb (hits in_box l p) 0).
Proof.
  intros l p n Hp H. induction H as [|bb l Hb H IH]; cbn; [reflexivity|].
  rewrite in_bb_in_box by congruence. unfold hits in *. cbn. rewrite IH.
  destruct (in_box bb p); cbn; [reflexivity|]. reflexivity.
Qed.

Section Slice.
  Variable cond : list Z -> bool.
  Variable slice : dbox.
  Hypothesis Hpos : box_pos slice.

  Definition good_boxes (l : list dbox) : Prop :=
    Forall (fun bb => box_pos bb /\ List.length bb = List.length slice) l.

  Definition sinv (seen : list (list Z)) (l : list dbox) : Prop :=
    good_boxes l /\
    (forall p, (hits in_box l p <= 1)%nat) /\
    (forall p, hits in_box l p = 1%nat -> in_box slice p = true /\ cond p = true) /\
    (forall o, In o seen -> cond (add_el (bb_begin slice) o) = true ->
       hits in_box l (add_el (bb_begin slice) o) = 1%nat).

  Lemma zsum_sub_pos : forall ib, in_box slice ib = true -> allpos (sub_el (map snd slice) ib).
  Proof.
    clear Hpos. intros ib H. apply in_box_F2 in H.
    induction H as [|[b e] x bb p Hx H IH]; cbn; constructor; [cbn in *; lia|]. exact IH.
  Qed.

  Lemma sub_el_len : forall a b, List.length (sub_el a b) = List.length a.
  Proof. induction a as [|x a IH]; intros [|y b]; cbn; auto. Qed.

  Lemma slice_step : forall seen l o, sinv seen l -> in_sizes (bb_len slice) o ->
    exists l', rbind (Ok l) (fun found =>
            let ib := add_el (bb_begin slice) o in
            if is_valid cond found ib then
              let scan_len := sub_el (map snd slice) ib in
              rbind (scan_rect cond (S (Z.to_nat (zsum scan_len))) found ib scan_len) (fun len =>
                Ok (found ++ [combine ib (add_el ib len)]))
            else Ok found) = Ok l' /\ sinv (o :: seen) l'.
  Proof.
    intros seen l o (A & B & C & D) Ho. cbn [rbind]. cbv zeta.
    pose proof (offset_in_box slice o Ho) as Hin. set (ib := add_el (bb_begin slice) o) in *.
    assert (HL : List.length ib = List.length slice) by (apply in_box_len; assumption).
    assert (HG : Forall (fun bb : dbox => List.length bb = List.length slice) l).
    { eapply Forall_impl; [|exact A]. intros bb [_ H]; exact H. }
    unfold is_valid at 1. rewrite (existsb_hits l ib (List.length slice) HL HG).
    destruct (cond ib && negb (negb (Nat.eqb (hits in_box l ib) 0))) eqn:E.
    - apply andb_prop in E. destruct E as [E1 E2].
      pose proof (zsum_sub_pos ib Hin) as Hsp.
      destruct (scan_rect_spec cond l (S (Z.to_nat (zsum (sub_el (map snd slice) ib)))) ib (sub_el (map snd slice) ib))
        as (len' & F1 & F2 & F3); auto.
      { rewrite sub_el_len, map_length. assumption. }
      { unfold is_valid. rewrite (existsb_hits l ib _ HL HG), E1. cbn. exact E2. }
      { pose proof (zsum_nonneg _ Hsp). lia. }
      rewrite F1. cbn [rbind]. eexists. split; [reflexivity|].
      destruct (new_box slice ib len' Hin F2) as (N1 & N2 & N3 & N4 & N5).
      set (nb := combine ib (add_el ib len')) in *.
      assert (Nv : forall p, in_box nb p = true -> cond p = true /\ hits in_box l p = 0%nat).
      { intros p Hp. destruct (in_box_offset nb p Hp) as (q & Q1 & Q2). rewrite N3 in Q1. rewrite N4 in Q2.
        specialize (F3 q Q1). rewrite <- Q2 in F3. unfold is_valid in F3.
        rewrite (existsb_hits l p (List.length slice)) in F3; [|rewrite (in_box_len nb p Hp); exact N1|assumption].
        apply andb_prop in F3. destruct F3 as [G1 G2]. split; [assumption|].
        destruct (hits in_box l p) eqn:EE; [reflexivity|cbn in G2; discriminate]. }
      assert (Hh : forall p, hits in_box (l ++ [nb]) p = (hits in_box l p + (if in_box nb p then 1 else 0))%nat).
      { intros p. rewrite hits_app. unfold hits at 2. cbn. destruct (in_box nb p); reflexivity. }
      split; [apply Forall_app; split; [assumption|constructor; [split; assumption|constructor]]|].
      split; [|split].
      + intros p. rewrite Hh. destruct (in_box nb p) eqn:EE; [destruct (Nv p EE) as [_ ->]; lia|].
        specialize (B p). lia.
      + intros p Hp. rewrite Hh in Hp. destruct (in_box nb p) eqn:EE.
        * split; [apply N5; assumption|apply Nv; assumption].
        * apply C. lia.
      + intros q Hq Hc. rewrite Hh. destruct Hq as [<-|Hq].
        * fold ib. assert (EE : in_box nb ib = true).
          { pose proof (offset_in_box nb (map (fun _ => 0) ib)) as X. rewrite N4, N3 in X.
            rewrite add_el_zeros in X by (intros x Hx; apply in_map_iff in Hx; destruct Hx as (? & <- & _); reflexivity).
            apply X. assert (LL : List.length ib = List.length len').
            { apply shrink_len in F2. rewrite sub_el_len, map_length in F2. congruence. }
            apply shrink_pos in F2. revert LL. generalize ib. clear -F2.
            induction F2 as [|z len' Hz F2 IH]; intros [|y ib] LL; cbn in *; try discriminate; constructor; [lia|].
            apply IH. lia. }
          rewrite EE. destruct (Nv ib EE) as [_ ->]. reflexivity.
        * rewrite (D q Hq Hc). destruct (in_box nb (add_el (bb_begin slice) q)) eqn:EE; [|reflexivity].
          destruct (Nv _ EE) as [_ G]. rewrite (D q Hq Hc) in G. discriminate.
    - exists l. split; [reflexivity|]. split; [assumption|]. split; [assumption|]. split; [assumption|].
      intros q [<-|Hq] Hc; [|apply D; assumption]. fold ib in Hc |- *. rewrite Hc in E. cbn in E.
      specialize (B ib). destruct (hits in_box l ib) as [|[|n]]; [discriminate|reflexivity|lia].
  Qed.

  Lemma slice_run : forall pts seen l, sinv seen l ->
    (forall p i, In (p, i) pts -> in_sizes (bb_len slice) p) ->
    exists l', fst (run_visitor (res (list dbox))
      (fun st iofs _ =>
         (rbind st (fun found =>
            let ib := add_el (bb_begin slice) iofs in
            if is_valid cond found ib then
              let scan_len := sub_el (map snd slice) ib in
              rbind (scan_rect cond (S (Z.to_nat (zsum scan_len))) found ib scan_len) (fun len =>
                Ok (found ++ [combine ib (add_el ib len)]))
            else Ok found), true)) pts (Ok l)) = Ok l' /\ sinv (map fst pts ++ seen) l'.
  Proof.
    induction pts as [|[p i] pts IH]; intros seen l Hi Hp.
    - exists l. split; [reflexivity|assumption].
    - cbn [run_visitor]. destruct (slice_step seen l p Hi (Hp p i (or_introl eq_refl))) as (l1 & A & B).
      cbn [rbind] in A |- *. rewrite A.
      destruct (IH (p :: seen) l1 B) as (l2 & C & D).
      { intros q k Hq. apply (Hp q k). right; assumption. }
      exists l2. split; [exact C|]. destruct D as (D1 & D2 & D3 & D4).
      split; [assumption|]. split; [assumption|]. split; [assumption|].
      intros o Ho. apply D4. cbn in Ho. apply in_or_app. destruct Ho as [<-|Ho]; [right; left; reflexivity|].
      apply in_app_or in Ho. destruct Ho; [left|right; right]; assumption.
  Qed.

  Lemma find_in_slice_spec :
    exists l, find_in_slice cond slice [] = Ok l /\ good_boxes l /\
      exact_cover in_box l (fun p => in_box slice p && cond p).
  Proof.
    unfold find_in_slice. pose proof (box_pos_len slice Hpos) as Hl. rewrite indices_visit_run by assumption.
    destruct (numbered_enum true (bb_len slice) Hl) as (_ & B & _ & _).
    destruct (slice_run (numbered_points true (bb_len slice)) [] []) as (l & A & S1).
    - split; [constructor|]. split; [intros; cbn; lia|]. split; [intros p H; discriminate H|]. intros o [].
    - intros p i Hin. apply B. apply in_map_iff. exists (p, i). split; [reflexivity|assumption].
    - exists l. split; [exact A|]. destruct S1 as (S1 & S2 & S3 & S4). split; [assumption|].
      intros p. destruct (in_box slice p && cond p) eqn:E.
      + apply andb_prop in E. destruct E as [E1 E2]. destruct (in_box_offset slice p E1) as (o & O1 & ->).
        apply S4; [|assumption]. apply in_or_app. left. apply B. assumption.
      + specialize (S2 p). destruct (hits in_box l p) as [|[|n]] eqn:EE; [reflexivity| |lia].
        destruct (S3 p EE) as [X Y]. rewrite X, Y in E. discriminate.
  Qed.
End Slice.

(* ---- all slices ---- *)
Lemma set_nth_spec : forall (A : Type) (lists : list (list A)) n v k, (n < List.length lists)%nat ->
  nth k (firstn n lists ++ v :: skipn (S n) lists) [] = (if Nat.eqb k n then v else nth k lists []) /\
  List.length (firstn n lists ++ v :: skipn (S n) lists) = List.length lists.
Proof.
  induction lists as [|x l IH]; intros n v k Hn; cbn in Hn; [lia|].
  destruct n as [|n]; cbn [firstn skipn app].
  - split; [destruct k; reflexivity|reflexivity].
  - destruct (IH n v (pred k)) as [A1 B1]; [lia|]. split; [destruct k as [|k]; [reflexivity|exact A1]|].
    cbn [List.length]. f_equal. exact B1.
Qed.

Section Slices.
  Variable cond : list Z -> bool.
  Variables (b e : Z) (rest : dbox).
  Hypothesis Hpos : box_pos ((b, e) :: rest).
  Notation part := ((b, e) :: rest).

  Lemma slices_loop : forall len n lists, 0 < len ->
    (forall k, 0 <= k < n -> nth (Z.to_nat k) lists [] = []) -> Z.of_nat (List.length lists) = n ->
    forall m, 0 <= m <= n ->
    exists lists', fold_left (fun acc (call : Z * Z) =>
            rbind acc (fun lists =>
              let start := fst call in
              match slice_of part len start with
              | None => Ok lists
              | Some slice =>
                  rbind (find_in_slice cond slice (nth (Z.to_nat start) lists [])) (fun l =>
                  Ok (firstn (Z.to_nat start) lists ++ l :: skipn (S (Z.to_nat start)) lists))
              end)) (map (fun i => (i, i + 1)) (zseq m)) (Ok lists) = Ok lists' /\
      Z.of_nat (List.length lists') = n /\
      (forall k, m <= k < n -> nth (Z.to_nat k) lists' [] = []) /\
      (forall k, 0 <= k < m -> good_boxes part (nth (Z.to_nat k) lists' []) /\
         exact_cover in_box (nth (Z.to_nat k) lists' [])
           (fun p => match slice_of part len k with Some s => in_box s p && cond p | None => false end)).
  Proof.
    intros len n lists Hlen Hnil HL m Hm. destruct Hm as [Hm0 Hmn]. revert m Hm0 Hmn.
    refine (natlike_ind _ _ _).
    - intros _. exists lists. split; [reflexivity|]. split; [assumption|]. split; [exact Hnil|]. intros k Hk; lia.
    - intros m Hm IH Hmn. unfold Z.succ in *. destruct IH as (l1 & A & B & C & D); [lia|].
      rewrite zseq_succ, map_app, fold_left_app by lia. rewrite A. cbn [fold_left map rbind]. cbv zeta. cbn [fst].
      destruct (slice_of part len m) as [s|] eqn:Es.
      + rewrite (C m) by lia.
        assert (Hs : box_pos s /\ List.length s = List.length part).
        { cbn in Es. destruct (Z.min e (b + m * len + len) <=? b + m * len) eqn:EE; [discriminate|].
          inversion Es; subst s. split; [|reflexivity]. inversion Hpos; subst. constructor; [cbn; lia|assumption]. }
        destruct Hs as [Hs1 Hs2].
        destruct (find_in_slice_spec cond s Hs1) as (l & F1 & F2 & F3). rewrite F1. cbn [rbind].
        pose proof (set_nth_spec _ l1 (Z.to_nat m) l) as SN.
        eexists. split; [reflexivity|].
        split; [rewrite (proj2 (SN 0%nat ltac:(lia))); assumption|].
        split.
        * intros k Hk. rewrite (proj1 (SN (Z.to_nat k) ltac:(lia))).
          destruct (Nat.eqb (Z.to_nat k) (Z.to_nat m)) eqn:EE; [apply Nat.eqb_eq in EE; lia|]. apply C. lia.
        * intros k Hk. rewrite (proj1 (SN (Z.to_nat k) ltac:(lia))).
          destruct (Nat.eqb (Z.to_nat k) (Z.to_nat m)) eqn:EE.
          -- apply Nat.eqb_eq in EE. assert (k = m) by lia. subst k. rewrite Es. split; [|exact F3].
             unfold good_boxes in *. rewrite <- Hs2. exact F2.
          -- apply Nat.eqb_neq in EE. apply D. lia.
      + exists l1. split; [reflexivity|]. split; [assumption|]. split; [intros; apply C; lia|].
        intros k Hk. destruct (Z.eq_dec k m) as [->|]; [|apply D; lia].
        rewrite (C m) by lia. rewrite Es. split; [constructor|]. intros p. reflexivity.
  Qed.

  Lemma concat_slices : forall len n (lists : list (list dbox)), 0 < len -> 0 <= n -> e <= b + n * len ->
    Z.of_nat (List.length lists) = n ->
    (forall k, 0 <= k < n -> good_boxes part (nth (Z.to_nat k) lists []) /\
         exact_cover in_box (nth (Z.to_nat k) lists [])
           (fun p => match slice_of part len k with Some s => in_box s p && cond p | None => false end)) ->
    good_boxes part (concat lists) /\ exact_cover in_box (concat lists) (fun p => in_box part p && cond p).
  Proof.
    intros len n lists Hlen Hn He HL H. inversion Hpos as [|? ? Hbe Hrest]; subst.
    cbn [fst snd] in Hbe.
    assert (EQ : lists = map (fun k => nth (Z.to_nat k) lists []) (zseq (Z.of_nat (List.length lists)))).
    { unfold zseq. rewrite map_map, Nat2Z.id. clear.
      transitivity (map (fun x => nth x lists []) (seq 0 (List.length lists))).
      - induction lists as [|x l IH]; [reflexivity|]. cbn [List.length seq map nth]. f_equal.
        rewrite <- seq_shift, map_map. cbn [nth]. exact IH.
      - apply map_ext. intros k. rewrite Nat2Z.id. reflexivity. }
    split.
    - unfold good_boxes. apply Forall_concat. rewrite EQ. apply Forall_forall. intros l Hl.
      apply in_map_iff in Hl. destruct Hl as (k & <- & Hk). apply zseq_In in Hk. apply H. lia.
    - intros p. rewrite EQ. set (n := Z.of_nat (List.length lists)) in *.
      destruct p as [|x p].
      { cbn [in_box andb]. generalize (zseq n) (zseq_In n). intros l Hl. rewrite hits_concat, map_map.
        assert (G : forall k, In k l -> hits in_box (nth (Z.to_nat k) lists []) [] = 0%nat).
        { intros k Hk. apply Hl in Hk. destruct (H k Hk) as [_ HC]. rewrite HC.
          destruct (slice_of _ _ k) as [s|] eqn:Es; [|reflexivity].
          cbn in Es. destruct (Z.min e (b + k * len + len) <=? b + k * len); [discriminate|].
          inversion Es; subst. reflexivity. }
        clear -G. induction l as [|k l IH]; cbn [map list_sum fold_right]; [reflexivity|].
        rewrite (G k) by (left; reflexivity).
        unfold list_sum in IH. rewrite IH; [reflexivity|]. intros j Hj. apply G. right; assumption. }
      (* cuts of the outer dim *)
      set (f := fun k => Z.min e (b + k * len)).
      assert (Hf : hits in_iv (map (fun k => (f k, f (k + 1))) (zseq n)) x = if in_iv (b, e) x then 1%nat else 0%nat).
      { assert (W : wchain (f 0) (f n) (map (fun k => (f k, f (k + 1))) (zseq n))).
        { apply wchain_cuts; [lia|]. intros i Hi. unfold f. lia. }
        apply wchain_exact_cover in W. rewrite (W x). unfold f.
        replace (Z.min e (b + 0 * len)) with b by lia. replace (Z.min e (b + n * len)) with e by lia. reflexivity. }
      cbn [in_box]. rewrite hits_concat, map_map.
      assert (G : forall k, In k (zseq n) -> hits in_box (nth (Z.to_nat k) lists []) (x :: p) =
                if in_iv (f k, f (k + 1)) x && (in_box rest p && cond (x :: p)) then 1%nat else 0%nat).
      { intros k Hk. apply zseq_In in Hk. destruct (H k Hk) as [_ HC]. rewrite HC. cbn [slice_of].
        unfold f. replace (b + (k + 1) * len) with (b + k * len + len) by lia.
        destruct (Z.min e (b + k * len + len) <=? b + k * len) eqn:E1.
        - replace (in_iv (Z.min e (b + k * len), Z.min e (b + k * len + len)) x) with false; [reflexivity|].
          unfold in_iv. cbn [fst snd]. lia.
        - cbn [in_box]. rewrite <- andb_assoc.
          replace (in_iv (b + k * len, Z.min e (b + k * len + len)) x)
            with (in_iv (Z.min e (b + k * len), Z.min e (b + k * len + len)) x); [reflexivity|].
          unfold in_iv. cbn [fst snd]. lia. }
      revert Hf G. generalize (zseq n). intros ks.
      destruct (in_box rest p && cond (x :: p)) eqn:E0.
      + intros Hf G. apply andb_prop in E0. destruct E0 as [-> ->]. rewrite !andb_true_r.
        rewrite <- Hf. clear Hf. induction ks as [|k ks IH]; cbn [map list_sum fold_right]; [reflexivity|].
        rewrite hits_cons. rewrite (G k) by (left; reflexivity).
        rewrite andb_true_r. unfold list_sum in IH. rewrite IH by (intros j Hj; apply G; right; assumption).
        destruct (in_iv (f k, f (k + 1)) x); reflexivity.
      + intros _ G. replace (in_iv (b, e) x && in_box rest p && cond (x :: p)) with false
          by (rewrite <- andb_assoc, E0, andb_false_r; reflexivity).
        induction ks as [|k ks IH]; cbn [map list_sum fold_right]; [reflexivity|].
        rewrite (G k) by (left; reflexivity). rewrite andb_false_r. unfold list_sum in IH. rewrite IH; [reflexivity|].
        intros j Hj; apply G; right; assumption.
  Qed.
End Slices.
