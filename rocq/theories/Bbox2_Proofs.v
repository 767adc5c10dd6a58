From Coq Require Import String.
From Verif Require Import Base Idiv_Model Idiv_Proofs MixedRadix Cover_Spec Cover_Proofs Visit_Spec
  ParFor_Model ParFor_Proofs Tuple_Model Tuple_Proofs Bbox_Model Bbox_Spec Bbox_Proofs.

(* ---- merging ---- *)
Lemma merge_in : forall bb bbn p, box_pos bb -> box_pos bbn -> List.length bb = List.length bbn ->
  can_merge bb bbn = true ->
  (if in_box (merge_bb bb bbn) p then 1 else 0)%nat =
  ((if in_box bb p then 1 else 0) + (if in_box bbn p then 1 else 0))%nat.
Proof.
  intros [|[b e] r] [|[b' e'] r'] p H1 H2 HL Hc; cbn in *; try discriminate.
  apply andb_prop in Hc. destruct Hc as [Hc1 Hc2].
  assert (r = r').
  { clear -Hc2 HL. revert r' HL Hc2. induction r as [|[x y] r IH]; intros [|[x' y'] r'] HL Hc; cbn in *; try discriminate; [reflexivity|].
    apply andb_prop in Hc. destruct Hc as [A B]. rewrite (IH r') by (auto; lia). f_equal. f_equal; lia. }
  subst r'. inversion H1; subst. inversion H2; subst. cbn [fst snd] in *.
  destruct p as [|x p]; cbn; [reflexivity|]. unfold in_iv. cbn [fst snd].
  destruct (in_box r p); rewrite ?andb_false_r, ?andb_true_r; [|reflexivity].
  destruct ((b <=? x) && (x <? e')) eqn:E1, ((b <=? x) && (x <? e)) eqn:E2, ((b' <=? x) && (x <? e')) eqn:E3;
    try reflexivity; lia.
Qed.

Lemma merge_pos : forall bb bbn, box_pos bb -> box_pos bbn -> can_merge bb bbn = true ->
  box_pos (merge_bb bb bbn) /\ List.length (merge_bb bb bbn) = List.length bb.
Proof.
  intros [|[b e] r] [|[b' e'] r'] H1 H2 Hc; cbn in *; try discriminate.
  apply andb_prop in Hc. destruct Hc as [Hc1 _].
  inversion H1; subst. inversion H2; subst. cbn [fst snd] in *. split; [constructor; [cbn; lia|assumption]|reflexivity].
Qed.

Definition gboxes (n : nat) (l : list dbox) : Prop := Forall (fun bb => box_pos bb /\ List.length bb = n) l.

Lemma add_merged_spec : forall n l bbn, gboxes n l -> box_pos bbn -> List.length bbn = n ->
  gboxes n (add_merged l bbn) /\
  forall p, hits in_box (add_merged l bbn) p = (hits in_box l p + (if in_box bbn p then 1 else 0))%nat.
Proof.
  intros n l bbn H Hp HL. induction H as [|bb l [Hb1 Hb2] H [IH1 IH2]]; cbn [add_merged].
  - split; [constructor; [split; assumption|constructor]|]. intros p. unfold hits; cbn. destruct (in_box bbn p); reflexivity.
  - destruct (can_merge bb bbn) eqn:E.
    + destruct (merge_pos bb bbn Hb1 Hp E) as [M1 M2].
      split; [constructor; [split; [assumption|congruence]|assumption]|].
      intros p. rewrite !hits_cons, (merge_in bb bbn p) by (auto; congruence). lia.
    + split; [constructor; [split; assumption|assumption]|]. intros p. rewrite !hits_cons, IH2. apply Nat.add_assoc.
Qed.

Lemma hull_in : forall a b p, List.length a = List.length b ->
  in_box a p = true \/ in_box b p = true -> in_box (hull a b) p = true.
Proof.
  induction a as [|[x y] a IH]; intros [|[u v] b] p HL H; cbn in *; try discriminate.
  - tauto.
  - destruct p as [|z p]; [tauto|]. rewrite IH; [|lia|].
    + unfold in_iv in *. cbn [fst snd] in *. destruct H as [H|H]; apply andb_prop in H; lia.
    + destruct H as [H|H]; apply andb_prop in H; tauto.
Qed.
Lemma hull_len : forall a b, List.length (hull a b) = List.length a.
Proof. induction a as [|[x y] a IH]; intros [|[u v] b]; cbn; auto. Qed.

Lemma size_pos : forall bb, box_pos bb -> 0 < bb_size bb.
Proof. intros bb H. unfold bb_size. apply zprod_pos. apply box_pos_len. assumption. Qed.

Lemma merge_fold : forall n l pb0 done,
  gboxes n l -> gboxes n (pb_list pb0) ->
  (forall p, hits in_box (pb_list pb0) p = hits in_box done p) ->
  0 <= pb_num pb0 -> (pb_num pb0 = 0 -> done = []) ->
  List.length (pb_bb pb0) = n ->
  (forall p, done <> [] -> hits in_box done p <> 0%nat -> in_box (pb_bb pb0) p = true) ->
  let pb := fold_left merge_step l pb0 in
  gboxes n (pb_list pb) /\
  (forall p, hits in_box (pb_list pb) p = hits in_box (done ++ l) p) /\
  pb_num pb = pb_num pb0 + zsum (map bb_size l) /\
  (forall p, hits in_box (done ++ l) p <> 0%nat -> in_box (pb_bb pb) p = true).
Proof.
  induction l as [|bbn l IH]; intros pb0 done Hl H0 Hh Hn Hz HL Hb; cbn zeta.
  - cbn [fold_left map zsum]. rewrite app_nil_r. split; [assumption|]. split; [assumption|]. split; [lia|].
    intros p Hp. apply Hb; [|assumption]. intros ->. apply Hp. reflexivity.
  - inversion Hl as [|? ? [Hp Hlen] Hl']. subst x l0. cbn [fold_left map zsum].
    pose proof (size_pos bbn Hp) as Hs. destruct (add_merged_spec n (pb_list pb0) bbn H0 Hp Hlen) as [A B].
    assert (Em : merge_step pb0 bbn = mkPB (if pb_num pb0 =? 0 then bbn else hull (pb_bb pb0) bbn)
                 (pb_num pb0 + bb_size bbn) (add_merged (pb_list pb0) bbn)).
    { unfold merge_step. replace (bb_size bbn =? 0) with false by lia. reflexivity. }
    rewrite Em.
    destruct (IH (mkPB (if pb_num pb0 =? 0 then bbn else hull (pb_bb pb0) bbn)
                 (pb_num pb0 + bb_size bbn) (add_merged (pb_list pb0) bbn)) (done ++ [bbn])) as (C1 & C2 & C3 & C4);
      cbn [pb_list pb_num pb_bb]; auto.
    + intros p. rewrite B, Hh, hits_app, hits_cons, hits_nil. lia.
    + lia.
    + lia.
    + destruct (pb_num pb0 =? 0); [assumption|]. rewrite hull_len. assumption.
    + intros p _ Hp2. rewrite hits_app, hits_cons, hits_nil in Hp2.
      destruct (pb_num pb0 =? 0) eqn:E.
      * rewrite Hz in Hp2 by lia. rewrite hits_nil in Hp2. destruct (in_box bbn p); [reflexivity|lia].
      * apply hull_in; [congruence|]. destruct (in_box bbn p) eqn:E2; [right; reflexivity|].
        left. apply Hb; [intros ->; rewrite hits_nil in Hp2; lia|lia].
    + rewrite <- app_assoc in C2, C4. cbn [app] in C2, C4.
      split; [assumption|]. split; [assumption|]. split; [rewrite C3; cbn [pb_num]; lia|assumption].
Qed.

(* ---- counting ---- *)
Lemma add_el_inj : forall b x y, List.length x = List.length b -> List.length y = List.length b ->
  add_el b x = add_el b y -> x = y.
Proof.
  induction b as [|z b IH]; intros [|u x] [|v y] H1 H2 H; cbn in *; try discriminate; [reflexivity|].
  inversion H. rewrite (IH x y) by (auto; lia). f_equal. lia.
Qed.

Lemma in_sizes_length : forall ss o, in_sizes ss o -> List.length o = List.length ss.
Proof. induction 1; cbn; congruence. Qed.

Lemma box_count : forall bb pts, box_pos bb -> NoDup pts ->
  (forall p, in_box bb p = true -> In p pts) ->
  Z.of_nat (List.length (filter (in_box bb) pts)) = bb_size bb.
Proof.
  intros bb pts Hp Hnd Hin. pose proof (box_pos_len bb Hp) as Hl.
  destruct (numbered_enum true (bb_len bb) Hl) as (A & B & _ & D).
  set (en := map (add_el (bb_begin bb)) (map fst (numbered_points true (bb_len bb)))).
  assert (Len : Z.of_nat (List.length en) = bb_size bb).
  { unfold en. rewrite !map_length. rewrite <- (map_length snd), D, zseq_length.
    pose proof (size_pos bb Hp). unfold bb_size in *. lia. }
  rewrite <- Len. f_equal. apply Permutation_length. apply NoDup_Permutation.
  - apply NoDup_filter. assumption.
  - unfold en. revert A B. generalize (map fst (numbered_points true (bb_len bb))). intros l A B.
    assert (Hsz : forall o, In o l -> List.length o = List.length (bb_begin bb)).
    { intros o Ho. apply B in Ho. apply in_sizes_length in Ho. unfold bb_len, bb_begin in *.
      rewrite map_length in *. assumption. }
    clear -A Hsz. induction A as [|x l Hx A IH]; cbn; constructor.
    + intros H. apply in_map_iff in H. destruct H as (y & E & Hy).
      apply add_el_inj in E; [subst; contradiction|apply Hsz; right; assumption|apply Hsz; left; reflexivity].
    + apply IH. intros o Ho. apply Hsz. right; assumption.
  - intros p. rewrite filter_In. split.
    + intros [_ H]. destruct (in_box_offset bb p H) as (o & O1 & ->). apply in_map. apply B. assumption.
    + intros H. unfold en in H. apply in_map_iff in H. destruct H as (o & <- & Ho).
      apply B in Ho. apply offset_in_box in Ho. split; [apply Hin; assumption|assumption].
Qed.

Lemma swap_sum : forall (l : list dbox) (pts : list (list Z)),
  list_sum (map (hits in_box l) pts) = list_sum (map (fun bb => List.length (filter (in_box bb) pts)) l).
Proof.
  induction l as [|bb l IH]; intros pts; cbn [map list_sum fold_right].
  - induction pts; cbn; auto.
  - unfold list_sum in *. rewrite <- IH. clear IH. induction pts as [|p pts IH]; [reflexivity|].
    cbn [map fold_right filter]. rewrite IH, hits_cons. destruct (in_box bb p); cbn [List.length]; lia.
Qed.

Lemma cover_count : forall n l R pts, gboxes n l -> exact_cover in_box l R -> NoDup pts ->
  (forall p, In p pts <-> R p = true) -> zsum (map bb_size l) = Z.of_nat (List.length pts).
Proof.
  intros n l R pts Hg Hc Hnd Hin.
  assert (A : list_sum (map (hits in_box l) pts) = List.length pts).
  { assert (H : forall p, In p pts -> hits in_box l p = 1%nat).
    { intros p Hp. apply Hin in Hp. rewrite (Hc p), Hp. reflexivity. }
    clear -H. induction pts as [|p pts IH]; [reflexivity|]. cbn [map list_sum fold_right List.length].
    unfold list_sum in IH. rewrite IH by (intros q Hq; apply H; right; assumption).
    rewrite (H p) by (left; reflexivity). reflexivity. }
  rewrite <- A, swap_sum. 
  assert (B : forall bb, In bb l -> Z.of_nat (List.length (filter (in_box bb) pts)) = bb_size bb).
  { intros bb Hb. unfold gboxes in Hg. rewrite Forall_forall in Hg. apply box_count; [apply Hg; assumption|assumption|].
    intros p Hp. apply Hin. destruct (R p) eqn:E; [reflexivity|]. specialize (Hc p). rewrite E in Hc.
    rewrite (proj1 (hits_zero l p) Hc bb Hb) in Hp. discriminate. }
  clear -B. induction l as [|bb l IH]; cbn [map zsum list_sum fold_right]; [reflexivity|].
  rewrite Nat2Z.inj_add, (B bb) by (left; reflexivity). unfold list_sum in IH.
  rewrite IH by (intros b Hb; apply B; right; assumption). reflexivity.
Qed.

(* ---- a part ---- *)
Lemma zero_size : forall bb, Forall (fun c => fst c <= snd c) bb -> bb_size bb = 0 ->
  forall p, in_box bb p = false.
Proof.
  intros bb H E p. destruct (in_box bb p) eqn:Ei; [|reflexivity]. exfalso.
  apply in_box_F2 in Ei. assert (P : box_pos bb).
  { clear E. induction Ei as [|c x bb p Hx Ei IH]; constructor; [lia|]. apply IH. inversion H; assumption. }
  pose proof (size_pos bb P). lia.
Qed.

Lemma nonzero_pos : forall bb, Forall (fun c => fst c <= snd c) bb -> bb_size bb <> 0 -> box_pos bb.
Proof.
  intros bb H. unfold bb_size. induction H as [|c bb Hc H IH]; cbn; intros E; [constructor|]. constructor.
  - destruct (Z.eq_dec (fst c) (snd c)) as [X|X]; [exfalso; apply E; rewrite X; lia|lia].
  - apply IH. intros X. apply E. unfold bb_len in X. rewrite X. lia.
Qed.

Lemma find_slices_spec : forall cond c dom, 1 <= omp_num_threads c -> dom <> [] -> box_pos dom ->
  exists lists, find_slices cond c dom = Ok lists /\ gboxes (List.length dom) (concat lists) /\
    exact_cover in_box (concat lists) (fun p => in_box dom p && cond p).
Proof.
  intros cond c [|[b e] rest] Hc Hne Hp; [contradiction|]. unfold find_slices.
  pose proof (num_threads_pos c Hc) as Hn. set (n := yask_get_num_threads c) in *.
  assert (Hbe : b < e) by (inversion Hp; assumption).
  assert (Hlen : 0 < CEIL_DIV (e - b) n /\ e <= b + n * CEIL_DIV (e - b) n).
  { pose proof (CEIL_DIV_bounds (e - b) n ltac:(lia) ltac:(lia)). nia. }
  destruct Hlen as [L1 L2]. rewrite parallel_for_unit by lia. cbn [rbind].
  destruct (slices_loop cond b e rest Hp (CEIL_DIV (e - b) n) n (map (fun _ => []) (zseq n)) L1) with (m := n)
    as (lists & A & B & _ & D); [| |lia|].
  - intros k Hk. clear. generalize (zseq n), (Z.to_nat k). induction l as [|x l IH]; intros [|m]; cbn; auto.
  - rewrite map_length, zseq_length. lia.
  - exists lists. split; [exact A|].
    apply (concat_slices cond b e rest Hp (CEIL_DIV (e - b) n) n lists); auto. lia.
Qed.

Lemma part_ok : forall c cond dom, 1 <= omp_num_threads c -> dom <> [] ->
  Forall (fun d => fst d <= snd d) dom ->
  exists pb, part_find_bbs c cond dom = Ok pb /\
    represents (pb_list pb) (pb_bb pb) (pb_num pb) (region dom cond) /\
    gboxes (List.length dom) (pb_list pb) /\ List.length (pb_bb pb) = List.length dom.
Proof.
  intros c cond dom Hc Hne Hd. unfold part_find_bbs.
  destruct (bb_size dom =? 0) eqn:E0.
  - eexists. split; [reflexivity|]. cbn [pb_list pb_bb pb_num].
    pose proof (zero_size dom Hd ltac:(lia)) as Hz.
    split; [|split; [constructor|reflexivity]]. split; [|split].
    + intros p. unfold region. rewrite Hz. reflexivity.
    + intros p Hp. unfold region in Hp. rewrite Hz in Hp. discriminate.
    + intros pts Hnd Hin. destruct pts as [|p pts]; [cbn; lia|].
      pose proof (proj1 (Hin p) (or_introl eq_refl)) as X. unfold region in X. rewrite Hz in X. discriminate.
  - pose proof (nonzero_pos dom Hd ltac:(lia)) as Hp. destruct cond as [f|].
    + destruct (find_slices_spec f c dom Hc Hne Hp) as (lists & A & B & C). rewrite A. cbn [rbind].
      eexists. split; [reflexivity|].
      destruct (merge_fold (List.length dom) (concat lists) (mkPB dom 0 []) []) as (M1 & M2 & M3 & M4);
        [exact B|constructor|reflexivity|cbn; lia|reflexivity|reflexivity|intros p H; contradiction|].
      cbn [app pb_num] in *. 
      assert (EC : exact_cover in_box (concat lists) (region dom (Some f))) by exact C.
      split; [split; [|split]|split; [exact M1|]].
      * intros p. rewrite M2. apply EC.
      * intros p Hr. apply M4. rewrite (EC p), Hr. discriminate.
      * intros pts Hnd Hin. rewrite M3, Z.add_0_l. eapply cover_count; eassumption.
      * clear -B. assert (G : forall l pb, gboxes (List.length dom) l -> List.length (pb_bb pb) = List.length dom ->
           List.length (pb_bb (fold_left merge_step l pb)) = List.length dom).
        { induction l as [|x l IH]; intros pb H1 H2; [assumption|]. inversion H1 as [|? ? [_ X] Y]; subst.
          cbn [fold_left]. apply IH; [assumption|]. unfold merge_step. destruct (bb_size x =? 0); [assumption|].
          cbn [pb_bb]. destruct (pb_num pb =? 0); [assumption|]. rewrite hull_len. assumption. }
        apply G; [assumption|reflexivity].
    + eexists. split; [reflexivity|]. cbn [pb_list pb_bb pb_num].
      assert (EC : exact_cover in_box [dom] (region dom None)).
      { intros p. unfold region. rewrite andb_true_r, hits_cons, hits_nil. destruct (in_box dom p); reflexivity. }
      assert (G : gboxes (List.length dom) [dom]) by (constructor; [split; [assumption|reflexivity]|constructor]).
      split; [split; [exact EC|split]|split; [exact G|reflexivity]].
      * intros p Hr. unfold region in Hr. rewrite andb_true_r in Hr. assumption.
      * intros pts Hnd Hin. rewrite <- (cover_count _ _ _ _ G EC Hnd Hin). cbn. lia.
Qed.

Lemma part_boxes : forall c cond dom, 1 <= omp_num_threads c -> dom <> [] ->
  Forall (fun d => fst d <= snd d) dom ->
  exists pb, part_find_bbs c cond dom = Ok pb /\
    represents (pb_list pb) (pb_bb pb) (pb_num pb) (region dom cond).
Proof.
  intros c cond dom H1 H2 H3. destruct (part_ok c cond dom H1 H2 H3) as (pb & A & B & _).
  exists pb. split; assumption.
Qed.

(* ---- evaluation in a range ---- *)
Lemma trim_in : forall mb fbb p, List.length mb = List.length fbb ->
  in_box (trim mb fbb) p = in_box mb p && in_box fbb p.
Proof.
  induction mb as [|[x y] mb IH]; intros [|[u v] fbb] p HL; cbn in *; try discriminate.
  - destruct p; reflexivity.
  - destruct p as [|z p]; [reflexivity|]. rewrite IH by lia. unfold in_iv. cbn [fst snd].
    destruct (in_box mb p), (in_box fbb p); rewrite ?andb_true_r, ?andb_false_r; try reflexivity. lia.
Qed.

Lemma trim_ok_in : forall bb p, in_box bb p = true -> trim_ok bb = true.
Proof.
  induction bb as [|[b e] bb IH]; intros [|x p] H; cbn in *; try discriminate; [reflexivity|].
  apply andb_prop in H. destruct H as [A B]. pose proof (IH p B) as X. unfold trim_ok in X. rewrite X.
  unfold in_iv in A. cbn [fst snd] in A. lia.
Qed.

Lemma eval_cover : forall c cond dom mb pb, 1 <= omp_num_threads c -> dom <> [] ->
  Forall (fun d => fst d <= snd d) dom -> List.length mb = List.length dom ->
  part_find_bbs c cond dom = Ok pb ->
  exact_cover in_box (eval_boxes pb mb) (fun p => in_box mb p && region dom cond p) /\
  Forall (fun bb => Forall (fun d => fst d < snd d) bb) (eval_boxes pb mb).
Proof.
  intros c cond dom mb pb H1 H2 H3 HL E.
  destruct (part_ok c cond dom H1 H2 H3) as (pb' & A & (B1 & B2 & B3) & C & _).
  rewrite E in A. inversion A; subst pb'. clear A. unfold eval_boxes. split.
  - assert (G : forall l p, gboxes (List.length dom) l ->
        hits in_box (filter trim_ok (map (trim mb) l)) p = if in_box mb p then hits in_box l p else 0%nat).
    { intros l p Hl. induction Hl as [|bb l [Hb1 Hb2] Hl IH]; cbn [map filter].
      - destruct (in_box mb p); reflexivity.
      - pose proof (trim_in mb bb p ltac:(congruence)) as T.
        destruct (trim_ok (trim mb bb)) eqn:Et.
        + rewrite !hits_cons, IH, T. destruct (in_box mb p); reflexivity.
        + rewrite hits_cons, IH. destruct (in_box (trim mb bb) p) eqn:Ei.
          * rewrite (trim_ok_in _ _ Ei) in Et. discriminate.
          * destruct (in_box mb p); [|reflexivity]. cbn in T. rewrite <- T. reflexivity. }
    intros p. destruct (pb_num pb =? 0) eqn:E0.
    + rewrite hits_nil. destruct (region dom cond p) eqn:Er; rewrite ?andb_false_r; [|reflexivity]. exfalso.
      (* an enumeration of the region exists: filter the box *)
      assert (Hdp : box_pos dom).
      { unfold region in Er. apply andb_prop in Er. destruct Er as [Er _]. apply in_box_F2 in Er. clear -Er.
        induction Er; constructor; [lia|assumption]. }
      pose proof (box_pos_len dom Hdp) as Hl.
      destruct (numbered_enum true (bb_len dom) Hl) as (N1 & N2 & _ & _).
      set (pts := nodup (list_eq_dec Z.eq_dec) (filter (region dom cond) (map (add_el (bb_begin dom)) (map fst (numbered_points true (bb_len dom)))))).
      assert (Hin : forall q, In q pts <-> region dom cond q = true).
      { intros q. unfold pts. rewrite nodup_In, filter_In. split; [tauto|]. intros Hq. split; [|assumption].
        unfold region in Hq. apply andb_prop in Hq. destruct Hq as [Hq _].
        destruct (in_box_offset dom q Hq) as (o & O1 & ->). apply in_map. apply N2. assumption. }
      pose proof (B3 pts (NoDup_nodup _ _) Hin) as X. apply Hin in Er. destruct pts as [|q pts]; [destruct Er|].
      cbn in X. lia.
    + rewrite (G _ p C). rewrite (B1 p). destruct (in_box mb p); reflexivity.
  - destruct (pb_num pb =? 0); [constructor|]. apply Forall_forall. intros bb Hb. apply filter_In in Hb.
    destruct Hb as [_ Hb]. unfold trim_ok in Hb. apply Forall_forall. intros d Hd.
    rewrite forallb_forall in Hb. specialize (Hb d Hd). lia.
Qed.

(* ---- all parts, with the cache ---- *)
Section All.
  Variable c : omp_cfg.
  Variables ext_bb max_sbb : dbox.
  Hypothesis Hc : 1 <= omp_num_threads c.
  Hypothesis He0 : ext_bb <> [].
  Hypothesis He : Forall (fun d => fst d <= snd d) ext_bb.
  Hypothesis Hs : Forall (fun d => fst d <= snd d) max_sbb.
  Hypothesis Hsl : List.length max_sbb = List.length ext_bb.

  Definition dom_of (p : bpart) : dbox := if bp_scratch p then max_sbb else ext_bb.
  Definition pb_ok (p : bpart) (pb : part_bbs) : Prop :=
    represents (pb_list pb) (pb_bb pb) (pb_num pb) (region (dom_of p) (bp_cond p)) /\
    List.length (pb_bb pb) = List.length ext_bb.

  (* Conditions with the same description have the same value at each point. *)
  Definition same_cond (a b : bpart) : Prop :=
    bp_descr a = bp_descr b -> forall p, holds (bp_cond a) p = holds (bp_cond b) p.

  Lemma pb_ok_ext : forall a b pb, same_cond a b -> bp_descr a = bp_descr b -> bp_scratch a = bp_scratch b ->
    pb_ok a pb -> pb_ok b pb.
  Proof.
    intros a b pb Hsc Hd Hk [(A & B & C) D]. 
    assert (E : forall p, region (dom_of a) (bp_cond a) p = region (dom_of b) (bp_cond b) p).
    { intros p. unfold region, dom_of. rewrite Hk. f_equal. apply (Hsc Hd p). }
    split; [split; [|split]|assumption].
    - intros p. rewrite <- E. apply A.
    - intros p Hp. apply B. rewrite E. assumption.
    - intros pts Hnd Hin. apply C; [assumption|]. intros p. rewrite E. apply Hin.
  Qed.

  Variable univ : list bpart.
  Hypothesis Huniv : forall a b, In a univ -> In b univ -> same_cond a b.

  Definition cache_ok (cache : bb_cache) : Prop :=
    forall k v, In (k, v) cache -> exists a, In a univ /\ k = (bp_descr a, bp_scratch a) /\ pb_ok a v.

  Lemma cache_find_In : forall k l v, cache_find k l = Some v -> In (k, v) l.
  Proof.
    induction l as [|[k' v'] l IH]; intros v H; cbn in H; [discriminate|].
    destruct (String.eqb (fst k) (fst k') && Bool.eqb (snd k) (snd k')) eqn:E.
    - apply andb_prop in E. destruct E as [E1 E2]. apply String.eqb_eq in E1. apply Bool.eqb_prop in E2.
      inversion H; subst. left. destruct k, k'; cbn in *; congruence.
    - right. auto.
  Qed.

  Lemma part_bbs_of_ok : forall cache p, cache_ok cache -> In p univ ->
    exists v cache', part_bbs_of c ext_bb max_sbb cache p = Ok (v, cache') /\ pb_ok p v /\ cache_ok cache'.
  Proof.
    intros cache p Hk Hp. unfold part_bbs_of.
    destruct (cache_find (bp_descr p, bp_scratch p) cache) as [v|] eqn:E.
    - exists v, cache. split; [reflexivity|]. split; [|assumption].
      apply cache_find_In in E. destruct (Hk _ _ E) as (a & A1 & A2 & A3). inversion A2.
      eapply pb_ok_ext; [apply Huniv; [exact A1|exact Hp]| | |exact A3]; congruence.
    - destruct (part_ok c (bp_cond p) (dom_of p) Hc) as (pb & A & B & C & D).
      { unfold dom_of. destruct (bp_scratch p); [|assumption]. destruct max_sbb, ext_bb; cbn in *; congruence. }
      { unfold dom_of. destruct (bp_scratch p); assumption. }
      unfold dom_of in A at 1. rewrite A. cbn [rbind]. eexists _, _. split; [reflexivity|].
      assert (P : pb_ok p pb).
      { split; [assumption|]. rewrite D. unfold dom_of. destruct (bp_scratch p); [assumption|reflexivity]. }
      split; [assumption|]. intros k v [H|H]; [|apply Hk; assumption].
      inversion H; subst. exists p. split; [assumption|]. split; [reflexivity|assumption].
  Qed.

  Lemma parts_bbs_ok : forall ps cache, cache_ok cache -> (forall p, In p ps -> In p univ) ->
    exists l cache', parts_bbs c ext_bb max_sbb cache ps = Ok (l, cache') /\ Forall2 pb_ok ps l /\ cache_ok cache'.
  Proof.
    induction ps as [|p ps IH]; intros cache Hk Hp; cbn [parts_bbs].
    - exists [], cache. split; [reflexivity|]. split; [constructor|assumption].
    - destruct (part_bbs_of_ok cache p Hk) as (v & k1 & A & B & C); [apply Hp; left; reflexivity|].
      rewrite A. cbn [rbind fst snd].
      destruct (IH k1 C) as (l & k2 & D & E & F); [intros q Hq; apply Hp; right; assumption|].
      rewrite D. cbn [rbind fst snd]. exists (v :: l), k2. split; [reflexivity|]. split; [constructor; assumption|assumption].
  Qed.

  (* The last required part is the part itself. *)
  Definition stage_box_ok (sps : list (list bpart)) (spbb : dbox) : Prop :=
    forall reqd scr own p, In reqd sps -> reqd = scr ++ [own] ->
      region (dom_of own) (bp_cond own) p = true -> in_box spbb p = true.

  Lemma hull_mono : forall a b p, List.length a = List.length b -> in_box a p = true -> in_box (hull a b) p = true.
  Proof. intros. apply hull_in; [assumption|]. left; assumption. Qed.

  Lemma stage_bbs_ok : forall sps cache spbb, cache_ok cache ->
    (forall reqd p, In reqd sps -> In p reqd -> In p univ) -> List.length spbb = List.length ext_bb ->
    exists ls bb cache', stage_bbs c ext_bb max_sbb cache sps spbb = Ok (ls, bb, cache') /\
      Forall2 (Forall2 pb_ok) sps ls /\ cache_ok cache' /\ stage_box_ok sps bb /\
      (forall p, in_box spbb p = true -> in_box bb p = true).
  Proof.
    induction sps as [|reqd sps IH]; intros cache spbb Hk Hp HL; cbn [stage_bbs].
    - exists [], spbb, cache. split; [reflexivity|]. split; [constructor|]. split; [assumption|].
      split; [intros r ? ? ? []|auto].
    - destruct (parts_bbs_ok reqd cache Hk) as (l & k1 & A & B & C); [intros p Hq; eapply Hp; [left; reflexivity|assumption]|].
      rewrite A. cbn [rbind fst snd].
      set (sb1 := match rev l with own :: _ => hull spbb (pb_bb own) | [] => spbb end).
      assert (L1 : List.length sb1 = List.length ext_bb).
      { unfold sb1. destruct (rev l); [assumption|]. rewrite hull_len. assumption. }
      destruct (IH k1 sb1 C) as (ls & bb & k2 & D & E & F & G & H); [intros; eapply Hp; [right|]; eassumption|assumption|].
      rewrite D. cbn [rbind fst snd]. exists (l :: ls), bb, k2. split; [reflexivity|].
      split; [constructor; assumption|]. split; [assumption|].
      assert (M : (forall p, in_box spbb p = true -> in_box sb1 p = true) /\
                  (forall scr own p, reqd = scr ++ [own] -> region (dom_of own) (bp_cond own) p = true -> in_box sb1 p = true)).
      { unfold sb1. destruct (rev l) as [|v rl] eqn:Er.
        - split; [auto|]. intros scr own p Hr _. assert (l = []) by (rewrite <- (rev_involutive l), Er; reflexivity).
          subst l. inversion B; subst. destruct scr; discriminate.
        - assert (El : l = rev rl ++ [v]) by (rewrite <- (rev_involutive l), Er; reflexivity).
          assert (Lv : forall own scr, reqd = scr ++ [own] -> pb_ok own v).
          { intros own scr Hr. subst reqd l. apply Forall2_app_inv_l in B. destruct B as (l1 & l2 & B1 & B2 & B3).
            inversion B2 as [|? w ? l2' Hw Hl2]; subst. inversion Hl2; subst. apply app_inj_tail in B3. destruct B3; subst. assumption. }
          assert (Lv2 : List.length (pb_bb v) = List.length ext_bb).
          { clear -B El. rewrite El in B. apply Forall2_app_inv_r in B. destruct B as (l1 & l2 & B1 & B2 & B3).
            inversion B2 as [|w ? ? ? Hw]; subst. apply Hw. }
          split.
          + intros p Hq. apply hull_in; [congruence|]. left; assumption.
          + intros scr own p Hr Hq. apply hull_in; [congruence|]. right.
            destruct (Lv own scr Hr) as [(_ & X & _) _]. apply X. assumption. }
      destruct M as [M1 M2]. split.
      + intros r scr own p [<-|Hr] Er Hq; [apply H; eapply M2; eassumption|eapply G; eassumption].
      + intros p Hq. apply H, M1. assumption.
  Qed.

  Lemma find_all_ok : forall stages cache dd, cache_ok cache -> List.length dd = List.length ext_bb ->
    (forall sps reqd p, In sps stages -> In reqd sps -> In p reqd -> In p univ) ->
    exists res, find_all_bbs c ext_bb max_sbb dd cache stages = Ok res /\
      Forall2 (fun sps r => Forall2 (Forall2 pb_ok) sps (fst r) /\ stage_box_ok sps (snd r)) stages res.
  Proof.
    induction stages as [|sps stages IH]; intros cache dd Hk HL Hp; cbn [find_all_bbs].
    - exists []. split; [reflexivity|constructor].
    - destruct (stage_bbs_ok sps cache (map (fun d => (d, d)) dd) Hk) as (ls & bb & k & A & B & C & D & _).
      { intros; eapply Hp; [left; reflexivity|eassumption|assumption]. }
      { rewrite map_length. assumption. }
      rewrite A. cbn [rbind fst snd].
      destruct (IH k dd C HL) as (res & E & F); [intros; eapply Hp; [right; eassumption|eassumption|assumption]|].
      rewrite E. cbn [rbind]. eexists. split; [reflexivity|]. constructor; [split; assumption|assumption].
  Qed.
End All.

Lemma all_boxes : forall c ext_bb max_sbb dd stages, 1 <= omp_num_threads c ->
  ext_bb <> [] -> List.length max_sbb = List.length ext_bb -> List.length dd = List.length ext_bb ->
  Forall (fun d => fst d <= snd d) ext_bb -> Forall (fun d => fst d <= snd d) max_sbb ->
  (forall a b, In a (concat (concat stages)) -> In b (concat (concat stages)) ->
     bp_descr a = bp_descr b -> forall p, holds (bp_cond a) p = holds (bp_cond b) p) ->
  exists out, find_all_bbs c ext_bb max_sbb dd [] stages = Ok out /\
    Forall2 (fun sps r =>
      Forall2 (Forall2 (fun p pb =>
        represents (pb_list pb) (pb_bb pb) (pb_num pb)
          (region (if bp_scratch p then max_sbb else ext_bb) (bp_cond p)))) sps (fst r) /\
      (forall scr own pt, In (scr ++ [own]) sps ->
         region (if bp_scratch own then max_sbb else ext_bb) (bp_cond own) pt = true ->
         in_box (snd r) pt = true)) stages out.
Proof.
  intros c ext_bb max_sbb dd stages Hc He0 Hsl Hdl He Hs Hu.
  destruct (find_all_ok c ext_bb max_sbb Hc He0 He Hs Hsl (concat (concat stages))) with (stages := stages) (cache := @nil ((string * bool) * part_bbs)) (dd := dd)
    as (out & A & B).
  - intros a b Ha Hb. unfold same_cond. intros Hd p. apply Hu; assumption.
  - intros k v [].
  - assumption.
  - intros sps reqd p H1 H2 H3. apply in_concat. exists reqd. split; [|assumption].
    apply in_concat. exists sps. split; assumption.
  - exists out. split; [exact A|]. clear -B. induction B as [|sps r stages out [H1 H2] B IH]; constructor; [|assumption].
    split.
    + clear -H1. induction H1 as [|x y l l' Hxy H IH]; constructor; [|assumption].
      clear -Hxy. induction Hxy as [|x y l l' Hx H IH]; constructor; [|assumption]. apply Hx.
    + intros scr own pt Hin Hr. eapply H2; [exact Hin|reflexivity|exact Hr].
Qed.
