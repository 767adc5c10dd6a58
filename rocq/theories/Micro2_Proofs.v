From Coq Require Import ZifyBool.
From Verif Require Import Base ParFor_Model Bbox_Model Bbox_Spec Cover_Spec Idiv_Model Loops_Model Scan_Model Scan_Proofs Nano_Model Micro_Model Micro_Spec Micro_Proofs.

Lemma memz_iff : forall x l, memz x l = true <-> In x l.
Proof. intros. unfold memz. rewrite existsb_exists. split; [intros (y & I & E); apply Z.eqb_eq in E; subst; exact I|intros I; exists x; split; [exact I|apply Z.eqb_refl]]. Qed.

Lemma rfold_pre : forall A St (body : St -> A -> res St) (P : list A -> St -> Prop) l,
  (forall pre a post st, l = pre ++ a :: post -> P pre st -> exists st', body st a = Ok st' /\ P (pre ++ [a]) st') ->
  forall st, P [] st -> exists st', rfold body l st = Ok st' /\ P l st'.
Proof.
  intros A St body P l H.
  assert (G : forall post pre st, l = pre ++ post -> P pre st -> exists st', rfold body post st = Ok st' /\ P l st').
  { induction post as [|a post IH]; intros pre st E Hp; [rewrite app_nil_r in E; subst; exists st; split; [reflexivity|exact Hp]|].
    destruct (H pre a post st E Hp) as (st1 & E1 & P1). cbn. rewrite E1. cbn [rbind]. apply (IH (pre ++ [a])); [rewrite <- app_assoc; exact E|exact P1]. }
  intros st. apply (G l []). reflexivity.
Qed.

Lemma snoc_split : forall A (l l1 l2 : list A) e x, l ++ [e] = l1 ++ x :: l2 -> (l2 = [] /\ x = e /\ l1 = l) \/ exists l2', l2 = l2' ++ [e] /\ l = l1 ++ x :: l2'.
Proof.
  intros A l l1 l2 e x E. destruct l2 as [|y l2 _] using rev_ind.
  - left. apply app_inj_tail in E as (-> & ->). repeat split.
  - right. exists l2. rewrite app_comm_cons, app_assoc in E. apply app_inj_tail in E as (-> & ->). split; reflexivity.
Qed.

Lemma NoDup_app_snoc : forall A (l : list A) x, NoDup l -> ~ In x l -> NoDup (l ++ [x]).
Proof. induction l as [|y l IH]; intros x H N; cbn; [constructor; [intros []|constructor]|]. inversion H; subst. cbn in N. constructor; [rewrite in_app_iff; cbn; intros [I|[I|[]]]; [auto|subst; tauto]|apply IH; auto]. Qed.
Lemma part_ids_app : forall a b, part_ids (a ++ b) = part_ids a ++ part_ids b.
Proof. intros. unfold part_ids. apply flat_map_app. Qed.
Lemma part_ids_In : forall log id, In id (part_ids log) <-> exists ws, In (EvPart id ws) log.
Proof.
  intros. unfold part_ids. rewrite in_flat_map. split.
  - intros (e & I & J). destruct e; cbn in J; [contradiction|]. destruct J as [<-|[]]. eexists. exact I.
  - intros (ws & I). exists (EvPart id ws). split; [exact I|left; reflexivity].
Qed.

Lemma span_ok : forall f a t n d l r, 1 <= f -> 1 <= l_stride d /\ 1 <= l_align d -> l_begin d < l_end d -> 0 <= l -> 0 <= r ->
  let d' := adjust_from_settings f a t n (set_range (l_begin d - l) (l_end d + r) d) in
  (l_begin d', l_end d') = (l_begin d - l, l_end d + r) /\ 1 <= l_stride d' /\ 1 <= l_align d'.
Proof.
  intros f a t n d l r Hf (Hs & Ha) Hd Hl Hr. unfold adjust_from_settings, set_range. cbn. split; [reflexivity|]. split; [|exact Ha].
  pose proof (ROUND_UP_ge (l_end d + r - (l_begin d - l)) f ltac:(lia) ltac:(lia)). destruct (a <=? n); lia.
Qed.

Section Stage.
  Variable s : mset.
  Variable n : nat.
  Variable ds : list ldim.
  Variable reqd : mpart -> list mpart.
  Variable parts : list mpart.
  Variable reg : mpart -> list Z -> bool.
  Hypothesis Hs : mset_ok s n.
  Hypothesis Hds : dims_ok n ds.
  Hypothesis Hne : Forall (fun d => l_begin d < l_end d) ds.
  Hypothesis Hlen : length (ms_mbs s) = n /\ length (ms_mbt s) = n /\ length (ms_nbs s) = n.
  Hypothesis Hparts : forall sp q, In sp parts -> In q (reqd sp) ->
    (mp_scratch q = true -> length (mp_wl q) = n /\ length (mp_wr q) = n /\ Forall (fun x => 0 <= x) (mp_wl q) /\ Forall (fun x => 0 <= x) (mp_wr q)) /\
    (mp_stepc q = false -> mp_valid q = true) /\
    exists c cond dom, 1 <= omp_num_threads c /\ length dom = n /\ Forall (fun d => fst d <= snd d) dom /\
      part_find_bbs c cond dom = Ok (mp_pb q) /\ forall p, reg q p = region dom cond p.
  Hypothesis Hids : forall sp q sp' q', In sp parts -> In q (reqd sp) -> In sp' parts -> In q' (reqd sp') -> mp_id q = mp_id q' -> q = q'.
  Let mb := map (fun d => (l_begin d, l_end d)) ds.
  Definition known q := exists sp, In sp parts /\ In q (reqd sp).

  Lemma span_range : forall q, known q -> dims_ok n (part_range s q ds) /\ map (fun d => (l_begin d, l_end d)) (part_range s q ds) = span q mb.
  Proof using Hs Hds Hne Hlen Hparts.
    intros q (sp & Isp & Iq). destruct (Hparts sp q Isp Iq) as (HW & _ & _). unfold part_range, span. destruct (mp_scratch q); [|split; [exact Hds|reflexivity]].
    destruct (HW eq_refl) as (L1 & L2 & W1 & W2). destruct Hlen as (L3 & L4 & L5). destruct Hds as (Ld & Hd).
    destruct Hs as (_ & _ & _ & _ & _ & _ & L6 & _ & F & _). unfold mb, dims_ok. clear -L1 L2 L3 L4 L5 L6 Ld Hd Hne W1 W2 F.
    revert L1 L2 L3 L4 L5 L6 Ld. generalize n as n0. intros n0. revert n0 W1 W2 F Hd Hne. generalize (mp_wl q) (mp_wr q) (ms_mbs s) (ms_mbt s) (ms_nbs s) (ms_folds s).
    induction ds as [|d ds' IH]; intros [|l wl] [|r wr] [|a mbs] [|t mbt] [|k nbs] [|f folds] n0 W1 W2 F Hd Hne L1 L2 L3 L4 L5 L6 Ld; cbn in *; try lia; [repeat split; auto|].
    destruct n0 as [|n0]; [lia|]. inversion W1; inversion W2; inversion F; inversion Hd; inversion Hne; subst.
    destruct (IH wl wr mbs mbt nbs folds n0) as ((A & B) & C); auto; try lia.
    destruct (span_ok f a t k d l r) as (E & S1 & S2); auto; try lia. repeat split.
    - lia.
    - constructor; [split; assumption|exact B].
    - f_equal. exact C.
  Qed.

  Lemma part_calc : forall q, known q -> exists ws, calc_range s (mp_pb q) (part_range s q ds) = Ok ws /\
    exact_cover (wr_hits (ms_fi s) (ms_rofs s) (ms_folds s)) ws (fun p => in_box (span q mb) p && reg q p).
  Proof using Hs Hds Hne Hlen Hparts.
    intros q K. destruct (span_range q K) as (D & E). destruct K as (sp & Isp & Iq). destruct (Hparts sp q Isp Iq) as (_ & _ & c & cond & dom & Hc & Ld & Hd & Ef & Hr).
    destruct (range_cover s n c cond dom (mp_pb q) (part_range s q ds) Hs D Hc Ld Hd Ef) as (ws & Ew & C). exists ws. split; [exact Ew|].
    intros p. rewrite (C p), E. rewrite Hr. reflexivity.
  Qed.

  (* invariant; [pend] = a part whose output vars have been marked as written and that will be evaluated next *)
  Record inv (pend : option mpart) (st : mstate) : Prop := {
    i_done : forall id, In id (fst (fst st)) <-> In id (part_ids (snd st));
    i_nodup : NoDup (part_ids (snd st));
    i_from : forall id, In id (part_ids (snd st)) -> exists sp q, In sp parts /\ active sp /\ In q (reqd sp) /\ mp_valid q = true /\ mp_id q = id;
    i_cover : forall id ws q, In (EvPart id ws) (snd st) -> known q -> mp_id q = id ->
       exact_cover (wr_hits (ms_fi s) (ms_rofs s) (ms_folds s)) ws (fun p => in_box (span q mb) p && reg q p);
    i_order : forall l1 id ws l2, snd st = l1 ++ EvPart id ws :: l2 -> exists sp q a b, In sp parts /\ active sp /\ reqd sp = a ++ q :: b /\ mp_id q = id /\
       forall r, In r a -> mp_valid r = true -> In (mp_id r) (part_ids l1);
    i_written : ms_init s = true -> forall id q v, In id (part_ids (snd st)) -> known q -> mp_id q = id -> mp_scratch q = true -> In v (mp_outs q) -> In v (snd (fst st));
    i_winit : forall v, In (EvInit v) (snd st) -> In v (snd (fst st)) /\ ms_init s = true;
    i_has : forall v, In v (snd (fst st)) -> In (EvInit v) (snd st) \/ exists r, known r /\ mp_scratch r = true /\ mp_sub r = false /\ mp_stepc r = false /\ In v (mp_outs r) /\ (In (mp_id r) (part_ids (snd st)) \/ pend = Some r);
    i_init : ms_init s = true -> forall l1 id ws l2 q v, snd st = l1 ++ EvPart id ws :: l2 -> known q -> mp_id q = id -> mp_scratch q = true -> In v (mp_outs q) ->
       In (EvInit v) l1 \/ exists r, known r /\ mp_scratch r = true /\ mp_sub r = false /\ mp_stepc r = false /\ In v (mp_outs r) /\ In (mp_id r) (part_ids (l1 ++ [EvPart id ws]));
    i_first : forall l1 v l2, snd st = l1 ++ EvInit v :: l2 -> ~ In (EvInit v) l1 /\
       forall q, known q -> mp_scratch q = true -> In v (mp_outs q) -> ~ In (mp_id q) (part_ids l1)
  }.

  (* init_vars: appends initialisations of vars not written before; [pend] = vars marked but not initialised, to be written by rp next *)
  Lemma init_spec : forall rp w log, let r := init_vars rp w log in
    exists vs, snd r = log ++ map EvInit vs /\ NoDup vs /\ (forall v, In v vs -> ~ In v w /\ In v (mp_outs rp)) /\
      (forall v, In v (fst r) <-> In v w \/ In v (mp_outs rp)) /\
      (mp_sub rp || mp_stepc rp = true -> forall v, In v (mp_outs rp) -> ~ In v w -> In v vs) /\
      (mp_sub rp || mp_stepc rp = false -> vs = []).
  Proof using.
    intros rp w log. unfold init_vars. generalize (mp_outs rp) as outs. intros outs.
    assert (G : forall outs w log, let r := fold_left (fun wl v => if memz v (fst wl) then wl else (v :: fst wl, if mp_sub rp || mp_stepc rp then snd wl ++ [EvInit v] else snd wl)) outs (w, log) in
      exists vs, snd r = log ++ map EvInit vs /\ NoDup vs /\ (forall v, In v vs -> ~ In v w /\ In v outs) /\ (forall v, In v (fst r) <-> In v w \/ In v outs) /\
      (mp_sub rp || mp_stepc rp = true -> forall v, In v outs -> ~ In v w -> In v vs) /\ (mp_sub rp || mp_stepc rp = false -> vs = [])).
    { clear. induction outs as [|x outs IH]; intros w log; cbn [fold_left].
      - exists []. cbn. rewrite app_nil_r. repeat split; try tauto; constructor.
      - cbn [fst snd]. destruct (memz x w) eqn:Ex.
        + apply memz_iff in Ex. destruct (IH w log) as (vs & A & B & C & D & E & F). exists vs. repeat split; auto.
          * apply C. assumption.
          * right. apply C. assumption.
          * intros I. apply D in I as [I|I]; [left|right; right]; assumption.
          * intros [I|[<-|I]]; apply D; auto.
          * intros HC v [<-|I] N; [contradiction|]. apply E; assumption.
        + assert (Nx : ~ In x w) by (intros I; apply memz_iff in I; congruence).
          destruct (mp_sub rp || mp_stepc rp) eqn:HC.
          * destruct (IH (x :: w) (log ++ [EvInit x])) as (vs & A & B & C & D & E & F). exists (x :: vs). rewrite A. split; [cbn; rewrite <- app_assoc; reflexivity|].
            split; [constructor; [intros I; apply (proj1 (C x I)); left; reflexivity|exact B]|].
            split; [intros v [<-|I]; [split; [exact Nx|left; reflexivity]|destruct (C v I) as (C1 & C2); split; [intros J; apply C1; right; exact J|right; exact C2]]|].
            split; [intros v; rewrite D; cbn; tauto|]. split; [|discriminate].
            intros _ v [<-|I] N; [left; reflexivity|]. destruct (Z.eq_dec v x) as [->|Ne]; [left; reflexivity|]. right. apply E; auto. intros [<-|J]; [congruence|contradiction].
          * destruct (IH (x :: w) log) as (vs & A & B & C & D & E & F). specialize (F eq_refl). subst vs. exists []. split; [exact A|]. split; [constructor|]. split; [contradiction|].
            split; [intros v; rewrite D; cbn; tauto|]. split; [discriminate|reflexivity]. }
    exact (G outs w log).
  Qed.

  Lemma app_map_split : forall (vs : list Z) log l1 x l2, log ++ map EvInit vs = l1 ++ x :: l2 ->
    (exists l2', log = l1 ++ x :: l2' /\ l2 = l2' ++ map EvInit vs) \/ exists va v vb, vs = va ++ v :: vb /\ x = EvInit v /\ l1 = log ++ map EvInit va.
  Proof using.
    intros vs. induction vs as [|v vs IH] using rev_ind; intros log l1 x l2 E.
    - left. exists l2. cbn in *. rewrite app_nil_r in *. split; [exact E|reflexivity].
    - rewrite map_app, app_assoc in E. cbn in E. apply snoc_split in E as [(-> & -> & ->)|(l2' & -> & E)].
      + right. exists vs, v, []. repeat split.
      + apply IH in E as [(l3 & -> & ->)|(va & v' & vb & -> & -> & ->)].
        * left. exists l3. split; [reflexivity|]. rewrite map_app, app_assoc. reflexivity.
        * right. exists va, v', (vb ++ [v]). split; [rewrite <- app_assoc; reflexivity|]. split; reflexivity.
  Qed.
  Lemma ids_inits : forall vs, part_ids (map EvInit vs) = [].
  Proof using. induction vs; [reflexivity|]. cbn. exact IHvs. Qed.

  Lemma marks : forall done w log rp, inv None (done, w, log) -> known rp ->
    let wl := if mp_scratch rp && ms_init s then init_vars rp w log else (w, log) in
    inv (Some rp) (done, fst wl, snd wl) /\ (ms_init s = true -> mp_scratch rp = true -> forall v, In v (mp_outs rp) -> In v (fst wl)).
  Proof using Hs Hds Hne Hlen Hparts Hids.
    intros done w log rp I Hk wl. destruct (mp_scratch rp && ms_init s) eqn:EB.
    2:{ unfold wl. cbn [fst snd]. split; [|intros A B; rewrite A, B in EB; discriminate].
        destruct I. constructor; cbn [fst snd] in *; auto. intros v Hv. destruct (i_has0 v Hv) as [H|(r & H1 & H2 & H3 & H4 & H5 & [H6|H6])]; [left; exact H| |discriminate]. right. exists r. repeat split; auto. }
    apply andb_prop in EB as (Esc & Ein). unfold wl. destruct (init_spec rp w log) as (vs & A & ND & B & C & D & F). set (r0 := init_vars rp w log) in *. clearbody r0.
    split; [|intros _ _ v Iv; apply C; right; exact Iv].
    assert (IDS : part_ids (snd r0) = part_ids log) by (rewrite A, part_ids_app, ids_inits, app_nil_r; reflexivity).
    destruct I as [i1 i2 i3 i4 i5 i6 i7 i8 i9 i10]. cbn [fst snd] in *. constructor; cbn [fst snd].
    - intros id. rewrite IDS. apply i1.
    - rewrite IDS. exact i2.
    - intros id H. rewrite IDS in H. apply i3. exact H.
    - intros id ws q H. rewrite A in H. apply in_app_iff in H as [H|H]; [apply i4; exact H|]. apply in_map_iff in H as (v & H & _). discriminate.
    - intros l1 id ws l2 E. rewrite A in E. apply app_map_split in E as [(l3 & E & _)|(va & v & vb & _ & E & _)]; [|discriminate]. exact (i5 l1 id ws l3 E).
    - intros Hi id q v H1 H2 H3 H4 H5. rewrite IDS in H1. apply C. left. apply (i6 Hi id q v); assumption.
    - intros v H. split; [|exact Ein]. rewrite A in H. apply in_app_iff in H as [H|H]; [apply C; left; apply i7; exact H|]. apply in_map_iff in H as (v' & E & H). injection E as ->. apply C. right. apply B. exact H.
    - intros v H. apply C in H as [H|H].
      + destruct (i8 v H) as [K|(r & H1 & H2 & H3 & H4 & H5 & [H6|H6])]; [left; rewrite A; apply in_app_iff; left; exact K| |discriminate]. right. exists r. rewrite IDS. repeat split; auto.
      + destruct (in_dec Z.eq_dec v w) as [Iw|Nw].
        * destruct (i8 v Iw) as [K|(r & H1 & H2 & H3 & H4 & H5 & [H6|H6])]; [left; rewrite A; apply in_app_iff; left; exact K| |discriminate]. right. exists r. rewrite IDS. repeat split; auto.
        * destruct (mp_sub rp || mp_stepc rp) eqn:EC.
          -- left. rewrite A. apply in_app_iff. right. apply in_map. apply D; auto.
          -- apply orb_false_iff in EC as (E1 & E2). right. exists rp. repeat split; auto.
    - intros Hi l1 id ws l2 q v E Kq Eid Sq Ov. rewrite A in E. apply app_map_split in E as [(l3 & E & _)|(va & v' & vb & _ & E & _)]; [|discriminate]. exact (i9 Hi l1 id ws l3 q v E Kq Eid Sq Ov).
    - intros l1 v l2 E. rewrite A in E. apply app_map_split in E as [(l3 & E & _)|(va & v' & vb & Evs & E & El)].
      + exact (i10 l1 v l3 E).
      + injection E as <-. assert (Iv : In v vs) by (rewrite Evs; apply in_app_iff; right; left; reflexivity). destruct (B v Iv) as (Nw & _). subst l1. split.
        * intros H. apply in_app_iff in H as [H|H]; [apply Nw; apply i7; exact H|]. apply in_map_iff in H as (v' & E' & H). injection E' as ->.
          rewrite Evs in ND. apply NoDup_remove_2 in ND. apply ND. apply in_app_iff. left. exact H.
        * intros q Kq Sq Oq H. rewrite part_ids_app, ids_inits, app_nil_r in H. apply Nw. apply (i6 Ein (mp_id q) q v); auto.
  Qed.

  Lemma unpend : forall rp st, inv (Some rp) st -> known rp -> (mp_valid rp = false \/ In (mp_id rp) (fst (fst st))) -> inv None st.
  Proof using Hs Hds Hne Hlen Hparts Hids.
    intros rp st I (sp & Isp & Irp) H. destruct I as [i1 i2 i3 i4 i5 i6 i7 i8 i9 i10]. constructor; auto. intros v Hv. destruct (i8 v Hv) as [K|(r & H1 & H2 & H3 & H4 & H5 & [H6|H6])]; [left; exact K| |].
    - right. exists r. repeat split; auto.
    - injection H6 as <-. destruct H as [H|H].
      + destruct (Hparts sp rp Isp Irp) as (_ & V & _). rewrite (V H4) in H. discriminate.
      + right. exists rp. repeat split; auto. left. apply i1. exact H.
  Qed.

  Lemma evaluated : forall rp sp a b done w log ws, inv (Some rp) (done, w, log) -> In sp parts -> active sp -> reqd sp = a ++ rp :: b -> mp_valid rp = true ->
    (forall r, In r a -> mp_valid r = true -> In (mp_id r) done) -> ~ In (mp_id rp) done ->
    (ms_init s = true -> mp_scratch rp = true -> forall v, In v (mp_outs rp) -> In v w) ->
    exact_cover (wr_hits (ms_fi s) (ms_rofs s) (ms_folds s)) ws (fun p => in_box (span rp mb) p && reg rp p) ->
    inv None (mp_id rp :: done, w, log ++ [EvPart (mp_id rp) ws]).
  Proof using Hs Hds Hne Hlen Hparts Hids.
    intros rp sp a b done w log ws I Isp Act Er Hv Ha Nd Ho Cov. destruct I as [i1 i2 i3 i4 i5 i6 i7 i8 i9 i10]. cbn [fst snd] in *.
    assert (Irp : In rp (reqd sp)) by (rewrite Er; apply in_app_iff; right; left; reflexivity).
    assert (Krp : known rp) by (exists sp; split; assumption).
    assert (UQ : forall q, known q -> mp_id q = mp_id rp -> q = rp) by (intros q (sp' & A1 & A2) E; apply (Hids sp' q sp rp); assumption).
    assert (IDS : part_ids (log ++ [EvPart (mp_id rp) ws]) = part_ids log ++ [mp_id rp]) by (rewrite part_ids_app; reflexivity).
    assert (HAS : forall v, In v w -> In (EvInit v) log \/ exists r, known r /\ mp_scratch r = true /\ mp_sub r = false /\ mp_stepc r = false /\ In v (mp_outs r) /\ In (mp_id r) (part_ids (log ++ [EvPart (mp_id rp) ws]))).
    { intros v Hw. destruct (i8 v Hw) as [K|(r & H1 & H2 & H3 & H4 & H5 & [H6|H6])]; [left; exact K| |]; right; exists r; rewrite IDS; repeat split; auto; apply in_app_iff; [left; exact H6|].
      injection H6 as <-. right. left. reflexivity. }
    constructor; cbn [fst snd]; rewrite ?IDS.
    - intros id. rewrite in_app_iff. cbn. rewrite i1. tauto.
    - apply NoDup_app_snoc.
      + exact i2.
      + intros H. apply Nd. apply i1. exact H.
    - intros id H. apply in_app_iff in H as [H|[<-|[]]]; [apply i3; exact H|]. exists sp, rp. repeat split; auto; apply Act.
    - intros id ws' q H Kq Eid. apply in_app_iff in H as [H|[H|[]]]; [apply (i4 id ws' q); assumption|]. injection H as <- <-. rewrite (UQ q Kq Eid). exact Cov.
    - intros l1 id ws' l2 E. apply snoc_split in E as [(-> & E & ->)|(l3 & -> & E)]; [|exact (i5 l1 id ws' l3 E)]. injection E as -> ->.
      exists sp, rp, a, b. repeat split; auto; try apply Act. intros r Ir Vr. apply i1. apply Ha; assumption.
    - intros Hi id q v H Kq Eid Sq Oq. apply in_app_iff in H as [H|[<-|[]]]; [apply (i6 Hi id q v); assumption|]. rewrite (UQ q Kq Eid) in *. apply Ho; assumption.
    - intros v H. apply in_app_iff in H as [H|[H|[]]]; [apply i7; exact H|discriminate].
    - intros v Hw. destruct (HAS v Hw) as [K|(r & H1 & H2 & H3 & H4 & H5 & H6)]; [left; apply in_app_iff; left; exact K|]. right. exists r. rewrite IDS in H6. repeat split; auto.
    - intros Hi l1 id ws' l2 q v E Kq Eid Sq Oq. apply snoc_split in E as [(-> & E & ->)|(l3 & -> & E)]; [|exact (i9 Hi l1 id ws' l3 q v E Kq Eid Sq Oq)]. injection E as -> ->.
      rewrite (UQ q Kq Eid) in *. apply HAS. apply Ho; assumption.
    - intros l1 v l2 E. apply snoc_split in E as [(-> & E & ->)|(l3 & -> & E)]; [discriminate|]. exact (i10 l1 v l3 E).
  Qed.

  Lemma reqd_step : forall sp a rp b st, inv None st -> In sp parts -> active sp -> reqd sp = a ++ rp :: b ->
    (forall r, In r a -> mp_valid r = true -> In (mp_id r) (fst (fst st))) ->
    exists st', reqd_part s ds st rp = Ok st' /\ inv None st' /\ (forall id, In id (fst (fst st)) -> In id (fst (fst st'))) /\ (mp_valid rp = true -> In (mp_id rp) (fst (fst st'))).
  Proof using Hs Hds Hne Hlen Hparts Hids.
    intros sp a rp b ((done & w) & log) I Isp Act Er Ha. cbn [fst] in *.
    assert (Irp : In rp (reqd sp)) by (rewrite Er; apply in_app_iff; right; left; reflexivity).
    assert (Krp : known rp) by (exists sp; split; assumption).
    destruct (marks done w log rp I Krp) as (M & MO). unfold reqd_part.
    set (wl := if mp_scratch rp && ms_init s then init_vars rp w log else (w, log)) in *. clearbody wl.
    destruct (mp_valid rp) eqn:Ev; cbn [negb].
    - destruct (memz (mp_id rp) done) eqn:Em.
      + apply memz_iff in Em. eexists. split; [reflexivity|]. cbn [fst snd]. split; [apply (unpend rp); auto|]. split; auto.
      + assert (Nd : ~ In (mp_id rp) done) by (intros X; apply memz_iff in X; congruence).
        destruct (part_calc rp Krp) as (ws & Ew & Cov). rewrite Ew. cbn [rbind]. eexists. split; [reflexivity|]. cbn [fst snd].
        split; [apply (evaluated rp sp a b); auto|]. split; [intros id X; right; exact X|intros _; left; reflexivity].
    - eexists. split; [reflexivity|]. cbn [fst snd]. split; [apply (unpend rp); auto|]. split; [auto|discriminate].
  Qed.

  Lemma part_step : forall sp st, inv None st -> In sp parts -> active sp ->
    exists st', part_micro_block s ds reqd st sp = Ok st' /\ inv None st' /\ (forall id, In id (fst (fst st)) -> In id (fst (fst st'))) /\
      forall q, In q (reqd sp) -> mp_valid q = true -> In (mp_id q) (fst (fst st')).
  Proof using Hs Hds Hne Hlen Hparts Hids.
    intros sp st I Isp Act. unfold part_micro_block. replace (pb_num (mp_pb sp) =? 0) with false by (destruct Act; lia).
    destruct (rfold_pre _ _ (reqd_part s ds) (fun pre st' => inv None st' /\ (forall id, In id (fst (fst st)) -> In id (fst (fst st'))) /\ forall q, In q pre -> mp_valid q = true -> In (mp_id q) (fst (fst st'))) (reqd sp)) with (st := st) as (st' & E & H).
    - intros pre q post st1 El (I1 & K1 & D1). destruct (reqd_step sp pre q post st1 I1 Isp Act El D1) as (st2 & E2 & I2 & K2 & D2).
      exists st2. split; [exact E2|]. split; [exact I2|]. split; [auto|]. intros r Hr Hv. apply in_app_iff in Hr as [Hr|[<-|[]]]; auto.
    - split; [exact I|]. split; [auto|contradiction].
    - exists st'. split; [exact E|]. exact H.
  Qed.

  Lemma inv0 : inv None ([], [], []).
  Proof using Hs Hds Hne Hlen Hparts Hids. constructor; cbn; try contradiction; try tauto; try constructor; intros; match goal with H : [] = ?l ++ _ |- _ => destruct l; discriminate end. Qed.

  Lemma stage_step : exists st, stage_micro_block s ds reqd parts = Ok st /\ inv None st /\
    forall sp q, In sp parts -> active sp -> In q (reqd sp) -> mp_valid q = true -> In (mp_id q) (part_ids (snd st)).
  Proof using Hs Hds Hne Hlen Hparts Hids.
    unfold stage_micro_block.
    destruct (rfold_pre _ _ (fun st sp => if negb (mp_valid sp) then Ok st else if pb_num (mp_pb sp) <=? 0 then Ok st else part_micro_block s ds reqd st sp)
      (fun pre st' => inv None st' /\ forall sp q, In sp pre -> active sp -> In q (reqd sp) -> mp_valid q = true -> In (mp_id q) (fst (fst st'))) parts) with (st := ([] : list Z, [] : list Z, [] : list event)) as (st' & E & I & H).
    - intros pre sp post st1 El (I1 & D1). assert (Isp : In sp parts) by (rewrite El; apply in_app_iff; right; left; reflexivity).
      destruct (mp_valid sp) eqn:Ev; cbn [negb].
      + destruct (pb_num (mp_pb sp) <=? 0) eqn:En.
        * exists st1. split; [reflexivity|]. split; [exact I1|]. intros sp' q Hi Ac. apply in_app_iff in Hi as [Hi|[<-|[]]]; [apply (D1 sp'); assumption|]. destruct Ac. lia.
        * destruct (part_step sp st1 I1 Isp) as (st2 & E2 & I2 & K2 & D2); [split; [exact Ev|lia]|]. exists st2. split; [exact E2|]. split; [exact I2|].
          intros sp' q Hi Ac Hq Vq. apply in_app_iff in Hi as [Hi|[<-|[]]]; [apply K2; apply (D1 sp'); assumption|]. apply D2; assumption.
      + exists st1. split; [reflexivity|]. split; [exact I1|]. intros sp' q Hi Ac. apply in_app_iff in Hi as [Hi|[<-|[]]]; [apply (D1 sp'); assumption|]. destruct Ac. congruence.
    - split; [exact inv0|]. contradiction.
    - exists st'. split; [exact E|]. split; [exact I|]. intros sp q A B C D. apply (i_done _ _ I). apply (H sp q A B C D).
  Qed.
End Stage.

Section Final.
  Variables (s : mset) (n : nat) (ds : list ldim) (reqd : mpart -> list mpart) (parts : list mpart) (reg : mpart -> list Z -> bool).
  Hypothesis Hs : mset_ok s n.
  Hypothesis Hds : dims_ok n ds.
  Hypothesis Hne : Forall (fun d => l_begin d < l_end d) ds.
  Hypothesis Hlen : length (ms_mbs s) = n /\ length (ms_mbt s) = n /\ length (ms_nbs s) = n.
  Hypothesis Hparts : parts_ok n reqd parts reg.

  Lemma final_inv : exists st, stage_micro_block s ds reqd parts = Ok st /\ inv s ds reqd parts reg None st /\
    forall sp q, In sp parts -> active sp -> In q (reqd sp) -> mp_valid q = true -> In (mp_id q) (part_ids (snd st)).
  Proof using Hs Hds Hne Hlen Hparts.
    destruct Hparts as (P1 & P2). apply (stage_step s n ds reqd parts reg); auto.
    - intros sp q A B. apply P1. exists sp. split; assumption.
    - intros sp q sp' q' A B C D. apply P2; [exists sp|exists sp']; split; assumption.
  Qed.

  Lemma stage_parts : exists done w log, stage_micro_block s ds reqd parts = Ok (done, w, log) /\
    NoDup (part_ids log) /\
    (forall id, In id (part_ids log) <-> exists sp q, In sp parts /\ active sp /\ In q (reqd sp) /\ mp_valid q = true /\ mp_id q = id) /\
    (forall q ws, required reqd parts q -> In (EvPart (mp_id q) ws) log ->
       exact_cover (wr_hits (ms_fi s) (ms_rofs s) (ms_folds s)) ws
         (fun p => in_box (span q (map (fun d => (l_begin d, l_end d)) ds)) p && reg q p)) /\
    (forall l1 id ws l2, log = l1 ++ EvPart id ws :: l2 ->
       exists sp q a b, In sp parts /\ active sp /\ reqd sp = a ++ q :: b /\ mp_id q = id /\
         forall r, In r a -> mp_valid r = true -> In (mp_id r) (part_ids l1)).
  Proof using Hs Hds Hne Hlen Hparts.
    destruct final_inv as (((done & w) & log) & E & I & H). exists done, w, log. destruct I as [i1 i2 i3 i4 i5 i6 i7 i8 i9 i10]. cbn [fst snd] in *.
    split; [exact E|]. split; [exact i2|]. split; [|split].
    - intros id. split; [apply i3|]. intros (sp & q & A & B & C & D & <-). apply (H sp q); assumption.
    - intros q ws K Ie. apply (i4 (mp_id q) ws q Ie); [exact K|reflexivity].
    - exact i5.
  Qed.

  Lemma stage_init : exists done w log, stage_micro_block s ds reqd parts = Ok (done, w, log) /\
    (ms_init s = true -> forall l1 q ws l2 v, log = l1 ++ EvPart (mp_id q) ws :: l2 -> required reqd parts q -> mp_scratch q = true -> In v (mp_outs q) ->
       In (EvInit v) l1 \/ exists r, fills reqd parts v r /\ In (mp_id r) (part_ids (l1 ++ [EvPart (mp_id q) ws]))) /\
    (forall l1 v l2, log = l1 ++ EvInit v :: l2 -> ms_init s = true /\ ~ In (EvInit v) l1 /\
       forall q, required reqd parts q -> mp_scratch q = true -> In v (mp_outs q) -> ~ In (mp_id q) (part_ids l1)).
  Proof using Hs Hds Hne Hlen Hparts.
    destruct final_inv as (((done & w) & log) & E & I & H). exists done, w, log. destruct I as [i1 i2 i3 i4 i5 i6 i7 i8 i9 i10]. cbn [fst snd] in *.
    split; [exact E|]. split.
    - intros Hi l1 q ws l2 v El K Sq Oq. destruct (i9 Hi l1 (mp_id q) ws l2 q v El K eq_refl Sq Oq) as [A|(r & A1 & A2 & A3 & A4 & A5 & A6)]; [left; exact A|].
      right. exists r. split; [repeat split; assumption|exact A6].
    - intros l1 v l2 El. destruct (i10 l1 v l2 El) as (A & B). split; [|split; [exact A|exact B]].
      apply (i7 v). rewrite El. apply in_app_iff. right. left. reflexivity.
  Qed.
End Final.
