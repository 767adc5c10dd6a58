From Coq Require Import ZifyBool.
From Verif Require Import Base Deps_Model Deps_Spec Deps_Proofs Eqs_Model Eqs_Spec Parts_Model Parts_Spec Parts_Proofs Scratch_Proofs Lifespan_Model Halo_Model Halo_Spec Halo_Proofs Step_Spec.

(* ---------- which entries exist ---------- *)
Definition pr (k : hkey) (v : vinfo) : Prop := hlook k (v_halos v) <> [].
Definition vpr (a b : vinfo) : Prop := forall k, pr k a -> pr k b.
Lemma tput_ne : forall d v t, tput d v t <> [].
Proof. intros d v [|(x, y) t]; cbn; [discriminate|]. destruct (d =? x); discriminate. Qed.
Lemma hupd_pr : forall k k' f m, (forall t, t <> [] -> f t <> []) -> hlook k m <> [] -> hlook k (hupd k' f m) <> [].
Proof. intros k k' f m F H. rewrite hlook_upd. destruct (hkey_eqb k k'); [apply F; exact H|exact H]. Qed.
Lemma fold_pr : forall A (f : hmap -> A -> hmap) k, (forall m a, hlook k m <> [] -> hlook k (f m a) <> []) -> forall l m, hlook k m <> [] -> hlook k (fold_left f l m) <> [].
Proof. intros A f k H. induction l as [|a l IH]; intros m Hm; [exact Hm|]. cbn. apply IH, H, Hm. Qed.
Lemma upd_ofs_pr : forall st s o v, vpr v (upd_ofs st s o v) /\ v_wr (upd_ofs st s o v) = v_wr v /\ (o <> [] -> exists left, pr (st, left, step_of s) (upd_ofs st s o v)).
Proof.
  intros st s o v. unfold upd_ofs. set (m := match s with Some x => _ | None => _ end).
  assert (M : forall k, hlook k (v_halos v) <> [] -> hlook k m <> []) by (intros k H; unfold m; destruct s; [apply hupd_pr; [auto|exact H]|exact H]).
  assert (S : forall k (m : hmap) (p : Z * Z), hlook k m <> [] -> hlook k (hupd (st, snd p <=? 0, step_of s) (tput (fst p) (Z.abs (snd p))) m) <> []) by (intros k m' p H; apply hupd_pr; [intros; apply tput_ne|exact H]).
  split; [|split; [reflexivity|]].
  - intros k H. unfold pr. cbn. apply fold_pr; [apply S|]. apply M. exact H.
  - intros N. destruct o as [|p o]; [congruence|]. exists (snd p <=? 0). unfold pr. cbn [v_halos fold_left]. apply fold_pr; [apply S|]. rewrite hlook_upd, hkey_eqb_refl. apply tput_ne.
Qed.
Lemma upd_from_pr : forall o v, vpr v (upd_from o v) /\ v_wr (upd_from o v) = v_wr v.
Proof.
  intros o v. split; [|reflexivity]. intros k H. unfold upd_from, upd_l1, pr. cbn. apply fold_pr; [|exact H]. intros m e Hm. apply fold_pr; [|exact Hm]. intros m' p Hm'. apply hupd_pr; [intros; apply tput_ne|exact Hm'].
Qed.

Definition epr (a b : venv) : Prop := forall v, vpr (a v) (b v).
Lemma epr_refl : forall a, epr a a. Proof. intros a v k H. exact H. Qed.
Lemma epr_trans : forall a b c, epr a b -> epr b c -> epr a c. Proof. intros a b c A B v k H. apply B, A, H. Qed.
Lemma epr_upd : forall v f en, vpr (en v) (f (en v)) -> epr en (env_upd v f en).
Proof. intros v f en H w k Hk. destruct (Z.eq_dec w v) as [->|N]; [rewrite env_upd_same; apply H; exact Hk|rewrite env_upd_other by exact N; exact Hk]. Qed.
Lemma fold_epr : forall A (f : venv -> A -> venv), (forall en a, epr en (f en a)) -> forall l en, epr en (fold_left f l en).
Proof. intros A f H. induction l as [|a l IH]; intros en; [apply epr_refl|]. cbn. eapply epr_trans; [apply H|apply IH]. Qed.
Lemma fold_epr_in : forall A (f : venv -> A -> venv), (forall en a, epr en (f en a)) -> forall l en a, In a l -> exists en1, epr (f en1 a) (fold_left f l en).
Proof.
  intros A f H. induction l as [|b l IH]; intros en a Ha; [contradiction|]. cbn. destruct Ha as [->|Ha]; [exists en; apply fold_epr; exact H|]. apply IH. exact Ha.
Qed.

Section StepProofs.
  Variable vdims : Z -> list Z.
  Variable eqs : list eqn.
  Variable sdep : Z -> Z -> bool.

  Lemma touch_epr : forall st en p, epr en (touch vdims st en p).
  Proof. intros. unfold touch. apply epr_upd. apply upd_ofs_pr. Qed.
  Lemma scan_epr : forall st en i, epr en (scan_eq vdims eqs st en i).
  Proof. intros st en i. unfold scan_eq. eapply epr_trans; [apply fold_epr, (touch_epr st)|]. apply epr_upd. intros k H. unfold upd_write, pr. destruct (p_step _); exact H. Qed.
  Lemma scan_pr : forall st en i p, In p (e_lhs (eq_at eqs i) :: e_rhs (eq_at eqs i)) -> vdims (p_var p) <> [] -> p_dom p <> [] -> exists left, pr (st, left, step_of (p_step p)) (scan_eq vdims eqs st en i (p_var p)).
  Proof.
    intros st en i p Hp Hv Hd. unfold scan_eq.
    destruct (fold_epr_in _ (touch vdims st) (touch_epr st) _ en p Hp) as (en1 & L). destruct (upd_ofs_pr st (p_step p) (pt_ofs vdims p) (en1 (p_var p))) as (_ & _ & X).
    destruct X as (left & X); [unfold pt_ofs; destruct (vdims (p_var p)); [congruence|]; destruct (p_dom p); [congruence|discriminate]|].
    exists left. set (enF := fold_left _ _ en) in *.
    assert (Y : pr (st, left, step_of (p_step p)) (enF (p_var p))) by (apply L; unfold touch; rewrite env_upd_same; exact X).
    refine (epr_upd _ _ enF _ _ _ Y). intros k H. unfold upd_write, pr. destruct (p_step (e_lhs (eq_at eqs i))); exact H.
  Qed.
  Lemma phase1_pr : forall sts st i p, In st sts -> sg_scr st = false ->
    In i (concat (sg_parts st) ++ concat (flat_map sg_parts (filter (fun s2 => sdep (sg_id st) (sg_id s2)) sts))) ->
    In p (e_lhs (eq_at eqs i) :: e_rhs (eq_at eqs i)) -> vdims (p_var p) <> [] -> p_dom p <> [] ->
    exists left, pr (sg_id st, left, step_of (p_step p)) (phase1 vdims eqs sdep sts (fun _ => vinfo0) (p_var p)).
  Proof.
    intros sts st i p Hst Hs Hi Hp Hv Hd. unfold phase1.
    match goal with |- context [fold_left ?f sts _] => assert (FE : forall en a, epr en (f en a)) end.
    { intros en a. destruct (sg_scr a); [apply epr_refl|]. apply fold_epr, (scan_epr (sg_id a)). }
    destruct (fold_epr_in _ _ FE sts (fun _ => vinfo0) st Hst) as (en1 & L1). cbn beta in L1. rewrite Hs in L1.
    destruct (fold_epr_in _ _ (scan_epr (sg_id st)) _ en1 i Hi) as (en2 & L2). destruct (scan_pr (sg_id st) en2 i p Hp Hv Hd) as (left & X). exists left. apply L1, L2, X.
  Qed.

  (* ---------- write points ---------- *)
  Definition wrote (sts : list stg) (v k w : Z) : Prop :=
    exists st i, In st sts /\ sg_scr st = false /\ sg_id st = k /\ In i (concat (sg_parts st) ++ concat (flat_map sg_parts (filter (fun s2 => sdep (sg_id st) (sg_id s2)) sts))) /\
      lhs_var eqs i = v /\ p_step (e_lhs (eq_at eqs i)) = Some w.
  Lemma phase1_wr : forall sts v k w, In (k, w) (v_wr (phase1 vdims eqs sdep sts (fun _ => vinfo0) v)) -> wrote sts v k w.
  Proof.
    intros sts v k w. unfold phase1.
    assert (T : forall st l en v, v_wr (fold_left (touch vdims st) l en v) = v_wr (en v)).
    { intros st l. induction l as [|p l IH]; intros en u; [reflexivity|]. cbn. rewrite IH. unfold touch. destruct (Z.eq_dec u (p_var p)) as [->|N]; [rewrite env_upd_same; apply upd_ofs_pr|rewrite env_upd_other by exact N; reflexivity]. }
    set (Q := fun en : venv => forall v k w, In (k, w) (v_wr (en v)) -> wrote sts v k w).
    assert (G : forall l en, (forall st, In st l -> In st sts) -> Q en -> Q (fold_left (fun en st => if sg_scr st then en else fold_left (scan_eq vdims eqs (sg_id st)) (concat (sg_parts st) ++ concat (flat_map sg_parts (filter (fun s2 => sdep (sg_id st) (sg_id s2)) sts))) en) l en)).
    { induction l as [|st l IH]; intros en Hl HQ; [exact HQ|]. cbn [fold_left]. apply IH; [intros; apply Hl; right; assumption|]. destruct (sg_scr st) eqn:Es; [exact HQ|].
      set (is := concat (sg_parts st) ++ _). assert (G2 : forall l en, (forall i, In i l -> In i is) -> Q en -> Q (fold_left (scan_eq vdims eqs (sg_id st)) l en)).
      { induction l0 as [|i l0 IH0]; intros en0 Hi HQ0; [exact HQ0|]. cbn [fold_left]. apply IH0; [intros; apply Hi; right; assumption|]. intros v' k' w' H. unfold scan_eq in H.
        destruct (Z.eq_dec v' (p_var (e_lhs (eq_at eqs i)))) as [->|N]; [rewrite env_upd_same in H|rewrite env_upd_other in H by exact N; rewrite T in H; apply HQ0; exact H].
        unfold upd_write in H. destruct (p_step (e_lhs (eq_at eqs i))) as [x|] eqn:Ex; [|rewrite T in H; apply HQ0; exact H]. cbn [v_wr] in H. destruct H as [H|H]; [injection H as <- <-|rewrite T in H; apply HQ0; exact H].
        exists st, i. split; [apply Hl; left; reflexivity|]. split; [exact Es|]. split; [reflexivity|]. split; [apply Hi; left; reflexivity|]. split; [reflexivity|exact Ex]. }
      apply G2; [auto|exact HQ]. }
    apply (G sts (fun _ => vinfo0)); [auto|]. intros ? ? ? [].
  Qed.
  Lemma apply_pr : forall (l : list (venv * list Z)) en v, vpr (en v) (fold_left apply_shadows l en v) /\ v_wr (fold_left apply_shadows l en v) = v_wr (en v).
  Proof.
    assert (U : forall sv l en v, vpr (en v) (fold_left (fun en v => env_upd v (upd_from (sv v)) en) l en v) /\ v_wr (fold_left (fun en v => env_upd v (upd_from (sv v)) en) l en v) = v_wr (en v)).
    { intros sv. induction l as [|x l IH]; intros en v; [split; [intros k H; exact H|reflexivity]|]. cbn [fold_left]. destruct (IH (env_upd x (upd_from (sv x)) en) v) as (A & B). destruct (Z.eq_dec v x) as [->|N].
      - rewrite env_upd_same in A, B. destruct (upd_from_pr (sv x) (en x)) as (C & D). split; [intros k H; apply A, C, H|rewrite B; exact D].
      - rewrite env_upd_other in A, B by exact N. split; assumption. }
    induction l as [|sh l IH]; intros en v; [split; [intros k H; exact H|reflexivity]|]. cbn [fold_left]. destruct (IH (apply_shadows en sh) v) as (A & B). destruct (U (fst sh) (snd sh) en v) as (C & D).
    split; [intros k H; apply A; exact (C k H)|rewrite B; exact D].
  Qed.

  (* ---------- get_step_dim_info ---------- *)
  Lemma fold_min_le : forall l a x, In x (a :: l) -> fold_left Z.min l a <= x.
  Proof.
    induction l as [|b l IH]; intros a x H; cbn in *; [destruct H as [->|[]]; lia|]. destruct H as [->|[->|H]]; [specialize (IH (Z.min x b) (Z.min x b) (or_introl eq_refl)); lia|specialize (IH (Z.min a x) (Z.min a x) (or_introl eq_refl)); lia|apply IH; right; exact H].
  Qed.
  Lemma fold_max_ge : forall l a x, In x (a :: l) -> x <= fold_left Z.max l a.
  Proof.
    induction l as [|b l IH]; intros a x H; cbn in *; [destruct H as [->|[]]; lia|]. destruct H as [->|[->|H]]; [specialize (IH (Z.max x b) (Z.max x b) (or_introl eq_refl)); lia|specialize (IH (Z.max a x) (Z.max a x) (or_introl eq_refl)); lia|apply IH; right; exact H].
  Qed.
  Lemma fold_min_in : forall l a, In (fold_left Z.min l a) (a :: l).
  Proof. induction l as [|b l IH]; intros a; cbn in *; [auto|]. destruct (IH (Z.min a b)) as [E|H]; [|auto]. rewrite <- E. destruct (Z.min_spec a b) as [(_ & ->)|(_ & ->)]; auto. Qed.
  Lemma fold_max_in : forall l a, In (fold_left Z.max l a) (a :: l).
  Proof. induction l as [|b l IH]; intros a; cbn in *; [auto|]. destruct (IH (Z.max a b)) as [E|H]; [|auto]. rewrite <- E. destruct (Z.max_spec a b) as [(_ & ->)|(_ & ->)]; auto. Qed.

  Lemma stage_size : forall st v, v_halos v <> [] -> In st (halo_stages v) -> forall api cmd, fst (stage_steps st v) <= step_dim_size true api cmd v /\ 1 <= step_dim_size true api cmd v.
  Proof.
    intros st v N H api cmd. unfold step_dim_size. cbn [negb]. destruct (v_halos v) eqn:E; [congruence|].
    assert (G : forall l m, m <= fold_left (fun m st => Z.max m (fst (stage_steps st v))) l m /\ forall x, In x l -> fst (stage_steps x v) <= fold_left (fun m st => Z.max m (fst (stage_steps st v))) l m).
    { induction l as [|x l IH]; intros m; cbn [fold_left]; [split; [lia|intros ? []]|]. destruct (IH (Z.max m (fst (stage_steps x v)))) as (A & B). split; [lia|]. intros y [->|Hy]; [lia|apply B; exact Hy]. }
    destruct (G (halo_stages v) 1) as (A & B). split; [apply B; exact H|exact A].
  Qed.
  Lemma size_pos : forall api cmd v, 1 <= step_dim_size true api cmd v.
  Proof.
    intros api cmd v. unfold step_dim_size. cbn [negb]. destruct (v_halos v); [lia|]. generalize (halo_stages v). intros l. assert (G : forall m, m <= fold_left (fun m st => Z.max m (fst (stage_steps st v))) l m); [|apply G].
    induction l as [|x l IH]; intros m; cbn [fold_left]; [lia|]. specialize (IH (Z.max m (fst (stage_steps x v)))). lia.
  Qed.
  Lemma pr_entry : forall st left s v, pr (st, left, s) v -> exists t, t <> [] /\ In ((st, left, s), t) (v_halos v).
  Proof. intros st left s v H. exists (hlook (st, left, s) (v_halos v)). split; [exact H|]. apply hlook_entry. exact H. Qed.
  Lemma in_halo_stages : forall st left s t v, In ((st, left, s), t) (v_halos v) -> In st (halo_stages v).
  Proof.
    intros st left s t v. unfold halo_stages. assert (G : forall (m : hmap) l, (In st l \/ In ((st, left, s), t) m) -> In st (fold_left (fun l (e : hkey * tup) => add_item (fst (fst (fst e))) l) m l)); [|intros H; apply G; right; exact H].
    induction m as [|e m IH]; intros l H; cbn [fold_left]; [destruct H as [H|[]]; exact H|]. apply IH. destruct H as [H|[->|H]]; [left; apply add_item_in; right; exact H|left; apply add_item_in; left; reflexivity|right; exact H].
  Qed.

  Lemma tmax_ge : forall d x t, In (d, x) t -> x <= tmax t.
  Proof. induction t as [|(a, b) t IH]; intros H; [contradiction|]. cbn. destruct H as [H|H]; [injection H as -> ->; lia|specialize (IH H); lia]. Qed.

  (* the size covers the distance between two accesses; with one more step unless the var is written back *)
  Lemma steps_bound : forall st v la a lb b, pr (st, la, a) v -> pr (st, lb, b) v -> a <> b ->
    Z.abs (a - b) <= fst (stage_steps st v) /\
    ((exists lc c, pr (st, lc, c) v /\ (c < a /\ c < b \/ a < c /\ b < c)) -> Z.abs (a - b) + 1 <= fst (stage_steps st v)) /\
    ((exists left d, 0 < hget (st, left, a) d (v_halos v) \/ 0 < hget (st, left, b) d (v_halos v)) -> Z.abs (a - b) + 1 <= fst (stage_steps st v)) /\
    ((forall w, ~ In (st, w) (v_wr v)) -> Z.abs (a - b) + 1 <= fst (stage_steps st v)).
  Proof.
    intros st v la a lb b Ha Hb NE. unfold stage_steps. set (es := stage_entries st v).
    set (ofs := map (fun e : hkey * tup => snd (fst e)) (filter (fun e => negb (match snd e with [] => true | _ => false end)) es)).
    assert (OI : forall l c, pr (st, l, c) v -> In c ofs).
    { intros l c H. apply pr_entry in H as (t & Nt & Ht). unfold ofs. apply in_map_iff. exists ((st, l, c), t). split; [reflexivity|]. apply filter_In. split; [|destruct t; [congruence|reflexivity]]. unfold es, stage_entries. apply filter_In. split; [exact Ht|cbn; lia]. }
    pose proof (OI _ _ Ha) as Ia. pose proof (OI _ _ Hb) as Ib. destruct ofs as [|o r] eqn:Eo; [contradiction|].
    pose proof (fold_min_le r o a Ia). pose proof (fold_min_le r o b Ib). pose proof (fold_max_ge r o a Ia). pose proof (fold_max_ge r o b Ib).
    set (first := fold_left Z.min r o) in *. set (last := fold_left Z.max r o) in *.
    replace (last =? first) with false by lia.
    set (written := match write_point st v with Some w => _ | None => false end).
    set (mx := fun k => fold_left Z.max (map (fun e : hkey * tup => tmax (snd e)) (filter (fun e => snd (fst e) =? k) es)) 0).
    match goal with |- context [if ?c then _ else _] => change c with (written && (mx first =? 0) && (mx last =? 0)) end.
    assert (MX : forall k left d, hget (st, left, k) d (v_halos v) <= mx k).
    { intros k left d. unfold hget, tv. assert (P0 : 0 <= mx k) by (unfold mx; apply fold_max_ge; left; reflexivity). destruct (tget d (hlook (st, left, k) (v_halos v))) as [x|] eqn:E; [|exact P0]. apply tget_in in E.
      eapply Z.le_trans; [apply (tmax_ge d x _ E)|]. unfold mx. apply fold_max_ge. right. apply in_map_iff. exists ((st, left, k), hlook (st, left, k) (v_halos v)). split; [reflexivity|]. apply filter_In. split; [|cbn; lia].
      unfold es, stage_entries. apply filter_In. split; [|cbn; lia]. apply hlook_entry. intros X. rewrite X in E. contradiction. }
    destruct (written && (mx first =? 0) && (mx last =? 0)) eqn:C; cbn [fst].
    - apply andb_true_iff in C as (C & C3). apply andb_true_iff in C as (C1 & C2). split; [lia|]. split; [|split].
      + intros (lc & c & Hc & K). pose proof (OI _ _ Hc) as Ic. pose proof (fold_min_le r o c Ic). pose proof (fold_max_ge r o c Ic). fold first in H3. fold last in H4. lia.
      + intros (left & d & K).
        destruct (Z_lt_dec (Z.abs (a - b)) (last - first)) as [L|L]; [lia|]. exfalso.
        pose proof (MX a left d). pose proof (MX b left d). assert (E : a = first /\ b = last \/ a = last /\ b = first) by lia. destruct E as [(-> & ->)|(-> & ->)]; lia.
      + intros W. exfalso. unfold written, write_point in C1. destruct (find (fun p => fst p =? st) (v_wr v)) as [(x & w)|] eqn:F; [|discriminate]. apply find_some in F as (F & Ex). cbn in Ex. apply Z.eqb_eq in Ex. subst x. exact (W w F).
    - repeat split; lia.
  Qed.
End StepProofs.

Section CalcMono.
  Variable vdims : Z -> list Z.
  Variable eqs : list eqn.
  Variable sdep : Z -> Z -> bool.
  Hypothesis Wv : forall v, NoDup (vdims v).
  Hypothesis We : forall e p, In e eqs -> In p (e_lhs e :: e_rhs e) -> wf_pt vdims p.
  Lemma calc_mono : forall sts, ele (phase1 vdims eqs sdep sts (fun _ => vinfo0)) (calc_halos vdims eqs sdep sts) /\ eok (calc_halos vdims eqs sdep sts).
  Proof.
    intros sts. unfold calc_halos. set (en0 := phase1 vdims eqs sdep sts (fun _ => vinfo0)). destruct (phase1_ok vdims eqs sdep sts (fun _ => vinfo0) (fun _ => vok0)) as (Ok0 & _). fold en0 in Ok0.
    assert (AO : forall y, eok (fst (shadows vdims eqs sdep sts en0 y))) by (intros y; apply (after_ok vdims eqs Wv We sdep y en0 Ok0 (scratch_parts sdep sts y))).
    assert (G : forall l en1, eok en1 -> ele en1 (fold_left apply_shadows (map (fun y => shadows vdims eqs sdep sts en0 (sg_id y)) l) en1) /\ eok (fold_left apply_shadows (map (fun y => shadows vdims eqs sdep sts en0 (sg_id y)) l) en1)).
    { induction l as [|y l IH]; intros en1 E1; cbn [map fold_left]; [split; [apply ele_refl|exact E1]|]. destruct (apply_ok en1 (shadows vdims eqs sdep sts en0 (sg_id y)) E1 (AO _)) as (P1 & P2 & _). destruct (IH _ P1) as (A & B). split; [eapply ele_trans; eassumption|exact B]. }
    apply G. exact Ok0.
  Qed.
End CalcMono.

Section BuildT.
  Variable scr : Z -> bool.
  Variables dims_same halo_same : Z -> Z -> bool.
  Variables bundle bundle_scratch : bool.
  Variable regex : Z -> bool.
  Variables (dir d : Z) (eqs : list eqn).
  Hypothesis Hdir : dir = 1 \/ dir = -1.
  Hypothesis Hd : d = 0 \/ d = dir.
  Hypothesis Hleg : Forall (fun e => legal_lhs scr dir e /\ reads_no_future dir e) eqs.
  Hypothesis Hdis : distinct_lhs eqs.
  Variable vdims : Z -> list Z.
  Hypothesis Hwf : wf_eqs scr vdims eqs.
  Variables (eg : group) (ps : parts) (ss : stages).
  Hypothesis HB : build scr dims_same halo_same bundle bundle_scratch regex d eqs = Ok (eg, ps, ss).
  Let sgs := g_all (c_grp (st_clus ss)).
  Let blk := block ps ss.
  Let h := calc_halos vdims eqs (h_sdep ss) (h_stages ps ss).

  Lemma leg' : Forall (fun e => legal_lhs scr dir e /\ (scr (p_var (e_lhs e)) = false -> dir = 1 -> forall r s, In r (e_rhs e) -> p_step r = Some s -> s <= 1)) eqs.
  Proof. apply Forall_forall. intros e He. destruct (proj1 (Forall_forall _ _) Hleg e He) as (A & B). split; [exact A|]. intros _ D r s Hr Hs. apply (B r s Hr Hs). exact D. Qed.

  Lemma runs_in : forall k i, In k sgs -> runs scr eqs blk k i -> In i (blk k) \/ exists b, In b sgs /\ h_sdep ss k b = true /\ In i (blk b).
  Proof.
    intros k i Hk H. destruct (build_facts scr dims_same halo_same bundle bundle_scratch regex dir d eqs Hdir Hd leg' Hdis vdims Hwf eg ps ss HB) as (F1 & F2 & F3 & F4 & _).
    induction H as [i Hi|i e r j e' Hi IH He Hr Sr Pj Hj L]; [left; exact Hi|right].
    assert (IJ : isin eqs j e') by (split; assumption). destruct (F1 j e' IJ) as (x & Hx & Hjx); [rewrite L; exact Sr|].
    assert (FE : feeds eqs scr e j) by (exists r, e'; auto).
    destruct IH as [IH|(b & Hb & Db & IH)].
    - destruct (F2 k i Hk IH) as (e0 & Pi & E0). exists x. split; [exact Hx|]. split; [|exact Hjx]. exact (F3 k x i j e Hk Hx IH Hjx (conj Pi He) FE).
    - destruct (F2 b i Hb IH) as (e0 & Pi & E0). exists x. split; [exact Hx|]. split; [|exact Hjx]. apply (F4 k b x Db). exact (F3 b x i j e Hb Hx IH Hjx (conj Pi He) FE).
  Qed.
  Lemma runs_scan : forall k i, In k sgs -> runs scr eqs blk k i ->
    In i (concat (map (c_get (c_items (ps_clus ps))) (c_get (c_items (st_clus ss)) k)) ++ concat (flat_map sg_parts (filter (fun s2 => h_sdep ss k (sg_id s2)) (h_stages ps ss)))) /\ 0 <= i.
  Proof.
    intros k i Hk H. destruct (build_facts scr dims_same halo_same bundle bundle_scratch regex dir d eqs Hdir Hd leg' Hdis vdims Hwf eg ps ss HB) as (_ & F2 & _). destruct (runs_in k i Hk H) as [Hi|(b & Hb & Db & Hi)].
    - split; [apply in_or_app; left; exact Hi|]. destruct (F2 k i Hk Hi) as (e & P & _). exact P.
    - split; [|destruct (F2 b i Hb Hi) as (e & P & _); exact P]. apply in_or_app. right. apply in_concat in Hi as (l & Hl & Hi). apply in_concat. exists l. split; [|exact Hi]. apply in_flat_map.
      exists (mkStg b (nth (Z.to_nat b) (st_scr ss) false) (map (c_get (c_items (ps_clus ps))) (c_get (c_items (st_clus ss)) b))). split; [|exact Hl]. apply filter_In. split; [|exact Db]. unfold h_stages. apply in_map_iff. exists b. split; [reflexivity|exact Hb].
  Qed.

  Section Stage.
    Variable k : Z.
    Hypothesis Hk : In k sgs.
    Hypothesis Ks : nth (Z.to_nat k) (st_scr ss) false = false.
    Let st := mkStg k (nth (Z.to_nat k) (st_scr ss) false) (map (c_get (c_items (ps_clus ps))) (c_get (c_items (st_clus ss)) k)).
    Lemma st_in : In st (h_stages ps ss).
    Proof. unfold h_stages. apply in_map_iff. exists k. split; [reflexivity|exact Hk]. Qed.

    Lemma acc_pr : forall p, acc scr eqs blk k p -> vdims (p_var p) <> [] -> exists left, pr (k, left, step_of (p_step p)) (h (p_var p)).
    Proof.
      intros p (i & e & Hr & He & Hp) Nv. destruct (runs_scan k i Hk Hr) as (Hi & Pi). destruct (isin_at eqs i e (conj Pi He)) as (Ea & _ & Hin). destruct Hwf as (_ & W). destruct (W e p Hin Hp) as (Wp & _).
      destruct (phase1_pr vdims eqs (h_sdep ss) (h_stages ps ss) st i p st_in Ks Hi) as (left & X); [rewrite Ea; exact Hp|exact Nv|intros X; unfold wf_pt in Wp; rewrite X in Wp; destruct (vdims (p_var p)); [congruence|discriminate]|].
      exists left. unfold h, calc_halos. apply apply_pr. exact X.
    Qed.
    Lemma acc_hget : forall p q, acc scr eqs blk k p -> In q (vdims (p_var p)) -> dim_ofs (vdims (p_var p)) (p_dom p) q <> 0 -> exists left, 0 < hget (k, left, step_of (p_step p)) q (v_halos (h (p_var p))).
    Proof.
      intros p q (i & e & Hr & He & Hp) Hq N. destruct (runs_scan k i Hk Hr) as (Hi & Pi). destruct (isin_at eqs i e (conj Pi He)) as (Ea & _ & Hin). destruct Hwf as (Wv & W).
      assert (We : forall e p, In e eqs -> In p (e_lhs e :: e_rhs e) -> wf_pt vdims p) by (intros e' p' He' Hp'; apply (W e' p' He' Hp')).
      destruct Hp as [<-|Hp].
      - exfalso. destruct (proj1 (Forall_forall _ _) Hleg e Hin) as ((Z0 & _) & _). apply N. clear - Z0. revert Z0. generalize (p_dom (e_lhs e)). generalize (vdims (p_var (e_lhs e))). induction l as [|x l IH]; intros o Z0; [reflexivity|]. destruct o as [|y o]; [reflexivity|]. inversion Z0; subst. cbn. destruct (q =? x); [reflexivity|]. apply IH. assumption.
      - destruct (phase1_cov vdims eqs Wv We (h_sdep ss) (h_stages ps ss) st i e p st_in Ks Hi (conj Pi He) Hp) as (C & _). cbv zeta in C. specialize (C q Hq). unfold po in C.
        destruct (calc_mono vdims eqs (h_sdep ss) Wv We (h_stages ps ss)) as (L & _). destruct (L (p_var p)) as (L' & _). fold h in L'. cbn [sg_id] in C.
        destruct (Z_lt_dec 0 (dim_ofs (vdims (p_var p)) (p_dom p) q)); [exists false|exists true]; (eapply Z.lt_le_trans; [|apply L']); cbn [sg_id st] in *; lia.
    Qed.
    Lemma no_write : forall v, scr v = false -> (forall i e, In i (blk k) -> nth_error eqs (Z.to_nat i) = Some e -> p_var (e_lhs e) <> v) -> forall w, ~ In (k, w) (v_wr (h v)).
    Proof.
      intros v Sv H w X. unfold h, calc_halos in X. destruct (apply_pr (map (fun st => shadows vdims eqs (h_sdep ss) (h_stages ps ss) (phase1 vdims eqs (h_sdep ss) (h_stages ps ss) (fun _ => vinfo0)) (sg_id st)) (filter (fun st => negb (sg_scr st)) (h_stages ps ss))) (phase1 vdims eqs (h_sdep ss) (h_stages ps ss) (fun _ => vinfo0)) v) as (_ & E). rewrite E in X. clear E.
      apply phase1_wr in X as (st' & i & Hst' & Sc' & Id' & Hi & Lv & Lw). unfold h_stages in Hst'. apply in_map_iff in Hst' as (k' & <- & Hk'). cbn [sg_id sg_scr sg_parts] in *. subst k'.
      destruct (build_facts scr dims_same halo_same bundle bundle_scratch regex dir d eqs Hdir Hd leg' Hdis vdims Hwf eg ps ss HB) as (_ & F2 & _).
      apply in_app_or in Hi as [Hi|Hi].
      - destruct (F2 k i Hk Hi) as (e & He). destruct (isin_at eqs i e He) as (_ & El & _). apply (H i e Hi (proj2 He)). rewrite <- El. exact Lv.
      - apply in_concat in Hi as (l & Hl & Hi). apply in_flat_map in Hl as (s2 & Hs2 & Hl). apply filter_In in Hs2 as (Hs2 & D2). unfold h_stages in Hs2. apply in_map_iff in Hs2 as (b & <- & Hb). cbn [sg_id sg_parts] in *. apply in_map_iff in Hl as (q & <- & Hq).
        destruct (build_scr scr dims_same halo_same bundle bundle_scratch regex dir d eqs Hdir Hd leg' Hdis eg ps ss HB) as (_ & _ & _ & _ & _ & _ & S7 & S8 & S9). destruct (S9 k b D2) as (_ & Sb).
        pose proof (build_ok scr dims_same halo_same bundle bundle_scratch regex dir d eqs Hdir Hd leg' Hdis) as B. rewrite HB in B. destruct B as (_ & _ & _ & _ & _ & PCs & _ & _).
        assert (Hqg : In q (g_all (c_grp (ps_clus ps)))) by (apply (Permutation_in _ PCs); apply in_concat; exists (c_get (c_items (st_clus ss)) b); split; [apply in_map; exact Hb|exact Hq]).
        specialize (S8 q i Hqg Hi). rewrite (S7 b q Hb Hq), Sb in S8. unfold eq_scr in S8. unfold lhs_var in Lv. rewrite Lv in S8. congruence.
    Qed.
  End Stage.

  Theorem kept_until_read : forall tr j r api cmd b e s, legal scr vdims eqs dir sgs blk tr ->
    (forall a, In a tr -> nth (Z.to_nat (ev_k a)) (st_scr ss) false = false) ->
    nth_error tr j = Some b -> nth_error eqs (Z.to_nat (ev_i b)) = Some e -> In r (e_rhs e) -> p_step r = Some s -> vdims (p_var r) <> [] ->
    safe_read scr vdims eqs dir sgs blk (ev_k b) e r s ->
    ~ lost vdims eqs dir (step_dim_size true api cmd (h (p_var r))) tr j r.
  Proof.
    intros tr j r api cmd b e s (Ord & Ev & One) Ns Hb He Hr Hs Nv Safe (b' & e2 & s2 & i & a & x & u & Hb' & He2 & _ & Hs2 & Lij & Ha & Wa & Ex & Lat & Div).
    rewrite Hb in Hb'. injection Hb' as <-. rewrite He in He2. injection He2 as <-. rewrite Hs in Hs2. injection Hs2 as <-.
    set (n := step_dim_size true api cmd (h (p_var r))) in *. pose proof (size_pos api cmd (h (p_var r))) as Pn. fold n in Pn.
    assert (Hin : In e eqs) by (eapply nth_error_In; exact He).
    assert (Fut : 0 <= dir * (dir - s)). { destruct (proj1 (Forall_forall _ _) Hleg e Hin) as (_ & F). specialize (F r s Hr Hs). destruct Hdir as [->| ->]; lia. }
    assert (Sv : scr (p_var r) = false). { destruct Hwf as (_ & W). destruct (W e r Hin (or_intror Hr)) as (_ & X). destruct (scr (p_var r)); [specialize (X eq_refl); congruence|reflexivity]. }
    pose proof Wa as (ea & sa & Hea & La & Ma & Sa & -> & Xa).
    assert (Sd : sa = dir). { destruct (proj1 (Forall_forall _ _) Hleg ea (nth_error_In _ _ Hea)) as ((_ & X) & _). rewrite La, Sv, Sa in X. injection X as ->. reflexivity. } subst sa.
    assert (AB : dir * (dir - s) = Z.abs (dir - s)) by (destruct Hdir as [->| ->]; lia).
    assert (Low : n <= dir * (ev_t a + dir - (ev_t b + s))).
    { apply Z.divide_pos_le; [exact Lat|]. destruct Hdir as [->| ->]; [rewrite Z.mul_1_l; exact Div|]. replace (-1 * _) with (- (ev_t a + -1 - (ev_t b + s))) by lia. apply Z.divide_opp_r. exact Div. }
    assert (Ti : dir * ev_t a <= dir * ev_t b /\ (dir * ev_t a = dir * ev_t b -> ev_t a = ev_t b /\ not_after sgs (ev_k a) (ev_k b))).
    { destruct (Ord i j a b Lij Ha Hb) as [LT|(ET & NA)]; [split; [lia|intros; lia]|]. rewrite ET. split; [lia|auto]. }
    destruct Ti as (Tle & Teq).
    assert (Low2 : n <= Z.abs (dir - s) + dir * ev_t a - dir * ev_t b) by (rewrite <- AB; lia).
    destruct (Ev b (nth_error_In _ _ Hb)) as (Kb & Rb). destruct (Ev a (nth_error_In _ _ Ha)) as (Ka & Ra).
    destruct Safe as [->|[(-> & Lt)|(p & Ap & Vp & Sp & Safe)]].
    - lia.
    - assert (Z.abs (dir - 0) = 1) by lia. destruct (Teq ltac:(lia)) as (_ & NA).
      assert (Hia : In (ev_i a) (blk (ev_k a))).
      { inversion Ra as [i0 Hi0|i0 e0 r0 j0 e' R0 H0 Hr0 Sr0 Pj Hj L]; subst; [exact Hi0|]. rewrite Hea in Hj. injection Hj as <-. rewrite La in L. rewrite L in Sv. congruence. }
      exact (Lt (ev_k a) (ev_i a) ea Ka Hia Hea La NA).
    - set (v := p_var r) in *. set (k := ev_k b) in *. assert (Ks : nth (Z.to_nat k) (st_scr ss) false = false) by (apply Ns; eapply nth_error_In; exact Hb).
      assert (Ar : acc scr eqs blk k r) by (exists (ev_i b), e; split; [exact Rb|]; split; [exact He|right; exact Hr]).
      destruct (Z.eq_dec dir s) as [Eds|Nds]; [lia|].
      destruct (acc_pr k Kb Ks r Ar Nv) as (lr & Pr). rewrite Hs in Pr. cbn [step_of] in Pr. fold v in Pr.
      assert (Nvp : vdims (p_var p) <> []) by (rewrite Vp; exact Nv). destruct (acc_pr k Kb Ks p Ap Nvp) as (lp & Pp). rewrite Sp, Vp in Pp. cbn [step_of] in Pp.
      destruct (steps_bound k (h v) lp dir lr s Pp Pr Nds) as (B1 & B2 & B3 & B4).
      assert (Sz : fst (stage_steps k (h v)) <= n).
      { apply pr_entry in Pr as (t & _ & It). apply stage_size; [intros X; rewrite X in It; contradiction|eapply in_halo_stages; exact It]. }
      destruct Safe as [(p' & s' & Ap' & Vp' & Sp' & Far)|[(p' & q & Ap' & Vp' & Sp' & Hq & Nq)|[Nw|(Lv & Lm)]]].
      + assert (Nvp' : vdims (p_var p') <> []) by (rewrite Vp'; exact Nv). destruct (acc_pr k Kb Ks p' Ap' Nvp') as (lp' & Pp'). rewrite Sp', Vp' in Pp'. cbn [step_of] in Pp'.
        assert (Fut' : 0 <= dir * (dir - s')).
        { destruct Ap' as (i' & e' & _ & He' & [<-|Hp']).
          - destruct (proj1 (Forall_forall _ _) Hleg e' (nth_error_In _ _ He')) as ((_ & X) & _). rewrite Sp', Vp', Sv in X. injection X as ->. lia.
          - destruct (proj1 (Forall_forall _ _) Hleg e' (nth_error_In _ _ He')) as (_ & F). specialize (F p' s' Hp' Sp'). destruct Hdir as [->| ->]; lia. }
        assert (Z.abs (dir - s) + 1 <= fst (stage_steps k (h v))); [|lia]. apply B2. exists lp', s'. split; [exact Pp'|]. destruct Hdir as [->| ->]; lia.
      + rewrite <- Vp' in Hq, Nq. destruct (acc_hget k Kb Ks p' q Ap' Hq Nq) as (left & G). rewrite Vp' in G. assert (Z.abs (dir - s) + 1 <= fst (stage_steps k (h v))); [|lia]. apply B3. exists left, q. destruct Sp' as [Sp'|Sp']; rewrite Sp' in G; cbn [step_of] in G; auto.
      + assert (Z.abs (dir - s) + 1 <= fst (stage_steps k (h v))); [|lia]. apply B4. apply (no_write k Kb v Sv Nw).
      + destruct (existsb (fun q => negb (dim_ofs (vdims v) (p_dom r) q =? 0)) (vdims v)) eqn:EX.
        * apply existsb_exists in EX as (q & Hq & Nq). apply negb_true_iff, Z.eqb_neq in Nq. destruct (acc_hget k Kb Ks r q Ar Hq Nq) as (left & G). rewrite Hs in G. cbn [step_of] in G. fold v in G. assert (Z.abs (dir - s) + 1 <= fst (stage_steps k (h v))); [|lia]. apply B3. exists left, q. auto.
        * destruct (Teq ltac:(lia)) as (ET & _).
          assert (Wb : writes vdims eqs b v (p_misc r) x (ev_t a + dir)).
          { exists e, dir. split; [exact He|]. split; [exact Lv|]. split; [exact Lm|]. split; [destruct (proj1 (Forall_forall _ _) Hleg e Hin) as ((_ & X) & _); rewrite Lv, Sv in X; exact X|]. split; [rewrite ET; reflexivity|].
            intros q Hq. rewrite (Ex q Hq). fold v. destruct (Z.eq_dec (dim_ofs (vdims v) (p_dom r) q) 0) as [->|N]; [lia|]. assert (X : existsb (fun q => negb (dim_ofs (vdims v) (p_dom r) q =? 0)) (vdims v) = true) by (apply existsb_exists; exists q; split; [exact Hq|lia]). congruence. }
          pose proof (One i j a b v (p_misc r) x (ev_t a + dir) Ha Hb Wa Wb). lia.
  Qed.
End BuildT.

Lemma overrides_ignored : forall has_step api cmd v, step_dim_size has_step api cmd v = step_dim_size has_step 0 0 v.
Proof. intros. unfold step_dim_size. destruct has_step; [|reflexivity]. destruct (v_halos v); reflexivity. Qed.
Lemma honoured_iff : forall n v, step_dim_size true n 0 v = n <-> step_dim_size true 0 0 v = n.
Proof. intros n v. rewrite (overrides_ignored true n 0). reflexivity. Qed.
