From Coq Require Import ZifyBool.
From Verif Require Import Base Deps_Model Deps_Spec Deps_Proofs Eqs_Model Eqs_Spec Parts_Model Parts_Spec Parts_Proofs Scratch_Proofs Lifespan_Model Halo_Model Halo_Spec.

(* ---------- tuples ---------- *)
Definition tnn (t : tup) : Prop := Forall (fun p => 0 <= snd p) t.
Definition tv (d : Z) (t : tup) : Z := match tget d t with Some v => v | None => 0 end.
Lemma tnn_put : forall d v t, 0 <= v -> tnn t -> tnn (tput d v t).
Proof.
  intros d v t H T. induction T as [|(d', v') t H' T IH]; cbn; [repeat constructor; exact H|]. cbn in H'. destruct (d =? d'); constructor; cbn; try assumption. destruct (v' <? v); assumption.
Qed.
Lemma tv_nn : forall d t, tnn t -> 0 <= tv d t.
Proof. intros d t T. unfold tv. induction T as [|(d', v') t H' T IH]; cbn; [lia|]. destruct (d =? d'); [exact H'|exact IH]. Qed.
Lemma tv_put : forall d d' v t, tnn t -> 0 <= v -> tv d (tput d' v t) = if d =? d' then Z.max (tv d t) v else tv d t.
Proof.
  intros d d' v t T Hv. unfold tv. induction t as [|(x, y) t IH]; cbn.
  - destruct (d =? d'); lia.
  - inversion T as [|? ? H1 T']; subst. cbn in H1. destruct (Z.eqb_spec d' x) as [->|N1]; cbn.
    + destruct (Z.eqb_spec d x) as [->|N2]; [|reflexivity]. destruct (y <? v) eqn:L; lia.
    + destruct (Z.eqb_spec d x) as [->|N2]; [|apply IH; exact T']. replace (x =? d') with false by lia. reflexivity.
Qed.
Lemma tput_fold_nn : forall (f : Z * Z -> Z) l t, (forall p, In p l -> 0 <= f p) -> tnn t -> tnn (fold_left (fun t p => tput (fst p) (f p) t) l t).
Proof. induction l as [|p l IH]; intros t H T; cbn; [exact T|]. apply IH; [intros q Hq; apply H; right; exact Hq|]. apply tnn_put; [apply H; left; reflexivity|exact T]. Qed.

(* ---------- maps ---------- *)
Lemma hkey_eqb_eq : forall a b, hkey_eqb a b = true <-> a = b.
Proof.
  intros ((s & l) & t) ((s' & l') & t'). cbn. rewrite !andb_true_iff, !Z.eqb_eq, Bool.eqb_true_iff. split; [intros ((-> & ->) & ->); reflexivity|intros E; injection E as -> -> ->; auto].
Qed.
Lemma hkey_eqb_refl : forall a, hkey_eqb a a = true.
Proof. intros. apply hkey_eqb_eq. reflexivity. Qed.
Lemma hlook_upd : forall k k' f m, hlook k (hupd k' f m) = if hkey_eqb k k' then f (hlook k m) else hlook k m.
Proof.
  intros k k' f m. induction m as [|(x, t) m IH]; cbn [hupd hlook].
  - destruct (hkey_eqb k k') eqn:E; reflexivity.
  - destruct (hkey_eqb k' x) eqn:E1; cbn [hlook].
    + apply hkey_eqb_eq in E1. subst x. destruct (hkey_eqb k k'); reflexivity.
    + destruct (hkey_eqb k x) eqn:E2; [|exact IH]. apply hkey_eqb_eq in E2. subst x. destruct (hkey_eqb k k') eqn:E3; [|reflexivity]. apply hkey_eqb_eq in E3. subst k'. rewrite hkey_eqb_refl in E1. discriminate.
Qed.
Definition hget (k : hkey) (d : Z) (m : hmap) : Z := tv d (hlook k m).
Definition hnn (m : hmap) : Prop := forall k, tnn (hlook k m).
Definition wfm (m : hmap) : Prop := NoDup (map fst m).
Lemma hupd_keys : forall k f m x, In x (map fst (hupd k f m)) <-> x = k \/ In x (map fst m).
Proof.
  intros k f m x. induction m as [|(y, t) m IH]; cbn; [intuition congruence|]. destruct (hkey_eqb k y) eqn:E; cbn.
  - apply hkey_eqb_eq in E. subst. intuition congruence.
  - rewrite IH. intuition congruence.
Qed.
Lemma wfm_upd : forall k f m, wfm m -> wfm (hupd k f m).
Proof.
  intros k f m. unfold wfm. induction m as [|(y, t) m IH]; cbn; intros W; [repeat constructor; auto|]. inversion W as [|? ? N W']; subst. destruct (hkey_eqb k y) eqn:E; cbn; [constructor; assumption|].
  constructor; [|apply IH; exact W']. rewrite hupd_keys. intros [->|H]; [rewrite hkey_eqb_refl in E; discriminate|contradiction].
Qed.
Lemma hlook_in : forall m k t, wfm m -> In (k, t) m -> hlook k m = t.
Proof.
  induction m as [|(y, u) m IH]; intros k t W H; [contradiction|]. cbn. inversion W as [|? ? N W']; subst. destruct H as [H|H].
  - injection H as -> ->. rewrite hkey_eqb_refl. reflexivity.
  - destruct (hkey_eqb k y) eqn:E; [|apply IH; assumption]. apply hkey_eqb_eq in E. subst. exfalso. apply N. apply (in_map fst) in H. exact H.
Qed.
Lemma hlook_entry : forall m k, hlook k m <> [] -> In (k, hlook k m) m.
Proof.
  induction m as [|(y, u) m IH]; intros k H; cbn in *; [congruence|]. destruct (hkey_eqb k y) eqn:E; [apply hkey_eqb_eq in E; subst; left; reflexivity|right; apply IH; exact H].
Qed.
Lemma hget_put : forall k k' d d' v m, hnn m -> 0 <= v -> hget k d (hupd k' (tput d' v) m) = if hkey_eqb k k' && (d =? d') then Z.max (hget k d m) v else hget k d m.
Proof.
  intros k k' d d' v m N Hv. unfold hget. rewrite hlook_upd. destruct (hkey_eqb k k'); cbn [andb]; [|reflexivity]. apply tv_put; [apply N|exact Hv].
Qed.
Lemma hnn_put : forall k d v m, hnn m -> 0 <= v -> hnn (hupd k (tput d v) m).
Proof. intros k d v m N Hv k'. rewrite hlook_upd. destruct (hkey_eqb k' k); [apply tnn_put; [exact Hv|apply N]|apply N]. Qed.

(* a well-formed var *)
Definition vok (v : vinfo) : Prop := hnn (v_halos v) /\ wfm (v_halos v) /\ 0 <= v_l1 v.
Definition vle (a b : vinfo) : Prop := (forall k d, hget k d (v_halos a) <= hget k d (v_halos b)) /\ v_l1 a <= v_l1 b.
Lemma vle_refl : forall a, vle a a. Proof. intros; split; intros; lia. Qed.
Lemma vle_trans : forall a b c, vle a b -> vle b c -> vle a c.
Proof. intros a b c (A & B) (C & D). split; [intros k d; specialize (A k d); specialize (C k d)|]; lia. Qed.
Lemma vok0 : vok vinfo0.
Proof. split; [intros k; constructor|split; [constructor|cbn; lia]]. Qed.

(* folds of puts *)
Lemma puts_ok : forall (ky : Z * Z -> hkey) (f : Z * Z -> Z) l m, hnn m -> wfm m -> (forall p, In p l -> 0 <= f p) ->
  let m' := fold_left (fun m p => hupd (ky p) (tput (fst p) (f p)) m) l m in
  hnn m' /\ wfm m' /\ (forall k d, hget k d m <= hget k d m') /\ (forall p, In p l -> f p <= hget (ky p) (fst p) m') /\
  (forall k d, hget k d m' = hget k d m \/ exists p, In p l /\ ky p = k /\ fst p = d /\ hget k d m' = f p).
Proof.
  intros ky f. induction l as [|p l IH]; intros m N W H; cbn [fold_left].
  - split; [exact N|]. split; [exact W|]. split; [intros; lia|]. split; [intros p []|auto].
  - assert (Hp : 0 <= f p) by (apply H; left; reflexivity).
    destruct (IH (hupd (ky p) (tput (fst p) (f p)) m)) as (N' & W' & M' & C' & B'); [apply hnn_put; assumption|apply wfm_upd; exact W|intros q Hq; apply H; right; exact Hq|].
    split; [exact N'|]. split; [exact W'|]. split; [|split].
    + intros k d. specialize (M' k d). rewrite hget_put in M' by assumption. destruct (_ && _); lia.
    + intros q [<-|Hq]; [|apply C'; exact Hq]. specialize (M' (ky p) (fst p)). rewrite hget_put, hkey_eqb_refl, Z.eqb_refl in M' by assumption. cbn in M'. lia.
    + intros k d. destruct (B' k d) as [E|(q & Hq & K)]; [|right; exists q; split; [right; exact Hq|exact K]].
      rewrite hget_put in E by assumption. destruct (hkey_eqb k (ky p) && (d =? fst p)) eqn:X; [|left; exact E]. apply andb_true_iff in X as (X1 & X2). apply hkey_eqb_eq in X1. apply Z.eqb_eq in X2.
      destruct (Z_le_gt_dec (f p) (hget k d m)); [left; lia|right; exists p; split; [left; reflexivity|split; [auto|split; [auto|lia]]]].
Qed.

Lemma touch_ok : forall k m, hnn m -> wfm m -> hnn (hupd k (fun t => t) m) /\ wfm (hupd k (fun t => t) m) /\ forall k' d, hget k' d (hupd k (fun t => t) m) = hget k' d m.
Proof.
  intros k m N W. assert (E : forall k', hlook k' (hupd k (fun t => t) m) = hlook k' m) by (intros; rewrite hlook_upd; destruct (hkey_eqb _ _); reflexivity).
  split; [intros k'; rewrite E; apply N|]. split; [apply wfm_upd; exact W|]. intros. unfold hget. rewrite E. reflexivity.
Qed.

Lemma upd_ofs_ok : forall st s o v, vok v -> let v' := upd_ofs st s o v in
  vok v' /\ vle v v' /\ (forall d x, In (d, x) o -> - hget (st, true, step_of s) d (v_halos v') <= x <= hget (st, false, step_of s) d (v_halos v')) /\
  Z.of_nat (length (filter (fun p => 0 <? Z.abs (snd p)) o)) <= v_l1 v'.
Proof.
  intros st s o v (N & W & L). unfold upd_ofs.
  set (m := match s with Some x => hupd (st, x <=? 0, x) (fun t => t) (v_halos v) | None => v_halos v end).
  assert (M : hnn m /\ wfm m /\ forall k d, hget k d m = hget k d (v_halos v)) by (unfold m; destruct s; [apply touch_ok; assumption|auto]). destruct M as (Nm & Wm & Em).
  destruct (puts_ok (fun p => (st, snd p <=? 0, step_of s)) (fun p => Z.abs (snd p)) o m Nm Wm) as (N' & W' & M' & C' & _); [intros; lia|]. cbv zeta in *.
  set (m' := fold_left _ o m) in *. cbn [v_halos v_l1]. split; [split; [exact N'|split; [exact W'|cbn; lia]]|]. split; [|split].
  - split; [intros k d; cbn; rewrite <- Em; apply M'|cbn; lia].
  - intros d x H. specialize (C' _ H). cbn in C'. pose proof (tv_nn d _ (N' (st, true, step_of s))) as P1. pose proof (tv_nn d _ (N' (st, false, step_of s))) as P2. unfold hget in *.
    destruct (x <=? 0) eqn:E; lia.
  - lia.
Qed.

Lemma fold2 : forall (es : list (hkey * tup)) m,
  fold_left (fun m (e : hkey * tup) => fold_left (fun m p => hupd (fst e) (tput (fst p) (snd p)) m) (snd e) m) es m =
  fold_left (fun m (q : hkey * (Z * Z)) => hupd (fst q) (tput (fst (snd q)) (snd (snd q))) m) (flat_map (fun e => map (fun p => (fst e, p)) (snd e)) es) m.
Proof.
  induction es as [|(k, t) es IH]; intros m; cbn [fold_left flat_map]; [reflexivity|]. rewrite fold_left_app, <- IH. f_equal. cbn [fst snd]. revert m. induction t as [|p t IHt]; intros m; cbn; [reflexivity|]. apply IHt.
Qed.
Lemma puts2_ok : forall (l : list (hkey * (Z * Z))) m, hnn m -> wfm m -> (forall q, In q l -> 0 <= snd (snd q)) ->
  let m' := fold_left (fun m (q : hkey * (Z * Z)) => hupd (fst q) (tput (fst (snd q)) (snd (snd q))) m) l m in
  hnn m' /\ wfm m' /\ (forall k d, hget k d m <= hget k d m') /\ (forall q, In q l -> snd (snd q) <= hget (fst q) (fst (snd q)) m') /\
  (forall k d, hget k d m' = hget k d m \/ exists q, In q l /\ fst q = k /\ fst (snd q) = d /\ hget k d m' = snd (snd q)).
Proof.
  induction l as [|p l IH]; intros m N W H; cbn [fold_left].
  - split; [exact N|]. split; [exact W|]. split; [intros; lia|]. split; [intros p []|auto].
  - assert (Hp : 0 <= snd (snd p)) by (apply H; left; reflexivity).
    destruct (IH (hupd (fst p) (tput (fst (snd p)) (snd (snd p))) m)) as (N' & W' & M' & C' & B'); [apply hnn_put; assumption|apply wfm_upd; exact W|intros q Hq; apply H; right; exact Hq|].
    split; [exact N'|]. split; [exact W'|]. split; [|split].
    + intros k d. specialize (M' k d). rewrite hget_put in M' by assumption. destruct (_ && _); lia.
    + intros q [<-|Hq]; [|apply C'; exact Hq]. specialize (M' (fst p) (fst (snd p))). rewrite hget_put, hkey_eqb_refl, Z.eqb_refl in M' by assumption. cbn in M'. lia.
    + intros k d. destruct (B' k d) as [E|(q & Hq & K)]; [|right; exists q; split; [right; exact Hq|exact K]].
      rewrite hget_put in E by assumption. destruct (hkey_eqb k (fst p) && (d =? fst (snd p))) eqn:X; [|left; exact E]. apply andb_true_iff in X as (X1 & X2). apply hkey_eqb_eq in X1. apply Z.eqb_eq in X2.
      destruct (Z_le_gt_dec (snd (snd p)) (hget k d m)); [left; lia|right; exists p; split; [left; reflexivity|split; [auto|split; [auto|lia]]]].
Qed.
Lemma tget_in : forall d t v, tget d t = Some v -> In (d, v) t.
Proof. induction t as [|(x, y) t IH]; cbn; intros v H; [discriminate|]. destruct (Z.eqb_spec d x) as [->|]; [injection H as ->; left; reflexivity|right; apply IH; exact H]. Qed.
Lemma entry_nn : forall v k t d x, vok v -> In (k, t) (v_halos v) -> In (d, x) t -> 0 <= x.
Proof. intros v k t d x (N & W & _) H1 H2. specialize (N k). rewrite (hlook_in _ _ _ W H1) in N. apply (proj1 (Forall_forall _ _) N (d, x) H2). Qed.

Lemma upd_from_ok : forall o v, vok o -> vok v -> let v' := upd_from o v in vok v' /\ vle v v' /\ vle o v'.
Proof.
  intros o v Ho (N & W & L). unfold upd_from, upd_l1. cbn [v_halos v_l1]. rewrite fold2.
  set (l := flat_map (fun e : hkey * tup => map (fun p => (fst e, p)) (snd e)) (v_halos o)).
  assert (Hl : forall q, In q l -> exists t, In (fst q, t) (v_halos o) /\ In (snd q) t).
  { intros q Hq. unfold l in Hq. apply in_flat_map in Hq as ((k & t) & H1 & H2). cbn in H2. apply in_map_iff in H2 as (p & <- & Hp). exists t. auto. }
  assert (NN : forall q, In q l -> 0 <= snd (snd q)). { intros (k & (d & x)) Hq. destruct (Hl _ Hq) as (t & H1 & H2). cbn in *. eapply entry_nn; eassumption. }
  destruct (puts2_ok l (v_halos v) N W NN) as (N' & W' & M' & C' & B'). cbv zeta in *. set (m' := fold_left _ l (v_halos v)) in *.
  pose proof Ho as (No & Wo & Lo).
  assert (LE : forall k d, hget k d (v_halos o) <= hget k d m').
  { intros k d. unfold hget at 1, tv. destruct (tget d (hlook k (v_halos o))) as [x|] eqn:E; [|apply tv_nn, N'].
    apply tget_in in E. assert (NEt : hlook k (v_halos o) <> []) by (intros X; rewrite X in E; contradiction). apply hlook_entry in NEt.
    assert (In (k, (d, x)) l) by (unfold l; apply in_flat_map; exists (k, hlook k (v_halos o)); split; [exact NEt|]; cbn; apply in_map_iff; exists (d, x); auto).
    apply (C' _ H). }
  split; [split; [exact N'|split; [exact W'|cbn; lia]]|]. split; [split; [exact M'|cbn; lia]|]. split; [exact LE|cbn; lia].
Qed.
Lemma upd_l1_ok : forall l v, vok v -> vok (upd_l1 l v) /\ vle v (upd_l1 l v) /\ l <= v_l1 (upd_l1 l v).
Proof. intros l v (N & W & L). unfold upd_l1. split; [split; [exact N|split; [exact W|cbn; lia]]|]. split; [split; cbn; intros; lia|cbn; lia]. Qed.
Lemma upd_write_ok : forall st s v, vok v -> vok (upd_write st s v) /\ vle v (upd_write st s v).
Proof. intros st s v (N & W & L). unfold upd_write. destruct s; (split; [split; [exact N|split; [exact W|exact L]]|split; cbn; intros; lia]). Qed.

(* get_halo_sizes bounds every entry *)
Lemma halo_sizes_ok : forall st left v, vok v -> tnn (halo_sizes st left v) /\ forall s d, hget (st, left, s) d (v_halos v) <= tv d (halo_sizes st left v).
Proof.
  intros st left v V. unfold halo_sizes.
  assert (P : forall (es : hmap) t, tnn t -> (forall k u d x, In (k, u) es -> In (d, x) u -> 0 <= x) ->
    let r := fold_left (fun t (e : hkey * tup) => let '(s, l, _) := fst e in if (s =? st) && Bool.eqb l left then fold_left (fun t p => tput (fst p) (snd p) t) (snd e) t else t) es t in
    tnn r /\ (forall d, tv d t <= tv d r) /\ forall s u d x, In ((st, left, s), u) es -> In (d, x) u -> x <= tv d r).
  { induction es as [|(k & u) es IH]; intros t T H; cbn [fold_left].
    - split; [exact T|]. split; [intros; lia|intros ? ? ? ? []].
    - assert (Q : forall (l : tup) t, tnn t -> (forall d x, In (d, x) l -> 0 <= x) -> let r := fold_left (fun t p => tput (fst p) (snd p) t) l t in tnn r /\ (forall d, tv d t <= tv d r) /\ forall d x, In (d, x) l -> x <= tv d r).
      { induction l as [|(d0 & x0) l IHl]; intros t0 T0 H0; cbn [fold_left fst snd]; [split; [exact T0|split; [intros; lia|intros ? ? []]]|].
        assert (0 <= x0) by (apply (H0 d0); left; reflexivity).
        destruct (IHl (tput d0 x0 t0)) as (T1 & M1 & C1); [apply tnn_put; assumption|intros d x Hx; apply (H0 d); right; exact Hx|]. split; [exact T1|]. split.
        - intros d. specialize (M1 d). rewrite tv_put in M1 by assumption. destruct (d =? d0); lia.
        - intros d x [E|Hx]; [injection E as <- <-|apply C1; exact Hx]. specialize (M1 d0). rewrite tv_put, Z.eqb_refl in M1 by assumption. lia. }
      set (t1 := let '(s, l, _) := fst (k, u) in if (s =? st) && Bool.eqb l left then fold_left (fun t p => tput (fst p) (snd p) t) (snd (k, u)) t else t).
      assert (T1 : tnn t1 /\ (forall d, tv d t <= tv d t1) /\ (forall s d x, k = (st, left, s) -> In (d, x) u -> x <= tv d t1)).
      { unfold t1. destruct k as ((s' & l') & s''). cbn [fst snd]. destruct ((s' =? st) && Bool.eqb l' left) eqn:E.
        - destruct (Q u t T) as (A & B & C); [intros d x; apply (H (s', l', s'')); left; reflexivity|]. split; [exact A|]. split; [exact B|]. intros s d x _. apply C.
        - split; [exact T|]. split; [intros; lia|]. intros s d x X. injection X as -> -> ->. rewrite Z.eqb_refl, Bool.eqb_reflx in E. discriminate. }
      destruct T1 as (T1 & M1 & C1). destruct (IH t1 T1) as (T2 & M2 & C2); [intros k' u' d x Hk; apply (H k' u'); right; exact Hk|].
      split; [exact T2|]. split; [intros d; specialize (M1 d); specialize (M2 d); lia|]. intros s u' d x [E|Hk] Hx; [injection E as -> ->; specialize (C1 s d x eq_refl Hx); specialize (M2 d); lia|eapply C2; eassumption]. }
  destruct (P (v_halos v) []) as (A & _ & C); [constructor|intros k u d x; apply entry_nn; exact V|]. split; [exact A|].
  intros s d. unfold hget, tv at 1. destruct (tget d (hlook (st, left, s) (v_halos v))) as [x|] eqn:E; [|apply tv_nn; exact A].
  apply tget_in in E. eapply C; [|exact E]. apply hlook_entry. intros X. rewrite X in E. contradiction.
Qed.
Lemma halo_size_ok : forall st left s d v, vok v -> hget (st, left, s) d (v_halos v) <= halo_size d left v.
Proof.
  intros st left s d v V. unfold halo_size, hget, tv.
  assert (P : forall (es : hmap) h, let r := fold_left (fun h (e : hkey * tup) => let '(_, l, _) := fst e in if Bool.eqb l left then match tget d (snd e) with Some x => Z.max h x | None => h end else h) es h in
    h <= r /\ forall u x, In ((st, left, s), u) es -> tget d u = Some x -> x <= r).
  { induction es as [|(((s' & l') & s'') & u) es IH]; intros h; cbn [fold_left fst snd]; [split; [lia|intros ? ? []]|].
    match goal with |- context [fold_left _ es ?x] => destruct (IH x) as (A & B); set (h1 := x) in * end. cbv zeta in *.
    assert (L : h <= h1) by (unfold h1; destruct (Bool.eqb l' left); [destruct (tget d u); lia|lia]). split; [lia|]. intros u' x [E|Hi] Hx; [|eapply B; eassumption].
    injection E as -> -> -> ->. unfold h1 in A at 1. rewrite Bool.eqb_reflx, Hx in A. lia. }
  destruct (P (v_halos v) 0) as (A & B). cbv zeta in *. destruct (tget d (hlook (st, left, s) (v_halos v))) as [x|] eqn:E; [|exact A]. eapply B; [|exact E]. apply hlook_entry. intros X. rewrite X in E. discriminate.
Qed.

(* ---------- environments ---------- *)
Definition eok (en : venv) : Prop := forall v, vok (en v).
Definition ele (a b : venv) : Prop := forall v, vle (a v) (b v).
Lemma ele_refl : forall a, ele a a. Proof. intros a v. apply vle_refl. Qed.
Lemma ele_trans : forall a b c, ele a b -> ele b c -> ele a c. Proof. intros a b c A B v. eapply vle_trans; [apply A|apply B]. Qed.
Lemma env_upd_same : forall v f en, env_upd v f en v = f (en v).
Proof. intros. unfold env_upd, fupd. rewrite Z.eqb_refl. reflexivity. Qed.
Lemma env_upd_other : forall v f en w, w <> v -> env_upd v f en w = en w.
Proof. intros. unfold env_upd, fupd. destruct (Z.eqb_spec v w); [congruence|]. destruct (Z.eqb_spec w v); [congruence|reflexivity]. Qed.
Lemma env_upd_ok : forall v f en, eok en -> vok (f (en v)) -> vle (en v) (f (en v)) -> eok (env_upd v f en) /\ ele en (env_upd v f en).
Proof.
  intros v f en E A B. split; intros w; (destruct (Z.eq_dec w v) as [->|N]; [rewrite env_upd_same; assumption|rewrite env_upd_other by exact N; try apply E; apply vle_refl]).
Qed.
Lemma fold_env : forall A (f : venv -> A -> venv), (forall en a, eok en -> eok (f en a) /\ ele en (f en a)) -> forall l en, eok en -> eok (fold_left f l en) /\ ele en (fold_left f l en).
Proof.
  intros A f H. induction l as [|a l IH]; intros en E; cbn; [split; [exact E|apply ele_refl]|]. destruct (H en a E) as (E1 & L1). destruct (IH _ E1) as (E2 & L2). split; [exact E2|eapply ele_trans; eassumption].
Qed.
Lemma fold_env_in : forall A (f : venv -> A -> venv), (forall en a, eok en -> eok (f en a) /\ ele en (f en a)) -> forall l en a, eok en -> In a l ->
  exists en1, eok en1 /\ ele en en1 /\ ele (f en1 a) (fold_left f l en).
Proof.
  intros A f H. induction l as [|b l IH]; intros en a E Ha; [contradiction|]. cbn. destruct (H en b E) as (E1 & L1). destruct Ha as [->|Ha].
  - exists en. split; [exact E|]. split; [apply ele_refl|]. apply fold_env; assumption.
  - destruct (IH _ _ E1 Ha) as (en1 & E2 & L2 & L3). exists en1. split; [exact E2|]. split; [eapply ele_trans; eassumption|exact L3].
Qed.

(* ---------- offsets ---------- *)
Lemma dim_ofs_in : forall dims o d, length o = length dims -> In d dims -> In (d, dim_ofs dims o d) (combine dims o).
Proof.
  induction dims as [|x dims IH]; intros o d L H; [contradiction|]. destruct o as [|v o]; [discriminate|]. cbn. destruct (Z.eqb_spec d x) as [->|N]; [left; reflexivity|right]. apply IH; [cbn in L; lia|]. destruct H; [congruence|assumption].
Qed.
Lemma combine_ofs : forall dims o, NoDup dims -> length o = length dims -> combine dims o = map (fun d => (d, dim_ofs dims o d)) dims.
Proof.
  induction dims as [|x dims IH]; intros o N L; [reflexivity|]. destruct o as [|v o]; [discriminate|]. inversion N as [|? ? Nx N']; subst. cbn. rewrite Z.eqb_refl. f_equal. rewrite (IH o N') by (cbn in L; lia).
  apply map_ext_in. intros d Hd. destruct (Z.eqb_spec d x) as [->|]; [contradiction|reflexivity].
Qed.
Lemma filter_len_map : forall (A B : Type) (f : A -> B) p l, length (filter p (map f l)) = length (filter (fun x => p (f x)) l).
Proof. induction l as [|a l IH]; [reflexivity|]. cbn. destruct (p (f a)); cbn; rewrite IH; reflexivity. Qed.
Lemma filter_len_le : forall (A : Type) (p q : A -> bool) l, (forall x, In x l -> p x = true -> q x = true) -> (length (filter p l) <= length (filter q l))%nat.
Proof.
  induction l as [|a l IH]; intros H; [apply le_n|]. cbn. assert (length (filter p l) <= length (filter q l))%nat by (apply IH; intros; apply H; [right|]; assumption).
  destruct (p a) eqn:E; [rewrite (H a) by (try left; auto); cbn; lia|destruct (q a); cbn; lia].
Qed.
Lemma tcomb_map : forall (f : Z -> Z -> Z) t rhs, (forall x, f x 0 = x) -> tcomb f t rhs = map (fun p => (fst p, f (snd p) (tv (fst p) rhs))) t.
Proof. intros f t rhs H. unfold tcomb, tv. apply map_ext. intros p. destruct (tget (fst p) rhs); [reflexivity|rewrite H; reflexivity]. Qed.

Section HaloProofs.
  Variable vdims : Z -> list Z.
  Variable eqs : list eqn.
  Hypothesis Wv : forall v, NoDup (vdims v).
  Hypothesis We : forall e p, In e eqs -> In p (e_lhs e :: e_rhs e) -> wf_pt vdims p.
  Definition po (p : pt) : Z -> Z := dim_ofs (vdims (p_var p)) (p_dom p).
  Definition isin (i : Z) (e : eqn) : Prop := 0 <= i /\ nth_error eqs (Z.to_nat i) = Some e.
  Lemma isin_at : forall i e, isin i e -> eq_at eqs i = e /\ lhs_var eqs i = p_var (e_lhs e) /\ In e eqs.
  Proof.
    intros i e (P & H). assert (E : eq_at eqs i = e) by (unfold eq_at; eapply nth_error_nth; exact H). split; [exact E|]. split; [unfold lhs_var, eq_var; rewrite E; reflexivity|eapply nth_error_In; exact H].
  Qed.
  Lemma pt_ofs_map : forall p, wf_pt vdims p -> pt_ofs vdims p = map (fun d => (d, po p d)) (vdims (p_var p)).
  Proof. intros p W. unfold pt_ofs. apply combine_ofs; [apply Wv|exact W]. Qed.

  (* one more access covers its offset *)
  Definition covp (st : Z) (v : vinfo) (dims : list Z) (s : option Z) (o : Z -> Z) : Prop :=
    forall d, In d dims -> - hget (st, true, step_of s) d (v_halos v) <= o d <= hget (st, false, step_of s) d (v_halos v).
  Definition cov (st : Z) (en : venv) (v : Z) (s : option Z) (o : Z -> Z) : Prop := covp st (en v) (vdims v) s o.
  Lemma covp_le : forall st a b dims s o, vle a b -> covp st a dims s o -> covp st b dims s o.
  Proof. intros st a b dims s o (A & _) C d Hd. specialize (C d Hd). pose proof (A (st, true, step_of s) d). pose proof (A (st, false, step_of s) d). lia. Qed.

  Lemma touch_ok2 : forall st en p, eok en -> eok (touch vdims st en p) /\ ele en (touch vdims st en p).
  Proof. intros st en p E. unfold touch. destruct (upd_ofs_ok st (p_step p) (pt_ofs vdims p) (en (p_var p)) (E _)) as (A & B & _). apply env_upd_ok; assumption. Qed.
  Lemma touch_cov : forall st en p, eok en -> wf_pt vdims p -> cov st (touch vdims st en p) (p_var p) (p_step p) (po p) /\ dist (vdims (p_var p)) (po p) <= v_l1 (touch vdims st en p (p_var p)).
  Proof.
    intros st en p E W. unfold cov, touch. rewrite env_upd_same. destruct (upd_ofs_ok st (p_step p) (pt_ofs vdims p) (en (p_var p)) (E _)) as (_ & _ & C & D). cbv zeta in *. split.
    - intros d Hd. apply C. unfold pt_ofs. apply dim_ofs_in; assumption.
    - eapply Z.le_trans; [|exact D]. rewrite (pt_ofs_map p W), filter_len_map. unfold dist. apply inj_le, filter_len_le. intros d _ H. cbn. lia.
  Qed.
  Lemma scan_ok : forall st en i, eok en -> eok (scan_eq vdims eqs st en i) /\ ele en (scan_eq vdims eqs st en i).
  Proof.
    intros st en i E. unfold scan_eq. destruct (fold_env _ (touch vdims st) (touch_ok2 st) (e_lhs (eq_at eqs i) :: e_rhs (eq_at eqs i)) en E) as (E1 & L1).
    set (en1 := fold_left _ _ en) in *. destruct (upd_write_ok st (p_step (e_lhs (eq_at eqs i))) (en1 (p_var (e_lhs (eq_at eqs i)))) (E1 _)) as (A & B).
    destruct (env_upd_ok _ _ en1 E1 A B) as (E2 & L2). split; [exact E2|eapply ele_trans; eassumption].
  Qed.
  Lemma scan_cov : forall st en i e r, eok en -> isin i e -> In r (e_rhs e) -> cov st (scan_eq vdims eqs st en i) (p_var r) (p_step r) (po r) /\ dist (vdims (p_var r)) (po r) <= v_l1 (scan_eq vdims eqs st en i (p_var r)).
  Proof.
    intros st en i e r E Hi Hr. destruct (isin_at i e Hi) as (Ea & _ & He). unfold scan_eq. rewrite Ea.
    destruct (fold_env _ (touch vdims st) (touch_ok2 st) (e_lhs e :: e_rhs e) en E) as (E1 & _).
    destruct (fold_env_in _ (touch vdims st) (touch_ok2 st) (e_lhs e :: e_rhs e) en r E (or_intror Hr)) as (en1 & Ee1 & _ & L2).
    set (enF := fold_left _ _ en) in *. destruct (upd_write_ok st (p_step (e_lhs e)) (enF (p_var (e_lhs e))) (E1 _)) as (A & B).
    destruct (env_upd_ok _ _ enF E1 A B) as (_ & L3). destruct (touch_cov st en1 r Ee1 (We e r He (or_intror Hr))) as (C & D).
    assert (L : vle (touch vdims st en1 r (p_var r)) (env_upd (p_var (e_lhs e)) (upd_write st (p_step (e_lhs e))) enF (p_var r))) by (eapply vle_trans; [apply L2|apply L3]).
    split; [eapply covp_le; [exact L|exact C]|destruct L as (_ & L); lia].
  Qed.

  Variable sdep : Z -> Z -> bool.
  Lemma phase1_ok : forall sts en, eok en -> eok (phase1 vdims eqs sdep sts en) /\ ele en (phase1 vdims eqs sdep sts en).
  Proof.
    intros sts en E. unfold phase1. apply fold_env; [|exact E]. intros en' st E'. destruct (sg_scr st); [split; [exact E'|apply ele_refl]|]. apply fold_env; [apply scan_ok|exact E'].
  Qed.
  Lemma phase1_cov : forall sts st i e r, In st sts -> sg_scr st = false ->
    In i (concat (sg_parts st) ++ concat (flat_map sg_parts (filter (fun s2 => sdep (sg_id st) (sg_id s2)) sts))) -> isin i e -> In r (e_rhs e) ->
    let en := phase1 vdims eqs sdep sts (fun _ => vinfo0) in cov (sg_id st) en (p_var r) (p_step r) (po r) /\ dist (vdims (p_var r)) (po r) <= v_l1 (en (p_var r)).
  Proof.
    intros sts st i e r Hst Hs Hin Hi Hr en. unfold phase1 in en.
    assert (E0 : eok (fun _ => vinfo0)) by (intros v; apply vok0).
    match (eval unfold en in en) with fold_left ?f _ _ => assert (FE : forall en a, eok en -> eok (f en a) /\ ele en (f en a)); [|destruct (fold_env_in _ f FE sts _ st E0 Hst) as (en1 & E1 & _ & L1)] end.
    { intros en' st' E'. destruct (sg_scr st'); [split; [exact E'|apply ele_refl]|]. apply fold_env; [apply scan_ok|exact E']. }
    cbn beta in L1. rewrite Hs in L1. fold en in L1.
    destruct (fold_env_in _ (scan_eq vdims eqs (sg_id st)) (scan_ok (sg_id st)) _ en1 i E1 Hin) as (en2 & E2 & _ & L2).
    destruct (scan_cov (sg_id st) en2 i e r E2 Hi Hr) as (C & D). pose proof (vle_trans _ _ _ (L2 (p_var r)) (L1 (p_var r))) as L. split; [eapply covp_le; [exact L|exact C]|destruct L as (_ & L); lia].
  Qed.

  (* ---------- one scratch part ---------- *)
  Definition reads_step (o : Z -> Z) (v : Z) (r : pt) : Z -> Z := fun d => (if existsb (Z.eqb d) (vdims v) then o d else 0) + po r d.
  Definition simple (m o : Z -> Z) (dims : list Z) : Prop := no_cancel dims m o.

  Lemma upd_from_env : forall w v en, eok en -> eok (env_upd v (upd_from (en w)) en) /\ ele en (env_upd v (upd_from (en w)) en) /\ vle (en w) (env_upd v (upd_from (en w)) en v).
  Proof.
    intros w v en E. destruct (upd_from_ok (en w) (en v) (E w) (E v)) as (A & B & C). destruct (env_upd_ok v _ en E A B) as (P & Q). split; [exact P|]. split; [exact Q|]. rewrite env_upd_same. exact C.
  Qed.

  Definition rd (st : Z) (rh lh : tup) (l1 : Z) (en : venv) (p : pt) : venv :=
    env_upd (p_var p) (fun v => upd_l1 l1 (upd_ofs st (p_step p) (tcomb Z.add (pt_ofs vdims p) rh) (upd_ofs st (p_step p) (tcomb Z.sub (pt_ofs vdims p) lh) v))) en.
  Lemma rd_ok : forall st rh lh l1 en p, eok en -> let en' := rd st rh lh l1 en p in eok en' /\ ele en en' /\
    (wf_pt vdims p -> forall m, (forall d, - tv d lh <= m d <= tv d rh) -> cov st en' (p_var p) (p_step p) (fun d => m d + po p d)) /\
    (wf_pt vdims p -> l1 <= v_l1 (en' (p_var p)) /\ dist (vdims (p_var p)) (fun d => po p d + tv d rh) <= v_l1 (en' (p_var p)) /\ dist (vdims (p_var p)) (fun d => po p d - tv d lh) <= v_l1 (en' (p_var p))).
  Proof.
    intros st rh lh l1 en p E en'. set (va := upd_ofs st (p_step p) (tcomb Z.sub (pt_ofs vdims p) lh) (en (p_var p))). set (vb := upd_ofs st (p_step p) (tcomb Z.add (pt_ofs vdims p) rh) va).
    destruct (upd_ofs_ok st (p_step p) (tcomb Z.sub (pt_ofs vdims p) lh) (en (p_var p)) (E _)) as (A1 & A2 & A3 & A4). fold va in A1, A2, A3, A4. cbv zeta in *.
    destruct (upd_ofs_ok st (p_step p) (tcomb Z.add (pt_ofs vdims p) rh) va A1) as (B1 & B2 & B3 & B4). fold vb in B1, B2, B3, B4. cbv zeta in *.
    destruct (upd_l1_ok l1 vb B1) as (C1 & C2 & C3).
    assert (EV : en' (p_var p) = upd_l1 l1 vb) by (unfold en', rd; apply env_upd_same).
    assert (LV : vle (en (p_var p)) (upd_l1 l1 vb)) by (eapply vle_trans; [exact A2|eapply vle_trans; [exact B2|exact C2]]).
    destruct (env_upd_ok (p_var p) (fun v => upd_l1 l1 (upd_ofs st (p_step p) (tcomb Z.add (pt_ofs vdims p) rh) (upd_ofs st (p_step p) (tcomb Z.sub (pt_ofs vdims p) lh) v))) en E C1 LV) as (P & Q).
    split; [exact P|]. split; [exact Q|]. rewrite tcomb_map in B3, B4 by (intros; lia). rewrite tcomb_map in A3, A4 by (intros; lia). split; intros W.
    - intros m Hm. unfold cov. rewrite EV. intros d Hd. specialize (Hm d).
      assert (I : In (d, po p d) (pt_ofs vdims p)) by (apply dim_ofs_in; assumption).
      pose proof (B3 d (po p d + tv d rh)) as B5. pose proof (A3 d (po p d - tv d lh)) as A5.
      assert (X1 : In (d, po p d + tv d rh) (map (fun q => (fst q, snd q + tv (fst q) rh)) (pt_ofs vdims p))) by (apply in_map_iff; exists (d, po p d); auto).
      assert (X2 : In (d, po p d - tv d lh) (map (fun q => (fst q, snd q - tv (fst q) lh)) (pt_ofs vdims p))) by (apply in_map_iff; exists (d, po p d); auto).
      specialize (B5 X1). specialize (A5 X2). destruct B2 as (B2 & _), C2 as (C2 & _).
      pose proof (B2 (st, true, step_of (p_step p)) d). pose proof (B2 (st, false, step_of (p_step p)) d). pose proof (C2 (st, true, step_of (p_step p)) d). pose proof (C2 (st, false, step_of (p_step p)) d). lia.
    - rewrite EV. destruct B2 as (_ & B2), C2 as (_ & C2). split; [lia|]. rewrite (pt_ofs_map p W), !map_map, filter_len_map in A4, B4. cbn [fst snd] in A4, B4.
      assert (N1 : dist (vdims (p_var p)) (fun d => po p d + tv d rh) <= Z.of_nat (length (filter (fun x => 0 <? Z.abs (po p x + tv x rh)) (vdims (p_var p))))) by (unfold dist; apply inj_le, filter_len_le; intros d _ H; lia).
      assert (N2 : dist (vdims (p_var p)) (fun d => po p d - tv d lh) <= Z.of_nat (length (filter (fun x => 0 <? Z.abs (po p x - tv x lh)) (vdims (p_var p))))) by (unfold dist; apply inj_le, filter_len_le; intros d _ H; lia).
      lia.
  Qed.

  Lemma add_item_in : forall x l y, In y (add_item x l) <-> y = x \/ In y l.
  Proof. intros x l y. unfold add_item. destruct (mem x l) eqn:E; [|rewrite ?in_app_iff; cbn; intuition congruence]. apply mem_In in E. split; [auto|]. intros [->|H]; assumption. Qed.
  Lemma addp_in : forall (l : list pt) acc y, In y (fold_left (fun l p => add_item (p_var p) l) l acc) <-> (exists p, In p l /\ y = p_var p) \/ In y acc.
  Proof.
    induction l as [|p l IH]; intros acc y; cbn; [split; [auto|intros [(? & [] & _)|H]; exact H]|]. rewrite IH, add_item_in. split.
    - intros [(q & Hq & ->)|[->|H]]; [left; exists q; auto|left; exists p; auto|right; exact H].
    - intros [(q & [<-|Hq] & ->)|H]; [right; left; reflexivity|left; exists q; auto|right; right; exact H].
  Qed.
  Definition tch (part : list Z) (l : list Z) : list Z :=
    fold_left (fun l i => fold_left (fun l p => add_item (p_var p) l) (e_rhs (eq_at eqs i)) (add_item (lhs_var eqs i) l)) part l.
  Lemma tch_in : forall part l y, In y (tch part l) <-> (exists i, In i part /\ (y = lhs_var eqs i \/ exists p, In p (e_rhs (eq_at eqs i)) /\ y = p_var p)) \/ In y l.
  Proof.
    induction part as [|i part IH]; intros l y; unfold tch; cbn [fold_left]; [split; [auto|intros [(? & [] & _)|H]; exact H]|]. fold (tch part). rewrite (IH _ y), addp_in, add_item_in. split.
    - intros [(j & Hj & H)|[H|[->|H]]]; [left; exists j; split; [right; exact Hj|exact H]|left; exists i; split; [left; reflexivity|right; exact H]|left; exists i; split; [left; reflexivity|left; reflexivity]|right; exact H].
    - intros [(j & [<-|Hj] & H)|H]; [destruct H as [->|H]; tauto|left; exists j; auto|tauto].
  Qed.

  Lemma dist_one : forall dims o d, In d dims -> o d <> 0 -> 1 <= dist dims o.
  Proof.
    intros dims o d H N. unfold dist. assert (In d (filter (fun d => negb (o d =? 0)) dims)) by (apply filter_In; split; [exact H|lia]). destruct (filter _ dims); [contradiction|cbn; lia].
  Qed.
  Lemma dist_ext : forall dims o o', (forall d, In d dims -> o d <> 0 -> o' d <> 0) -> dist dims o <= dist dims o'.
  Proof. intros dims o o' H. unfold dist. apply inj_le, filter_len_le. intros d Hd K. assert (o' d <> 0) by (apply H; [exact Hd|lia]). lia. Qed.
  Lemma dist_sub : forall dims o dims' o', NoDup dims -> (forall d, In d dims -> o d <> 0 -> In d dims' /\ o' d <> 0) -> dist dims o <= dist dims' o'.
  Proof.
    intros dims o dims' o' N H. unfold dist. apply inj_le. apply NoDup_incl_length; [apply NoDup_filter; exact N|]. intros d Hd. apply filter_In in Hd as (Hd & K). destruct (H d Hd) as (A & B); [lia|]. apply filter_In. split; [exact A|lia].
  Qed.

  Lemma existsb_dims : forall d l, existsb (Z.eqb d) l = true <-> In d l.
  Proof. intros d l. rewrite existsb_exists. split; [intros (x & H & E); apply Z.eqb_eq in E; subst; exact H|intros H; exists d; split; [exact H|lia]]. Qed.

  Definition inner (st : Z) (rh lh : tup) (l1 : Z) (en : venv) (i : Z) : venv := fold_left (rd st rh lh l1) (e_rhs (eq_at eqs i)) en.
  Definition mask (v : Z) (o : Z -> Z) : Z -> Z := fun d => if existsb (Z.eqb d) (vdims v) then o d else 0.

  Lemma do_part_ok : forall st s part, eok (fst s) -> let s' := do_part vdims eqs st s part in
    eok (fst s') /\ ele (fst s) (fst s') /\ (part <> [] -> snd s' = tch part (snd s)) /\
    (forall y, In y (snd s) -> In y (snd s')) /\
    (forall y, ~ In y (snd s') -> fst s' y = fst s y) /\
    (forall i e r, In i part -> isin i e -> In r (e_rhs e) -> In (p_var r) (snd s') /\ forall u o, cov st (fst s) (p_var (e_lhs e)) u o ->
       cov st (fst s') (p_var r) (p_step r) (fun d => mask (p_var (e_lhs e)) o d + po r d) /\
       (dist (vdims (p_var (e_lhs e))) o <= v_l1 (fst s (p_var (e_lhs e))) -> dist (vdims (p_var r)) (po r) <= v_l1 (fst s (p_var r)) -> simple (mask (p_var (e_lhs e)) o) (po r) (vdims (p_var r)) ->
        dist (vdims (p_var r)) (fun d => mask (p_var (e_lhs e)) o d + po r d) <= v_l1 (fst s' (p_var r)))).
  Proof.
    intros st (en, tl) part E s'. destruct part as [|i1 rest].
    { cbn in s'. subst s'. split; [exact E|]. split; [apply ele_refl|]. split; [intros X; congruence|]. split; [auto|]. split; [auto|]. intros i e r []. }
    set (part := i1 :: rest) in *. cbn [fst snd] in *.
    set (others := filter (fun i => negb (i1 =? i)) part).
    set (f1 := fun en i => env_upd (lhs_var eqs i1) (upd_from (en (lhs_var eqs i))) en).
    set (f2 := fun en i => env_upd (lhs_var eqs i) (upd_from (en (lhs_var eqs i1))) en).
    set (en1 := fold_left f1 others en). set (en2 := fold_left f2 others en1).
    set (v1 := lhs_var eqs i1) in *.
    set (lh := halo_sizes st true (en2 v1)). set (rh := halo_sizes st false (en2 v1)). set (l1 := v_l1 (en2 v1)).
    assert (S' : s' = (fold_left (inner st rh lh l1) part en2, tch part tl)) by reflexivity. clearbody s'. subst s'. cbn [fst snd].
    assert (F1 : forall en a, eok en -> eok (f1 en a) /\ ele en (f1 en a)) by (intros e' a E'; unfold f1; destruct (upd_from_env (lhs_var eqs a) v1 e' E') as (P & Q & _); auto).
    assert (F2 : forall en a, eok en -> eok (f2 en a) /\ ele en (f2 en a)) by (intros e' a E'; unfold f2; destruct (upd_from_env v1 (lhs_var eqs a) e' E') as (P & Q & _); auto).
    destruct (fold_env _ f1 F1 others en E) as (E1 & L1). fold en1 in E1, L1. destruct (fold_env _ f2 F2 others en1 E1) as (E2 & L2). fold en2 in E2, L2.
    assert (FR : forall en a, eok en -> eok (rd st rh lh l1 en a) /\ ele en (rd st rh lh l1 en a)) by (intros e' a E'; destruct (rd_ok st rh lh l1 e' a E') as (P & Q & _); auto).
    assert (FI : forall en a, eok en -> eok (inner st rh lh l1 en a) /\ ele en (inner st rh lh l1 en a)) by (intros e' a E'; apply fold_env; [exact FR|exact E']).
    destruct (fold_env _ _ FI part en2 E2) as (E3 & L3).
    split; [exact E3|]. split; [eapply ele_trans; [exact L1|eapply ele_trans; [exact L2|exact L3]]|]. split; [auto|]. split; [intros y Hy; apply tch_in; right; exact Hy|]. split.
    - intros y Ny. rewrite tch_in in Ny.
      assert (NL : forall i, In i part -> y <> lhs_var eqs i) by (intros i Hi X; apply Ny; left; exists i; auto).
      assert (NR : forall i p, In i part -> In p (e_rhs (eq_at eqs i)) -> y <> p_var p) by (intros i p Hi Hp X; apply Ny; left; exists i; split; [exact Hi|right; exists p; auto]).
      assert (U : forall A (f : venv -> A -> venv) l en, (forall en a, In a l -> f en a y = en y) -> fold_left f l en y = en y).
      { intros A f l. induction l as [|a l IH]; intros en' H; [reflexivity|]. cbn. rewrite IH by (intros; apply H; right; assumption). apply H. left. reflexivity. }
      rewrite (U _ (inner st rh lh l1)).
      2:{ intros en' i Hi. unfold inner. apply U. intros en'' p Hp. unfold rd. apply env_upd_other. eapply NR; eassumption. }
      unfold en2. rewrite U.
      2:{ intros en' i Hi. unfold f2. apply env_upd_other. apply NL. unfold others in Hi. apply filter_In in Hi. tauto. }
      unfold en1. apply U. intros en' i Hi. unfold f1. apply env_upd_other. apply (NL i1). left. reflexivity.
    - intros i e r Hi He Hr. destruct (isin_at i e He) as (Ea & El & Hin). split; [apply tch_in; left; exists i; split; [exact Hi|right; exists r; rewrite Ea; auto]|].
      intros u o C. set (v := p_var (e_lhs e)) in *.
      assert (LV : vle (en v) (en2 v1)).
      { eapply vle_trans; [|apply L2]. destruct (Z.eq_dec i i1) as [->|N]; [rewrite <- El; apply L1|].
        assert (Ho : In i others) by (unfold others; apply filter_In; split; [exact Hi|lia]).
        destruct (fold_env_in _ f1 F1 others en i E Ho) as (ex & Ex & Lx & Ly). fold en1 in Ly. eapply vle_trans; [|apply Ly]. unfold f1. destruct (upd_from_env (lhs_var eqs i) v1 ex Ex) as (_ & _ & Q). eapply vle_trans; [|exact Q]. rewrite El. apply Lx. }
      destruct (halo_sizes_ok st true (en2 v1) (E2 _)) as (TL & HL). destruct (halo_sizes_ok st false (en2 v1) (E2 _)) as (TR & HR). fold lh in TL, HL. fold rh in TR, HR.
      assert (M : forall d, - tv d lh <= mask v o d <= tv d rh).
      { intros d. pose proof (tv_nn d _ TL). pose proof (tv_nn d _ TR). unfold mask. destruct (existsb (Z.eqb d) (vdims v)) eqn:Ed; [|lia]. apply existsb_dims in Ed. specialize (C d Ed). destruct LV as (LV & _).
        pose proof (LV (st, true, step_of u) d). pose proof (LV (st, false, step_of u) d). specialize (HL (step_of u) d). specialize (HR (step_of u) d). lia. }
      pose proof (We e r Hin (or_intror Hr)) as Wr.
      destruct (fold_env_in _ _ FI part en2 i E2 Hi) as (ea & Eea & La & Lb). unfold inner in Lb at 1. rewrite Ea in Lb.
      destruct (fold_env_in _ _ FR (e_rhs e) ea r Eea Hr) as (eb & Eeb & Lc & Ld).
      destruct (rd_ok st rh lh l1 eb r Eeb) as (_ & Q1 & Q2 & Q3). cbv zeta in *. specialize (Q2 Wr (mask v o) M). destruct (Q3 Wr) as (Q4 & Q5 & Q6).
      assert (LF : vle (rd st rh lh l1 eb r (p_var r)) (fold_left (inner st rh lh l1) part en2 (p_var r))) by (eapply vle_trans; [apply Ld|apply Lb]).
      split; [eapply covp_le; [exact LF|exact Q2]|]. intros D1 D2 Sm.
      assert (LX : v_l1 (en (p_var r)) <= v_l1 (fold_left (inner st rh lh l1) part en2 (p_var r))).
      { eapply Z.le_trans; [apply (L1 (p_var r))|]. eapply Z.le_trans; [apply (L2 (p_var r))|apply (L3 (p_var r))]. }
      destruct LF as (_ & LF). destruct LV as (_ & LV). fold l1 in LV.
      destruct Sm as [Sm|[Sm|[Sm|[Sm|Sm]]]].
      + eapply Z.le_trans; [|exact LX]. eapply Z.le_trans; [|exact D2]. apply dist_ext. intros d _ H. rewrite Sm in H. exact H.
      + assert (dist (vdims (p_var r)) (fun d => mask v o d + po r d) <= dist (vdims v) o); [|lia]. apply dist_sub; [apply Wv|]. intros d Hd H. rewrite (Sm d Hd) in H. unfold mask in H. destruct (existsb (Z.eqb d) (vdims v)) eqn:Ed; [|lia]. apply existsb_dims in Ed. split; [exact Ed|lia].
      + assert (dist (vdims (p_var r)) (fun d => mask v o d + po r d) <= dist (vdims (p_var r)) (fun d => po r d + tv d rh)); [|lia]. apply dist_ext. intros d Hd H. specialize (Sm d Hd). specialize (M d). lia.
      + assert (dist (vdims (p_var r)) (fun d => mask v o d + po r d) <= dist (vdims (p_var r)) (fun d => po r d - tv d lh)); [|lia]. apply dist_ext. intros d Hd H. specialize (Sm d Hd). specialize (M d). lia.
      + destruct (vdims (p_var r)) as [|d [|]] eqn:Ed; [change (dist [] (fun d => mask v o d + po r d)) with 0; pose proof (E3 (p_var r)) as (_ & _ & X); exact X| |cbn in Sm; lia].
        assert (DL : dist [d] (fun d => mask v o d + po r d) <= 1) by (unfold dist; cbn; destruct (negb _); cbn; lia).
        destruct (Z.eq_dec (mask v o d + po r d) 0) as [Z0|NZ].
        * unfold dist. cbn. rewrite Z0. cbn. pose proof (E3 (p_var r)) as (_ & _ & X). exact X.
        * destruct (Z.eq_dec (po r d) 0) as [Zp|Np].
          -- assert (1 <= dist (vdims v) o); [|lia]. unfold mask in NZ. destruct (existsb (Z.eqb d) (vdims v)) eqn:Ee; [|lia]. apply existsb_dims in Ee. apply dist_one with d; [exact Ee|lia].
          -- assert (1 <= dist [d] (po r)) by (apply dist_one with d; [left; reflexivity|exact Np]). lia.
  Qed.

  (* ---------- all parts needed by a stage ---------- *)
  Variable scr : Z -> bool.
  Variable st : Z.
  Variable Ps : list (list Z).
  Variable E : Z -> Prop.
  Variable en0 : venv.
  Hypothesis Ok0 : eok en0.
  Hypothesis Epos : forall i, E i -> 0 <= i.
  Hypothesis C0 : forall i e r, E i -> isin i e -> In r (e_rhs e) -> cov st en0 (p_var r) (p_step r) (po r) /\ dist (vdims (p_var r)) (po r) <= v_l1 (en0 (p_var r)).
  Hypothesis C0s : forall i e r, In i (concat Ps) -> isin i e -> In r (e_rhs e) -> dist (vdims (p_var r)) (po r) <= v_l1 (en0 (p_var r)).
  (* an equation that writes a scratch var read by e *)
  Definition feeds (e : eqn) (j : Z) : Prop := exists r e', In r (e_rhs e) /\ scr (p_var r) = true /\ isin j e' /\ p_var (e_lhs e') = p_var r.
  Hypothesis HC : forall i e j, E i -> isin i e -> feeds e j -> In j (concat Ps).
  Hypothesis HO : forall A p B i e j, Ps = A ++ p :: B -> In i p -> isin i e -> feeds e j -> In j (concat B).

  Definition after (A : list (list Z)) : venv * list Z := fold_left (do_part vdims eqs st) A (en0, []).
  Lemma after_ok : forall A, eok (fst (after A)) /\ (forall y, ~ In y (snd (after A)) -> fst (after A) y = en0 y).
  Proof.
    induction A as [|p A IH] using rev_ind; [split; [exact Ok0|reflexivity]|]. unfold after. rewrite fold_left_app. cbn [fold_left]. fold (after A). destruct IH as (Ea & U).
    destruct (do_part_ok st (after A) p Ea) as (E' & _ & _ & T & U' & _). cbv zeta in *. split; [exact E'|]. intros y Ny. rewrite U' by exact Ny. apply U. intros X. apply Ny, T, X.
  Qed.
  Lemma after_le : forall A B, ele (fst (after A)) (fst (after (A ++ B))).
  Proof.
    intros A B. induction B as [|p B IH] using rev_ind; [rewrite app_nil_r; apply ele_refl|]. unfold after in *. rewrite app_assoc, fold_left_app. cbn [fold_left]. eapply ele_trans; [exact IH|].
    apply do_part_ok. apply (after_ok (A ++ B)).
  Qed.
  Lemma in_concat_split : forall (B : list (list Z)) j, In j (concat B) -> exists B1 p B2, B = B1 ++ p :: B2 /\ In j p.
  Proof. intros B j H. apply in_concat in H as (p & Hp & Hj). apply in_split in Hp as (B1 & B2 & ->). exists B1, p, B2. auto. Qed.

  (* chains without cancelling offsets: [b = true] requires it *)
  Inductive chain (b : bool) : Z -> option Z -> (Z -> Z) -> Prop :=
  | ch_eq : forall i e r, E i -> nth_error eqs (Z.to_nat i) = Some e -> In r (e_rhs e) -> chain b (p_var r) (p_step r) (po r)
  | ch_scr : forall v s o j e r, chain b v s o -> scr v = true -> 0 <= j -> nth_error eqs (Z.to_nat j) = Some e -> p_var (e_lhs e) = v -> In r (e_rhs e) ->
      (b = true -> simple (mask v o) (po r) (vdims (p_var r))) -> chain b (p_var r) (p_step r) (fun d => mask v o d + po r d).

  Lemma chain_cov : forall b v s o, chain b v s o -> exists A B, Ps = A ++ B /\ cov st (fst (after A)) v s o /\ (b = true -> dist (vdims v) o <= v_l1 (fst (after A) v)) /\
    (forall j e', scr v = true -> isin j e' -> p_var (e_lhs e') = v -> In j (concat B)).
  Proof.
    intros b v s o H. induction H as [i e r Hi He Hr|v s o j e r H IH Sv Pj Ej Lj Hr Sm].
    - exists [], Ps. split; [reflexivity|]. assert (II : isin i e) by (split; [apply Epos; exact Hi|exact He]). destruct (C0 i e r Hi II Hr) as (P & Q). split; [exact P|]. split; [auto|].
      intros j e' Sr Hj Lj. eapply HC; [exact Hi|exact II|]. exists r, e'. auto.
    - destruct IH as (A & B & EP & C & D & F). assert (II : isin j e) by (split; assumption). pose proof (F j e Sv II Lj) as Hj. apply in_concat_split in Hj as (B1 & p & B2 & EB & Hp).
      exists (A ++ B1 ++ [p]), B2. split; [rewrite EP, EB, <- !app_assoc; reflexivity|].
      destruct (after_ok (A ++ B1)) as (Eo & _). destruct (do_part_ok st (after (A ++ B1)) p Eo) as (_ & _ & _ & _ & _ & X). cbv zeta in X. destruct (X j e r Hp II Hr) as (_ & X').
      assert (AF : after (A ++ B1 ++ [p]) = do_part vdims eqs st (after (A ++ B1)) p) by (unfold after; rewrite app_assoc, fold_left_app; reflexivity).
      destruct (X' s o) as (Y & Z'); [rewrite Lj; eapply covp_le; [apply after_le|exact C]|]. rewrite Lj in Y, Z'. rewrite AF. split; [exact Y|]. split.
      + intros Hb. apply Z'; [|eapply Z.le_trans; [eapply (C0s j e r); [rewrite EP, EB; rewrite !concat_app, !in_app_iff; cbn; rewrite in_app_iff; auto|exact II|exact Hr]|destruct (after_le [] (A ++ B1) (p_var r)) as (_ & X1); exact X1]|apply Sm; exact Hb].
        destruct (after_le A B1 v) as (_ & X1). specialize (D Hb). lia.
      + intros j' e' Sr Hj' Lj'. eapply (HO (A ++ B1) p B2 j e); [rewrite EP, EB, <- app_assoc; reflexivity|exact Hp|exact II|]. exists r, e'. auto.
  Qed.
  Lemma chain_after : forall b v s o, chain b v s o -> cov st (fst (after Ps)) v s o /\ (b = true -> dist (vdims v) o <= v_l1 (fst (after Ps) v)).
  Proof.
    intros b v s o H. destruct (chain_cov b v s o H) as (A & B & EP & C & D & _). rewrite EP. pose proof (after_le A B v) as L. split; [eapply covp_le; [exact L|exact C]|]. intros Hb. specialize (D Hb). destruct L as (_ & L). lia.
  Qed.
End HaloProofs.

(* ---------- all stages ---------- *)
Lemma apply_ok : forall en sh, eok en -> eok (fst sh) -> eok (apply_shadows en sh) /\ ele en (apply_shadows en sh) /\ forall v, In v (snd sh) -> vle (fst sh v) (apply_shadows en sh v).
Proof.
  intros en (sv & l) E Es. unfold apply_shadows. cbn [fst snd] in *. set (f := fun en v => env_upd v (upd_from (sv v)) en).
  assert (F : forall en a, eok en -> eok (f en a) /\ ele en (f en a)) by (intros en' a E'; destruct (upd_from_ok (sv a) (en' a) (Es a) (E' a)) as (A & B & _); apply env_upd_ok; assumption).
  destruct (fold_env _ f F l en E) as (A & B). split; [exact A|]. split; [exact B|]. intros v Hv. destruct (fold_env_in _ f F l en v E Hv) as (e1 & E1 & _ & L). eapply vle_trans; [|apply L]. unfold f. rewrite env_upd_same. apply upd_from_ok; [apply Es|apply E1].
Qed.
Lemma flat_map_split : forall (A B : Type) (f : A -> list B) l X p Y, flat_map f l = X ++ p :: Y -> exists l1 x l2 u w, l = l1 ++ x :: l2 /\ f x = u ++ p :: w /\ Y = w ++ flat_map f l2.
Proof.
  intros A B f. induction l as [|a l IH]; intros X p Y H; cbn in H; [destruct X; discriminate|]. apply app_eq_app in H as (k & [(H1 & H2)|(H1 & H2)]).
  - destruct k as [|b k]; cbn in H2.
    + destruct (IH [] p Y (eq_sym H2)) as (l1 & x & l2 & u & w & -> & Hx & HY). exists (a :: l1), x, l2, u, w. auto.
    + injection H2 as <- ->. exists [], a, l, X, k. auto.
  - destruct (IH k p Y H2) as (l1 & x & l2 & u & w & -> & Hx & HY). exists (a :: l1), x, l2, u, w. auto.
Qed.
Lemma filter_split : forall (A : Type) (f : A -> bool) l l1 x l2, filter f l = l1 ++ x :: l2 -> exists m1 m2, l = m1 ++ x :: m2 /\ l1 = filter f m1 /\ l2 = filter f m2 /\ f x = true.
Proof.
  induction l as [|a l IH]; intros l1 x l2 H; cbn in H; [destruct l1; discriminate|]. destruct (f a) eqn:E.
  - destruct l1 as [|b l1]; cbn in H; injection H as -> H; [exists [], l; auto|]. destruct (IH _ _ _ H) as (m1 & m2 & -> & -> & -> & Fx). exists (b :: m1), m2. cbn. rewrite E. auto.
  - destruct (IH _ _ _ H) as (m1 & m2 & -> & -> & -> & Fx). exists (a :: m1), m2. cbn. rewrite E. auto.
Qed.

Section BuildH.
  Variable scr : Z -> bool.
  Variables dims_same halo_same : Z -> Z -> bool.
  Variables bundle bundle_scratch : bool.
  Variable regex : Z -> bool.
  Variables (dir d : Z) (eqs : list eqn).
  Hypothesis Hdir : dir = 1 \/ dir = -1.
  Hypothesis Hd : d = 0 \/ d = dir.
  Hypothesis Hleg : Forall (fun e => legal_lhs scr dir e /\ (scr (p_var (e_lhs e)) = false -> dir = 1 -> forall r s, In r (e_rhs e) -> p_step r = Some s -> s <= 1)) eqs.
  Hypothesis Hdis : distinct_lhs eqs.
  Variable vdims : Z -> list Z.
  Hypothesis Hwf : wf_eqs scr vdims eqs.
  Variables (eg : group) (ps : parts) (ss : stages).
  Hypothesis HB : build scr dims_same halo_same bundle bundle_scratch regex d eqs = Ok (eg, ps, ss).
  Let sts := h_stages ps ss.
  Let sdep := h_sdep ss.
  Let items := c_items (ps_clus ps).
  Let sitems := c_items (st_clus ss).
  Definition block (a : Z) : list Z := concat (map (c_get (c_items (ps_clus ps))) (c_get (c_items (st_clus ss)) a)).
  Let mk (id : Z) : stg := mkStg id (nth (Z.to_nat id) (st_scr ss) false) (map (c_get items) (c_get sitems id)).

  Lemma in_block : forall a i, In i (block a) <-> exists p, In p (c_get sitems a) /\ In i (c_get items p).
  Proof. intros a i. unfold block. rewrite in_concat. split; [intros (l & Hl & Hi); apply in_map_iff in Hl as (p & <- & Hp); exists p; auto|intros (p & Hp & Hi); exists (c_get items p); split; [apply in_map; exact Hp|exact Hi]]. Qed.

  Lemma build_facts :
    (forall i e, isin eqs i e -> scr (p_var (e_lhs e)) = true -> exists b, In b (g_all (c_grp (st_clus ss))) /\ In i (block b)) /\
    (forall a i, In a (g_all (c_grp (st_clus ss))) -> In i (block a) -> exists e, isin eqs i e) /\
    (forall a b i j e, In a (g_all (c_grp (st_clus ss))) -> In b (g_all (c_grp (st_clus ss))) -> In i (block a) -> In j (block b) -> isin eqs i e -> feeds eqs scr e j -> sdep a b = true) /\
    (forall a b c, sdep a b = true -> sdep b c = true -> sdep a c = true) /\
    (forall S1 b S2 i j e, g_all (c_grp (st_clus ss)) = S1 ++ b :: S2 -> In i (block b) -> isin eqs i e -> feeds eqs scr e j -> ~ In j (block b) /\ forall c, In c S2 -> ~ In j (block c)).
  Proof.
    pose proof (build_ok scr dims_same halo_same bundle bundle_scratch regex dir d eqs Hdir Hd Hleg Hdis) as B. rewrite HB in B. destruct B as (NC & PS & BO & _ & _ & PCs & _ & _).
    destruct (build_scr scr dims_same halo_same bundle bundle_scratch regex dir d eqs Hdir Hd Hleg Hdis eg ps ss HB) as (_ & _ & _ & _ & S3 & S4 & _ & _ & _). fold items sitems in S3.
    assert (FN : forall e i j, isin eqs i e -> feeds eqs scr e j -> needs scr eqs i j /\ scr_at scr eqs j = true).
    { intros e i j (Pi & Hi) (r & e' & Hr & Sr & (Pj & Hj) & L). destruct Hwf as (_ & W).
      assert (X1 : p_step r = None) by (apply (W e r); [eapply nth_error_In; exact Hi|right; exact Hr|exact Sr]).
      assert (X2 : p_step (e_lhs e') = None) by (apply (W e' (e_lhs e')); [eapply nth_error_In; exact Hj|left; reflexivity|rewrite L; exact Sr]).
      split; [|unfold scr_at; rewrite Hj, L; exact Sr]. exists e, e', r. split; [exact Pi|]. split; [exact Pj|]. split; [exact Hi|]. split; [exact Hj|]. split; [exact Hr|]. split; [symmetry; exact L|]. split; [congruence|congruence]. }
    split; [|split; [|split; [|split]]].
    - intros i e (Pi & Hi) Sc. assert (In i (concat (stage_blocks ps ss))).
      { apply (Permutation_in _ (Permutation_sym PS)). apply filter_In. split; [apply zseq_In; pose proof (proj1 (nth_error_Some eqs (Z.to_nat i))) as X; rewrite Hi in X; specialize (X ltac:(discriminate)); lia|]. unfold kept. rewrite Hi, Sc. reflexivity. }
      apply in_concat in H as (l & Hl & Hil). unfold stage_blocks in Hl. apply in_map_iff in Hl as (b & <- & Hb). exists b. split; [exact Hb|exact Hil].
    - intros a i Ha Hi. assert (In i (concat (stage_blocks ps ss))) by (apply in_concat; exists (block a); split; [unfold stage_blocks; apply in_map_iff; exists a; split; [reflexivity|exact Ha]|exact Hi]).
      apply (Permutation_in _ PS) in H. apply filter_In in H as (H & _). apply zseq_In in H. exists (nth (Z.to_nat i) eqs eqn0). split; [lia|]. apply nth_error_nth'. lia.
    - intros a b i j e Ha Hb Hi Hj He Hf. apply in_block in Hi as (p & Hp & Hi). apply in_block in Hj as (q & Hq & Hj). destruct (FN e i j He Hf) as (N & Sj). exact (S3 a b p q i j Ha Hb Hp Hq Hi Hj N Sj).
    - exact S4.
    - intros S1 b S2 i j e Es Hi He Hf. destruct (FN e i j He Hf) as (N & Sj).
      assert (D : depends scr eqs i j) by (destruct He as (Pi & He); exists i, e, e; split; [exact He|]; split; [exact Pi|]; split; [exact He|]; split; [split; [reflexivity|split; reflexivity]|constructor; exact N]).
      assert (EB : stage_blocks ps ss = map block S1 ++ block b :: map block S2) by (unfold stage_blocks; rewrite Es, map_app; reflexivity).
      pose proof (BO _ _ _ i j EB Hi) as NB. split; [intros X; apply NB; [apply in_or_app; left; exact X|exact D]|]. intros c Hc X. apply NB; [|exact D]. apply in_or_app. right. apply in_concat. exists (block c). split; [apply in_map; exact Hc|exact X].
  Qed.

  Lemma calc_chain : forall a b v s o, In a (g_all (c_grp (st_clus ss))) -> nth (Z.to_nat a) (st_scr ss) false = false ->
    chain vdims eqs scr (fun i => In i (block a)) b v s o ->
    let en := calc_halos vdims eqs sdep sts in
    vok (en v) /\ cov vdims a en v s o /\ (b = true -> dist (vdims v) o <= v_l1 (en v)).
  Proof.
    intros a b v s o Ha Hs Hc en. destruct build_facts as (F1 & F2 & F3 & F4 & F5). destruct Hwf as (Wv & We0).
    assert (We : forall e p, In e eqs -> In p (e_lhs e :: e_rhs e) -> wf_pt vdims p) by (intros e p He Hp; apply (We0 e p He Hp)).
    set (en0 := phase1 vdims eqs sdep sts (fun _ => vinfo0)).
    destruct (phase1_ok vdims eqs sdep sts (fun _ => vinfo0) (fun _ => vok0)) as (Ok0 & _). fold en0 in Ok0.
    assert (Hst : In (mk a) sts) by (unfold sts, h_stages; apply in_map_iff; exists a; split; [reflexivity|exact Ha]).
    assert (IN : forall x i, In i (concat (sg_parts (mk x))) <-> In i (block x)) by (intros; reflexivity).
    set (Ps := scratch_parts sdep sts a).
    assert (PIN : forall i, In i (concat Ps) <-> exists x, In x (g_all (c_grp (st_clus ss))) /\ sdep a x = true /\ In i (block x)).
    { intros i. unfold Ps, scratch_parts. rewrite in_concat. split.
      - intros (l & Hl & Hi). apply in_flat_map in Hl as (y & Hy & Hl). apply filter_In in Hy as (Hy & Dy). apply in_rev in Hy. unfold sts, h_stages in Hy. apply in_map_iff in Hy as (x & <- & Hx). exists x. split; [exact Hx|]. split; [exact Dy|]. apply in_concat. exists l. split; [exact Hl|exact Hi].
      - intros (x & Hx & Dx & Hi). apply in_concat in Hi as (l & Hl & Hi). exists l. split; [|exact Hi]. apply in_flat_map. exists (mk x). split; [|exact Hl]. apply filter_In. split; [|exact Dx]. apply -> in_rev. unfold sts, h_stages. apply in_map_iff. exists x. split; [reflexivity|exact Hx]. }
    assert (PC : forall i e r, (In i (block a) \/ In i (concat Ps)) -> isin eqs i e -> In r (e_rhs e) -> cov vdims a en0 (p_var r) (p_step r) (po vdims r) /\ dist (vdims (p_var r)) (po vdims r) <= v_l1 (en0 (p_var r))).
    { intros i e r Hi He Hr. apply (phase1_cov vdims eqs Wv We sdep sts (mk a) i e r Hst Hs); [|exact He|exact Hr]. apply in_or_app. destruct Hi as [Hi|Hi]; [left; exact Hi|right].
      apply PIN in Hi as (x & Hx & Dx & Hi). apply in_concat in Hi as (l & Hl & Hi). apply in_concat. exists l. split; [|exact Hi]. apply in_flat_map. exists (mk x). split; [|exact Hl]. apply filter_In. split; [|exact Dx]. unfold sts, h_stages. apply in_map_iff. exists x. split; [reflexivity|exact Hx]. }
    assert (FS : forall e j, feeds eqs scr e j -> exists x, In x (g_all (c_grp (st_clus ss))) /\ In j (block x)).
    { intros e j (r & e' & _ & Sr & Hj & L). apply (F1 j e' Hj). rewrite L. exact Sr. }
    assert (HC : forall i e j, In i (block a) -> isin eqs i e -> feeds eqs scr e j -> In j (concat Ps)).
    { intros i e j Hi He Hf. destruct (FS e j Hf) as (x & Hx & Hj). apply PIN. exists x. split; [exact Hx|]. split; [|exact Hj]. exact (F3 a x i j e Ha Hx Hi Hj He Hf). }
    assert (HO : forall A p B i e j, Ps = A ++ p :: B -> In i p -> isin eqs i e -> feeds eqs scr e j -> In j (concat B)).
    { intros A p B i e j EP Hi He Hf. unfold Ps, scratch_parts in EP. apply flat_map_split in EP as (l1 & y & l2 & u & w & El & Ey & ->). apply filter_split in El as (m1 & m2 & Em & E1 & E2 & Dy).
      assert (Es : sts = rev m2 ++ y :: rev m1) by (rewrite <- (rev_involutive sts), Em, rev_app_distr; cbn; rewrite <- app_assoc; reflexivity).
      unfold sts, h_stages in Es. apply map_eq_app in Es as (S1 & S2' & Eg & M1 & M2). apply map_eq_cons in M2 as (b0 & S2 & -> & <- & M2).
      assert (Hib : In i (block b0)) by (apply in_concat; exists p; split; [change (map (c_get (c_items (ps_clus ps))) (c_get (c_items (st_clus ss)) b0)) with (sg_parts (mk b0)); unfold mk, items, sitems; rewrite Ey; apply in_elt|exact Hi]).
      destruct (F5 S1 b0 S2 i j e Eg Hib He Hf) as (N1 & N2). destruct (FS e j Hf) as (x & Hx & Hj).
      assert (Hb0 : In b0 (g_all (c_grp (st_clus ss)))) by (rewrite Eg; apply in_elt).
      cbn [sg_id] in Dy. assert (Hx1 : In x S1).
      { rewrite Eg in Hx. apply in_app_or in Hx as [Hx|[<-|Hx]]; [exact Hx|contradiction|exfalso; exact (N2 x Hx Hj)]. }
      assert (Dx : sdep a x = true) by (apply (F4 a b0 x Dy); exact (F3 b0 x i j e Hb0 Hx Hib Hj He Hf)).
      assert (Hm : In (mk x) l2) by (rewrite E2; apply filter_In; split; [apply in_rev; rewrite <- M1; unfold mk, items, sitems; apply in_map_iff; exists x; split; [reflexivity|exact Hx1]|exact Dx]).
      rewrite concat_app. apply in_or_app. right. apply in_concat in Hj as (l & Hl & Hj). apply in_concat. exists l. split; [|exact Hj]. apply in_flat_map. exists (mk x). split; [exact Hm|exact Hl]. }
    assert (Epos : forall i, In i (block a) -> 0 <= i) by (intros i Hi; destruct (F2 a i Ha Hi) as (e & (Pi & _)); exact Pi).
    destruct (chain_after vdims eqs Wv We sdep scr a Ps (fun i => In i (block a)) en0 Ok0 Epos (fun i e r Hi => PC i e r (or_introl Hi)) (fun i e r Hi He Hr => proj2 (PC i e r (or_intror Hi) He Hr)) HC HO b v s o Hc) as (X1 & X2).
    change (after vdims eqs a en0 Ps) with (shadows vdims eqs sdep sts en0 a) in X1, X2.
    assert (AO : forall y, eok (fst (shadows vdims eqs sdep sts en0 y)) /\ forall w, ~ In w (snd (shadows vdims eqs sdep sts en0 y)) -> fst (shadows vdims eqs sdep sts en0 y) w = en0 w) by (intros y; apply (after_ok vdims eqs Wv We sdep y en0 Ok0 (scratch_parts sdep sts y))).
    assert (FA : forall (l : list stg) en1, eok en1 -> let enF := fold_left apply_shadows (map (fun st : stg => shadows vdims eqs sdep sts en0 (sg_id st)) l) en1 in
      eok enF /\ ele en1 enF /\ forall st w, In st l -> In w (snd (shadows vdims eqs sdep sts en0 (sg_id st))) -> vle (fst (shadows vdims eqs sdep sts en0 (sg_id st)) w) (enF w)).
    { induction l as [|y l IH]; intros en1 E1; cbn [map fold_left]; [split; [exact E1|]; split; [apply ele_refl|intros ? ? []]|].
      destruct (apply_ok en1 (shadows vdims eqs sdep sts en0 (sg_id y)) E1 (proj1 (AO _))) as (P1 & P2 & P3). destruct (IH _ P1) as (Q1 & Q2 & Q3). cbv zeta in *. split; [exact Q1|]. split; [eapply ele_trans; eassumption|].
      intros st w [<-|Hst'] Hw; [eapply vle_trans; [apply P3; exact Hw|apply Q2]|apply Q3; assumption]. }
    destruct (FA (filter (fun st => negb (sg_scr st)) sts) en0 Ok0) as (Q1 & Q2 & Q3). cbv zeta in *.
    change (fold_left apply_shadows (map (fun st0 => shadows vdims eqs sdep sts en0 (sg_id st0)) (filter (fun st0 => negb (sg_scr st0)) sts)) en0) with en in Q1, Q2, Q3.
    assert (Hf : In (mk a) (filter (fun st => negb (sg_scr st)) sts)) by (apply filter_In; split; [exact Hst|cbn; rewrite Hs; reflexivity]).
    assert (L : vle (fst (shadows vdims eqs sdep sts en0 a) v) (en v)).
    { destruct (in_dec Z.eq_dec v (snd (shadows vdims eqs sdep sts en0 a))) as [I|N]; [exact (Q3 (mk a) v Hf I)|]. rewrite (proj2 (AO a) v N). apply Q2. }
    split; [apply Q1|]. split; [eapply covp_le; [exact L|exact X1]|]. intros Hb. specialize (X2 Hb). destruct L as (_ & L). lia.
  Qed.

  Lemma reads_chain : forall a v s o, reads scr vdims eqs (fun i => In i (block a)) v s o -> chain vdims eqs scr (fun i => In i (block a)) false v s o.
  Proof.
    intros a v s o H. induction H as [i e r Hi He Hr|v s o j e r H IH Sv Pj Ej Lj Hr].
    - eapply (ch_eq vdims eqs scr); eassumption.
    - eapply (ch_scr vdims eqs scr); try eassumption. discriminate.
  Qed.

  Theorem halos_cover : forall a v s o, In a (g_all (c_grp (st_clus ss))) -> nth (Z.to_nat a) (st_scr ss) false = false ->
    reads scr vdims eqs (fun i => In i (block a)) v s o -> forall x, In x (vdims v) ->
    let h := calc_halos vdims eqs (h_sdep ss) (h_stages ps ss) v in
    - halo_at a true (step_of s) x h <= o x <= halo_at a false (step_of s) x h /\
    - halo_size x true h <= o x <= halo_size x false h.
  Proof.
    intros a v s o Ha Hs H x Hx h. apply reads_chain in H. destruct (calc_chain a false v s o Ha Hs H) as (V & C & _). cbv zeta in *. fold sts sdep in h. fold h in V. specialize (C x Hx). fold h in C.
    change (halo_at a true (step_of s) x h) with (hget (a, true, step_of s) x (v_halos h)). change (halo_at a false (step_of s) x h) with (hget (a, false, step_of s) x (v_halos h)).
    split; [exact C|]. pose proof (halo_size_ok a true (step_of s) x h V). pose proof (halo_size_ok a false (step_of s) x h V). lia.
  Qed.

  (* C33: at every point of the domain *)
  Theorem halos_cover_box : forall a v s o lo hi x, In a (g_all (c_grp (st_clus ss))) -> nth (Z.to_nat a) (st_scr ss) false = false ->
    reads scr vdims eqs (fun i => In i (block a)) v s o -> forall k, In k (vdims v) -> lo k <= x k < hi k ->
    let h := calc_halos vdims eqs (h_sdep ss) (h_stages ps ss) v in
    lo k - halo_at a true (step_of s) k h <= x k + o k < hi k + halo_at a false (step_of s) k h /\
    lo k - halo_size k true h <= x k + o k < hi k + halo_size k false h.
  Proof. intros a v s o lo hi x Ha Hs H k Hk Hx h. pose proof (halos_cover a v s o Ha Hs H k Hk) as C. cbv zeta in C. fold h in C. lia. Qed.

  Lemma plain_chain : forall a v s o, plain_reads scr vdims eqs (fun i => In i (block a)) v s o -> chain vdims eqs scr (fun i => In i (block a)) true v s o.
  Proof.
    intros a v s o H. induction H as [i e r Hi He Hr|v s o j e r H IH Sv Pj Ej Lj Hr NC].
    - eapply (ch_eq vdims eqs scr); eassumption.
    - eapply (ch_scr vdims eqs scr); try eassumption. intros _. exact NC.
  Qed.
  Lemma outside_dist : forall dims lo hi x o, (forall k, In k dims -> lo k <= x k < hi k) -> outside dims lo hi (fun k => x k + o k) <= dist dims o.
  Proof. intros dims lo hi x o H. unfold outside, dist. apply inj_le, filter_len_le. intros k Hk N. specialize (H k Hk). lia. Qed.
  Theorem l1_cover : forall a v s o lo hi x, In a (g_all (c_grp (st_clus ss))) -> nth (Z.to_nat a) (st_scr ss) false = false ->
    plain_reads scr vdims eqs (fun i => In i (block a)) v s o -> (forall k, In k (vdims v) -> lo k <= x k < hi k) ->
    outside (vdims v) lo hi (fun k => x k + o k) <= v_l1 (calc_halos vdims eqs (h_sdep ss) (h_stages ps ss) v).
  Proof.
    intros a v s o lo hi x Ha Hs H Hx. apply plain_chain in H. destruct (calc_chain a true v s o Ha Hs H) as (_ & _ & D). cbv zeta in D. specialize (D eq_refl). pose proof (outside_dist (vdims v) lo hi x o Hx). fold sts sdep. lia.
  Qed.
  Theorem l1_cover_1d : (forall v, (length (vdims v) <= 1)%nat) -> forall a v s o lo hi x, In a (g_all (c_grp (st_clus ss))) -> nth (Z.to_nat a) (st_scr ss) false = false ->
    reads scr vdims eqs (fun i => In i (block a)) v s o -> (forall k, In k (vdims v) -> lo k <= x k < hi k) ->
    outside (vdims v) lo hi (fun k => x k + o k) <= v_l1 (calc_halos vdims eqs (h_sdep ss) (h_stages ps ss) v).
  Proof.
    intros L a v s o lo hi x Ha Hs H. apply (l1_cover a v s o lo hi x Ha Hs). clear x. induction H as [i e r Hi He Hr|v s o j e r H IH Sv Pj Ej Lj Hr]; [eapply plain_eq; eassumption|eapply plain_scratch; try eassumption]. do 4 right. apply L.
  Qed.
End BuildH.
