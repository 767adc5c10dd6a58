From Verif Require Import Base Idiv_Model Resize_Model Alloc_Model Alloc_Spec.
From Coq Require Import ZifyBool.

Lemma resv_ge : forall n, 0 <= n -> n + 192 <= resv n /\ exists q, resv n = 64 * q.
Proof.
  intros n H. unfold resv, ROUND_UP, CEIL_DIV, data_buf_pad, CACHELINE_BYTES.
  replace (n + 64 * 3 + 64 - 1) with (n + 255) by lia. rewrite Z.quot_div_nonneg by lia.
  pose proof (Z.div_mod (n + 255) 64). pose proof (Z.mod_pos_bound (n + 255) 64).
  split; [lia|]. exists ((n + 255) / 64). lia.
Qed.
Lemma akey_eqb_eq : forall a b, akey_eqb a b = true <-> a = b.
Proof. intros [a1 a2] [b1 b2]. unfold akey_eqb. cbn [fst snd]. rewrite andb_true_iff, !Z.eqb_eq. split; [intros [-> ->]; reflexivity|intros [= -> ->]; auto]. Qed.
Lemma akey_eqb_refl : forall a, akey_eqb a a = true.
Proof. intros. apply akey_eqb_eq. reflexivity. Qed.
Lemma akey_eqb_ne : forall a b, a <> b -> akey_eqb a b = false.
Proof. intros. destruct (akey_eqb a b) eqn:E; [apply akey_eqb_eq in E; contradiction|reflexivity]. Qed.
Lemma akey_dec : forall a b : akey, a = b \/ a <> b.
Proof. intros. destruct (akey_eqb a b) eqn:E; [left; apply akey_eqb_eq, E|right; intros ->; rewrite akey_eqb_refl in E; discriminate]. Qed.
Lemma kadd_same : forall m k n, kadd m k n k = m k + n.
Proof. intros. unfold kadd. rewrite akey_eqb_refl. reflexivity. Qed.
Lemma kadd_ge : forall m k n k', 0 <= n -> m k' <= kadd m k n k'.
Proof. intros. unfold kadd. destruct (akey_eqb k' k); lia. Qed.

(* Ranges with room for the padding after each. *)
Definition padded (e : akey * Z * Z) : range := let '(k, o, n) := e in (k, o, n + 192).
Definition placed (m : kmap) (es : list (akey * Z * Z)) : Prop :=
  (forall k, 0 <= m k /\ exists q, m k = 64 * q) /\
  Forall (fun e => inside m (padded e) /\ line_aligned (padded e)) es /\
  ForallOrdPairs (fun a b => disjoint (padded a) (padded b)) es.
Lemma FOP_snoc : forall A (R : A -> A -> Prop) l x, ForallOrdPairs R l -> Forall (fun a => R a x) l -> ForallOrdPairs R (l ++ [x]).
Proof.
  intros A R l x H. induction H; intros F; cbn.
  - repeat constructor.
  - inversion F; subst. constructor; [apply Forall_app; auto|auto].
Qed.
Lemma placed_nil : placed k0 [].
Proof. split; [|split; constructor]. intros k. unfold k0. split; [lia|]. exists 0. lia. Qed.
Lemma placed_snoc : forall m es k n, placed m es -> 0 <= n -> placed (kadd m k (resv n)) (es ++ [(k, m k, n)]).
Proof.
  intros m es k n (A & B & C) Hn. destruct (resv_ge n Hn) as [R (q & Rq)].
  split; [|split].
  - intros k'. destruct (A k') as [A1 (q1 & A2)]. unfold kadd. destruct (akey_eqb k' k); [|eauto].
    split; [lia|]. exists (q1 + q). lia.
  - apply Forall_app. split.
    + eapply Forall_impl; [|exact B]. intros [[k1 o1] n1]. cbn. intros [[I1 I2] L]. split; [|exact L]. split; [exact I1|].
      pose proof (kadd_ge m k (resv n) k1). lia.
    + constructor; [|constructor]. cbn. destruct (A k) as [A1 A2]. rewrite kadd_same. split; [lia|exact A2].
  - apply FOP_snoc; [exact C|]. eapply Forall_impl; [|exact B]. intros [[k1 o1] n1]. cbn. intros [[I1 I2] L].
    destruct (akey_dec k1 k) as [->|N]; [|left; exact N]. right. left. exact I2.
Qed.
Lemma FOP_in : forall A (R : A -> A -> Prop) l, ForallOrdPairs R l -> forall a b, In a l -> In b l -> a = b \/ R a b \/ R b a.
Proof.
  intros A R l H. induction H; intros x y Ix Iy; [destruct Ix|].
  rewrite Forall_forall in H. destruct Ix as [->|Ix], Iy as [->|Iy]; auto.
Qed.

Lemma FOP_map : forall A B (f : A -> B) (R : B -> B -> Prop) l, ForallOrdPairs R (map f l) -> ForallOrdPairs (fun a b => R (f a) (f b)) l.
Proof.
  intros A B f R l. induction l as [|x l IH]; cbn; intros H; [constructor|]. inversion H; subst. rewrite Forall_map in H2. constructor; auto.
Qed.

(* ---- alloc_var_data ---- *)
Definition ventry (e : vrq * (akey * Z)) : akey * Z * Z := (fst (snd e), snd (snd e), v_bytes (fst e)).
Lemma var_pass0 : forall bundle vars s, vs_at s = [] -> (forall v, In v vars -> 0 <= v_bytes v) ->
  exists s0, rfold (var_step bundle None) vars s = Ok s0 /\ forall k, vs_bytes s k <= vs_bytes s0 k.
Proof.
  intros bundle vars. induction vars as [|v vars IH]; intros s Ha Hb; cbn [rfold].
  - exists s. split; [reflexivity|]. intros; lia.
  - unfold var_step at 1. rewrite Ha. cbn [existsb]. rewrite orb_false_r. destruct (v_has v); cbn [rbind].
    + apply IH; [exact Ha|]. intros; apply Hb; right; assumption.
    + match goal with |- context [rfold _ vars ?s'] => destruct (IH s') as (s0 & E & M) end.
      { reflexivity. } { intros; apply Hb; right; assumption. }
      exists s0. split; [exact E|]. intros k. specialize (M k). cbn [vs_bytes] in M.
      destruct (resv_ge (v_bytes v) (Hb v (or_introl eq_refl))) as [R _]. specialize (Hb v (or_introl eq_refl)).
      eapply Z.le_trans; [|exact M]. apply kadd_ge. lia.
Qed.
Lemma not_placed : forall (l : list (vrq * (akey * Z))) v, ~ In (v_id v) (map (fun e => v_id (fst e)) l) -> existsb (fun e => v_id (fst e) =? v_id v) l = false.
Proof.
  intros l v H. destruct (existsb _ l) eqn:E; [|reflexivity]. apply existsb_exists in E. destruct E as (e & I & Q).
  exfalso. apply H. apply in_map_iff. exists e. split; [lia|exact I].
Qed.
Lemma var_pass1 : forall bundle (c : kmap) vars s s' s0, vs_at s = [] -> vs_seq s' = vs_seq s -> (forall k, vs_bytes s' k = vs_bytes s k) ->
  (forall v, In v vars -> 0 <= v_bytes v) -> NoDup (map v_id vars) ->
  (forall v, In v vars -> ~ In (v_id v) (map (fun e => v_id (fst e)) (vs_at s'))) ->
  rfold (var_step bundle None) vars s = Ok s0 -> (forall k, vs_bytes s0 k <= c k) ->
  placed (vs_bytes s') (map ventry (vs_at s')) ->
  exists s1, rfold (var_step bundle (Some c)) vars s' = Ok s1 /\ (forall k, vs_bytes s1 k = vs_bytes s0 k) /\
    placed (vs_bytes s1) (map ventry (vs_at s1)) /\
    exists l, vs_at s1 = vs_at s' ++ l /\ map fst l = filter (fun v => negb (v_has v)) vars /\ Forall (fun e => fst (fst (snd e)) = v_numa (fst e)) l.
Proof.
  intros bundle c vars. induction vars as [|v vars IH]; intros s s' s0 Ha Hs Hk Hb Hn Hi E Hc HP; cbn [rfold] in E |- *.
  - injection E as <-. exists s'. split; [reflexivity|]. split; [exact Hk|]. split; [exact HP|]. exists []. rewrite app_nil_r. auto.
  - unfold var_step at 1 in E. rewrite Ha in E. cbn [existsb] in E. rewrite orb_false_r in E.
    unfold var_step at 1. rewrite (not_placed _ _ (Hi v (or_introl eq_refl))), orb_false_r.
    inversion Hn as [|? ? Nv Hn']; subst. cbn [filter].
    destruct (v_has v); cbn [rbind negb] in *.
    + apply (IH s s' s0 Ha Hs Hk); auto; intros; [apply Hb|apply Hi]; right; assumption.
    + set (seq := if bundle then vs_seq s else vs_seq s + 1) in *.
      replace (if bundle then vs_seq s' else vs_seq s' + 1) with seq by (subst seq; rewrite Hs; reflexivity).
      set (k := (v_numa v, seq)) in *. pose proof (Hb v (or_introl eq_refl)) as Hv. destruct (resv_ge _ Hv) as [R _].
      destruct (var_pass0 bundle vars (mkVs seq (kadd (vs_bytes s) k (resv (v_bytes v))) [])) as (s00 & E0 & M0).
      { reflexivity. } { intros; apply Hb; right; assumption. }
      assert (s00 = s0) as -> by congruence.
      specialize (M0 k) as Mk. cbn [vs_bytes] in Mk. rewrite kadd_same in Mk.
      destruct HP as (P1 & P2 & P3). pose proof (proj1 (P1 k)) as Pk. rewrite Hk in Pk.
      replace (c k =? 0) with false by (specialize (Hc k); lia). cbn [rbind].
      destruct (IH (mkVs seq (kadd (vs_bytes s) k (resv (v_bytes v))) []) (mkVs seq (kadd (vs_bytes s') k (resv (v_bytes v))) (vs_at s' ++ [(v, (k, vs_bytes s' k))])) s0)
        as (s1 & E1 & B1 & Q1 & l & L1 & L2 & L3); cbn [vs_at vs_seq vs_bytes]; auto.
      * intros k'. unfold kadd. rewrite Hk. reflexivity.
      * intros; apply Hb; right; assumption.
      * intros u Iu. rewrite map_app, in_app_iff. cbn. intros [H|[H|[]]]; [apply (Hi u (or_intror Iu) H)|].
        apply Nv. rewrite H. apply in_map, Iu.
      * rewrite map_app. cbn [map ventry fst snd]. apply placed_snoc; [|exact Hv]. split; [exact P1|split; [exact P2|exact P3]].
      * exists s1. split; [exact E1|]. split; [exact B1|]. split; [exact Q1|]. exists ((v, (k, vs_bytes s' k)) :: l).
        cbn [vs_at] in L1. rewrite L1, <- app_assoc. split; [reflexivity|]. cbn [map fst]. rewrite L2. split; [reflexivity|].
        constructor; [reflexivity|exact L3].
Qed.

(* the part of [padded] that is the data *)
Lemma padded_disjoint : forall k o n k' o' n', disjoint (padded (k, o, n)) (padded (k', o', n')) -> disjoint (k, o, n) (k', o', n').
Proof. cbn. intros. destruct H as [H|[H|H]]; [left; exact H|right; lia..]. Qed.

Definition vrange (e : vrq * (akey * Z)) : range := (fst (snd e), snd (snd e), v_bytes (fst e)).
Lemma alloc_vars_ok : forall bundle vars, NoDup (map v_id vars) -> (forall v, In v vars -> 0 <= v_bytes v) ->
  exists chunks at_, alloc_var_data bundle vars = Ok (chunks, at_) /\
    map fst at_ = filter (fun v => negb (v_has v)) vars /\
    Forall (fun e => fst (fst (snd e)) = v_numa (fst e)) at_ /\
    Forall (fun e => inside chunks (vrange e) /\ line_aligned (vrange e)) at_ /\
    ForallOrdPairs (fun a b => disjoint (vrange a) (vrange b)) at_.
Proof.
  intros bundle vars Hn Hb. unfold alloc_var_data.
  destruct (var_pass0 bundle vars (mkVs 0 k0 []) eq_refl Hb) as (s0 & E0 & _). rewrite E0. cbn [rbind].
  destruct (var_pass1 bundle (vs_bytes s0) vars (mkVs 0 k0 []) (mkVs 0 k0 []) s0) as (s1 & E1 & B1 & (P1 & P2 & P3) & l & L1 & L2 & L3);
    auto; try reflexivity.
  all: try apply placed_nil. all: try (intros; lia).
    rewrite E1. cbn [rbind]. cbn [vs_at app] in L1. exists (vs_bytes s0), (vs_at s1). rewrite L1 in *. split; [reflexivity|].
  split; [exact L2|]. split; [exact L3|]. split.
  - rewrite Forall_map in P2. eapply Forall_impl; [|exact P2]. intros [v [k o]]. unfold ventry, vrange. cbn. rewrite B1.
    intros [I L]. split; [lia|exact L].
  - clear - P3. induction l as [|a l IH]; [constructor|]. cbn [map] in P3. inversion P3; subst. constructor; [|auto].
    rewrite Forall_map in H1. eapply Forall_impl; [|exact H1]. intros b. unfold ventry. destruct a as [u [k o]], b as [v [k' o']]. apply padded_disjoint.
Qed.

(* sorting *)
Lemma inb_In : forall x l, inb x l = true <-> In x l.
Proof. intros. unfold inb. rewrite existsb_exists. split; [intros (y & I & E); assert (x = y) by lia; subst; exact I|intros I; exists x; split; [exact I|lia]]. Qed.
Lemma sort_fold : forall l out done, NoDup out -> (forall x, In x done <-> In x out) ->
  let '(out', done') := fold_left sort_step l (out, done) in
  NoDup out' /\ (forall x, In x done' <-> In x out') /\ (forall x, In x out' <-> In x out \/ In x l) /\ exists r, out' = out ++ r.
Proof.
  induction l as [|v l IH]; intros out done Hn Hd; cbn [fold_left].
  - split; [exact Hn|]. split; [exact Hd|]. split; [intros; cbn; tauto|]. exists []. rewrite app_nil_r. reflexivity.
  - unfold sort_step at 2. destruct (inb v done) eqn:E.
    + specialize (IH out done Hn Hd). destruct (fold_left _ _ _) as [o d]. destruct IH as (A & B & C & D). split; [exact A|]. split; [exact B|].
      split; [|exact D]. intros x. rewrite C. cbn. apply inb_In in E. apply Hd in E. split; [tauto|]. intros [H|[<-|H]]; auto.
    + assert (~ In v out) as Nv. { intros H. apply Hd in H. apply inb_In in H. congruence. }
      specialize (IH (out ++ [v]) (v :: done)). destruct (fold_left _ _ _) as [o d].
      destruct IH as (A & B & C & r & D).
      * apply Permutation_NoDup with (l := v :: out).
        -- apply Permutation_cons_append. -- constructor; assumption.
      * intros x. rewrite in_app_iff. cbn. rewrite Hd. tauto.
      * split; [exact A|]. split; [exact B|]. split.
        -- intros x. rewrite C, in_app_iff. cbn. tauto.
        -- exists (v :: r). rewrite D, <- app_assoc. reflexivity.
Qed.
Lemma sorted_vars_ok : forall outs origs alls, NoDup outs ->
  NoDup (sorted_vars outs origs alls) /\ (forall v, In v (sorted_vars outs origs alls) <-> In v outs \/ In v origs \/ In v alls) /\
  exists a b, sorted_vars outs origs alls = outs ++ a ++ b /\ forall v, In v a -> In v origs.
Proof.
  intros outs origs alls Hn. unfold sorted_vars.
  pose proof (sort_fold origs outs outs Hn (fun x => iff_refl _)) as H1. destruct (fold_left sort_step origs _) as [o1 d1].
  destruct H1 as (A1 & B1 & C1 & r1 & D1). pose proof (sort_fold alls o1 d1 A1 B1) as H2. destruct (fold_left sort_step alls _) as [o2 d2].
  destruct H2 as (A2 & B2 & C2 & r2 & D2). cbn [fst]. split; [exact A2|]. split; [intros v; rewrite C2, C1; tauto|].
  exists r1, r2. split; [rewrite D2, D1, app_assoc; reflexivity|].
  intros v Iv. assert (In v o1) as I by (rewrite D1; apply in_or_app; right; exact Iv). apply C1 in I. destruct I as [I|I]; [|exact I].
  exfalso. rewrite D1 in A1. apply in_split in I. destruct I as (x & y & ->). rewrite <- app_assoc in A1. cbn in A1.
  apply NoDup_remove_2 in A1. apply A1. rewrite !in_app_iff. tauto.
Qed.

(* ---- alloc_mpi_data ---- *)
Definition bentry (e : brq * (akey * Z)) : akey * Z * Z := (fst (snd e), snd (snd e), b_bytes (fst e)).
Definition in_own (b : brq) : bool := negb (b_bytes b =? 0) && use_mine b.
Lemma buf_pass0 : forall numa bufs s, (forall b, In b bufs -> 0 <= b_bytes b) ->
  exists s0, rfold (buf_step numa None) bufs s = Ok s0 /\ forall k, ms_bytes s k <= ms_bytes s0 k.
Proof.
  intros numa bufs. induction bufs as [|b bufs IH]; intros s Hb; cbn [rfold].
  - exists s. split; [reflexivity|]. intros; lia.
  - assert (forall x, In x bufs -> 0 <= b_bytes x) as Hb' by (intros; apply Hb; right; assumption).
    specialize (Hb b (or_introl eq_refl)). destruct (resv_ge _ Hb) as [R _].
    unfold buf_step at 1. destruct (b_bytes b =? 0); cbn [rbind]; [apply IH, Hb'|].
    destruct (use_mine b); cbn [negb rbind]; [|apply IH, Hb'].
    match goal with |- context [rfold _ bufs ?s'] => destruct (IH s' Hb') as (s0 & E & M) end.
    exists s0. split; [exact E|]. intros k. specialize (M k). cbn [ms_bytes] in M. eapply Z.le_trans; [|exact M]. apply kadd_ge. lia.
Qed.
(* the table holds exactly the offsets of the buffers for members of the group *)
Definition tab_ok (t : list (Z * Z * Z)) (at_ : list (brq * (akey * Z))) : Prop :=
  forall v to o, In (v, to, o) t <-> exists b k, In (b, (k, o)) at_ /\ b_var b = v /\ b_shm b = Some to.
Lemma buf_pass1 : forall numa (c : kmap) bufs s s' s0, (forall k, ms_bytes s' k = ms_bytes s k) ->
  (forall b, In b bufs -> 0 <= b_bytes b) ->
  rfold (buf_step numa None) bufs s = Ok s0 -> (forall k, ms_bytes s0 k <= c k) ->
  placed (ms_bytes s') (map bentry (ms_at s')) -> tab_ok (ms_ofs s') (ms_at s') ->
  exists s1, rfold (buf_step numa (Some c)) bufs s' = Ok s1 /\ (forall k, ms_bytes s1 k = ms_bytes s0 k) /\
    placed (ms_bytes s1) (map bentry (ms_at s1)) /\ tab_ok (ms_ofs s1) (ms_at s1) /\
    exists l, ms_at s1 = ms_at s' ++ l /\ map fst l = filter in_own bufs /\ Forall (fun e => fst (snd e) = b_key numa (fst e)) l.
Proof.
  intros numa c bufs. induction bufs as [|b bufs IH]; intros s s' s0 Hk Hb E Hc HP HT; cbn [rfold] in E |- *.
  - injection E as <-. exists s'. split; [reflexivity|]. split; [exact Hk|]. split; [exact HP|]. split; [exact HT|]. exists []. rewrite app_nil_r. auto.
  - assert (forall x, In x bufs -> 0 <= b_bytes x) as Hb' by (intros; apply Hb; right; assumption).
    pose proof (Hb b (or_introl eq_refl)) as Hv. destruct (resv_ge _ Hv) as [R _].
    unfold buf_step at 1 in E. unfold buf_step at 1. cbn [filter]. unfold in_own at 1.
    destruct (b_bytes b =? 0) eqn:Eb; cbn [negb andb rbind] in *; [apply (IH s s' s0); auto|].
    destruct (use_mine b) eqn:Eu; cbn [negb rbind] in *; [|apply (IH s s' s0); auto].
    set (k := b_key numa b) in *.
    destruct (buf_pass0 numa bufs (mkMs (kadd (ms_bytes s) k (resv (b_bytes b))) (ms_at s) (ms_ofs s)) Hb') as (s00 & E0 & M0).
    assert (s00 = s0) as -> by congruence.
    specialize (M0 k) as Mk. cbn [ms_bytes] in Mk. rewrite kadd_same in Mk.
    pose proof (proj1 (proj1 HP k)) as Pk. rewrite Hk in Pk.
    replace (c k =? 0) with false by (specialize (Hc k); lia). cbn [rbind].
    set (o := ms_bytes s' k).
    set (tab := match b_shm b with Some to => (b_var b, to, o) :: ms_ofs s' | None => ms_ofs s' end).
    destruct (IH (mkMs (kadd (ms_bytes s) k (resv (b_bytes b))) (ms_at s) (ms_ofs s)) (mkMs (kadd (ms_bytes s') k (resv (b_bytes b))) (ms_at s' ++ [(b, (k, o))]) tab) s0)
      as (s1 & E1 & B1 & Q1 & T1 & l & L1 & L2 & L3); cbn [ms_at ms_bytes ms_ofs]; auto.
    + intros k'. unfold kadd. rewrite Hk. reflexivity.
    + rewrite map_app. cbn [map bentry fst snd]. apply placed_snoc; [exact HP|exact Hv].
    + intros v to o'. subst tab. split.
      * intros H. assert (In (v, to, o') (ms_ofs s') \/ b_shm b = Some to /\ b_var b = v /\ o' = o) as [H'|(H1 & H2 & H3)].
        { destruct (b_shm b); [|auto]. destruct H as [[= -> -> ->]|H]; auto. }
        -- apply HT in H'. destruct H' as (b' & k' & I & V). exists b', k'. split; [apply in_or_app; left; exact I|exact V].
        -- subst o'. exists b, k. split; [apply in_or_app; right; left; reflexivity|auto].
      * intros (b' & k' & I & V & S). apply in_app_or in I. destruct I as [I|[[= -> -> ->]|[]]].
        -- assert (In (v, to, o') (ms_ofs s')) by (apply HT; exists b', k'; auto). destruct (b_shm b); [right; assumption|assumption].
        -- rewrite S, V. left. reflexivity.
    + exists s1. split; [exact E1|]. split; [exact B1|]. split; [exact Q1|]. split; [exact T1|]. exists ((b, (k, o)) :: l).
      cbn [ms_at] in L1. rewrite L1, <- app_assoc. split; [reflexivity|]. cbn [map fst]. rewrite L2. split; [reflexivity|].
      constructor; [reflexivity|exact L3].
Qed.

(* a buffer with the lock after it: SimpleLock has three cache lines, utils.hpp:43-58 *)
Definition brange (e : brq * (akey * Z)) : range := (fst (snd e), snd (snd e), b_bytes (fst e) + 192).
Lemma alloc_mpi_all : forall numa bufs, (forall b, In b bufs -> 0 <= b_bytes b) ->
  exists chunks at_ tab, alloc_mpi_own numa bufs = Ok (chunks, at_, tab) /\
    map fst at_ = filter in_own bufs /\
    Forall (fun e => fst (snd e) = b_key numa (fst e)) at_ /\
    Forall (fun e => inside chunks (brange e) /\ line_aligned (brange e)) at_ /\
    ForallOrdPairs (fun a b => disjoint (brange a) (brange b)) at_ /\ tab_ok tab at_.
Proof.
  intros numa bufs Hb. unfold alloc_mpi_own.
  destruct (buf_pass0 numa bufs (mkMs k0 [] []) Hb) as (s0 & E0 & _). rewrite E0. cbn [rbind].
  destruct (buf_pass1 numa (ms_bytes s0) bufs (mkMs k0 [] []) (mkMs k0 [] []) s0) as (s1 & E1 & B1 & (P1 & P2 & P3) & T1 & l & L1 & L2 & L3); auto.
  { intros; lia. } { apply placed_nil. } { intros v to o. cbn. split; [tauto|]. intros (b & k & [] & _). }
  rewrite E1. cbn [rbind]. cbn [ms_at app] in L1. exists (ms_bytes s0), (ms_at s1), (ms_ofs s1). rewrite L1 in *. split; [reflexivity|].
  split; [exact L2|]. split; [exact L3|]. split; [|split; [|exact T1]].
  - rewrite Forall_map in P2. eapply Forall_impl; [|exact P2]. intros [v [k o]]. unfold bentry, brange. cbn. rewrite B1. auto.
  - clear - P3. induction l as [|a l IH]; [constructor|]. cbn [map] in P3. inversion P3; subst. constructor; [|auto].
    rewrite Forall_map in H1. exact H1.
Qed.
Lemma alloc_mpi_ok : forall numa bufs, (forall b, In b bufs -> 0 <= b_bytes b) ->
  exists chunks at_ tab, alloc_mpi_own numa bufs = Ok (chunks, at_, tab) /\
    map fst at_ = filter in_own bufs /\
    Forall (fun e => fst (snd e) = b_key numa (fst e)) at_ /\
    Forall (fun e => inside chunks (brange e) /\ line_aligned (brange e)) at_ /\
    ForallOrdPairs (fun a b => disjoint (brange a) (brange b)) at_.
Proof.
  intros numa bufs Hb. destruct (alloc_mpi_all numa bufs Hb) as (c & a & t & H). exists c, a, t. tauto.
Qed.

Lemma NoDup_map_eq : forall A B (f : A -> B) l x y, NoDup (map f l) -> In x l -> In y l -> f x = f y -> x = y.
Proof.
  intros A B f l x y. induction l as [|a l IH]; cbn; [tauto|]. intros N Ix Iy E. inversion N; subst.
  destruct Ix as [->|Ix], Iy as [->|Iy]; auto.
  - exfalso. apply H1. rewrite E. apply in_map, Iy.
  - exfalso. apply H1. rewrite <- E. apply in_map, Ix.
Qed.
Definition to_group (b : brq) : bool := in_own b && match b_shm b with Some _ => true | None => false end.
Lemma shm_recv_ok : forall numa bufs chunks at_ tabs tab from me r s, (forall b, In b bufs -> 0 <= b_bytes b) ->
  NoDup (map (fun b => (b_var b, b_shm b)) (filter to_group bufs)) ->
  alloc_mpi_own numa bufs = Ok (chunks, at_, tab) -> tabs from = tab ->
  b_send r = false -> b_shm r = Some from ->
  In s bufs -> b_send s = true -> b_shm s = Some me -> b_var s = b_var r -> b_bytes s = b_bytes r -> b_bytes s <> 0 ->
  exists o, shm_recv_ofs tabs me r = Some (from, o) /\ In (s, ((shmem_key, 0), o)) at_.
Proof.
  intros numa bufs chunks at_ tabs tab from me r s Hb Hn E <- Rs Rm Is Ss Sm Sv Sb Sz.
  destruct (alloc_mpi_all numa bufs Hb) as (c & a & t & E' & A & K & _ & _ & T). rewrite E in E'. injection E' as -> -> Et.
  assert (In s (map fst a)) as Ia.
  { rewrite A. apply filter_In. split; [exact Is|]. unfold in_own, use_mine. rewrite Ss, Sm. cbn. lia. }
  apply in_map_iff in Ia. destruct Ia as ([s1 [k o]] & Q & Ia). cbn in Q. subst s1.
  pose proof (proj1 (Forall_forall _ _) K _ Ia) as Ks. cbn in Ks. unfold b_key in Ks. rewrite Sm in Ks. subst k.
  exists o. split; [|exact Ia].
  unfold shm_recv_ofs, use_mine. rewrite Rs, Rm. cbn [negb andb]. replace (b_bytes r =? 0) with false by lia. cbn [orb].
  f_equal. f_equal. rewrite Et. unfold ofs_get.
  assert (In (b_var r, me, o) t) as It. { apply T. exists s, (shmem_key, 0). auto. }
  destruct (find _ t) as [[[v' to'] o']|] eqn:F.
  - apply find_some in F. destruct F as [I F]. assert (v' = b_var r /\ to' = me) as [-> ->] by lia.
    apply T in I. destruct I as (b & k & Ib & V & S).
    assert ((b, (k, o')) = (s, ((shmem_key, 0), o))) as X; [|congruence].
    apply (NoDup_map_eq _ _ (fun e : brq * (akey * Z) => (b_var (fst e), b_shm (fst e))) (filter (fun e => to_group (fst e)) a)).
    + replace (map _ (filter _ a)) with (map (fun b => (b_var b, b_shm b)) (filter to_group (map fst a))).
      * rewrite A. clear - Hn. erewrite (filter_ext_in to_group) in Hn |- *; try (intros; reflexivity).
        replace (filter to_group (filter in_own bufs)) with (filter to_group bufs); [exact Hn|].
        clear. induction bufs as [|x l IH]; [reflexivity|]. cbn [filter].
        assert (to_group x = true -> in_own x = true) as T by (unfold to_group; rewrite andb_true_iff; tauto).
        destruct (in_own x); cbn [filter]; destruct (to_group x); try (rewrite IH; reflexivity). specialize (T eq_refl). discriminate.
      * clear. induction a as [|x l IH]; [reflexivity|]. cbn. destruct (to_group (fst x)); cbn; rewrite IH; reflexivity.
    + apply filter_In. split; [exact Ib|]. cbn. unfold to_group. rewrite S. rewrite andb_true_r.
      apply (in_map fst) in Ib. rewrite A in Ib. apply filter_In in Ib. apply Ib.
    + apply filter_In. split; [exact Ia|]. cbn. unfold to_group. rewrite Sm. rewrite andb_true_r.
      apply (in_map fst) in Ia. rewrite A in Ia. apply filter_In in Ia. apply Ia.
    + cbn. congruence.
  - exfalso. apply (find_none _ _ F) in It. cbn in It. lia.
Qed.

(* ---- alloc_scratch_data ---- *)
Section Scratch.
  Variable bundle : bool.
  Variable P : srq -> Prop.                 (* the vars at hand *)
  Hypothesis Pb : forall v, P v -> 0 <= s_bytes v.
  Hypothesis Ps : forall u v, P u -> P v -> s_slot u = s_slot v -> s_bytes u = s_bytes v.

  Lemma scr_pass0 : forall vts s, Forall (fun x => P (fst x)) vts ->
    exists s0, rfold (scr_step bundle None) vts s = Ok s0 /\ forall k, ss_bytes s k <= ss_bytes s0 k.
  Proof.
    induction vts as [|[v t] vts IH]; intros s Hv; cbn [rfold].
    - exists s. split; [reflexivity|]. intros; lia.
    - inversion Hv; subst. cbn [fst] in *. destruct (resv_ge _ (Pb _ H1)) as [R _]. pose proof (Pb _ H1). unfold scr_step at 1. cbv zeta. cbn [rbind].
      match goal with |- context [rfold _ vts ?s'] => destruct (IH s' H2) as (s0 & E & M) end.
      exists s0. split; [exact E|]. intros k. specialize (M k). cbn [ss_bytes] in M. destruct (negb _); [|exact M].
      eapply Z.le_trans; [|exact M]. apply kadd_ge. lia.
  Qed.

  (* [es]: the slots made so far *)
  Definition scr_inv (s : sst) (es : list (tns * (akey * Z * Z))) : Prop :=
    placed (ss_bytes s) (map snd es) /\ NoDup (map fst es) /\
    (forall t, In t (ss_seen s) <-> In t (map fst es)) /\
    (forall t k o n, In (t, (k, o, n)) es -> ss_slot s t = (k, o) /\ 192 <= ss_bytes s k /\ exists u, P u /\ s_slot u = snd t /\ s_bytes u = n) /\
    Forall (fun e : srq * Z * (akey * Z) => let '(v, thr, (k, o)) := e in In ((thr, s_slot v), (k, o, s_bytes v)) es) (ss_at s).

  Lemma scr_step_ok : forall s es v thr (c : kmap), scr_inv s es -> P v ->
    (forall s0, scr_step bundle None s (v, thr) = Ok s0 -> forall k, ss_bytes s0 k <= c k) ->
    exists s1 es' here, scr_step bundle (Some c) s (v, thr) = Ok s1 /\ scr_inv s1 es' /\ ss_at s1 = ss_at s ++ [(v, thr, here)].
  Proof.
    intros s es v thr c (A & N & B & C & D) Pv Hc. pose proof (Pb v Pv) as Hv. destruct (resv_ge _ Hv) as [R _].
    unfold scr_step in *. specialize (Hc _ eq_refl). cbn [ss_bytes] in Hc. cbv zeta in Hc |- *.
    destruct (existsb (akey_eqb (thr, s_slot v)) (ss_seen s)) eqn:Es; cbn [negb andb] in *.
    - apply existsb_exists in Es. destruct Es as (t & It & Et). apply akey_eqb_eq in Et. subst t. apply B in It.
      apply in_map_iff in It. destruct It as ([t [[k o] n]] & Q & It). cbn in Q. subst t.
      destruct (C _ _ _ _ It) as (S1 & S2 & u & Pu & U1 & U2). rewrite S1. cbn [fst].
      replace (c k =? 0) with false by (specialize (Hc k); lia).
      assert (n = s_bytes v) as -> by (rewrite <- U2; apply Ps; auto).
      do 3 eexists. split; [reflexivity|]. split; [|reflexivity].
      split; [exact A|]. split; [exact N|]. split; [exact B|]. split; [exact C|].
      cbn [ss_at]. apply Forall_app. split; [exact D|]. constructor; [|constructor]. exact It.
    - set (seq := if negb bundle then ss_seq s + 1 else ss_seq s) in *. set (k := (s_numa v, seq)) in *. set (t := (thr, s_slot v)) in *.
      cbn [fst]. pose proof (proj1 (proj1 A k)) as Ak. pose proof (Hc k) as Hk. rewrite kadd_same in Hk.
      replace (c k =? 0) with false by lia.
      assert (~ In t (map fst es)) as Nt.
      { intros I. apply B in I. assert (existsb (akey_eqb t) (ss_seen s) = true) by (apply existsb_exists; exists t; split; [exact I|apply akey_eqb_refl]). congruence. }
      do 3 eexists. split; [reflexivity|]. split; [|reflexivity]. instantiate (1 := es ++ [(t, (k, ss_bytes s k, s_bytes v))]).
      split; [|split; [|split; [|split]]]; cbn [ss_bytes ss_seen ss_slot ss_at].
      + rewrite map_app. cbn [map snd]. apply placed_snoc; assumption.
      + rewrite map_app. cbn. apply Permutation_NoDup with (l := t :: map fst es); [apply Permutation_cons_append|]. constructor; assumption.
      + intros t'. rewrite map_app, in_app_iff. cbn. rewrite B. tauto.
      + intros t' k' o' n' I. apply in_app_or in I. destruct I as [I|[[= <- <- <- <-]|[]]].
        * destruct (C _ _ _ _ I) as (S1 & S2 & S3). assert (t' <> t) as Ne. { intros ->. apply Nt. apply (in_map fst) in I. exact I. }
          rewrite (akey_eqb_ne t' t Ne). split; [exact S1|]. split; [|exact S3]. pose proof (kadd_ge (ss_bytes s) k (resv (s_bytes v)) k'). lia.
        * rewrite akey_eqb_refl. split; [reflexivity|]. rewrite kadd_same. split; [lia|]. exists v. auto.
      + apply Forall_app. split.
        * eapply Forall_impl; [|exact D]. intros [[v' thr'] [k' o']] I. apply in_or_app. left. exact I.
        * constructor; [|constructor]. apply in_or_app. right. left. reflexivity.
  Qed.

  Lemma scr_same : forall s s' x, ss_seq s = ss_seq s' -> (forall k, ss_bytes s k = ss_bytes s' k) -> ss_seen s = ss_seen s' -> forall c s0 s1,
    scr_step bundle None s x = Ok s0 -> scr_step bundle (Some c) s' x = Ok s1 ->
    ss_seq s0 = ss_seq s1 /\ (forall k, ss_bytes s0 k = ss_bytes s1 k) /\ ss_seen s0 = ss_seen s1.
  Proof.
    intros s s' [v thr] H1 H2 H3 c s0 s1. unfold scr_step. cbv zeta. rewrite H1, H3. intros [= <-].
    destruct (c _ =? 0); [discriminate|]. intros [= <-]. cbn [ss_seq ss_bytes ss_seen]. split; [reflexivity|]. split; [|reflexivity].
    intros k. destruct (negb _); [|apply H2]. unfold kadd. rewrite H2. reflexivity.
  Qed.

  Lemma scr_pass1 : forall vts s s' s0 (c : kmap) es, ss_seq s = ss_seq s' -> (forall k, ss_bytes s k = ss_bytes s' k) -> ss_seen s = ss_seen s' ->
    Forall (fun x => P (fst x)) vts -> scr_inv s' es ->
    rfold (scr_step bundle None) vts s = Ok s0 -> (forall k, ss_bytes s0 k <= c k) ->
    exists s1 es', rfold (scr_step bundle (Some c)) vts s' = Ok s1 /\ scr_inv s1 es' /\ (forall k, ss_bytes s0 k = ss_bytes s1 k) /\
      map fst (ss_at s1) = map fst (ss_at s') ++ vts.
  Proof.
    induction vts as [|[v thr] vts IH]; intros s s' s0 c es H1 H2 H3 Hv I E Hc; cbn [rfold] in E |- *.
    - injection E as <-. exists s', es. rewrite app_nil_r. auto.
    - inversion Hv as [|? ? Pv Hv']; subst. cbn [fst] in Pv.
      destruct (scr_step bundle None s (v, thr)) as [sa| | |] eqn:Ea; try discriminate. cbn [rbind] in E.
      destruct (scr_pass0 vts sa Hv') as (s00 & E00 & M). assert (s00 = s0) as -> by congruence.
      destruct (scr_step_ok s' es v thr c I Pv) as (sb & es' & here & Eb & Ib & Ab).
      { intros sx Ex k. assert (ss_bytes sx k = ss_bytes sa k) as ->.
        { unfold scr_step in Ex, Ea. cbv zeta in Ex, Ea. injection Ex as <-. injection Ea as <-. cbn [ss_bytes]. rewrite <- H3, <- H1.
          destruct (negb _); [|rewrite H2; reflexivity]. unfold kadd. rewrite H2. reflexivity. }
        specialize (M k). specialize (Hc k). lia. }
      rewrite Eb. cbn [rbind]. destruct (scr_same _ _ _ H1 H2 H3 _ _ _ Ea Eb) as (G1 & G2 & G3).
      destruct (IH sa sb s0 c es' G1 G2 G3 Hv' Ib E Hc) as (s1 & es1 & F1 & F2 & F3 & F4).
      exists s1, es1. split; [exact F1|]. split; [exact F2|]. split; [exact F3|]. rewrite F4, Ab, map_app, <- app_assoc. reflexivity.
  Qed.
End Scratch.

Definition srange (e : srq * Z * (akey * Z)) : range := let '(v, _, (k, o)) := e in (k, o, s_bytes v).
Definition sslot (e : srq * Z * (akey * Z)) : Z * Z := let '(v, thr, _) := e in (thr, s_slot v).
Lemma alloc_scratch_ok : forall bundle nthreads vars, (forall v, In v vars -> 0 <= s_bytes v) ->
  (forall u v, In u vars -> In v vars -> s_slot u = s_slot v -> s_bytes u = s_bytes v) ->
  exists chunks at_, alloc_scratch_data bundle nthreads vars = Ok (chunks, at_) /\
    map fst at_ = flat_map (fun v => map (fun t => (v, t)) (zseq nthreads)) vars /\
    Forall (fun e => inside chunks (srange e) /\ line_aligned (srange e)) at_ /\
    forall a b, In a at_ -> In b at_ -> if akey_eqb (sslot a) (sslot b) then snd a = snd b else disjoint (srange a) (srange b).
Proof.
  intros bundle nthreads vars Hb Hs. unfold alloc_scratch_data. set (vts := flat_map _ vars).
  assert (Forall (fun x => In (fst x) vars) vts) as Hv.
  { apply Forall_forall. intros [v t] I. subst vts. apply in_flat_map in I. destruct I as (u & Iu & I). apply in_map_iff in I. destruct I as (t' & [= <- <-] & _). exact Iu. }
  destruct (scr_pass0 bundle (fun v => In v vars) Hb vts ss0 Hv) as (s0 & E0 & _). rewrite E0. cbn [rbind].
  destruct (scr_pass1 bundle (fun v => In v vars) Hb Hs vts ss0 ss0 s0 (ss_bytes s0) []) as (s1 & es & E1 & (A & N & B & C & D) & F & G); auto.
  { split; [apply placed_nil|]. split; [constructor|]. split; [intros; cbn; tauto|]. split; [intros ? ? ? ? []|constructor]. }
  { intros; lia. }
  rewrite E1. cbn [rbind]. do 2 eexists. split; [reflexivity|]. split; [exact G|]. split.
  - apply Forall_forall. intros [[v thr] [k o]] I. pose proof (proj1 (Forall_forall _ _) D _ I) as J. cbn in J.
    destruct A as (_ & A & _). apply (in_map snd) in J. pose proof (proj1 (Forall_forall _ _) A _ J) as K. cbn in K |- *. rewrite F. split; [lia|apply K].
  - intros [[v thr] [k o]] [[v' thr'] [k' o']] I I'.
    pose proof (proj1 (Forall_forall _ _) D _ I) as J. cbn in J. pose proof (proj1 (Forall_forall _ _) D _ I') as J'. cbn in J'.
    cbn [sslot snd srange]. destruct (akey_eqb _ _) eqn:Q.
    + apply akey_eqb_eq in Q. rewrite <- Q in J'. destruct (C _ _ _ _ J) as (S1 & _). destruct (C _ _ _ _ J') as (S2 & _). congruence.
    + destruct A as (_ & _ & A).
      apply FOP_map in A. destruct (FOP_in _ _ _ A _ _ J J') as [X|[X|X]]; cbn [snd] in X.
      * exfalso. injection X as -> E2 _ _ _. rewrite E2, akey_eqb_refl in Q. discriminate.
      * apply padded_disjoint in X. exact X.
      * apply padded_disjoint in X. cbn in X |- *. destruct X as [X|[X|X]]; [left; congruence|right; lia..].
Qed.
