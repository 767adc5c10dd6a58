From Verif Require Import Base Coll_Model Coll_Spec.
From Coq Require Import ZifyBool.

Lemma at_some : forall l i x, nth_error l i = Some x -> at_ l i = x.
Proof. intros l i x H. unfold at_. apply nth_error_nth with (d := 0) in H. exact H. Qed.
Lemma some_at : forall l i, (i < length l)%nat -> nth_error l i = Some (at_ l i).
Proof. intros l i H. unfold at_. apply nth_error_nth'. exact H. Qed.
Lemma halo_some : forall v i h, nth_error (x_halo v) i = Some h -> halo_at v i = h.
Proof. intros v i h H. unfold halo_at. apply nth_error_nth with (d := None) in H. exact H. Qed.
Lemma some_halo : forall v i h, halo_at v i = Some h -> nth_error (x_halo v) i = Some (Some h).
Proof.
  intros v i h H. unfold halo_at in H. destruct (nth_error (x_halo v) i) as [x|] eqn:E.
  - apply nth_error_nth with (d := None) in E. congruence.
  - apply nth_error_None in E. rewrite nth_overflow in H by exact E. discriminate.
Qed.

Lemma at_map : forall f k i, (i < k)%nat -> at_ (map f (seq 0 k)) i = f i.
Proof.
  intros f k i H. apply at_some. apply map_nth_error. rewrite nth_error_nth' with (d := O) by (rewrite seq_length; exact H).
  rewrite seq_nth by exact H. reflexivity.
Qed.

Lemma list_at_eq : forall a b, length a = length b -> (forall i, (i < length a)%nat -> at_ a i = at_ b i) -> a = b.
Proof.
  induction a as [|x a IH]; intros [|y b] L H; try discriminate; [reflexivity|].
  f_equal; [apply (H O); cbn; lia|]. apply IH; [cbn in L; lia|]. intros i Hi. apply (H (S i)). cbn. lia.
Qed.

Lemma in_offsets : forall k o, In o (offsets k) <-> length o = k /\ Forall (fun x => x = -1 \/ x = 0 \/ x = 1) o.
Proof.
  induction k as [|k IH]; intros o.
  - cbn. split; [intros [<-|[]]; auto|]. intros (H & _). destruct o; [auto|discriminate].
  - cbn [offsets]. rewrite in_flat_map. split.
    + intros (o' & H1 & H2). apply IH in H1. destruct H1 as (L & F).
      cbn in H2. destruct H2 as [<-|[<-|[<-|[]]]]; (split; [cbn; lia|constructor; auto]).
    + intros (L & F). destruct o as [|x o]; [discriminate|]. inversion F; subst. exists o. split.
      * apply IH. split; [cbn in L; lia|assumption].
      * cbn. destruct H1 as [->|[->| ->]]; auto.
Qed.

Lemma zprod_nz : forall l, zprod l <> 0 <-> Forall (fun x => x <> 0) l.
Proof.
  induction l as [|x l IH]; cbn [zprod]; split; intros H.
  - constructor.
  - lia.
  - constructor; [intros ->; lia|]. apply IH. intros E. rewrite E in H. lia.
  - inversion H; subst. apply Z.neq_mul_0. split; [assumption|]. apply IH. assumption.
Qed.
Lemma zprod_ge : forall l, Forall (fun x => 0 <= x) l -> 0 <= zprod l.
Proof. induction l as [|x l IH]; intros H; cbn [zprod]; [lia|]. inversion H; subst. apply Z.mul_nonneg_nonneg; auto. Qed.
Lemma zsum_ge : forall l, Forall (fun x => 0 <= x) l -> 0 <= zsum l.
Proof. induction l as [|x l IH]; intros H; cbn [zsum]; [lia|]. inversion H; subst. specialize (IH H3). lia. Qed.
Lemma zsum_in_pos : forall l x, Forall (fun x => 0 <= x) l -> In x l -> x <= zsum l.
Proof.
  induction l as [|y l IH]; intros x F H; [destruct H|]. inversion F; subst. cbn [zsum]. pose proof (zsum_ge l H3).
  destruct H as [->|H]; [lia|]. specialize (IH x H3 H). lia.
Qed.

Definition unit (k i : nat) (s : Z) : list Z := map (fun j => if (j =? i)%nat then s else 0) (seq 0 k).

Lemma unit_at : forall k i s j, (j < k)%nat -> at_ (unit k i s) j = if (j =? i)%nat then s else 0.
Proof. intros. unfold unit. rewrite at_map by assumption. reflexivity. Qed.
Lemma unit_in : forall k i s, s = 1 \/ s = -1 -> In (unit k i s) (offsets k).
Proof.
  intros k i s H. apply in_offsets. split; [unfold unit; rewrite map_length, seq_length; reflexivity|].
  unfold unit. apply Forall_map. apply Forall_forall. intros j _. destruct (j =? i)%nat; lia.
Qed.
Lemma zsum_one : forall f k b i x, (b <= i < b + k)%nat -> f i = x -> (forall j, j <> i -> f j = 0) -> zsum (map f (seq b k)) = x.
Proof.
  induction k as [|k IH]; intros b i x H E Z; [lia|]. cbn [seq map zsum]. destruct (Nat.eq_dec b i) as [->|N].
  - rewrite E. assert (zsum (map f (seq (S i) k)) = 0); [|lia].
    assert (G : forall l, (forall j, In j l -> f j = 0) -> zsum (map f l) = 0).
    { induction l as [|y l IHl]; intros G; cbn; [reflexivity|]. rewrite (G y (or_introl eq_refl)), IHl; [reflexivity|]. intros j Hj; apply G; now right. }
    apply G. intros j Hj. apply in_seq in Hj. apply Z. lia.
  - rewrite (Z b N), (IH (S b) i x); [reflexivity|lia|exact E|exact Z].
Qed.

Section Job.
Variable g : job.
Hypothesis G : job_ok g.
Notation k := (ndims g).

Lemma rank_len : forall c, rank_at g c -> length c = k.
Proof using. intros c (H & _). exact H. Qed.

Lemma rank_iff : forall c, length c = k -> (rank_at g c <-> inside g c = true).
Proof using.
  intros c L. unfold rank_at, inside. rewrite forallb_forall. split.
  - intros (_ & H) i Hi. apply in_seq in Hi. unfold ndims in *.
    specialize (H i (at_ c i) (at_ (g_num g) i)). rewrite !some_at in H by lia. specialize (H eq_refl eq_refl). lia.
  - intros H. split; [exact L|]. intros i x n Hx Hn.
    assert (i < k)%nat by (rewrite <- L; apply nth_error_Some; congruence).
    specialize (H i). rewrite (at_some _ _ _ Hx), (at_some _ _ _ Hn) in H. rewrite in_seq in H. specialize (H ltac:(lia)). lia.
Qed.

Lemma plus_len : forall c o, length (plus g c o) = k.
Proof using. intros. unfold plus. rewrite map_length, seq_length. reflexivity. Qed.
Lemma plus_at : forall c o i, (i < k)%nat -> at_ (plus g c o) i = at_ c i + at_ o i.
Proof using. intros. unfold plus. rewrite at_map by assumption. reflexivity. Qed.

Lemma in_neighbors : forall c o, In o (neighbors g c) <->
  (length o = k /\ Forall (fun x => x = -1 \/ x = 0 \/ x = 1) o) /\ (exists i, (i < k)%nat /\ at_ o i <> 0) /\ rank_at g (plus g c o).
Proof using.
  intros c o. unfold neighbors. rewrite filter_In, in_offsets, andb_true_iff, existsb_exists, <- rank_iff by apply plus_len.
  split; intros (A & (i & B1 & B2) & C); (split; [exact A|]); (split; [|exact C]); exists i.
  - apply in_seq in B1. lia.
  - rewrite in_seq. lia.
Qed.

Lemma extent_ge : forall v c o s i, In v (g_vars g) -> 0 <= extent g v c o s i.
Proof using G.
  intros v c o s i Hv. unfold extent. destruct (halo_at v i) as [(l, r)|] eqn:E; [|lia].
  destruct (jo_halo g G v i l r Hv (some_halo v i _ E)). pose proof (jo_dom g G c i).
  destruct (at_ o i =? -1), (at_ o i =? 1), s; lia.
Qed.

Lemma buf_ge : forall v c o s, In v (g_vars g) -> 0 <= buf_size g v c o s.
Proof using G.
  intros v c o s Hv. unfold buf_size. destruct (x_max v <? man_dist g o); [lia|]. destruct (existsb _ _); [|lia].
  apply zprod_ge. apply Forall_map. apply Forall_forall. intros i _. apply extent_ge. exact Hv.
Qed.

Lemma buf_nz : forall v c o s, buf_size g v c o s <> 0 <->
  man_dist g o <= x_max v /\ (exists i h, (i < k)%nat /\ halo_at v i = Some h /\ at_ o i <> 0) /\
  (forall i, (i < k)%nat -> extent g v c o s i <> 0).
Proof using.
  intros v c o s. unfold buf_size. destruct (x_max v <? man_dist g o) eqn:E1; [split; [intros H; exfalso; apply H; reflexivity|lia]|].
  destruct (existsb _ _) eqn:E2.
  - rewrite zprod_nz, Forall_map, Forall_forall. apply existsb_exists in E2. destruct E2 as (i & I1 & I2). apply in_seq in I1.
    destruct (halo_at v i) as [h|] eqn:Eh; [|discriminate].
    split.
    + intros H. split; [lia|]. split; [exists i, h; repeat split; [lia|exact Eh|lia]|]. intros j Hj. apply H. apply in_seq. lia.
    + intros (_ & _ & H) j Hj. apply in_seq in Hj. apply H. lia.
  - split; [intros H; exfalso; apply H; reflexivity|]. intros (_ & (i & h & I1 & I2 & I3) & _). exfalso.
    assert (X : existsb (fun i => match halo_at v i with Some _ => negb (at_ o i =? 0) | None => false end) (seq 0 k) = true); [|congruence].
    apply existsb_exists. exists i. split; [apply in_seq; lia|]. rewrite I2. lia.
Qed.

Lemma man_unit : forall i s, (i < k)%nat -> s = 1 \/ s = -1 -> man_dist g (unit k i s) = 1.
Proof using.
  intros i s Hi Hs. unfold man_dist. rewrite (map_ext_in _ (fun j => if (j =? i)%nat then 1 else 0)).
  - apply (zsum_one _ _ _ i); [lia|rewrite Nat.eqb_refl; reflexivity|]. intros j Hj. apply Nat.eqb_neq in Hj. rewrite Hj. reflexivity.
  - intros j Hj. apply in_seq in Hj. rewrite unit_at by lia. destruct (j =? i)%nat; lia.
Qed.

(* the buffers to and from the next rank in one dim *)
Lemma unit_buf : forall v c i l r s snd, (i < k)%nat -> s = 1 \/ s = -1 -> halo_at v i = Some (l, r) -> 1 <= x_max v ->
  (if s =? 1 then (if snd : bool then l else r) else (if snd then r else l)) <> 0 -> buf_size g v c (unit k i s) snd <> 0.
Proof using G.
  intros v c i l r s snd Hi Hs Hh Hm H. apply buf_nz. split; [rewrite man_unit by assumption; lia|]. split.
  - exists i, (l, r). split; [exact Hi|]. split; [exact Hh|]. rewrite unit_at by exact Hi. rewrite Nat.eqb_refl. lia.
  - intros j Hj. unfold extent. rewrite unit_at by exact Hj. destruct (j =? i)%nat eqn:E.
    + apply Nat.eqb_eq in E. subst j. rewrite Hh. destruct Hs as [-> | ->]; cbn in *; destruct snd; exact H.
    + cbn. destruct (halo_at v j) as [(a, b)|]; [|lia]. pose proof (jo_dom g G c j). lia.
Qed.

Lemma unit_neighbor : forall c i s, length c = k -> (i < k)%nat -> s = 1 \/ s = -1 -> rank_at g c ->
  0 <= at_ c i + s < at_ (g_num g) i -> In (unit k i s) (neighbors g c).
Proof using.
  intros c i s L Hi Hs Hc H. apply in_neighbors. split; [apply in_offsets; apply unit_in; exact Hs|]. split.
  - exists i. split; [exact Hi|]. rewrite unit_at by exact Hi. rewrite Nat.eqb_refl. lia.
  - apply rank_iff; [apply plus_len|]. apply (rank_iff c L) in Hc. unfold inside in *. rewrite forallb_forall in *.
    intros j Hj. specialize (Hc j Hj). apply in_seq in Hj. rewrite plus_at, unit_at by lia.
    destruct (j =? i)%nat eqn:E; [apply Nat.eqb_eq in E; subst j|]; lia.
Qed.

Theorem same_vars : forall c v, rank_at g c -> In v (g_vars g) -> (has_data g c v = true <-> exists i, exchanged g v i).
Proof using G.
  intros c v Hc Hv. pose proof (rank_len c Hc) as L. unfold has_data. rewrite existsb_exists. split.
  - intros (o & Ho & H). apply in_neighbors in Ho. destruct Ho as ((Lo & Fo) & _ & Hp).
    assert (exists s, buf_size g v c o s <> 0) as (s & B).
    { apply orb_true_iff in H. destruct H as [H|H]; [exists true|exists false]; lia. }
    apply buf_nz in B. destruct B as (B1 & (i & (l, r) & I1 & I2 & I3) & B3).
    exists i. assert (Oi : at_ o i = -1 \/ at_ o i = 1).
    { rewrite Forall_forall in Fo. assert (X : In (at_ o i) o) by (apply nth_In; lia). specialize (Fo _ X). lia. }
    split.
    + assert (X : Z.abs (at_ o i) <= man_dist g o); [|lia]. unfold man_dist. apply zsum_in_pos.
      * apply Forall_map. apply Forall_forall. intros; lia.
      * apply in_map_iff. exists i. split; [reflexivity|]. apply in_seq. lia.
    + exists l, r, (at_ (g_num g) i). split; [apply some_halo; exact I2|]. split; [apply some_at; exact I1|].
      destruct (jo_halo g G v i l r Hv (some_halo v i _ I2)). split.
      * specialize (B3 i I1). unfold extent in B3. rewrite I2 in B3.
        destruct Oi as [Oi|Oi]; rewrite Oi in B3; cbn in B3; destruct s; lia.
      * apply (rank_iff c L) in Hc. apply (rank_iff _ (plus_len c o)) in Hp. unfold inside in *. rewrite forallb_forall in *.
        specialize (Hc i). specialize (Hp i). rewrite in_seq in *. rewrite plus_at in Hp by exact I1.
        specialize (Hc ltac:(lia)). specialize (Hp ltac:(lia)). lia.
  - intros (i & Hm & l & r & n & H1 & H2 & H3 & H4).
    assert (Hi : (i < k)%nat) by (apply nth_error_Some; congruence).
    destruct (jo_halo g G v i l r Hv H1). pose proof (halo_some _ _ _ H1) as Hh. pose proof (at_some _ _ _ H2) as Hn.
    pose proof Hc as Hc2. apply (rank_iff c L) in Hc2. unfold inside in Hc2. rewrite forallb_forall in Hc2.
    specialize (Hc2 i). rewrite in_seq in Hc2. specialize (Hc2 ltac:(lia)).
    set (s := if at_ c i + 1 <? n then 1 else -1).
    assert (Hs : s = 1 \/ s = -1) by (unfold s; destruct (at_ c i + 1 <? n); auto).
    exists (unit k i s). split.
    + apply unit_neighbor; auto. rewrite Hn in *. unfold s in *. destruct (at_ c i + 1 <? n) eqn:E; lia.
    + apply orb_true_iff.
      assert (X : buf_size g v c (unit k i s) true <> 0 \/ buf_size g v c (unit k i s) false <> 0); [|lia].
      destruct (Z.eq_dec (if s =? 1 then l else r) 0) as [E|E].
      * right. apply (unit_buf v c i l r s false); auto. destruct (s =? 1); lia.
      * left. apply (unit_buf v c i l r s true); auto.
Qed.

Lemma data_same : forall c c' v, rank_at g c -> rank_at g c' -> In v (g_vars g) -> has_data g c v = has_data g c' v.
Proof using G.
  intros c c' v H H' Hv. pose proof (same_vars c v H Hv). pose proof (same_vars c' v H' Hv).
  destruct (has_data g c v), (has_data g c' v); try reflexivity; exfalso; intuition discriminate.
Qed.

Lemma next_plus : forall c c' i, rank_at g c -> next_to c c' i -> exists s, (s = 1 \/ s = -1) /\ (i < k)%nat /\
  at_ c' i = at_ c i + s /\ plus g c (unit k i s) = c'.
Proof using.
  intros c c' i Hc (L & O & x & y & X & Y & D). pose proof (rank_len c Hc) as Lc.
  assert (Hi : (i < k)%nat) by (rewrite <- Lc; apply nth_error_Some; congruence).
  exists (y - x). split; [lia|]. split; [exact Hi|]. rewrite (at_some _ _ _ X), (at_some _ _ _ Y). split; [lia|].
  apply list_at_eq; [rewrite plus_len; lia|]. rewrite plus_len. intros j Hj. rewrite plus_at, unit_at by exact Hj.
  destruct (j =? i)%nat eqn:E.
  - apply Nat.eqb_eq in E. subst j. rewrite (at_some _ _ _ X), (at_some _ _ _ Y). lia.
  - apply Nat.eqb_neq in E. specialize (O j E). rewrite !some_at in O by lia. injection O as O. lia.
Qed.

Lemma partner : forall c, rank_at g c -> two_sided g -> has_partner g c -> shm_size g c <> 0 /\ do_shm g c = true.
Proof using G.
  intros c Hc T (v & i & c' & Hv & HE & HN & Hc' & Hnode).
  destruct (next_plus c c' i Hc HN) as (s & Hs & Hi & Hat & Hp).
  pose proof HE as (Hm & l & r & n & H1 & H2 & H3 & H4). pose proof (halo_some _ _ _ H1) as Hh.
  destruct (jo_halo g G v i l r Hv H1). pose proof (T v i l r Hv H1) as HT.
  assert (ON : on_node g c (unit k i s) = true).
  { unfold on_node. rewrite Hp. destruct (g_node g c'); [reflexivity|congruence]. }
  assert (IN : In (unit k i s) (neighbors g c)).
  { apply unit_neighbor; auto using rank_len. destruct (Hc') as (_ & X). pose proof (rank_len c' Hc').
    specialize (X i (at_ c' i) (at_ (g_num g) i)). rewrite !some_at in X by (unfold ndims in *; lia). specialize (X eq_refl eq_refl). lia. }
  assert (B : buf_size g v c (unit k i s) true <> 0).
  { apply (unit_buf v c i l r s true); auto. destruct (s =? 1); lia. }
  assert (HD : has_data g c v = true) by (apply same_vars; eauto). split.
  - unfold shm_size. set (L := flat_map _ _).
    assert (NN : Forall (fun x => 0 <= x) L).
    { apply Forall_forall. intros x Hx. unfold L in Hx. apply in_flat_map in Hx. destruct Hx as (v' & V1 & V2).
      destruct (has_data g c v'); [|destruct V2]. apply in_map_iff in V2. destruct V2 as (o & <- & _).
      destruct (on_node g c o); [apply buf_ge; exact V1|lia]. }
    assert (IL : In (buf_size g v c (unit k i s) true) L).
    { unfold L. apply in_flat_map. exists v. split; [exact Hv|]. rewrite HD. apply in_map_iff. exists (unit k i s). rewrite ON. auto. }
    pose proof (zsum_in_pos L _ NN IL). pose proof (buf_ge v c (unit k i s) true Hv). lia.
  - unfold do_shm. apply existsb_exists. exists v. split; [exact Hv|]. rewrite HD. cbn [andb]. apply existsb_exists.
    exists (unit k i s). auto.
Qed.

Lemma bcasts_same : forall c c', rank_at g c -> rank_at g c' ->
  flat_map (fun iv => if has_data g c (snd iv) then map (CBcast (fst iv)) (seq 0 (g_nshm g)) else []) (combine (seq 0 (length (g_vars g))) (g_vars g)) =
  flat_map (fun iv => if has_data g c' (snd iv) then map (CBcast (fst iv)) (seq 0 (g_nshm g)) else []) (combine (seq 0 (length (g_vars g))) (g_vars g)).
Proof using G.
  intros c c' H H'. rewrite !flat_map_concat_map. f_equal. apply map_ext_in. intros (i, v) I. apply in_combine_r in I. cbn [fst snd].
  rewrite (data_same c c' v H H' I). reflexivity.
Qed.

Theorem agree : forall c c', two_sided g -> rank_at g c -> rank_at g c' -> has_partner g c -> has_partner g c' -> calls g c = calls g c'.
Proof using G.
  intros c c' T H H' P P'. destruct (partner c H T P) as (A & B). destruct (partner c' H' T P') as (A' & B').
  unfold calls. rewrite B, B', (bcasts_same c c' H H'). assert (shm_size g c =? 0 = false) as -> by lia.
  assert (shm_size g c' =? 0 = false) as -> by lia. reflexivity.
Qed.

Theorem agree_one_node : forall c c', two_sided g -> (forall r, rank_at g r -> g_node g r <> None) ->
  rank_at g c -> rank_at g c' -> calls g c = calls g c'.
Proof using G.
  intros c c' T ON H H'. destruct (existsb (has_data g c) (g_vars g)) eqn:E.
  - apply existsb_exists in E. destruct E as (v & Hv & E). apply same_vars in E; [|exact H|exact Hv]. destruct E as (i & E).
    assert (P : forall r, rank_at g r -> has_partner g r).
    { intros r Hr. pose proof E as (_ & _ & _ & n & _ & Hn & _ & H2). pose proof (rank_len r Hr) as L.
      assert (Hi : (i < k)%nat) by (apply nth_error_Some; congruence).
      pose proof (proj2 Hr i (at_ r i) n) as R. rewrite some_at in R by lia. specialize (R eq_refl Hn).
      set (s := if at_ r i + 1 <? n then 1 else -1).
      assert (Hs : s = 1 \/ s = -1) by (unfold s; destruct (at_ r i + 1 <? n); auto).
      assert (IN : In (unit k i s) (neighbors g r)).
      { apply unit_neighbor; auto. rewrite (at_some _ _ _ Hn). unfold s. destruct (at_ r i + 1 <? n) eqn:X; lia. }
      apply in_neighbors in IN. destruct IN as (_ & _ & IN).
      exists v, i, (plus g r (unit k i s)). split; [exact Hv|]. split; [exact E|]. split; [|split; [exact IN|apply ON; exact IN]].
      split; [rewrite plus_len; lia|]. split.
      - intros j Hj. destruct (Nat.ltb_spec j k) as [J|J].
        + rewrite !some_at by (rewrite ?plus_len; lia). rewrite plus_at, unit_at by exact J. apply Nat.eqb_neq in Hj. rewrite Hj. f_equal. lia.
        + rewrite (proj2 (nth_error_None _ _)) by (rewrite plus_len; lia). symmetry. apply nth_error_None. lia.
      - exists (at_ r i), (at_ r i + s). split; [apply some_at; lia|]. split; [|lia].
        rewrite some_at by (rewrite plus_len; lia). rewrite plus_at, unit_at by exact Hi. rewrite Nat.eqb_refl. reflexivity. }
    apply agree; auto.
  - assert (Z0 : forall r, rank_at g r -> shm_size g r = 0 /\ do_shm g r = false).
    { intros r Hr. assert (F : forall v, In v (g_vars g) -> has_data g r v = false).
      { intros v Hv. rewrite (data_same r c v Hr H Hv). destruct (has_data g c v) eqn:X; [|reflexivity].
        assert (existsb (has_data g c) (g_vars g) = true) by (apply existsb_exists; eauto). congruence. }
      split.
      - unfold shm_size. assert (Q : forall l, (forall v, In v l -> has_data g r v = false) ->
          flat_map (fun v => if has_data g r v then map (fun o => if on_node g r o then buf_size g v r o true else 0) (neighbors g r) else []) l = []).
        { induction l as [|v l IHl]; intros Fl; cbn [flat_map]; [reflexivity|]. rewrite (Fl v (or_introl eq_refl)). apply IHl.
          intros x Hx. apply Fl. now right. }
        rewrite (Q _ F). reflexivity.
      - unfold do_shm. apply not_true_is_false. intros X. apply existsb_exists in X. destruct X as (v & Hv & X). rewrite (F v Hv) in X. discriminate. }
    destruct (Z0 c H) as (A & B). destruct (Z0 c' H') as (A' & B'). unfold calls. rewrite A, B, A', B'. reflexivity.
Qed.
End Job.
