From Verif Require Import Base Coll_Model Coll_Spec Coll_Proofs Share_Model Share_Spec Share_Proofs Coll2_Spec.
From Coq Require Import ZifyBool.

Lemma map_at : forall (f : Z -> Z) l, map (fun i => f (at_ l i)) (seq 0 (length l)) = map f l.
Proof.
  intros f l. induction l as [|x l IH]; [reflexivity|]. cbn [length seq map]. f_equal. rewrite <- seq_shift, map_map. rewrite <- IH. reflexivity.
Qed.

Lemma nbr_touch : forall g c o, length c = ndims g -> In o (neighbors g c) -> touch c (plus g c o) /\ toward c (plus g c o) = o.
Proof.
  intros g c o L H. apply in_neighbors in H. destruct H as ((Lo & F) & (i & Hi & N) & _).
  pose proof (plus_len g c o) as Lp. split; [split|].
  - intros E. pose proof (plus_at g c o i Hi) as P. rewrite <- E in P. lia.
  - assert (X : forall a b : list Z, length a = length b -> (forall i, (i < length a)%nat -> Z.abs (at_ a i - at_ b i) <= 1) ->
                Forall2 (fun x y => Z.abs (x - y) <= 1) a b).
    { induction a as [|x a IH]; intros [|y b] E Q; try discriminate; constructor.
      - apply (Q O). cbn. lia.
      - apply IH; [cbn in E; lia|]. intros j Hj. apply (Q (S j)). cbn. lia. }
    apply X; [lia|]. intros j Hj. rewrite plus_at by lia. rewrite Forall_forall in F.
    pose proof (F (at_ o j) (nth_error_In _ _ (some_at o j ltac:(lia)))). lia.
  - apply list_at_eq; [rewrite toward_len by lia; lia|]. intros j Hj. rewrite toward_len in Hj by lia. rewrite toward_at, plus_at by lia. lia.
Qed.

Lemma sent_iff : forall g v c c', job_ok g -> In v (g_vars g) -> rank_at g c -> rank_at g c' -> touch c c' ->
  (buf_size g v c (toward c c') true <> 0 <-> sent v c c').
Proof.
  intros g v c c' J Hv R R' (_ & F). pose proof (rank_len g c R) as L. pose proof (rank_len g c' R') as L'.
  pose proof (jo_dims g J v Hv) as LH. fold (ndims g) in LH.
  assert (M : man_dist g (toward c c') = zsum (map Z.abs (toward c c'))).
  { unfold man_dist. rewrite <- L, <- (toward_len c c') by lia. f_equal. apply map_at. }
  assert (B : forall i, Z.abs (at_ c i - at_ c' i) <= 1).
  { clear - F. intros i. revert i. induction F; intros [|i]; cbn; try lia. apply IHF. }
  unfold buf_size, sent. rewrite M. destruct (Z.ltb_spec (x_max v) (zsum (map Z.abs (toward c c')))) as [H|H].
  { split; [intros X; exfalso; apply X; reflexivity|intros (X & _); lia]. }
  destruct (existsb _ (seq 0 (ndims g))) eqn:E.
  - rewrite zprod_nz, Forall_map, Forall_forall. split.
    + intros P. split; [exact H|]. split.
      * apply existsb_exists in E. destruct E as (i & Hi & E). apply in_seq in Hi. destruct (halo_at v i) as [(l & r)|] eqn:Q; [|discriminate].
        exists i, l, r. split; [apply some_halo; exact Q|]. rewrite !some_at by lia. rewrite toward_at in E by lia. intros X. injection X as X. lia.
      * intros i l r x y Hh Hx Hy. assert (Hi : (i < ndims g)%nat) by (rewrite <- L; apply nth_error_Some; congruence).
        specialize (P i ltac:(apply in_seq; lia)). unfold extent in P. pose proof (jo_halo g J v i l r Hv Hh) as N.
        rewrite (halo_some v i _ Hh), toward_at, (at_some _ _ _ Hx), (at_some _ _ _ Hy) in P by lia. cbn in P.
        split; intros ->; [replace (x - 1 - x) with (-1) in P by lia|replace (x + 1 - x) with 1 in P by lia]; cbn in P; lia.
    + intros (_ & _ & P) i Hi. apply in_seq in Hi. unfold extent. destruct (halo_at v i) as [(l & r)|] eqn:Q; [|lia].
      apply some_halo in Q. specialize (P i l r _ _ Q (some_at c i ltac:(lia)) (some_at c' i ltac:(lia))).
      rewrite toward_at by lia. specialize (B i). pose proof (jo_dom g J c i).
      destruct (Z.eqb_spec (at_ c' i - at_ c i) (-1)); [lia|]. destruct (Z.eqb_spec (at_ c' i - at_ c i) 1); lia.
  - split; [intros X; exfalso; apply X; reflexivity|]. intros (_ & (i & l & r & Hh & Hn) & _). exfalso.
    assert (Hi : (i < ndims g)%nat) by (rewrite <- LH; apply nth_error_Some; congruence).
    enough (existsb (fun i => match halo_at v i with Some _ => negb (at_ (toward c c') i =? 0) | None => false end) (seq 0 (ndims g)) = true) by congruence.
    apply existsb_exists. exists i. split; [apply in_seq; lia|]. rewrite (halo_some v i _ Hh), toward_at by lia.
    rewrite !some_at in Hn by lia. destruct (Z.eqb_spec (at_ c' i - at_ c i) 0); [|reflexivity]. exfalso. apply Hn. f_equal. lia.
Qed.

Lemma on_some : forall g c o, on_node g c o = true <-> g_node g (plus g c o) <> None.
Proof. intros. unfold on_node. destruct (g_node g (plus g c o)); split; congruence. Qed.

Lemma shm_iff : forall g c, job_ok g -> rank_at g c -> (shm_size g c <> 0 <-> sends_here g c).
Proof.
  intros g c J R. pose proof (rank_len g c R) as L. unfold shm_size.
  set (l := flat_map _ _).
  assert (GE : Forall (fun x => 0 <= x) l).
  { apply Forall_forall. intros x Hx. apply in_flat_map in Hx. destruct Hx as (v & Hv & Hx). destruct (has_data g c v); [|destruct Hx].
    apply in_map_iff in Hx. destruct Hx as (o & <- & _). destruct (on_node g c o); [apply buf_ge; assumption|lia]. }
  split.
  - intros N. assert (X : exists x, In x l /\ x <> 0).
    { clear - N. induction l as [|x l IH]; [exfalso; apply N; reflexivity|]. destruct (Z.eq_dec x 0) as [->|Q].
      - cbn [zsum] in N. destruct IH as (y & A & B); [lia|]. exists y. split; [right; exact A|exact B].
      - exists x. split; [left; reflexivity|exact Q]. }
    destruct X as (x & Hx & Nx). apply in_flat_map in Hx. destruct Hx as (v & Hv & Hx). destruct (has_data g c v); [|destruct Hx].
    apply in_map_iff in Hx. destruct Hx as (o & <- & Ho). destruct (on_node g c o) eqn:D; [|exfalso; apply Nx; reflexivity].
    destruct (nbr_touch g c o L Ho) as (T & E). assert (R' : rank_at g (plus g c o)) by (apply in_neighbors in Ho; apply Ho).
    exists v, (plus g c o). split; [exact Hv|]. split; [exact R'|]. split; [exact T|]. split; [apply on_some; exact D|].
    apply (sent_iff g v c _ J Hv R R' T). rewrite E. exact Nx.
  - intros (v & c' & Hv & R' & T & D & S). pose proof (rank_len g c' R') as L'. apply (sent_iff g v c c' J Hv R R' T) in S.
    pose proof (toward_nbr g c c' R R' T) as Ho.
    assert (Hin : In (buf_size g v c (toward c c') true) l).
    { apply in_flat_map. exists v. split; [exact Hv|]. replace (has_data g c v) with true.
      - apply in_map_iff. exists (toward c c'). split; [|exact Ho]. replace (on_node g c (toward c c')) with true; [reflexivity|].
        symmetry. apply on_some. rewrite toward_plus by assumption. exact D.
      - symmetry. unfold has_data. apply existsb_exists. exists (toward c c'). split; [exact Ho|]. apply orb_true_iff. left. lia. }
    pose proof (zsum_in_pos l _ GE Hin). pose proof (buf_ge g J v c (toward c c') true Hv). lia.
Qed.

Lemma do_iff : forall g c, job_ok g -> rank_at g c -> (do_shm g c = true <-> shares_here g c).
Proof.
  intros g c J R. pose proof (rank_len g c R) as L. unfold do_shm. rewrite existsb_exists. split.
  - intros (v & Hv & H). apply andb_true_iff in H. destruct H as (D & H). apply existsb_exists in H. destruct H as (o & Ho & N).
    apply (same_vars g J c v R Hv) in D. destruct D as (i & X). exists v, i, (plus g c o).
    split; [exact Hv|]. split; [exact X|]. split; [apply in_neighbors in Ho; apply Ho|]. split; [apply (nbr_touch g c o L Ho)|apply on_some; exact N].
  - intros (v & i & c' & Hv & X & R' & T & N). exists v. split; [exact Hv|]. apply andb_true_iff. split.
    + apply (same_vars g J c v R Hv). exists i. exact X.
    + apply existsb_exists. exists (toward c c'). split; [apply toward_nbr; assumption|]. apply on_some.
      rewrite toward_plus by (apply (rank_len g); assumption). exact N.
Qed.

Theorem agree_iff : forall g c c', job_ok g -> (0 < g_nshm g)%nat -> rank_at g c -> rank_at g c' ->
  (calls g c = calls g c' <-> (sends_here g c <-> sends_here g c') /\ (shares_here g c <-> shares_here g c')).
Proof.
  intros g c c' J NS R R'. rewrite <- !shm_iff, <- !do_iff by assumption.
  assert (HD : forall v, In v (g_vars g) -> has_data g c v = has_data g c' v).
  { intros v Hv. pose proof (same_vars g J c v R Hv). pose proof (same_vars g J c' v R' Hv).
    destruct (has_data g c v), (has_data g c' v); try reflexivity; [symmetry|]; tauto. }
  unfold calls.
  set (bc := fun c => flat_map (fun iv : nat * xvar => if has_data g c (snd iv) then map (CBcast (fst iv)) (seq 0 (g_nshm g)) else [])
                 (combine (seq 0 (length (g_vars g))) (g_vars g))).
  fold (bc c) (bc c').
  assert (EB : bc c = bc c').
  { unfold bc. assert (Q : forall l : list (nat * xvar), (forall p, In p l -> In (snd p) (g_vars g)) ->
      flat_map (fun iv : nat * xvar => if has_data g c (snd iv) then map (CBcast (fst iv)) (seq 0 (g_nshm g)) else []) l =
      flat_map (fun iv : nat * xvar => if has_data g c' (snd iv) then map (CBcast (fst iv)) (seq 0 (g_nshm g)) else []) l).
    { induction l as [|p l IH]; intros Q; [reflexivity|]. cbn [flat_map]. rewrite (HD (snd p)) by (apply Q; left; reflexivity).
      f_equal. apply IH. intros q Hq. apply Q. right. exact Hq. }
    apply Q. intros (i & v) Hp. apply in_combine_r in Hp. exact Hp. }
  assert (NB : forall c0, do_shm g c0 = true -> exists a b t, bc c0 = CBcast a b :: t).
  { intros c0 D. unfold do_shm in D. apply existsb_exists in D. destruct D as (v & Hv & D). apply andb_true_iff in D. destruct D as (D & _).
    unfold bc. revert Hv. generalize (g_vars g). intros l. generalize O at 2.
    induction l as [|x l IH]; intros s Hv; [destruct Hv|]. cbn [length seq combine flat_map fst snd].
    destruct (has_data g c0 x) eqn:E.
    - destruct (g_nshm g) as [|m]; [lia|]. cbn [seq map app]. eauto.
    - destruct Hv as [->|Hv]; [congruence|]. cbn [app]. exact (IH (S s) Hv). }
  rewrite <- EB.
  pose proof (NB c) as N1. pose proof (NB c') as N2. rewrite <- EB in N2.
  destruct (Z.eqb_spec (shm_size g c) 0) as [A|A], (Z.eqb_spec (shm_size g c') 0) as [A'|A'], (do_shm g c) eqn:D, (do_shm g c') eqn:D';
    split; try (intros X; split; split; intros; congruence || lia); try (intros (X & Y); try reflexivity; exfalso; try (destruct Y; intuition congruence); try (apply X; intuition congruence); tauto);
    try (intros X; exfalso; cbn in X; try discriminate;
         try (destruct (N1 eq_refl) as (a & b & t & Q); rewrite Q in X; discriminate);
         try (destruct (N2 eq_refl) as (a & b & t & Q); rewrite Q in X; discriminate)).
Qed.
