From Verif Require Import Base Coll_Model Coll_Spec Coll_Proofs Share_Model Share_Spec.
From Coq Require Import ZifyBool.

Lemma room_ge : forall pad n, n + pad <= room pad n.
Proof. intros. unfold room. pose proof (Z.div_mod (n + pad + 63) 64 ltac:(lia)). pose proof (Z.mod_pos_bound (n + pad + 63) 64 ltac:(lia)). lia. Qed.
Lemma room_al : forall pad n, room pad n mod 64 = 0.
Proof. intros. unfold room. apply Z.mod_mul. lia. Qed.

Definition total (pad : Z) (l : list sbuf) : Z := zsum (map (fun b => room pad (b_bytes b)) l).
Lemma total_ge : forall pad l, 0 <= pad -> Forall (fun b => 0 <= b_bytes b) l -> 0 <= total pad l.
Proof.
  intros pad l P F. apply zsum_ge. apply Forall_map. eapply Forall_impl; [|exact F]. cbn. intros b H. pose proof (room_ge pad (b_bytes b)). lia.
Qed.

Lemma place_in : forall pad l ofs b x, 0 <= pad -> Forall (fun b => 0 <= b_bytes b) l -> In (b, x) (place pad ofs l) ->
  In b l /\ ofs <= x /\ x + b_bytes b + pad <= ofs + total pad l /\ (ofs mod 64 = 0 -> x mod 64 = 0).
Proof.
  induction l as [|b0 l IH]; intros ofs b x P F H; [destruct H|]. inversion F; subst. cbn [place] in H. unfold total. cbn [map zsum]. fold (total pad l).
  pose proof (room_ge pad (b_bytes b0)). pose proof (total_ge pad l P H3).
  destruct H as [H|H].
  - injection H as <- <-. split; [left; reflexivity|]. split; [lia|]. split; [lia|auto].
  - apply IH in H; [|assumption|assumption]. destruct H as (A & B & C & D). split; [right; exact A|]. split; [lia|]. split; [lia|].
    intros M. apply D. rewrite Z.add_mod, M, room_al by lia. reflexivity.
Qed.

Lemma place_apart : forall pad l ofs i j x y, 0 <= pad -> Forall (fun b => 0 <= b_bytes b) l -> (i < j)%nat ->
  nth_error (place pad ofs l) i = Some x -> nth_error (place pad ofs l) j = Some y ->
  snd x + b_bytes (fst x) + pad <= snd y.
Proof.
  induction l as [|b0 l IH]; intros ofs i j x y P F L Hi Hj; [destruct i; discriminate|]. inversion F; subst.
  destruct j as [|j]; [lia|]. cbn [place] in Hi, Hj. destruct i as [|i]; cbn [nth_error] in Hi, Hj.
  - injection Hi as <-. destruct y as [b y]. apply nth_error_In in Hj. apply place_in in Hj; [|assumption|assumption].
    cbn. pose proof (room_ge pad (b_bytes b0)). lia.
  - apply (IH _ i j x y P H2 ltac:(lia) Hi Hj).
Qed.

Lemma place_has : forall pad l ofs b, In b l -> exists x, In (b, x) (place pad ofs l).
Proof.
  induction l as [|b0 l IH]; intros ofs b H; [destruct H|]. cbn [place]. destruct H as [->|H]; [exists ofs; left; reflexivity|].
  destruct (IH (ofs + room pad (b_bytes b0)) b H) as (x & Hx). exists x. right. exact Hx.
Qed.

(* A table entry that is written has the offset of some buffer written there. *)
Lemma row_has : forall g c var m l (t : Z -> Z),
  let t' := fold_left (fun t e => if (b_var (fst e) =? var)%nat
                        then match g_node g (plus g c (b_nbr (fst e))) with
                             | Some m => fun x => if x =? m then snd e else t x
                             | None => t
                             end
                        else t) l t in
  t' m = t m /\ (forall e, In e l -> b_var (fst e) = var -> g_node g (plus g c (b_nbr (fst e))) <> Some m) \/
  exists e, In e l /\ b_var (fst e) = var /\ g_node g (plus g c (b_nbr (fst e))) = Some m /\ t' m = snd e.
Proof.
  intros g c var m l. induction l as [|e l IH]; intros t; cbn [fold_left].
  - left. split; [reflexivity|]. intros e [].
  - set (t1 := if (b_var (fst e) =? var)%nat then _ else t). destruct (IH t1) as [(E & N)|(e' & A & B & C & D)].
    + destruct (Nat.eq_dec (b_var (fst e)) var) as [V|V].
      * destruct (g_node g (plus g c (b_nbr (fst e)))) as [m'|] eqn:M.
        -- destruct (Z.eq_dec m' m) as [->|NE].
           ++ right. exists e. split; [left; reflexivity|]. split; [exact V|]. split; [exact M|].
              etransitivity; [exact E|]. unfold t1. rewrite V, Nat.eqb_refl, Z.eqb_refl. reflexivity.
           ++ left. split.
              ** etransitivity; [exact E|]. unfold t1. rewrite V, Nat.eqb_refl. destruct (Z.eqb_spec m m'); [congruence|reflexivity].
              ** intros e' [<-|H] V'; [rewrite M; congruence|exact (N e' H V')].
        -- left. split.
           ++ etransitivity; [exact E|]. unfold t1. rewrite V, Nat.eqb_refl. reflexivity.
           ++ intros e' [<-|H] V'; [rewrite M; discriminate|exact (N e' H V')].
      * left. split.
        -- etransitivity; [exact E|]. unfold t1. destruct (Nat.eqb_spec (b_var (fst e)) var); [contradiction|reflexivity].
        -- intros e' [<-|H] V'; [contradiction|exact (N e' H V')].
    + right. exists e'. split; [right; exact A|]. auto.
Qed.

Lemma in_sends : forall esz g c b, In b (sends esz g c) <->
  exists v, nth_error (g_vars g) (b_var b) = Some v /\ has_data g c v = true /\ In (b_nbr b) (neighbors g c) /\ on_node g c (b_nbr b) = true /\
            buf_size g v c (b_nbr b) true <> 0 /\ b_bytes b = bytes esz g v c (b_nbr b) true.
Proof.
  intros esz g c b. unfold sends. rewrite in_flat_map. split.
  - intros ((i & v) & Hc & H). cbn [fst snd] in H. destruct (has_data g c v) eqn:D; [|destruct H].
    apply in_map_iff in H. destruct H as (o & <- & H). apply filter_In in H. destruct H as (Ho & H). apply andb_true_iff in H. destruct H as (N & Z).
    exists v. cbn. split; [|split; [exact D|split; [exact Ho|split; [exact N|split; [lia|reflexivity]]]]].
    clear - Hc. assert (G : forall (l : list xvar) s, In (i, v) (combine (seq s (length l)) l) -> (s <= i)%nat /\ nth_error l (i - s) = Some v).
    { induction l as [|x l IH]; intros s H; cbn in H; [destruct H|]. destruct H as [H|H].
      - injection H as <- <-. rewrite Nat.sub_diag. auto.
      - apply IH in H. destruct H as (A & B). split; [lia|]. replace (i - s)%nat with (S (i - S s)) by lia. exact B. }
    apply G in Hc. destruct Hc as (_ & Hc). rewrite Nat.sub_0_r in Hc. exact Hc.
  - intros (v & Hv & D & Ho & N & Z & B). exists (b_var b, v). split.
    + clear - Hv. assert (G : forall (l : list xvar) s i, nth_error l i = Some v -> In ((s + i)%nat, v) (combine (seq s (length l)) l)).
      { induction l as [|x l IH]; intros s [|i] H; cbn in H; try discriminate.
        - injection H as ->. left. f_equal. lia.
        - right. replace (s + S i)%nat with (S s + i)%nat by lia. apply IH. exact H. }
      apply (G (g_vars g) O (b_var b) Hv).
    + cbn [fst snd]. rewrite D. apply in_map_iff. exists (b_nbr b). split; [rewrite <- B; destruct b; reflexivity|].
      apply filter_In. split; [exact Ho|]. rewrite N. cbn. lia.
Qed.

Lemma touch_sym : forall c c', touch c c' -> touch c' c.
Proof.
  intros c c' (N & F). split; [congruence|]. clear N. induction F; constructor; [lia|assumption].
Qed.
Lemma toward_len : forall c c', length c = length c' -> length (toward c c') = length c.
Proof. intros c c' L. unfold toward. rewrite map_length, combine_length. lia. Qed.
Lemma toward_at : forall c c' i, length c = length c' -> at_ (toward c c') i = at_ c' i - at_ c i.
Proof.
  induction c as [|x c IH]; intros [|y c'] i L; try discriminate; [destruct i; reflexivity|].
  destruct i as [|i]; [reflexivity|]. apply (IH c' i). cbn in L. lia.
Qed.
Lemma toward_plus : forall g c c', length c = ndims g -> length c' = ndims g -> plus g c (toward c c') = c'.
Proof.
  intros g c c' L L'. apply list_at_eq; [rewrite plus_len; lia|]. intros i Hi. rewrite plus_len in Hi. rewrite plus_at, toward_at by lia. lia.
Qed.
Lemma toward_nbr : forall g c c', rank_at g c -> rank_at g c' -> touch c c' -> In (toward c c') (neighbors g c).
Proof.
  intros g c c' R R' (N & F). pose proof (rank_len g c R) as L. pose proof (rank_len g c' R') as L'.
  apply in_neighbors. split; [split|split].
  - rewrite toward_len by lia. exact L.
  - clear - F. unfold toward. induction F; cbn [combine map]; constructor; [cbn; lia|assumption].
  - destruct (existsb (fun i => negb (at_ (toward c c') i =? 0)) (seq 0 (ndims g))) eqn:E.
    + apply existsb_exists in E. destruct E as (i & Hi & E). apply in_seq in Hi. exists i. split; [lia|]. lia.
    + exfalso. apply N. apply list_at_eq; [lia|]. intros i Hi.
      assert (X : forall j, In j (seq 0 (ndims g)) -> at_ (toward c c') j = 0).
      { intros j Hj. destruct (Z.eq_dec (at_ (toward c c') j) 0) as [Z|Z]; [exact Z|]. exfalso.
        enough (existsb (fun i => negb (at_ (toward c c') i =? 0)) (seq 0 (ndims g)) = true) by congruence.
        apply existsb_exists. exists j. split; [exact Hj|]. lia. }
      specialize (X i). rewrite in_seq in X. specialize (X ltac:(lia)). rewrite toward_at in X by lia. lia.
  - rewrite toward_plus by assumption. exact R'.
Qed.

Lemma size_same : forall g v c c', node_ok g -> rank_at g c -> rank_at g c' -> touch c c' ->
  buf_size g v c (toward c c') false = buf_size g v c' (toward c' c) true.
Proof.
  intros g v c c' NO R R' (_ & F). pose proof (rank_len g c R) as L. pose proof (rank_len g c' R') as L'.
  assert (A : forall i, at_ (toward c' c) i = - at_ (toward c c') i) by (intros i; rewrite !toward_at by lia; lia).
  unfold buf_size.
  assert (M : man_dist g (toward c c') = man_dist g (toward c' c)).
  { unfold man_dist. f_equal. apply map_ext. intros i. rewrite A. lia. }
  rewrite M. destruct (x_max v <? man_dist g (toward c' c)); [reflexivity|].
  assert (E : forall l, existsb (fun i => match halo_at v i with Some _ => negb (at_ (toward c c') i =? 0) | None => false end) l =
              existsb (fun i => match halo_at v i with Some _ => negb (at_ (toward c' c) i =? 0) | None => false end) l).
  { induction l as [|i l IH]; [reflexivity|]. cbn [existsb]. rewrite IH, A. f_equal. destruct (halo_at v i); lia. }
  rewrite E. destruct (existsb _ _); [|reflexivity]. f_equal. apply map_ext_in. intros i Hi. apply in_seq in Hi.
  unfold extent. destruct (halo_at v i) as [(l & r)|]; [|reflexivity]. rewrite A.
  assert (B : Z.abs (at_ c i - at_ c' i) <= 1).
  { clear - F. revert i. induction F; intros [|i]; cbn; try lia. apply IHF. }
  pose proof (toward_at c c' i ltac:(lia)) as T.
  destruct (Z.eqb_spec (at_ (toward c c') i) (-1)) as [E1|E1].
  { rewrite E1. reflexivity. }
  destruct (Z.eqb_spec (at_ (toward c c') i) 1) as [E2|E2].
  { rewrite E2. reflexivity. }
  assert (at_ (toward c c') i = 0) as E3 by lia. rewrite E3. cbn. apply (no_dom g NO). rewrite !some_at by lia. f_equal. lia.
Qed.

Lemma sends_ge : forall esz g c, job_ok g -> 0 < esz -> Forall (fun b => 0 <= b_bytes b) (sends esz g c).
Proof.
  intros esz g c J E. apply Forall_forall. intros b H. apply in_sends in H. destruct H as (v & Hv & _ & _ & _ & _ & ->).
  unfold bytes. apply Z.mul_nonneg_nonneg; [|lia]. apply buf_ge; [exact J|]. apply nth_error_In in Hv. exact Hv.
Qed.

Theorem placed_in : forall esz pad g c b x, job_ok g -> 0 < esz -> 0 <= pad -> In (b, x) (placed esz pad g c) ->
  0 <= x /\ x + b_bytes b + pad <= window esz pad g c /\ x mod 64 = 0.
Proof.
  intros esz pad g c b x J E P H. apply place_in in H; [|exact P|apply sends_ge; assumption]. destruct H as (_ & A & B & C).
  split; [exact A|]. split; [exact B|]. apply C. reflexivity.
Qed.

Theorem placed_apart : forall esz pad g c i j x y, job_ok g -> 0 < esz -> 0 <= pad -> i <> j ->
  nth_error (placed esz pad g c) i = Some x -> nth_error (placed esz pad g c) j = Some y -> apart pad x y.
Proof.
  intros esz pad g c i j x y J E P N Hi Hj a.
  destruct (Nat.lt_ge_cases i j) as [L|L].
  - pose proof (place_apart pad _ _ i j x y P (sends_ge esz g c J E) L Hi Hj). lia.
  - pose proof (place_apart pad _ _ j i y x P (sends_ge esz g c J E) ltac:(lia) Hj Hi). lia.
Qed.

Theorem recv_is_send : forall esz pad g c c' me var v, job_ok g -> node_ok g -> rank_at g c -> rank_at g c' -> touch c c' ->
  g_node g c = Some me -> g_node g c' <> None -> nth_error (g_vars g) var = Some v ->
  buf_size g v c (toward c c') false <> 0 ->
  In (mkSB var (toward c' c) (bytes esz g v c (toward c c') false), recv_ofs esz pad g c (toward c c') var me) (placed esz pad g c').
Proof.
  intros esz pad g c c' me var v J NO R R' T Hme Hc' Hv S.
  pose proof (rank_len g c R) as L. pose proof (rank_len g c' R') as L'.
  pose proof (size_same g v c c' NO R R' T) as SS. pose proof (toward_nbr g c' c R' R (touch_sym _ _ T)) as NB.
  unfold recv_ofs. rewrite (toward_plus g c c' L L'). unfold row.
  assert (B : In (mkSB var (toward c' c) (bytes esz g v c (toward c c') false)) (sends esz g c')).
  { apply in_sends. exists v. cbn [b_var b_nbr b_bytes]. split; [exact Hv|]. split.
    - unfold has_data. apply existsb_exists. exists (toward c' c). split; [exact NB|]. apply orb_true_iff. left. rewrite <- SS. lia.
    - split; [exact NB|]. split; [unfold on_node; rewrite (toward_plus g c' c L' L), Hme; reflexivity|].
      split; [rewrite <- SS; exact S|]. unfold bytes. rewrite SS. reflexivity. }
  destruct (place_has pad _ 0 _ B) as (x & Hx). fold (placed esz pad g c') in Hx.
  destruct (row_has g c' var me (placed esz pad g c') (fun _ => 0)) as [(_ & Q)|(e & A & V & M & ->)].
  - exfalso. apply (Q _ Hx); [reflexivity|]. cbn [fst b_nbr]. rewrite (toward_plus g c' c L' L). exact Hme.
  - destruct e as (b & y). cbn [fst snd] in *.
    assert (Hb : In b (sends esz g c')).
    { clear - A. unfold placed in A. revert A. generalize 0. induction (sends esz g c') as [|b0 l IH]; intros o A; [destruct A|].
      cbn [place] in A. destruct A as [A|A]; [injection A as -> _; left; reflexivity|right; exact (IH _ A)]. }
    apply in_sends in Hb. destruct Hb as (v' & Hv' & _ & Hn & _ & _ & Hb). rewrite V, Hv in Hv'. injection Hv' as <-.
    assert (plus g c' (b_nbr b) = c) as PC by (apply (no_inj g NO _ _ me); [apply in_neighbors in Hn; apply Hn|exact R|exact M|exact Hme]).
    assert (b_nbr b = toward c' c) as BN.
    { apply in_neighbors in Hn. destruct Hn as ((Ln & _) & _ & _). apply list_at_eq; [rewrite toward_len by lia; lia|].
      intros i Hi. rewrite toward_at by lia. rewrite <- PC. rewrite plus_at by lia. lia. }
    replace (mkSB var (toward c' c) (bytes esz g v c (toward c c') false)) with b; [exact A|].
    clear - V BN Hb SS. unfold bytes in *. rewrite SS, <- BN, <- Hb, <- V. destruct b; reflexivity.
Qed.
