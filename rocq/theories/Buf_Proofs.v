(* Proofs about the rolling buffers of the inner loop. *)
From Verif Require Import Base Buf_Model Buf_Spec.
From Coq Require Import ZifyBool.
Open Scope Z_scope.

Lemma vpt_eqb_true : forall a b, vpt_eqb a b = true -> a = b.
Proof.
  intros [k o] [k' o'] H. unfold vpt_eqb in H. cbn in H.
  apply andb_prop in H. destruct H as [H1 H2]. apply Nat.eqb_eq in H1. subst.
  destruct o, o'; try discriminate; [apply Z.eqb_eq in H2; subst|]; reflexivity.
Qed.

Lemma vpt_eqb_refl : forall a, vpt_eqb a a = true.
Proof. intros [k [o|]]; unfold vpt_eqb; cbn; rewrite Nat.eqb_refl; cbn; [apply Z.eqb_refl|reflexivity]. Qed.

Lemma vec_var_In : forall g p v, vec_var g p = Some v -> In (p, v) (g_vars g).
Proof.
  intros g p v H. unfold vec_var in H. destruct (find _ _) as [[q u]|] eqn:E; [|discriminate].
  apply find_some in E. destruct E as [E1 E2]. injection H as <-. cbn in E2.
  apply vpt_eqb_true in E2. subst. exact E1.
Qed.

Lemma put_same : forall {A} (m : nat -> option A) k x, put m k x k = Some x.
Proof. intros. unfold put. rewrite Nat.eqb_refl. reflexivity. Qed.

Lemma put_other : forall {A} (m : nat -> option A) k x k', k' <> k -> put m k x k' = m k'.
Proof. intros. unfold put. apply Nat.eqb_neq in H. rewrite H. reflexivity. Qed.

Lemma set_nth_length : forall {A} (l : list A) n x, length (set_nth n x l) = length l.
Proof. induction l; intros [|n] x; cbn; auto. Qed.

Lemma set_nth_same : forall {A} (l : list A) n x, (n < length l)%nat -> nth_error (set_nth n x l) n = Some x.
Proof. induction l; intros [|n] x H; cbn in *; try lia; [reflexivity|]. apply IHl. lia. Qed.

Lemma set_nth_other : forall {A} (l : list A) n x i, i <> n -> nth_error (set_nth n x l) i = nth_error l i.
Proof.
  induction l; intros [|n] x [|i] H; cbn; try reflexivity; try congruence.
  apply IHl. congruence.
Qed.

(* ---- the table of buffers ---- *)

Definition tab_ok (c : bcfg) (ps : list vpt) (s : stats) : Prop :=
  forall k,
    match s_lo s k, s_hi s k with
    | Some lo, Some hi =>
        (exists p o, In p ps /\ p_key p = k /\ p_ofs p = Some o /\ Z.quot o (c_fold c) = lo) /\
        (exists p o, In p ps /\ p_key p = k /\ p_ofs p = Some o /\ Z.quot o (c_fold c) = hi) /\
        (forall p o, In p ps -> p_key p = k -> p_ofs p = Some o -> lo <= Z.quot o (c_fold c) <= hi) /\
        s_len s k = (if Z.max (c_min c) 1 <=? hi - lo then Some (hi - lo) else None)
    | None, None => (forall p, In p ps -> p_key p = k -> p_ofs p = None) /\ s_len s k = None
    | _, _ => False
    end.

Lemma tab_step : forall c ps s p, tab_ok c ps s -> tab_ok c (ps ++ [p]) (visit_pt c s p).
Proof.
  intros c ps s p H. unfold visit_pt. destruct (p_ofs p) as [o|] eqn:Eo.
  - intros k. specialize (H k). cbn. set (v := Z.quot o (c_fold c)).
    destruct (Nat.eq_dec k (p_key p)) as [->|Nk].
    + rewrite !put_same.
      destruct (s_lo s (p_key p)) as [lo|] eqn:El, (s_hi s (p_key p)) as [hi|] eqn:Eh; try contradiction.
      * destruct H as ((p1 & o1 & A1 & A2 & A3 & A4) & (p2 & o2 & B1 & B2 & B3 & B4) & Hb & Hl).
        split; [|split; [|split]].
        -- destruct (v <? lo) eqn:Ev.
           ++ exists p, o. rewrite in_app_iff. cbn. auto.
           ++ exists p1, o1. rewrite in_app_iff. auto.
        -- destruct (hi <? v) eqn:Ev.
           ++ exists p, o. rewrite in_app_iff. cbn. auto.
           ++ exists p2, o2. rewrite in_app_iff. auto.
        -- intros q oq Hq Kq Oq. apply in_app_or in Hq. destruct Hq as [Hq|[<-|[]]].
           ++ specialize (Hb q oq Hq Kq Oq). destruct (v <? lo) eqn:Ev1, (hi <? v) eqn:Ev2; lia.
           ++ rewrite Oq in Eo. injection Eo as ->. fold v.
              assert (lo <= hi) by (rewrite <- A4; apply (Hb p1 o1); auto).
              destruct (v <? lo) eqn:Ev1, (hi <? v) eqn:Ev2; lia.
        -- assert (lo <= hi) by (rewrite <- A4; apply (Hb p1 o1); auto).
           destruct (Z.max (c_min c) 1 <=? (if hi <? v then v else hi) - (if v <? lo then v else lo)) eqn:En.
           ++ rewrite put_same. reflexivity.
           ++ rewrite Hl. destruct (Z.max (c_min c) 1 <=? hi - lo) eqn:En2; [|reflexivity].
              exfalso. destruct (v <? lo) eqn:Ev1, (hi <? v) eqn:Ev2; lia.
      * destruct H as [Hn Hl]. split; [|split; [|split]].
        -- exists p, o. rewrite in_app_iff. cbn. auto.
        -- exists p, o. rewrite in_app_iff. cbn. auto.
        -- intros q oq Hq Kq Oq. apply in_app_or in Hq. destruct Hq as [Hq|[<-|[]]].
           ++ rewrite (Hn q Hq Kq) in Oq. discriminate.
           ++ rewrite Oq in Eo. injection Eo as ->. fold v. lia.
        -- replace (Z.max (c_min c) 1 <=? v - v) with false by lia. exact Hl.
    + rewrite !put_other by assumption.
      replace ((if Z.max (c_min c) 1 <=? _ then put (s_len s) (p_key p) _ else s_len s) k) with (s_len s k)
        by (destruct (_ <=? _); [rewrite put_other by assumption|]; reflexivity).
      destruct (s_lo s k) as [lo|], (s_hi s k) as [hi|]; try contradiction.
      * destruct H as ((p1 & o1 & A1 & A) & (p2 & o2 & B1 & B) & Hb & Hl).
        split; [|split; [|split]].
        -- exists p1, o1. rewrite in_app_iff. auto.
        -- exists p2, o2. rewrite in_app_iff. auto.
        -- intros q oq Hq Kq Oq. apply in_app_or in Hq. destruct Hq as [Hq|[<-|[]]]; [eauto|].
           congruence.
        -- exact Hl.
      * destruct H as [Hn Hl]. split; [|exact Hl].
        intros q Hq Kq. apply in_app_or in Hq. destruct Hq as [Hq|[<-|[]]]; [auto|congruence].
  - intros k. specialize (H k). destruct (s_lo s k) as [lo|], (s_hi s k) as [hi|]; try contradiction.
    + destruct H as ((p1 & o1 & A1 & A) & (p2 & o2 & B1 & B) & Hb & Hl).
      split; [|split; [|split]].
      * exists p1, o1. rewrite in_app_iff. auto.
      * exists p2, o2. rewrite in_app_iff. auto.
      * intros q oq Hq Kq Oq. apply in_app_or in Hq. destruct Hq as [Hq|[<-|[]]]; [eauto|congruence].
      * exact Hl.
    + destruct H as [Hn Hl]. split; [|exact Hl].
      intros q Hq Kq. apply in_app_or in Hq. destruct Hq as [Hq|[<-|[]]]; [auto|exact Eo].
Qed.

Lemma tab_all : forall c reads, tab_ok c reads (point_stats c reads).
Proof.
  intros c reads. unfold point_stats.
  assert (G : forall l ps s, tab_ok c ps s -> tab_ok c (ps ++ l) (fold_left (visit_pt c) l s)).
  { induction l as [|p l IH]; intros ps s H; [rewrite app_nil_r; exact H|].
    cbn [fold_left]. replace (ps ++ p :: l) with ((ps ++ [p]) ++ l) by (rewrite <- app_assoc; reflexivity).
    apply IH, tab_step, H. }
  apply (G reads []). intros k. cbn. split; [intros p []|reflexivity].
Qed.

Section Run.
Context {V : Type}.
Variable loc : nat -> Z -> Z.
Variable f : nat -> V -> list V -> V.
Variable c : bcfg.
Variable reads : list vpt.
Variable eqs : list (nat * list vpt).
Variables b n : Z.
Variable mem0 : Z -> V.

Notation F := (c_fold c).
Notation S0 := (point_stats c reads).
Notation wkey := (fun e => fst (nth e eqs (O, []))).
Notation run := (run loc f wkey c).
Notation run1 := (run1 loc f wkey c).
Notation run_loop := (run_loop loc f wkey c).
Notation cell := (cell loc F).
Notation vec_ofs := (vec_ofs F).

Hypothesis HF : 0 < F.
Hypothesis Hal : aligned F reads.
Hypothesis Hls : all_listed reads eqs.
Hypothesis Hin : independent loc F eqs b n.
Hypothesis Hnc : not_carried loc F reads eqs b n.

Lemma quot_div : forall o, (F | o) -> Z.quot o F = o / F.
Proof using HF.
  intros o [q ->]. rewrite Z.quot_mul, Z.div_mul by lia. reflexivity.
Qed.

Lemma norm_idx_eq : forall p j, (forall o, p_ofs p = Some o -> (F | o)) -> norm_idx c p j = j + vec_ofs p.
Proof using HF.
  intros p j H. unfold norm_idx, Buf_Spec.vec_ofs. destruct (p_ofs p) as [o|]; [|lia].
  specialize (H o eq_refl). destruct H as [q ->].
  rewrite Z.div_mul by lia. destruct (q * F <? 0) eqn:E.
  - replace (- (q * F)) with ((- q) * F) by lia. rewrite Z.quot_mul by lia. lia.
  - rewrite Z.quot_mul by lia. lia.
Qed.

(* Keys with a buffer. *)
Definition buffered (k : nat) (lo len : Z) : Prop := s_lo S0 k = Some lo /\ s_len S0 k = Some len.

Lemma buffered_reads : forall k lo len, buffered k lo len ->
  1 <= len /\
  (exists p, In p reads /\ p_key p = k /\ p_ofs p <> None /\ vec_ofs p = lo) /\
  (exists p, In p reads /\ p_key p = k /\ p_ofs p <> None /\ vec_ofs p = lo + len).
Proof using HF Hal.
  intros k lo len [H1 H2]. pose proof (tab_all c reads k) as T. rewrite H1 in T.
  destruct (s_hi S0 k) as [hi|]; [|contradiction].
  destruct T as ((p1 & o1 & A1 & A2 & A3 & A4) & (p2 & o2 & B1 & B2 & B3 & B4) & Hb & Hl).
  rewrite H2 in Hl. destruct (Z.max (c_min c) 1 <=? hi - lo) eqn:E; [|discriminate].
  injection Hl as Hl. split; [lia|]. split.
  - exists p1. repeat (split; [first [assumption|congruence]|]).
    unfold Buf_Spec.vec_ofs. rewrite A3. rewrite quot_div in A4 by eauto. exact A4.
  - exists p2. repeat (split; [first [assumption|congruence]|]).
    unfold Buf_Spec.vec_ofs. rewrite B3. rewrite quot_div in B4 by eauto. lia.
Qed.

(* A vector that nothing wrote before index [j]. *)
Definition fresh (j a : Z) : Prop := forall w rs i, In (w, rs) eqs -> b <= i < j -> loc w i <> a.

Lemma fresh_read : forall p k lo len j, buffered k lo len -> In p reads -> p_key p = k -> p_ofs p <> None ->
  j < b + n -> fresh j (cell p j).
Proof using HF Hal Hnc.
  intros p k lo len j Hb Hp Hk Ho Hj w rs i Hw Hi.
  destruct (buffered_reads k lo len Hb) as (L & (p1 & A1 & A2 & A3 & A4) & (p2 & B1 & B2 & B3 & B4)).
  assert (Ex : exists q, In q reads /\ p_key q = k /\ p_ofs q <> None /\ p_ofs p <> p_ofs q).
  { destruct (Z.eq_dec (vec_ofs p) lo) as [E|E].
    - exists p2. repeat (split; [assumption|]). intros X. unfold Buf_Spec.vec_ofs in *. rewrite X in E. lia.
    - exists p1. repeat (split; [assumption|]). intros X. unfold Buf_Spec.vec_ofs in *. rewrite X in E. lia. }
  destruct Ex as (q & Q1 & Q2 & Q3 & Q4).
  apply (Hnc w rs p q i j); try assumption; try congruence; lia.
Qed.

(* ---- buffers ---- *)

(* Buffer contents at the start of index [j]. *)
Definition buf_ok (j : Z) (k : nat) (lo len : Z) (m : nat -> option (list (option V))) : Prop :=
  exists l, m k = Some l /\ Z.of_nat (length l) = len /\
    forall i, 0 <= i < len -> exists x, nth_error l (Z.to_nat i) = Some (Some x) /\
      (fresh j (loc k (j + lo + i)) -> x = mem0 (loc k (j + lo + i))).

(* Local vectors known to the generator hold the values at the start of index [j]. *)
Definition vars_ok (j : Z) (start : Z -> V) (g : gst) (s : mst V) : Prop :=
  forall p v, In (p, v) (g_vars g) -> (v < g_next g)%nat /\ m_var s v = Some (start (cell p j)).

(* All buffers named have their contents. *)
Definition bufs_ok (j : Z) (named : list nat) (s : mst V) : Prop :=
  forall k, In k named -> exists lo len, buffered k lo len /\ buf_ok j k lo len (m_buf s).

Definition log_ok (s : mst V) : Prop := forall x, In x (m_log s) -> in_reach F reads b n x.

Lemma In_existsb_nat : forall k l, existsb (Nat.eqb k) l = true -> In k l.
Proof. intros k l H. apply existsb_exists in H. destruct H as (x & H1 & H2). apply Nat.eqb_eq in H2. subst. exact H1. Qed.

(* State that a read leaves unchanged. *)
Definition same_rest (g g' : gst) (s s' : mst V) : Prop :=
  m_mem s' = m_mem s /\ m_buf s' = m_buf s /\ (g_next g <= g_next g')%nat /\
  (forall v, (v < g_next g)%nat -> m_var s' v = m_var s v).

Lemma aligned_read_ok : forall named g p code v g' j s start,
  aligned_read c reads S0 named g p = (code, v, g') ->
  In p reads -> b <= j < b + n ->
  m_mem s (cell p j) = start (cell p j) ->
  (forall a, fresh j a -> start a = mem0 a) ->
  bufs_ok j named s -> log_ok s ->
  exists s', run j code s = Ok s' /\ same_rest g g' s s' /\ g_vars g' = g_vars g /\ log_ok s' /\
    v = g_next g /\ g_next g' = S v /\ m_var s' v = Some (start (cell p j)).
Proof using HF Hal Hnc.
  intros named g p code v g' j s start E Hp Hj Hm Hst Hb Hlg. unfold aligned_read in E.
  assert (Hn : norm_idx c p j = j + vec_ofs p) by (apply norm_idx_eq; intros; eapply Hal; eauto).
  assert (LOAD : exists s', run j [ILoad (g_next g) p] s = Ok s' /\
     same_rest g (mkG (S (g_next g)) (g_vars g)) s s' /\ log_ok s' /\
     m_var s' (g_next g) = Some (start (cell p j))).
  { eexists. split; [reflexivity|]. cbn. split; [|split].
    - split; [reflexivity|]. split; [reflexivity|]. split; [cbn; lia|].
      intros u Hu. cbn. rewrite put_other by lia. reflexivity.
    - intros x [<-|Hx]; [|apply Hlg, Hx]. rewrite Hn. exists j, p, p. cbn. repeat (split; [first [assumption|lia|reflexivity]|]). lia.
    - rewrite put_same. rewrite Hn. fold (cell p j). rewrite <- Hm. reflexivity. }
  destruct (p_ofs p) as [o|] eqn:Eo.
  2:{ injection E as <- <- <-. destruct LOAD as (s' & A & B & D & G).
      exists s'. repeat (split; [assumption || reflexivity|]). exact G. }
  destruct (existsb (vpt_eqb p) reads && existsb (Nat.eqb (p_key p)) named) eqn:E1.
  2:{ injection E as <- <- <-. destruct LOAD as (s' & A & B & D & G).
      exists s'. repeat (split; [assumption || reflexivity|]). exact G. }
  apply andb_prop in E1. destruct E1 as [_ E1]. apply In_existsb_nat in E1.
  destruct (Hb _ E1) as (lo & len & Hbf & l & L1 & L2 & L3).
  destruct Hbf as [Hb1 Hb2]. rewrite Hb1, Hb2 in E.
  destruct ((0 <=? Z.quot o F - lo) && (Z.quot o F - lo <? len)) eqn:Er.
  2:{ injection E as <- <- <-. destruct LOAD as (s' & A & B & D & G).
      exists s'. repeat (split; [assumption || reflexivity|]). exact G. }
  injection E as <- <- <-. apply andb_prop in Er. destruct Er as [Er1 Er2].
  destruct (L3 (Z.quot o F - lo) ltac:(lia)) as (x & Lx & Hx).
  eexists. split.
  { cbn. unfold get_buf. rewrite L1, Er1, Lx. cbn. reflexivity. }
  cbn. split.
  { split; [reflexivity|]. split; [reflexivity|]. split; [cbn; lia|].
    intros u Hu. cbn. rewrite put_other by lia. reflexivity. }
  repeat (split; [reflexivity || exact Hlg|]). rewrite put_same. f_equal.
  assert (Ec : loc (p_key p) (j + lo + (Z.quot o F - lo)) = cell p j).
  { unfold Buf_Spec.cell, Buf_Spec.vec_ofs. rewrite Eo. rewrite quot_div by eauto. f_equal. lia. }
  rewrite Ec in Hx.
  assert (Fr : fresh j (cell p j)).
  { apply (fresh_read p (p_key p) lo len); try assumption; try reflexivity; [split; assumption| |lia].
    rewrite Eo. discriminate. }
  rewrite (Hx Fr), (Hst _ Fr). reflexivity.
Qed.

Lemma vars_mono : forall j start g g' s s',
  vars_ok j start g s -> same_rest g g' s s' -> g_vars g' = g_vars g -> vars_ok j start g' s'.
Proof.
  intros j start g g' s s' H (A & B & D & E) Hg p v Hv. rewrite Hg in Hv.
  destruct (H p v Hv) as [H1 H2]. split; [lia|]. rewrite E by assumption. exact H2.
Qed.

Lemma bufs_mono : forall j named s s', bufs_ok j named s -> m_buf s' = m_buf s -> bufs_ok j named s'.
Proof. intros j named s s' H E k Hk. unfold buf_ok. rewrite E. apply H, Hk. Qed.

Lemma same_rest_refl : forall g s, same_rest g g s s.
Proof. intros. repeat split. lia. Qed.

Lemma same_rest_trans : forall g1 g2 g3 s1 s2 s3,
  same_rest g1 g2 s1 s2 -> same_rest g2 g3 s2 s3 -> same_rest g1 g3 s1 s3.
Proof.
  intros g1 g2 g3 s1 s2 s3 (A1 & A2 & A3 & A4) (B1 & B2 & B3 & B4).
  split; [congruence|]. split; [congruence|]. split; [lia|].
  intros v Hv. rewrite B4 by lia. apply A4, Hv.
Qed.

Lemma read_point_ok : forall named g p code v g' j s start,
  read_point c reads S0 named g p = (code, v, g') ->
  In p reads -> b <= j < b + n ->
  m_mem s (cell p j) = start (cell p j) ->
  (forall a, fresh j a -> start a = mem0 a) ->
  bufs_ok j named s -> log_ok s -> vars_ok j start g s ->
  exists s', run j code s = Ok s' /\ same_rest g g' s s' /\ vars_ok j start g' s' /\ log_ok s' /\
    (v < g_next g')%nat /\ m_var s' v = Some (start (cell p j)).
Proof using HF Hal Hnc.
  intros named g p code v g' j s start E Hp Hj Hm Hst Hb Hlg Hv. unfold read_point in E.
  destruct (if c_reuse c then vec_var g p else None) as [u|] eqn:Eu.
  - injection E as <- <- <-. exists s. destruct (c_reuse c); [|discriminate].
    apply vec_var_In in Eu. destruct (Hv _ _ Eu) as [V1 V2].
    split; [reflexivity|]. split; [apply same_rest_refl|]. auto.
  - destruct (aligned_read c reads S0 named g p) as [[code1 v1] g1] eqn:Ea. injection E as <- <- <-.
    destruct (aligned_read_ok _ _ _ _ _ _ _ _ _ Ea Hp Hj Hm Hst Hb Hlg)
      as (s' & R & Sr & Gv & Lg & -> & Gn & Mv).
    exists s'. split; [exact R|]. split; [exact Sr|]. split.
    + intros q u [X|X].
      * injection X as <- <-. cbn. split; [lia|exact Mv].
      * cbn. rewrite Gv in X. destruct (Hv _ _ X) as [V1 V2]. split; [lia|].
        destruct Sr as (_ & _ & _ & Sr). rewrite Sr by assumption. exact V2.
    + cbn. split; [exact Lg|]. split; [lia|exact Mv].
Qed.

Lemma run_app : forall j l1 l2 s, run j (l1 ++ l2) s = rbind (run j l1 s) (run j l2).
Proof.
  induction l1 as [|i l1 IH]; intros l2 s; [reflexivity|]. cbn.
  destruct (run1 j i s); cbn; [apply IH|reflexivity..].
Qed.

Lemma read_points_ok : forall ps named g code vs g' j s start,
  read_points c reads S0 named g ps = (code, vs, g') ->
  incl ps reads -> b <= j < b + n ->
  (forall p, In p ps -> m_mem s (cell p j) = start (cell p j)) ->
  (forall a, fresh j a -> start a = mem0 a) ->
  bufs_ok j named s -> log_ok s -> vars_ok j start g s ->
  exists s', run j code s = Ok s' /\ same_rest g g' s s' /\ vars_ok j start g' s' /\ log_ok s' /\
    Forall (fun v => (v < g_next g')%nat) vs /\
    get_vars s' vs = Ok (map (fun p => start (cell p j)) ps).
Proof using HF Hal Hnc.
  induction ps as [|p ps IH]; intros named g code vs g' j s start E Hp Hj Hm Hst Hb Hlg Hv; cbn in E.
  - injection E as <- <- <-. exists s. split; [reflexivity|]. split; [apply same_rest_refl|].
    split; [exact Hv|]. split; [exact Hlg|]. split; [constructor|reflexivity].
  - destruct (read_point c reads S0 named g p) as [[c1 v] g1] eqn:E1.
    destruct (read_points c reads S0 named g1 ps) as [[c2 vs'] g2] eqn:E2. injection E as <- <- <-.
    destruct (read_point_ok _ _ _ _ _ _ _ _ _ E1 (Hp p (or_introl eq_refl)) Hj (Hm p (or_introl eq_refl)) Hst Hb Hlg Hv)
      as (s1 & R1 & Sr1 & V1 & L1 & N1 & M1).
    destruct (IH _ _ _ _ _ j s1 start E2) as (s2 & R2 & Sr2 & V2 & L2 & N2 & M2); try assumption.
    { intros q Hq. apply Hp. right. exact Hq. }
    { intros q Hq. destruct Sr1 as (-> & _). apply Hm. right. exact Hq. }
    { eapply bufs_mono; [exact Hb|]. apply Sr1. }
    exists s2. rewrite run_app, R1. cbn. split; [exact R2|].
    split; [eapply same_rest_trans; eassumption|]. split; [exact V2|]. split; [exact L2|]. split.
    + constructor; [|exact N2]. destruct Sr2 as (_ & _ & ? & _). lia.
    + unfold get_var. destruct Sr2 as (_ & _ & _ & X). rewrite X, M1 by assumption. cbn.
      rewrite M2. reflexivity.
Qed.

(* ---- equations ---- *)

Lemma plain_eqs_other : forall es j start e m a,
  (forall w rs, In (w, rs) es -> loc w j <> a) -> plain_eqs loc f F j start e es m a = m a.
Proof.
  induction es as [|[w rs] es IH]; intros j start e m a H; cbn; [reflexivity|].
  rewrite IH by (intros w' rs' H'; apply (H w' rs'); right; exact H').
  destruct (a =? loc w j) eqn:E; [|reflexivity]. apply Z.eqb_eq in E.
  exfalso. apply (H w rs); [left; reflexivity|congruence].
Qed.

Lemma eqs_code_ok : forall es done named g code g' j s start,
  eqs = done ++ es ->
  eqs_code c reads S0 named g (length done) es = (code, g') ->
  b <= j < b + n ->
  (forall a, (forall w rs, In (w, rs) done -> loc w j <> a) -> m_mem s a = start a) ->
  (forall a, fresh j a -> start a = mem0 a) ->
  bufs_ok j named s -> log_ok s -> vars_ok j start g s ->
  exists s', run j code s = Ok s' /\ (g_next g <= g_next g')%nat /\ vars_ok j start g' s' /\ log_ok s' /\
    m_buf s' = m_buf s /\
    m_mem s' = plain_eqs loc f F j start (length done) es (m_mem s).
Proof using HF Hal Hls Hin Hnc.
  induction es as [|[w rs] es IH]; intros done named g code g' j s start Ed E Hj Hm Hst Hb Hlg Hv; cbn in E.
  - injection E as <- <-. exists s. cbn. repeat (split; [first [reflexivity|lia|assumption]|]). reflexivity.
  - destruct (read_points c reads S0 named g rs) as [[c1 vs] g1] eqn:E1.
    destruct (eqs_code c reads S0 named g1 (S (length done)) es) as [c2 g2] eqn:E2. injection E as <- <-.
    assert (Hw : In (w, rs) eqs) by (rewrite Ed; apply in_or_app; right; left; reflexivity).
    assert (Nd : nth_error eqs (length done) = Some (w, rs)).
    { rewrite Ed. rewrite nth_error_app2 by lia. rewrite Nat.sub_diag. reflexivity. }
    destruct (read_points_ok _ _ _ _ _ _ j s start E1 (Hls w rs Hw) Hj) as (s1 & R1 & Sr1 & V1 & L1 & N1 & M1);
      try assumption.
    { intros p Hp. apply Hm. intros w1 rs1 Hd. apply In_nth_error in Hd. destruct Hd as [e1 He1].
      assert (e1 < length done)%nat by (apply nth_error_Some; congruence).
      apply (Hin e1 (length done) w1 rs1 w rs p j); try assumption.
      rewrite Ed, nth_error_app1 by assumption. exact He1. }
    assert (Wk : wkey (length done) = w).
    { cbn. rewrite (nth_error_nth _ _ _ Nd). reflexivity. }
    set (x := f (length done) (m_mem s1 (loc w j)) (map (fun p => start (cell p j)) rs)).
    set (s2 := mkM (fun a => if a =? loc w j then x else m_mem s1 a) (m_buf s1) (m_var s1) (m_log s1)).
    destruct (IH (done ++ [(w, rs)]) named g1 c2 g2 j s2 start) as (s3 & R3 & G3 & V3 & L3 & B3 & M3);
      try assumption.
    { rewrite <- app_assoc. exact Ed. }
    { rewrite app_length. cbn. rewrite Nat.add_1_r. exact E2. }
    { intros a Ha. cbn. destruct (a =? loc w j) eqn:Ea.
      - apply Z.eqb_eq in Ea. exfalso. apply (Ha w rs); [apply in_or_app; right; left; reflexivity|congruence].
      - destruct Sr1 as (-> & _). apply Hm. intros w1 rs1 Hd. apply (Ha w1 rs1). apply in_or_app. left. exact Hd. }
    { eapply bufs_mono; [exact Hb|]. cbn. apply Sr1. }
    exists s3. rewrite run_app, R1.
    assert (Q : run1 j (IEq (length done) vs) s1 = Ok s2).
    { unfold Buf_Model.run1. rewrite M1. unfold rbind. fold x. rewrite Wk. reflexivity. }
    cbn [rbind Buf_Model.run]. rewrite Q. cbn [rbind].
    split; [exact R3|]. split; [destruct Sr1 as (_ & _ & ? & _); lia|].
    split; [exact V3|]. split; [exact L3|]. split.
    + rewrite B3. cbn. apply Sr1.
    + rewrite M3. rewrite app_length. cbn [length plain_eqs]. rewrite Nat.add_1_r.
      destruct Sr1 as (Em & _). unfold s2, x. cbn [m_mem]. rewrite Em. reflexivity.
Qed.

(* ---- filling and shifting ---- *)

Lemma fill_ok : forall cnt named k lo len g code g' j s start vofs stop i l,
  fill c reads S0 named g k len cnt vofs stop i = (code, g') ->
  buffered k lo len -> b <= j < b + n ->
  (In k named -> lo + len <= vofs) ->
  cnt = Z.to_nat (stop - vofs) -> 0 <= i -> i + (stop - vofs) <= len ->
  lo <= vofs -> stop <= lo + len + 1 ->
  m_buf s k = Some l -> Z.of_nat (length l) = len ->
  log_ok s -> vars_ok j start g s ->
  exists s' l', run j code s = Ok s' /\ m_mem s' = m_mem s /\ vars_ok j start g' s' /\ log_ok s' /\
    m_buf s' k = Some l' /\ length l' = length l /\
    (forall k', k' <> k -> m_buf s' k' = m_buf s k') /\
    (forall u, 0 <= u < len -> ~ (i <= u < i + (stop - vofs)) -> nth_error l' (Z.to_nat u) = nth_error l (Z.to_nat u)) /\
    (forall u, i <= u < i + (stop - vofs) ->
       exists x, nth_error l' (Z.to_nat u) = Some (Some x) /\
         let a := loc k (j + vofs + (u - i)) in x = m_mem s a \/ x = start a).
Proof using HF Hal Hnc.
  induction cnt as [|cnt IH]; intros named k lo len g code g' j s start vofs stop i l
    E Hbf Hj Hnm Hc Hi Hl Hlo Hhi Hl1 Hl2 Hlg Hv; cbn [fill] in E.
  - injection E as <- <-. exists s, l. repeat (split; [first [reflexivity|assumption]|]).
    intros u Hu. lia.
  - replace ((vofs <? stop) && (i <? len)) with true in E by lia.
    set (ogp := mkPt k (Some (vofs * F))) in *.
    destruct (match (if c_reuse c then vec_var g ogp else None) with
              | Some v => ([], v, g) | None => aligned_read c reads S0 named g ogp end)
      as [[c1 v] g1] eqn:E1.
    destruct (fill c reads S0 named g1 k len cnt (vofs + 1) stop (i + 1)) as [c2 g2] eqn:E2.
    injection E as <- <-.
    assert (Vo : vec_ofs ogp = vofs) by (unfold Buf_Spec.vec_ofs; cbn; rewrite Z.div_mul by lia; reflexivity).
    destruct (buffered_reads k lo len Hbf) as (Ln & (pl & A1 & A2 & A3 & A4) & (ph & B1 & B2 & B3 & B4)).
    assert (R1 : exists s1 x, run j c1 s = Ok s1 /\ m_mem s1 = m_mem s /\ m_buf s1 = m_buf s /\
       vars_ok j start g1 s1 /\ log_ok s1 /\ m_var s1 v = Some x /\
       (x = m_mem s (loc k (j + vofs)) \/ x = start (loc k (j + vofs)))).
    { destruct (if c_reuse c then vec_var g ogp else None) as [u|] eqn:Eu.
      - injection E1 as <- <- <-. exists s. eexists. destruct (c_reuse c); [|discriminate].
        apply vec_var_In in Eu. destruct (Hv _ _ Eu) as [_ V2].
        split; [reflexivity|]. split; [reflexivity|]. split; [reflexivity|]. split; [exact Hv|].
        split; [exact Hlg|]. split; [exact V2|]. right. unfold Buf_Spec.cell. rewrite Vo. reflexivity.
      - unfold aligned_read in E1. cbn [p_ofs p_key ogp] in E1.
        match type of E1 with (match ?t with _ => _ end, _, _) = _ => assert (T : t = None) end.
        { destruct (existsb (vpt_eqb ogp) reads && existsb (Nat.eqb k) named) eqn:X; [|reflexivity].
          apply andb_prop in X. destruct X as [_ X]. apply In_existsb_nat in X. specialize (Hnm X).
          destruct Hbf as [-> ->]. rewrite Z.quot_mul by lia.
          replace ((0 <=? vofs - lo) && (vofs - lo <? len)) with false by lia. reflexivity. }
        rewrite T in E1. injection E1 as <- <- <-.
        assert (Ni : norm_idx c ogp j = j + vofs).
        { rewrite <- Vo. apply norm_idx_eq. intros o Ho. injection Ho as <-. exists vofs. lia. }
        eexists. eexists. split; [reflexivity|]. cbn [Buf_Model.run1 m_mem m_buf m_var m_log].
        split; [reflexivity|]. split; [reflexivity|]. split.
        { intros q u Hq. destruct (Hv q u Hq) as [V1 V2]. cbn. split; [lia|]. rewrite put_other by lia. exact V2. }
        split.
        { intros x [<-|Hx]; [|apply Hlg, Hx]. fold ogp. rewrite Ni. exists j, pl, ph. cbn.
          repeat (split; [first [assumption|lia]|]). lia. }
        split; [rewrite put_same; reflexivity|]. left. fold ogp. rewrite Ni. reflexivity. }
    destruct R1 as (s1 & x & R1 & M1 & Bf1 & V1 & L1 & X1 & X2).
    set (l1 := set_nth (Z.to_nat i) (Some x) l).
    set (s2 := mkM (m_mem s1) (put (m_buf s1) k l1) (m_var s1) (m_log s1)).
    assert (P : put_buf s1 k i x = Ok s2).
    { unfold put_buf. rewrite Bf1, Hl1. replace ((0 <=? i) && (i <? Z.of_nat (length l))) with true by lia.
      unfold s2. rewrite Bf1. reflexivity. }
    destruct (IH named k lo len g1 c2 g2 j s2 start (vofs + 1) stop (i + 1) l1) as
      (s3 & l3 & R3 & M3 & V3 & L3 & Bk3 & Le3 & O3 & K3 & N3); try assumption; try lia.
    { intros X. specialize (Hnm X). lia. }
    { cbn. apply put_same. }
    { unfold l1. rewrite set_nth_length. exact Hl2. }
    exists s3, l3. rewrite run_app, R1. cbn. unfold get_var. rewrite X1. cbn. rewrite P. cbn.
    split; [exact R3|]. split; [rewrite M3; exact M1|]. split; [exact V3|]. split; [exact L3|].
    split; [exact Bk3|]. split; [rewrite Le3; apply set_nth_length|]. split; [|split].
    + intros k' Hk. rewrite O3 by assumption. cbn. rewrite put_other by assumption. rewrite Bf1. reflexivity.
    + intros u Hu1 Hu2. rewrite K3 by lia. apply set_nth_other. lia.
    + intros u Hu. destruct (Z.eq_dec u i) as [->|Nu].
      * exists x. rewrite K3 by lia. split; [apply set_nth_same; lia|].
        rewrite Z.sub_diag, Z.add_0_r. exact X2.
      * destruct (N3 u ltac:(lia)) as (y & Y1 & Y2). exists y. split; [exact Y1|].
        cbn in Y2. rewrite M1 in Y2.
        replace (j + vofs + (u - i)) with (j + (vofs + 1) + (u - (i + 1))) by lia. exact Y2.
Qed.

Lemma copies_ok : forall cnt a k j s l,
  m_buf s k = Some l -> (a + cnt < length l)%nat ->
  (forall i, (i < length l)%nat -> exists x, nth_error l i = Some (Some x)) ->
  exists s' l', run j (map (fun i => ICopy k i (i + 1)) (map Z.of_nat (seq a cnt))) s = Ok s' /\
    m_mem s' = m_mem s /\ m_var s' = m_var s /\ m_log s' = m_log s /\
    m_buf s' k = Some l' /\ length l' = length l /\
    (forall k', k' <> k -> m_buf s' k' = m_buf s k') /\
    (forall i, (a <= i < a + cnt)%nat -> nth_error l' i = nth_error l (S i)) /\
    (forall i, ~ (a <= i < a + cnt)%nat -> nth_error l' i = nth_error l i).
Proof.
  induction cnt as [|cnt IH]; intros a k j s l Hb Hl Hs.
  - exists s, l. cbn. repeat (split; [first [reflexivity|assumption|intros; lia]|]). reflexivity.
  - cbn [seq map].
    destruct (Hs (S a) ltac:(lia)) as (x & Hx).
    set (l1 := set_nth a (Some x) l).
    set (s1 := mkM (m_mem s) (put (m_buf s) k l1) (m_var s) (m_log s)).
    assert (Q : run1 j (ICopy k (Z.of_nat a) (Z.of_nat a + 1)) s = Ok s1).
    { cbn. unfold get_buf. rewrite Hb. replace (0 <=? Z.of_nat a + 1) with true by lia.
      replace (Z.to_nat (Z.of_nat a + 1)) with (S a) by lia. rewrite Hx. cbn.
      unfold put_buf. rewrite Hb. replace ((0 <=? Z.of_nat a) && (Z.of_nat a <? Z.of_nat (length l))) with true by lia.
      rewrite Nat2Z.id. reflexivity. }
    destruct (IH (S a) k j s1 l1) as (s2 & l2 & R2 & M2 & V2 & L2 & B2 & N2 & O2 & D2 & U2).
    { cbn. apply put_same. }
    { unfold l1. rewrite set_nth_length. lia. }
    { intros i Hi. unfold l1 in *. rewrite set_nth_length in Hi. destruct (Nat.eq_dec i a) as [->|Ni].
      - exists x. apply set_nth_same. assumption.
      - rewrite set_nth_other by assumption. apply Hs, Hi. }
    exists s2, l2. cbn [Buf_Model.run]. rewrite Q. cbn [rbind].
    split; [exact R2|]. split; [exact M2|]. split; [exact V2|]. split; [exact L2|]. split; [exact B2|].
    split; [rewrite N2; apply set_nth_length|]. split; [|split].
    + intros k' Hk. rewrite O2 by assumption. cbn. apply put_other, Hk.
    + intros i Hi. destruct (Nat.eq_dec i a) as [->|Ni].
      * rewrite U2 by lia. unfold l1. rewrite set_nth_same by lia. symmetry. exact Hx.
      * rewrite D2 by lia. unfold l1. apply set_nth_other. lia.
    + intros i Hi. rewrite U2 by lia. unfold l1. apply set_nth_other. lia.
Qed.

Lemma fresh_succ : forall j a, fresh (j + 1) a -> fresh j a.
Proof. intros j a H w rs i Hw Hi. apply (H w rs i Hw). lia. Qed.

(* Code before the loop for one key. *)
Lemma pre1_ok : forall named k lo len g code g' s,
  buf_code1 c reads S0 named false g k lo len = (code, g') ->
  buffered k lo len -> ~ In k named -> 0 < n -> g_vars g = [] -> m_mem s = mem0 -> log_ok s ->
  exists s', run b code s = Ok s' /\ m_mem s' = mem0 /\ g_vars g' = [] /\ log_ok s' /\
    (forall k', k' <> k -> m_buf s' k' = m_buf s k') /\ buf_ok b k lo len (m_buf s').
Proof using HF Hal Hnc.
  intros named k lo len g code g' s E Hbf Hk Hn Hg Hm Hlg. unfold buf_code1 in E.
  destruct (fill c reads S0 named g k len (Z.to_nat (lo + len - lo)) lo (lo + len) 0) as [c2 g2] eqn:E2.
  injection E as <- <-. destruct (buffered_reads k lo len Hbf) as (Ln & _).
  set (l := repeat (@None V) (Z.to_nat len)).
  set (s1 := mkM (m_mem s) (put (m_buf s) k l) (m_var s) (m_log s)).
  assert (Hl : Z.of_nat (length l) = len) by (unfold l; rewrite repeat_length; lia).
  assert (Gv : forall cnt g vofs stop i code g', fill c reads S0 named g k len cnt vofs stop i = (code, g') ->
     g_vars g' = g_vars g).
  { clear. induction cnt as [|cnt IH]; intros g vofs stop i code g' E; cbn [fill] in E.
    - injection E as <- <-. reflexivity.
    - destruct ((vofs <? stop) && (i <? len)); [|injection E as <- <-; reflexivity].
      destruct (match (if c_reuse c then vec_var g (mkPt k (Some (vofs * F))) else None) with
              | Some v => ([], v, g) | None => aligned_read c reads S0 named g (mkPt k (Some (vofs * F))) end)
      as [[c1 v] g1] eqn:E1.
      destruct (fill c reads S0 named g1 k len cnt (vofs + 1) stop (i + 1)) as [c2 g2] eqn:E2.
      injection E as <- <-. rewrite (IH _ _ _ _ _ _ E2).
      destruct (if c_reuse c then _ else _); [injection E1 as <- <- <-; reflexivity|].
      unfold aligned_read in E1. injection E1 as <- <- <-. reflexivity. }
  destruct (fill_ok _ named k lo len g c2 g2 b s1 mem0 lo (lo + len) 0 l E2) as
    (s2 & l2 & R2 & M2 & V2 & L2 & B2 & Le2 & O2 & K2 & N2); try assumption; try lia.
  { intros X. contradiction. }
  { cbn. apply put_same. }
  { intros p v. rewrite Hg. intros []. }
  exists s2. cbn [app Buf_Model.run Buf_Model.run1 rbind]. fold l. fold s1.
  split; [exact R2|]. split; [rewrite M2; exact Hm|]. split; [rewrite (Gv _ _ _ _ _ _ _ E2); exact Hg|].
  split; [exact L2|]. split.
  - intros k' Hk'. rewrite O2 by assumption. cbn. apply put_other, Hk'.
  - exists l2. split; [exact B2|]. split; [rewrite Le2; exact Hl|]. intros i Hi.
    destruct (N2 i ltac:(lia)) as (x & X1 & X2). exists x. split; [exact X1|]. intros _.
    replace (b + lo + i) with (b + lo + (i - 0)) by lia. cbn in X2. rewrite Hm in X2. destruct X2; assumption.
Qed.

(* Code in the loop for one key. *)
Lemma post1_ok : forall named k lo len g code g' j s start,
  buf_code1 c reads S0 named true g k lo len = (code, g') ->
  buffered k lo len -> b <= j < b + n -> buf_ok j k lo len (m_buf s) ->
  (forall a, fresh j a -> start a = mem0 a) ->
  (forall a, fresh (j + 1) a -> m_mem s a = mem0 a) ->
  log_ok s -> vars_ok j start g s ->
  exists s', run j code s = Ok s' /\ m_mem s' = m_mem s /\ vars_ok j start g' s' /\ log_ok s' /\
    (forall k', k' <> k -> m_buf s' k' = m_buf s k') /\ buf_ok (j + 1) k lo len (m_buf s').
Proof using HF Hal Hnc.
  intros named k lo len g code g' j s start E Hbf Hj (l & Hl1 & Hl2 & Hl3) Hst Hme Hlg Hv. unfold buf_code1 in E.
  destruct (buffered_reads k lo len Hbf) as (Ln & _).
  replace (Z.max (len - 1) 0) with (len - 1) in E by lia.
  destruct (fill c reads S0 named g k len (Z.to_nat (lo + len + 1 - (lo + len))) (lo + len) (lo + len + 1) (len - 1))
    as [c2 g2] eqn:E2.
  injection E as <- <-.
  destruct (copies_ok (Z.to_nat (len - 1)) 0 k j s l Hl1) as (s1 & l1 & R1 & M1 & V1 & L1 & B1 & Le1 & O1 & D1 & U1).
  { lia. }
  { intros i Hi. destruct (Hl3 (Z.of_nat i) ltac:(lia)) as (x & X & _). rewrite Nat2Z.id in X. eauto. }
  destruct (fill_ok _ named k lo len g c2 g2 j s1 start (lo + len) (lo + len + 1) (len - 1) l1 E2) as
    (s2 & l2 & R2 & M2 & V2 & L2 & B2 & Le2 & O2 & K2 & N2); try assumption; try lia.
  { intros x Hx. rewrite L1 in Hx. apply Hlg, Hx. }
  { intros p v Hp. destruct (Hv p v Hp) as [A B]. rewrite V1. auto. }
  exists s2. rewrite run_app. unfold zseq. rewrite R1. cbn [rbind].
  split; [exact R2|]. split; [rewrite M2; exact M1|]. split; [exact V2|]. split; [exact L2|]. split.
  - intros k' Hk. rewrite O2 by assumption. apply O1, Hk.
  - exists l2. split; [exact B2|]. split; [lia|]. intros i Hi.
    destruct (Z.eq_dec i (len - 1)) as [->|Ni].
    + destruct (N2 (len - 1) ltac:(lia)) as (x & X1 & X2). exists x. split; [exact X1|]. intros Fr.
      cbn in X2. replace (j + (lo + len) + (len - 1 - (len - 1))) with (j + 1 + lo + (len - 1)) in X2 by lia.
      rewrite M1 in X2. destruct X2 as [->| ->]; [apply Hme, Fr|apply Hst, fresh_succ, Fr].
    + destruct (Hl3 (i + 1) ltac:(lia)) as (x & X1 & X2). exists x. split.
      * rewrite K2 by lia. rewrite D1 by lia. replace (S (Z.to_nat i)) with (Z.to_nat (i + 1)) by lia. exact X1.
      * replace (j + 1 + lo + i) with (j + lo + (i + 1)) by lia. intros Fr. apply X2, fresh_succ, Fr.
Qed.

(* Code before the loop. *)
Lemma pre_ok : forall ps named done g code named' g' s,
  buffer_code c reads S0 false named done g ps = (code, named', g') ->
  (forall k, In k named <-> In k done) -> 0 < n -> g_vars g = [] -> m_mem s = mem0 -> log_ok s -> bufs_ok b named s ->
  exists s', run b code s = Ok s' /\ m_mem s' = mem0 /\ g_vars g' = [] /\ log_ok s' /\ bufs_ok b named' s' /\
    (forall k, In k named' -> In k named \/ exists p, In p ps /\ p_key p = k /\ p_ofs p <> None).
Proof using HF Hal Hnc.
  induction ps as [|p ps IH]; intros named done g code named' g' s E Hd Hn Hg Hm Hlg Hb; cbn [buffer_code] in E.
  - injection E as <- <- <-. exists s. repeat (split; [first [reflexivity|assumption]|]). auto.
  - assert (Skip : buffer_code c reads S0 false named done g ps = (code, named', g') ->
      exists s', run b code s = Ok s' /\ m_mem s' = mem0 /\ g_vars g' = [] /\ log_ok s' /\ bufs_ok b named' s' /\
      (forall k, In k named' -> In k named \/ exists p0, In p0 (p :: ps) /\ p_key p0 = k /\ p_ofs p0 <> None)).
    { intros E'. destruct (IH _ _ _ _ _ _ s E' Hd Hn Hg Hm Hlg Hb) as (s' & A1 & A2 & A3 & A4 & A5 & A6).
      exists s'. repeat (split; [assumption|]). intros k Hk. destruct (A6 k Hk) as [|(q & Q1 & Q2)]; [auto|].
      right. exists q. split; [right; exact Q1|exact Q2]. }
    destruct (p_ofs p) as [o|] eqn:Eo; [|apply Skip, E].
    destruct (s_lo S0 (p_key p)) as [lo|] eqn:Elo; [|apply Skip, E].
    destruct (s_len S0 (p_key p)) as [len|] eqn:Ele; [|apply Skip, E].
    destruct (existsb (Nat.eqb (p_key p)) done) eqn:Ed; [apply Skip, E|].
    destruct (buf_code1 c reads S0 named false g (p_key p) lo len) as [c1 g1] eqn:E1.
    destruct (buffer_code c reads S0 false (p_key p :: named) (p_key p :: done) g1 ps) as [[c2 n2] g2] eqn:E2.
    injection E as <- <- <-.
    assert (Nk : ~ In (p_key p) named).
    { intros X. apply Hd in X. assert (existsb (Nat.eqb (p_key p)) done = true); [|congruence].
      apply existsb_exists. exists (p_key p). split; [exact X|apply Nat.eqb_refl]. }
    assert (Bk : buffered (p_key p) lo len) by (split; assumption).
    destruct (pre1_ok _ _ _ _ _ _ _ s E1 Bk Nk Hn Hg Hm Hlg) as (s1 & R1 & M1 & G1 & L1 & O1 & K1).
    destruct (IH _ _ _ _ _ _ s1 E2) as (s2 & R2 & M2 & G2 & L2 & B2 & I2); try assumption.
    { intros k. cbn. rewrite Hd. reflexivity. }
    { intros k [<-|Hk]; [exists lo, len; auto|].
      destruct (Hb k Hk) as (lo' & len' & A & B). exists lo', len'. split; [exact A|].
      unfold buf_ok. rewrite O1 by (intros ->; contradiction). exact B. }
    exists s2. rewrite run_app, R1. cbn. repeat (split; [assumption|]).
    intros k Hk. destruct (I2 k Hk) as [[<-|Hk2]|(q & Q1 & Q2)].
    + right. exists p. rewrite Eo. split; [left; reflexivity|]. split; [reflexivity|discriminate].
    + auto.
    + right. exists q. split; [right; exact Q1|exact Q2].
Qed.

(* Code at the end of the loop body. *)
Lemma post_ok : forall ps named done g code named' g' j s start,
  buffer_code c reads S0 true named done g ps = (code, named', g') ->
  b <= j < b + n ->
  (forall k, In k named -> ~ In k done -> exists lo len, buffered k lo len /\ buf_ok j k lo len (m_buf s)) ->
  (forall k, In k done -> exists lo len, buffered k lo len /\ buf_ok (j + 1) k lo len (m_buf s)) ->
  (forall p lo len, In p ps -> p_ofs p <> None -> buffered (p_key p) lo len -> In (p_key p) named) ->
  (forall k, In k named -> In k done \/ exists p, In p ps /\ p_key p = k /\ p_ofs p <> None) ->
  (forall a, fresh j a -> start a = mem0 a) ->
  (forall a, fresh (j + 1) a -> m_mem s a = mem0 a) ->
  log_ok s -> vars_ok j start g s ->
  exists s', run j code s = Ok s' /\ m_mem s' = m_mem s /\ log_ok s' /\ bufs_ok (j + 1) named s'.
Proof using HF Hal Hnc.
  induction ps as [|p ps IH]; intros named done g code named' g' j s start E Hj H1 H2 H3 H4 Hst Hme Hlg Hv; cbn [buffer_code] in E.
  - injection E as <- <- <-. exists s. split; [reflexivity|]. split; [reflexivity|]. split; [exact Hlg|].
    intros k Hk. destruct (H4 k Hk) as [Hd|(p & [] & _)]. apply H2, Hd.
  - assert (Skip : buffer_code c reads S0 true named done g ps = (code, named', g') ->
      (In (p_key p) named -> p_ofs p <> None -> In (p_key p) done) ->
      exists s', run j code s = Ok s' /\ m_mem s' = m_mem s /\ log_ok s' /\ bufs_ok (j + 1) named s').
    { intros E' X. apply (IH _ _ _ _ _ _ j s start E'); try assumption.
      - intros q lo len Hq. apply H3. right. exact Hq.
      - intros k Hk. destruct (H4 k Hk) as [|(q & [<-|Q1] & Q2 & Q3)]; [auto| |].
        + left. subst k. apply X; assumption.
        + right. exists q. auto. }
    destruct (p_ofs p) as [o|] eqn:Eo; [|apply Skip; [exact E|congruence]].
    destruct (s_lo S0 (p_key p)) as [lo|] eqn:Elo.
    2:{ apply Skip; [exact E|]. intros Hk _. destruct (in_dec Nat.eq_dec (p_key p) done) as [|Nd]; [assumption|].
        destruct (H1 _ Hk Nd) as (lo & len & [X _] & _). congruence. }
    destruct (s_len S0 (p_key p)) as [len|] eqn:Ele.
    2:{ apply Skip; [exact E|]. intros Hk _. destruct (in_dec Nat.eq_dec (p_key p) done) as [|Nd]; [assumption|].
        destruct (H1 _ Hk Nd) as (lo' & len & [_ X] & _). congruence. }
    destruct (existsb (Nat.eqb (p_key p)) done) eqn:Ed.
    { apply Skip; [exact E|]. intros _ _. apply In_existsb_nat, Ed. }
    destruct (buf_code1 c reads S0 named true g (p_key p) lo len) as [c1 g1] eqn:E1.
    destruct (buffer_code c reads S0 true named (p_key p :: done) g1 ps) as [[c2 n2] g2] eqn:E2.
    injection E as <- <- <-.
    assert (Bk : buffered (p_key p) lo len) by (split; assumption).
    assert (Nd : ~ In (p_key p) done).
    { intros X. assert (existsb (Nat.eqb (p_key p)) done = true); [|congruence].
      apply existsb_exists. exists (p_key p). split; [exact X|apply Nat.eqb_refl]. }
    assert (Nm : In (p_key p) named).
    { apply (H3 p lo len); [left; reflexivity|rewrite Eo; discriminate|exact Bk]. }
    destruct (H1 _ Nm Nd) as (lo' & len' & [X1 X2] & Bj).
    rewrite Elo in X1. rewrite Ele in X2. injection X1 as <-. injection X2 as <-.
    destruct (post1_ok _ _ _ _ _ _ _ j s start E1 Bk Hj Bj Hst Hme Hlg Hv) as (s1 & R1 & M1 & V1 & L1 & O1 & K1).
    destruct (IH _ _ _ _ _ _ j s1 start E2) as (s2 & R2 & M2 & L2 & B2); try assumption.
    { intros k Hk Hd. cbn in Hd. destruct (H1 k Hk ltac:(tauto)) as (lo' & len' & A & B). exists lo', len'.
      split; [exact A|]. unfold buf_ok. rewrite O1 by (intros ->; tauto). exact B. }
    { intros k [<-|Hk]; [exists lo, len; auto|]. destruct (H2 k Hk) as (lo' & len' & A & B). exists lo', len'.
      split; [exact A|]. unfold buf_ok. rewrite O1 by (intros ->; contradiction). exact B. }
    { intros q lo' len' Hq. apply H3. right. exact Hq. }
    { intros k Hk. destruct (H4 k Hk) as [|(q & [<-|Q1] & Q2 & Q3)]; [left; right; assumption| |].
      - left. left. exact Q2.
      - right. exists q. auto. }
    { intros a Ha. rewrite M1. apply Hme, Ha. }
    exists s2. rewrite run_app, R1. cbn. split; [exact R2|]. split; [rewrite M2; exact M1|]. auto.
Qed.

(* Every key with a buffer gets its name before the loop. *)
Lemma named_all : forall ps named done g code named' g' p lo len,
  buffer_code c reads S0 false named done g ps = (code, named', g') ->
  (forall k, In k done -> In k named) ->
  (In p ps /\ p_ofs p <> None /\ buffered (p_key p) lo len \/ In (p_key p) named) -> In (p_key p) named'.
Proof.
  induction ps as [|q ps IH]; intros named done g code named' g' p lo len E Hd Hp; cbn [buffer_code] in E.
  - injection E as <- <- <-. destruct Hp as [[[] _]|]; assumption.
  - destruct (p_ofs q) as [o|] eqn:Eo.
    2:{ apply (IH _ _ _ _ _ _ p lo len E Hd). destruct Hp as [[[<-|Hp] [Ho Hb]]|Hp]; [congruence|auto|auto]. }
    destruct (s_lo S0 (p_key q)) as [lo'|] eqn:Elo.
    2:{ apply (IH _ _ _ _ _ _ p lo len E Hd). destruct Hp as [[[<-|Hp] [Ho [Hb Hb2]]]|Hp]; [congruence| |auto].
        left. repeat (split; [assumption|]). assumption. }
    destruct (s_len S0 (p_key q)) as [len'|] eqn:Ele.
    2:{ apply (IH _ _ _ _ _ _ p lo len E Hd). destruct Hp as [[[<-|Hp] [Ho [Hb Hb2]]]|Hp]; [congruence| |auto].
        left. repeat (split; [assumption|]). assumption. }
    destruct (existsb (Nat.eqb (p_key q)) done) eqn:Ed.
    { apply (IH _ _ _ _ _ _ p lo len E Hd). destruct Hp as [[[<-|Hp] Hr]|Hp]; [|auto|auto].
      right. apply Hd, In_existsb_nat, Ed. }
    destruct (buf_code1 c reads S0 named false g (p_key q) lo' len') as [c1 g1].
    destruct (buffer_code c reads S0 false (p_key q :: named) (p_key q :: done) g1 ps) as [[c2 n2] g2] eqn:E2.
    injection E as <- <- <-. apply (IH _ _ _ _ _ _ p lo len E2).
    + intros k [<-|Hk]; [left; reflexivity|right; apply Hd, Hk].
    + destruct Hp as [[[<-|Hp] Hr]|Hp]; [right; left; reflexivity|auto|right; right; exact Hp].
Qed.

Lemma fresh_next : forall j start, b <= j ->
  (forall a, fresh j a -> start a = mem0 a) ->
  forall a, fresh (j + 1) a -> plain_eqs loc f F j start 0 eqs start a = mem0 a.
Proof.
  intros j start Hj H a Ha. rewrite plain_eqs_other.
  - apply H, fresh_succ, Ha.
  - intros w rs Hw. apply (Ha w rs j Hw). lia.
Qed.

Lemma run_loop_ok : forall body named,
  (forall j s, b <= j < b + n -> (forall a, fresh j a -> m_mem s a = mem0 a) -> bufs_ok j named s -> log_ok s ->
     exists s', run j body s = Ok s' /\ m_mem s' = plain_eqs loc f F j (m_mem s) 0 eqs (m_mem s) /\
       bufs_ok (j + 1) named s' /\ log_ok s') ->
  forall cnt j s, b <= j -> j + Z.of_nat cnt <= b + n ->
  (forall a, fresh j a -> m_mem s a = mem0 a) -> bufs_ok j named s -> log_ok s ->
  exists s', run_loop cnt j body s = Ok s' /\ m_mem s' = plain_loop loc f F cnt j eqs (m_mem s) /\ log_ok s'.
Proof.
  intros body named B. induction cnt as [|cnt IH]; intros j s Hj1 Hj2 Hf Hb Hlg.
  - exists s. cbn. auto.
  - destruct (B j s ltac:(lia) Hf Hb Hlg) as (s1 & R1 & M1 & B1 & L1).
    destruct (IH (j + 1) (mkM (m_mem s1) (m_buf s1) (m_var s) (m_log s1))) as (s2 & R2 & M2 & L2); try lia.
    + intros a Ha. cbn. rewrite M1. apply fresh_next; assumption.
    + eapply bufs_mono; [exact B1|]. reflexivity.
    + exact L1.
    + exists s2. cbn. rewrite R1. cbn. split; [exact R2|]. split; [|exact L2].
      rewrite M2. cbn. rewrite M1. reflexivity.
Qed.

Theorem loop_code_ok : forall cnt, n = Z.of_nat cnt -> (0 < cnt)%nat ->
  exists log, run_code loc f wkey c (loop_code c reads eqs) b cnt mem0
                = Ok (plain_loop loc f F cnt b eqs mem0, log) /\
    (forall x, In x log -> in_reach F reads b n x).
Proof using HF Hal Hls Hin Hnc.
  intros cnt Hcnt Hpos. unfold run_code, loop_code.
  destruct (buffer_code c reads S0 false [] [] (mkG 0 []) reads) as [[pre named] g1] eqn:E1.
  destruct (if c_early c
            then let '(code, _, g2) := read_points c reads S0 named g1 reads in (code, g2)
            else ([], g1)) as [early g2] eqn:E2.
  destruct (eqs_code c reads S0 named g2 0 eqs) as [body g3] eqn:E3.
  destruct (buffer_code c reads S0 true named [] g3 reads) as [[post named2] g4] eqn:E4.
  cbn [fst snd].
  destruct (pre_ok reads [] [] _ _ _ _ (mkM mem0 (fun _ => None) (fun _ => None) []) E1)
    as (s1 & R1 & M1 & G1 & L1 & B1 & I1); try reflexivity; try lia.
  { intros x []. }
  { intros k []. }
  rewrite R1. cbn [rbind].
  destruct (run_loop_ok (early ++ body ++ post) named) with (cnt := cnt) (j := b) (s := s1)
    as (s2 & R2 & M2 & L2); try assumption; try lia.
  - intros j s Hj Hf Hb Hlg.
    assert (V0 : vars_ok j (m_mem s) g1 s) by (intros p v; rewrite G1; intros []).
    assert (Early : exists s', run j early s = Ok s' /\ vars_ok j (m_mem s) g2 s' /\ log_ok s' /\
      m_mem s' = m_mem s /\ m_buf s' = m_buf s).
    { destruct (c_early c).
      - destruct (read_points c reads S0 named g1 reads) as [[ce vs] ge] eqn:E5. injection E2 as <- <-.
        destruct (read_points_ok _ _ _ _ _ _ j s (m_mem s) E5) as (s' & A1 & A2 & A3 & A4 & _); try assumption.
        { apply incl_refl. }
        { reflexivity. }
        exists s'. repeat (split; [assumption|]). split; apply A2.
      - injection E2 as <- <-. exists s. repeat (split; [first [reflexivity|assumption]|]). reflexivity. }
    destruct Early as (sa & Ra & Va & La & Ma & Ba).
    destruct (eqs_code_ok eqs [] named g2 body g3 j sa (m_mem s) eq_refl E3 Hj) as
      (sb & Rb & Gb & Vb & Lb & Bb & Mb); try assumption.
    { intros a _. rewrite Ma. reflexivity. }
    { eapply bufs_mono; [exact Hb|exact Ba]. }
    rewrite Ma in Mb. cbn [length] in Mb.
    destruct (post_ok reads named [] g3 post named2 g4 j sb (m_mem s) E4 Hj) as (sc & Rc & Mc & Lc & Bc); try assumption.
    { intros k Hk _. destruct (Hb k Hk) as (lo & len & X & Y). exists lo, len. split; [exact X|].
      unfold buf_ok. rewrite Bb, Ba. exact Y. }
    { intros k []. }
    { intros p lo len Hp Ho Hbf. apply (named_all _ _ _ _ _ _ _ p lo len E1); [intros k []|].
      left. auto. }
    { intros a Ha. rewrite Mb. apply fresh_next; [lia|exact Hf|exact Ha]. }
    exists sc. rewrite run_app, Ra. cbn [rbind]. rewrite run_app, Rb. cbn [rbind]. split; [exact Rc|].
    split; [rewrite Mc; exact Mb|]. split; [exact Bc|exact Lc].
  - intros a Ha. rewrite M1. reflexivity.
  - rewrite R2. cbn [rbind]. exists (m_log s2). split; [rewrite M2, M1; reflexivity|exact L2].
Qed.
End Run.

Theorem buf_loop : forall (V : Type) (loc : nat -> Z -> Z) (f : nat -> V -> list V -> V)
    (c : bcfg) (reads : list vpt) (eqs : list (nat * list vpt)) (b : Z) (n : nat) (mem : Z -> V),
  0 < c_fold c -> aligned (c_fold c) reads -> all_listed reads eqs ->
  independent loc (c_fold c) eqs b (Z.of_nat n) ->
  not_carried loc (c_fold c) reads eqs b (Z.of_nat n) ->
  (0 < n)%nat ->
  exists log,
    run_code loc f (fun e => fst (nth e eqs (O, []))) c (loop_code c reads eqs) b n mem
      = Ok (plain_loop loc f (c_fold c) n b eqs mem, log) /\
    (forall x, In x log -> in_reach (c_fold c) reads b (Z.of_nat n) x).
Proof. intros. apply loop_code_ok; auto. Qed.

Theorem buf_settings : forall (V : Type) (loc : nat -> Z -> Z) (f : nat -> V -> list V -> V)
    (F : Z) (min1 min2 : Z) (early1 early2 reuse1 reuse2 : bool)
    (reads : list vpt) (eqs : list (nat * list vpt)) (b : Z) (n : nat) (mem : Z -> V),
  0 < F -> aligned F reads -> all_listed reads eqs ->
  independent loc F eqs b (Z.of_nat n) -> not_carried loc F reads eqs b (Z.of_nat n) -> (0 < n)%nat ->
  let c1 := mkB F min1 early1 reuse1 in
  let c2 := mkB F min2 early2 reuse2 in
  exists m log1 log2,
    run_code loc f (fun e => fst (nth e eqs (O, []))) c1 (loop_code c1 reads eqs) b n mem = Ok (m, log1) /\
    run_code loc f (fun e => fst (nth e eqs (O, []))) c2 (loop_code c2 reads eqs) b n mem = Ok (m, log2).
Proof.
  intros V loc f F min1 min2 early1 early2 reuse1 reuse2 reads eqs b n mem H1 H2 H3 H4 H5 H6 c1 c2.
  destruct (buf_loop V loc f c1 reads eqs b n mem) as (l1 & A & _); try assumption.
  destruct (buf_loop V loc f c2 reads eqs b n mem) as (l2 & B & _); try assumption.
  exists (plain_loop loc f F n b eqs mem), l1, l2. auto.
Qed.
