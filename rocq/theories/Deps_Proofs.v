From Coq Require Import ZifyBool.
From Verif Require Import Base Deps_Model Deps_Spec.

Lemma mem_In : forall a l, mem a l = true <-> In a l.
Proof. intros a l. unfold mem. rewrite existsb_exists. split; [intros (x & H & E); apply Z.eqb_eq in E; subst; exact H|intros H; exists a; split; [exact H|apply Z.eqb_refl]]. Qed.
Lemma mem_false : forall a l, mem a l = false <-> ~ In a l.
Proof. intros a l. rewrite <- mem_In. destruct (mem a l); split; intuition congruence. Qed.
Lemma set_insert_In : forall x a l, In x (set_insert a l) <-> x = a \/ In x l.
Proof. intros x a l. unfold set_insert. destruct (mem a l) eqn:E; cbn; [apply mem_In in E; intuition congruence|intuition congruence]. Qed.
Lemma dm_add_In : forall m a b x y, In y (dm_get x (dm_add a b m)) <-> (x = a /\ y = b) \/ In y (dm_get x m).
Proof.
  induction m as [|[k s] m IH]; intros a b x y; cbn.
  - destruct (x =? a) eqn:E; cbn; intuition (try lia; try congruence).
  - destruct (a =? k) eqn:E1; cbn; destruct (x =? k) eqn:E2; cbn; rewrite ?set_insert_In, ?IH; try tauto; intuition (try lia).
Qed.

Lemma path_app : forall A (E : A -> A -> Prop) a b c, path E a b -> path E b c -> path E a c.
Proof. induction 1; intros; eapply path_step; eauto. Qed.
Lemma path_mono : forall A (E E' : A -> A -> Prop) a b, (forall a b, E a b -> E' a b) -> path E a b -> path E' a b.
Proof. induction 2; [apply path_one; auto|eapply path_step; eauto]. Qed.
Lemma path_snoc : forall A (E : A -> A -> Prop) a b c, path E a b -> E b c -> path E a c.
Proof. intros. eapply path_app; [eassumption|apply path_one; assumption]. Qed.

Section DFS.
  Variable imm : dmap.
  Variable pre : bool.
  Variable N : list Z.
  Local Notation E := (fun a b => In b (dm_get a imm)).
  Hypothesis closedN : forall a b, In a N -> E a b -> In b N.

  Definition free (V : list Z) : nat := length (filter (fun n => negb (mem n V)) N).
  Lemma free_mono : forall V V', incl V V' -> (free V' <= free V)%nat.
  Proof.
    intros V V' H. unfold free. clear closedN. induction N as [|n M IH]; [auto|]. cbn.
    destruct (mem n V) eqn:E1, (mem n V') eqn:E2; cbn; try lia. apply mem_In in E1. apply mem_false in E2. exfalso. auto.
  Qed.
  Lemma free_add : forall V a, In a N -> ~ In a V -> (free (a :: V) < free V)%nat.
  Proof.
    intros V a Ha Hv. unfold free. clear closedN.
    assert (L : forall M, (length (filter (fun n => negb (mem n (a :: V))) M) <= length (filter (fun n => negb (mem n V)) M))%nat).
    { induction M as [|n M IH]; [auto|]. cbn [filter]. replace (mem n (a :: V)) with ((n =? a) || mem n V) by reflexivity. destruct (n =? a), (mem n V); cbn [negb orb length]; lia. }
    induction N as [|n M IH]; [contradiction|]. cbn [filter]. replace (mem n (a :: V)) with ((n =? a) || mem n V) by reflexivity.
    destruct Ha as [->|Ha].
    - rewrite Z.eqb_refl. apply mem_false in Hv. rewrite Hv. cbn [negb orb length]. specialize (L M). lia.
    - specialize (IH Ha). destruct (n =? a), (mem n V); cbn [negb orb length]; lia.
  Qed.

  Definition grey (st : dfs_st) (x : Z) : Prop := In x (visited st) /\ ~ In x (finished st).
  Record dinv (st : dfs_st) : Prop := {
    di_sub : incl (finished st) (visited st);
    di_cl : forall x y, In x (finished st) -> E x y -> In y (finished st);
    di_ac : forall x, In x (finished st) -> ~ path E x x;
    di_vis : forall x, In x (visits st) <-> (if pre then In x (visited st) else In x (finished st));
    di_nd : NoDup (visits st)
  }.

  Lemma closed_path : forall st x y, dinv st -> In x (finished st) -> path E x y -> In y (finished st).
  Proof. intros st x y D Hx P. induction P; [eapply di_cl; eauto|]. apply IHP. eapply di_cl; eauto. Qed.

  (* result of handling node(s) reachable from the roots [R] *)
  Definition post (st : dfs_st) (R : Z -> Prop) (r : res dfs_st) : Prop :=
    match r with
    | Ok st' => dinv st' /\ incl (visited st) (visited st') /\ incl (finished st) (finished st') /\
                (forall x, grey st' x <-> grey st x) /\
                (forall a, R a -> In a (finished st')) /\
                (forall x, In x (finished st') -> In x (finished st) \/ exists a, R a /\ (x = a \/ path E a x))
    | Throw => exists a x, R a /\ (x = a \/ path E a x) /\ path E x x
    | _ => False
    end.

  Lemma dfs_ok : forall fuel st a, dinv st -> In a N -> (free (visited st) < fuel)%nat ->
    (forall g, grey st g -> path E g a) -> post st (eq a) (dfs fuel imm pre st a).
  Proof.
    induction fuel as [|f IH]; intros st a D Ha Hf Hg; [lia|]. cbn [dfs].
    destruct (mem a (finished st)) eqn:Ef.
    { apply mem_In in Ef. cbn. split; [exact D|]. repeat split; try (intros x H; exact H); try apply H; auto. intros b <-. exact Ef. }
    destruct (mem a (visited st)) eqn:Ev.
    { apply mem_In in Ev. apply mem_false in Ef. cbn. exists a, a. split; [reflexivity|]. split; [left; reflexivity|]. apply Hg. split; assumption. }
    apply mem_false in Ef, Ev.
    set (st1 := mkDfs (a :: visited st) (finished st) (if pre then a :: visits st else visits st)).
    assert (D1 : dinv st1).
    { destruct D as [D1 D2 D3 D4 D5]. constructor; cbn; try assumption.
      - intros x Hx. right. auto.
      - intros x. specialize (D4 x). destruct pre; cbn; [rewrite D4; tauto|exact D4].
      - destruct pre; [|exact D5]. constructor; [rewrite D4; exact Ev|exact D5]. }
    assert (Hf1 : (free (visited st1) < f)%nat) by (pose proof (free_add (visited st) a Ha Ev); cbn; lia).
    assert (G1 : forall b g, E a b -> grey st1 g -> path E g b).
    { intros b g Hb (G & NF). cbn in G, NF. destruct G as [<-|G]; [apply path_one; exact Hb|]. eapply path_snoc; [apply Hg; split; assumption|exact Hb]. }
    (* children *)
    assert (K : forall bs st2, incl bs (dm_get a imm) -> dinv st2 -> incl (visited st1) (visited st2) -> (forall x, grey st2 x <-> grey st1 x) ->
                post st2 (fun b => In b bs) (rfold (dfs f imm pre) bs st2)).
    { induction bs as [|b bs IHb]; intros st2 Hs D2 Hv Hgr.
      - cbn. split; [exact D2|]. repeat split; try (intros x H; exact H); try apply H; auto. intros x [].
      - cbn [rfold].
        assert (Eb : E a b) by (apply Hs; left; reflexivity).
        pose proof (IH st2 b D2 (closedN a b Ha Eb) ltac:(pose proof (free_mono _ _ Hv); lia) ltac:(intros g Gg; apply G1; [exact Eb|apply Hgr; exact Gg])) as P.
        destruct (dfs f imm pre st2 b) as [st3| | |] eqn:R; cbn [rbind]; cbn in P.
        + destruct P as (D3 & V3 & F3 & Gr3 & R3 & N3).
          specialize (IHb st3 ltac:(intros x Hx; apply Hs; right; exact Hx) D3 ltac:(intros x Hx; auto) ltac:(intros x; rewrite Gr3; apply Hgr)).
          destruct (rfold (dfs f imm pre) bs st3) as [st4| | |]; cbn in IHb |- *.
          * destruct IHb as (D4 & V4 & F4 & Gr4 & R4 & N4). split; [exact D4|]. split; [intros x Hx; auto|]. split; [intros x Hx; auto|].
            split; [intros x; rewrite Gr4; apply Gr3|]. split.
            -- intros x [<-|Hx]; [apply F4; apply R3; reflexivity|apply R4; exact Hx].
            -- intros x Hx. destruct (N4 x Hx) as [Hx3|(c & Hc & Pc)]; [|right; exists c; split; [right; exact Hc|exact Pc]].
               destruct (N3 x Hx3) as [Hx2|(c & <- & Pc)]; [left; exact Hx2|right; exists b; split; [left; reflexivity|exact Pc]].
          * destruct IHb as (c & x & Hc & Px). exists c, x. split; [right; exact Hc|exact Px].
          * exact IHb.
          * exact IHb.
        + destruct P as (c & x & <- & Px). exists b, x. split; [left; reflexivity|exact Px].
        + contradiction.
        + contradiction. }
    specialize (K (dm_get a imm) st1 ltac:(intros x H; exact H) D1 ltac:(intros x H; exact H) ltac:(tauto)).
    fold st1. destruct (rfold (dfs f imm pre) (dm_get a imm) st1) as [st'| | |]; cbn [rbind]; cbn in K |- *; try contradiction.
    2:{ destruct K as (b & x & Hb & Px & Cx). exists a, x. split; [reflexivity|]. split; [right|exact Cx].
        destruct Px as [->|Px]; [apply path_one; exact Hb|eapply path_step; [exact Hb|exact Px]]. }
    destruct K as (D' & V' & F' & Gr' & R' & N').
    assert (Ga : grey st' a) by (apply Gr'; split; [left; reflexivity|exact Ef]).
    assert (Fin : forall x, path E a x -> In x (finished st')).
    { intros x P. inversion P as [? ? H|? b ? H P']; subst; [apply R'; exact H|]. eapply closed_path; [exact D'|apply R'; exact H|exact P']. }
    split; [|split; [|split; [|split; [|split]]]].
    - destruct D' as [E1 E2 E3 E4 E5]. constructor; cbn.
      + intros x [<-|Hx]; [apply Ga|auto].
      + intros x y [<-|Hx] Hxy; right; [apply R'; exact Hxy|eapply E2; eauto].
      + intros x [<-|Hx]; [|auto]. intros P. apply (proj2 Ga). apply Fin. exact P.
      + intros x. specialize (E4 x). destruct pre; cbn; [exact E4|]. rewrite E4. tauto.
      + destruct pre; [exact E5|]. constructor; [rewrite E4; apply Ga|exact E5].
    - intros x Hx. apply V'. right. exact Hx.
    - intros x Hx. right. auto.
    - intros x. split.
      + intros (Hv & Hn). cbn in Hv, Hn. assert (G : grey st1 x) by (apply Gr'; split; [exact Hv|tauto]). destruct G as (G & Gn). cbn in G, Gn.
        destruct G as [<-|G]; [exfalso; apply Hn; left; reflexivity|split; assumption].
      + intros (Hv & Hn). assert (G : grey st' x) by (apply Gr'; split; [right; exact Hv|exact Hn]). split; [apply G|]. cbn. intros [<-|Hx]; [contradiction|]. apply (proj2 G). exact Hx.
    - intros b <-. left. reflexivity.
    - intros x [<-|Hx]; [right; exists a; auto|]. destruct (N' x Hx) as [Hx1|(b & Hb & Px)]; [left; exact Hx1|right]. exists a. split; [reflexivity|right].
      destruct Px as [->|Px]; [apply path_one; exact Hb|eapply path_step; [exact Hb|exact Px]].
  Qed.

  (* the whole traversal from one node *)
  Lemma dfs_root : forall a, In a N ->
    match dfs (S (length N)) imm pre (mkDfs [] [] []) a with
    | Ok st => (forall x, In x (visits st) <-> x = a \/ path E a x) /\ NoDup (visits st) /\ (forall x, x = a \/ path E a x -> ~ path E x x)
    | Throw => exists x, (x = a \/ path E a x) /\ path E x x
    | _ => False
    end.
  Proof.
    intros a Ha. pose proof (dfs_ok (S (length N)) (mkDfs [] [] []) a) as H. cbn [visited] in H.
    assert (D0 : dinv (mkDfs [] [] [])) by (constructor; cbn; [intros x []|intros x y []|intros x []|destruct pre; cbn; tauto|constructor]).
    specialize (H D0 Ha). assert (F0 : (free [] < S (length N))%nat) by (unfold free; clear; induction N as [|n M IH]; cbn in *; lia).
    specialize (H F0 ltac:(intros g ([] & _))). destruct (dfs _ _ _ _ _) as [st| | |]; cbn in H; try contradiction.
    - destruct H as (D & _ & _ & G & R & Nw). specialize (R a eq_refl).
      assert (VF : forall x, In x (visited st) <-> In x (finished st)).
      { intros x. split; [|apply (di_sub _ D)]. intros Hx. destruct (in_dec Z.eq_dec x (finished st)) as [I|I]; [exact I|]. exfalso. assert (grey (mkDfs [] [] []) x) as ([] & _). apply G. split; assumption. }
      assert (F : forall x, In x (finished st) <-> x = a \/ path E a x).
      { intros x. split; [intros Hx; destruct (Nw x Hx) as [[]|(b & <- & P)]; exact P|]. intros [->|P]; [exact R|]. eapply closed_path; eauto. }
      split; [|split; [apply (di_nd _ D)|]].
      + intros x. rewrite (di_vis _ D x). rewrite <- F. destruct pre; [apply VF|reflexivity].
      + intros x Hx. apply (di_ac _ D). apply F. exact Hx.
    - destruct H as (b & x & <- & P). exists x. exact P.
  Qed.
End DFS.

(* ---------- find_all_deps ---------- *)
Definition edge (d : deps) (a b : Z) : Prop := In b (dm_get a (d_imm d)).
Definition dep (d : deps) (a b : Z) : Prop := In b (dm_get a (d_full d)).

Record dwf (d : deps) : Prop := {
  dw_all : forall a b, edge d a b -> In a (d_all d) /\ In b (d_all d);
  dw_full : forall a b, dep d a b -> path (edge d) a b;
  dw_done : d_done d = true -> ~ cyclic (edge d) /\ forall a b, dep d a b <-> path (edge d) a b
}.

Lemma dwf0 : dwf deps0.
Proof. constructor; cbn; unfold edge, dep; cbn; [intros a b []|intros a b []|discriminate]. Qed.
Lemma dwf_clear : forall d, dwf (clear_deps d).
Proof.
  intros d. constructor; unfold edge, dep; cbn; try (intros a b []; fail). intros _. split.
  - intros (a & P). inversion P; subst; assumption.
  - intros a b. split; [intros []|intros P; inversion P; subst; assumption].
Qed.
Lemma edge_set : forall d a b x y, edge (set_imm a b d) x y <-> (x = a /\ y = b) \/ edge d x y.
Proof. intros. unfold edge, set_imm. cbn. apply dm_add_In. Qed.
Lemma dwf_set : forall d a b, dwf d -> dwf (set_imm a b d).
Proof.
  intros d a b [W1 W2 W3]. constructor.
  - intros x y H. apply edge_set in H. cbn. rewrite !set_insert_In. destruct H as [(-> & ->)|H]; [tauto|]. destruct (W1 x y H). tauto.
  - intros x y H. eapply path_mono; [|apply W2; exact H]. intros u v Huv. apply edge_set. right. exact Huv.
  - discriminate.
Qed.

Lemma fold_add : forall a vs full x y, In y (dm_get x (fold_left (fun full b => if a =? b then full else dm_add a b full) vs full)) <-> (x = a /\ y <> a /\ In y vs) \/ In y (dm_get x full).
Proof.
  induction vs as [|v vs IH]; intros full x y; cbn [fold_left]; [cbn; tauto|]. rewrite IH. destruct (a =? v) eqn:E; [|rewrite dm_add_In]; cbn; intuition (try lia).
Qed.

Theorem find_all_spec : forall d, dwf d ->
  match find_all_deps d with
  | Ok d' => ~ cyclic (edge d) /\ (forall a b, dep d' a b <-> path (edge d) a b) /\
             d_done d' = true /\ d_all d' = d_all d /\ d_imm d' = d_imm d
  | Throw => cyclic (edge d)
  | _ => False
  end.
Proof.
  intros d [W1 W2 W3]. unfold find_all_deps. destruct (d_done d) eqn:Dn.
  { destruct (W3 eq_refl) as (A & B). repeat split; try assumption; apply B. }
  assert (CL : forall a b, In a (d_all d) -> In b (dm_get a (d_imm d)) -> In b (d_all d)) by (intros a b _ H; apply (W1 a b H)).
  set (body := fun full a => _).
  assert (G : forall l full, incl l (d_all d) ->
    match rfold body l full with
    | Ok full' => (forall x y, In y (dm_get x full') <-> (In x l /\ path (edge d) x y) \/ In y (dm_get x full)) /\ (forall x, In x l -> ~ path (edge d) x x)
    | Throw => cyclic (edge d)
    | _ => False
    end).
  { induction l as [|a l IH]; intros full Hl; cbn [rfold]; [cbn; split; [intros; tauto|intros x []]|].
    unfold body at 1, dfs_visit_deps.
    pose proof (dfs_root (d_imm d) true (d_all d) CL a ltac:(apply Hl; left; reflexivity)) as R.
    destruct (dfs _ _ _ _ a) as [st| | |]; cbn [rbind]; try contradiction.
    - destruct R as (R1 & _ & R2). specialize (IH (fold_left (fun full b => if a =? b then full else dm_add a b full) (rev (visits st)) full) ltac:(intros x Hx; apply Hl; right; exact Hx)).
      destruct (rfold body l _) as [full'| | |]; try assumption. destruct IH as (I1 & I2). split.
      + intros x y. rewrite I1, fold_add. rewrite <- in_rev, R1. cbn.
        assert (NC : ~ path (edge d) a a) by (apply R2; left; reflexivity).
        split; [intros [H|[(-> & Hy & [H|H])|H]]; try tauto|intros [([<-|H] & P)|H]; try tauto].
        right. left. repeat split; [intros ->; contradiction|right; exact P].
      + intros x [<-|Hx]; [apply R2; left; reflexivity|apply I2; exact Hx].
    - destruct R as (x & _ & P). exists x. exact P. }
  specialize (G (d_all d) (d_full d) ltac:(intros x H; exact H)). destruct (rfold body (d_all d) (d_full d)) as [full'| | |]; cbn [rbind]; try assumption.
  destruct G as (G1 & G2). assert (S : forall x y, path (edge d) x y -> In x (d_all d)) by (intros x y P; inversion P as [? ? H|? ? ? H]; subst; apply (W1 _ _ H)).
  repeat split.
  - intros (a & P). apply (G2 a); [eapply S; exact P|exact P].
  - intros H. apply G1 in H. cbn in H. destruct H as [H|H]; [apply H|apply W2; exact H].
  - intros P. apply G1. cbn. left. split; [eapply S; exact P|exact P].
Qed.
Lemma find_all_wf : forall d d', dwf d -> find_all_deps d = Ok d' -> dwf d'.
Proof.
  intros d d' W E. pose proof (find_all_spec d W) as S. rewrite E in S. destruct S as (NC & F & Dn & A & I). destruct W as [W1 W2 W3].
  assert (EE : forall a b, edge d' a b <-> edge d a b) by (intros; unfold edge; rewrite I; reflexivity).
  assert (PP : forall a b, path (edge d') a b <-> path (edge d) a b) by (intros; split; apply path_mono; intros; apply EE; assumption).
  constructor.
  - intros a b H. rewrite A. apply W1. apply EE. exact H.
  - intros a b H. apply PP, F. exact H.
  - intros _. split; [intros (a & P); apply NC; exists a; apply PP; exact P|]. intros a b. rewrite PP. apply F.
Qed.

(* ---------- topo_sort ---------- *)
Section Topo.
  Variable d : deps.
  Hypothesis Dn : d_done d = true.
  Hypothesis irr : forall a, ~ dep d a a.
  Hypothesis tr : forall a b c, dep d a b -> dep d b c -> dep d a c.

  Lemma isdep : forall a b, is_dep_on d a b = Ok (mem b (dm_get a (d_full d))).
  Proof. intros. unfold is_dep_on. rewrite Dn. reflexivity. Qed.

  Lemma find_swap_ok : forall oi post pre, ~ In oi post ->
    match find_swap d oi pre post with
    | Ok None => forall y, In y post -> ~ dep d oi y
    | Ok (Some (p, oj, r)) => exists p', p = pre ++ p' /\ post = p' ++ oj :: r /\ dep d oi oj
    | _ => False
    end.
  Proof.
    intros oi pst. induction pst as [|oj r IH]; intros pre Hn; cbn [find_swap]; [intros y []|].
    destruct (oi =? oj) eqn:E; [exfalso; apply Hn; left; lia|]. rewrite !isdep. cbn [rbind].
    destruct (mem oj (dm_get oi (d_full d))) eqn:M.
    - apply mem_In in M. destruct (mem oi (dm_get oj (d_full d))) eqn:M2.
      + apply mem_In in M2. exfalso. apply (irr oi). eapply tr; eassumption.
      + exists []. rewrite app_nil_r. repeat split. exact M.
    - apply mem_false in M. specialize (IH (pre ++ [oj]) ltac:(intros H; apply Hn; right; exact H)).
      destruct (find_swap d oi (pre ++ [oj]) r) as [[[[p o] q]|]| | |]; try contradiction.
      + destruct IH as (p' & -> & -> & H). exists (oj :: p'). rewrite <- app_assoc. repeat split. exact H.
      + intros y [<-|Hy]; [exact M|apply IH; exact Hy].
  Qed.

  Definition below (oi : Z) (l : list Z) : nat := length (filter (fun y => mem y (dm_get oi (d_full d))) l).
  Lemma below_lt : forall oi oj l, dep d oi oj -> In oj l -> (below oj l < below oi l)%nat.
  Proof.
    intros oi oj l H Hin. unfold below.
    assert (L : forall m, (length (filter (fun y => mem y (dm_get oj (d_full d))) m) <= length (filter (fun y => mem y (dm_get oi (d_full d))) m))%nat).
    { induction m as [|y m IH]; [auto|]. cbn [filter]. destruct (mem y (dm_get oj (d_full d))) eqn:A; [|destruct (mem y (dm_get oi (d_full d))); cbn [length]; lia].
      apply mem_In in A. assert (B : mem y (dm_get oi (d_full d)) = true) by (apply mem_In; eapply tr; eassumption). rewrite B. cbn [length]. lia. }
    induction l as [|y l IH]; [contradiction|]. cbn [filter]. destruct Hin as [->|Hin].
    - assert (A : mem oj (dm_get oj (d_full d)) = false) by (apply mem_false; apply irr). assert (B : mem oj (dm_get oi (d_full d)) = true) by (apply mem_In; exact H).
      rewrite A, B. cbn [length]. specialize (L l). lia.
    - specialize (IH Hin). destruct (mem y (dm_get oj (d_full d))) eqn:A; [|destruct (mem y (dm_get oi (d_full d))); cbn [length]; lia].
      apply mem_In in A. assert (B : mem y (dm_get oi (d_full d)) = true) by (apply mem_In; eapply tr; eassumption). rewrite B. cbn [length]. lia.
  Qed.

  Lemma settle_ok : forall fuel oi post, NoDup (oi :: post) -> (below oi (oi :: post) < fuel)%nat ->
    exists o post', settle fuel d oi post = Ok (o, post') /\ Permutation (o :: post') (oi :: post) /\ (forall y, In y post' -> ~ dep d o y).
  Proof.
    induction fuel as [|f IH]; intros oi post N Hf; [lia|]. cbn [settle]. inversion N as [|? ? Hn N']; subst.
    pose proof (find_swap_ok oi post [] Hn) as S. destruct (find_swap d oi [] post) as [[[[p oj] r]|]| | |]; cbn [rbind]; try contradiction.
    - destruct S as (p' & Ep & -> & H). cbn in Ep. subst p.
      assert (P : Permutation (oj :: p' ++ oi :: r) (oi :: p' ++ oj :: r)).
      { rewrite <- (Permutation_middle p' r oi), <- (Permutation_middle p' r oj). apply perm_swap. }
      destruct (IH oj (p' ++ oi :: r)) as (o & post' & E & Q & F).
      + eapply Permutation_NoDup; [symmetry; exact P|exact N].
      + assert (B : below oj (oj :: p' ++ oi :: r) = below oj (oi :: p' ++ oj :: r)) by (apply Permutation_filter_length; exact P).
        rewrite B. pose proof (below_lt oi oj (oi :: p' ++ oj :: r) H ltac:(right; apply in_app_iff; right; left; reflexivity)). lia.
      + exists o, post'. split; [exact E|]. split; [rewrite Q; exact P|exact F].
    - exists oi, post. split; [reflexivity|]. split; [reflexivity|exact S].
  Qed.

  Lemma topo_from_ok : forall n l, n = length l -> NoDup l -> exists l', topo_from n d l = Ok l' /\ Permutation l' l /\ after_deps (dep d) l'.
  Proof.
    induction n as [|n IH]; intros l E N.
    - destruct l; [|discriminate]. exists []. split; [reflexivity|]. split; [constructor|]. intros l1 a l2 b E'. destruct l1; discriminate E'.
    - destruct l as [|oi post]; [discriminate|]. cbn [topo_from].
      destruct (settle_ok (S (length (oi :: post))) oi post N) as (o & post' & Es & P & F).
      { unfold below. assert (forall m (f : Z -> bool), (length (filter f m) <= length m)%nat) by (intros m f; induction m; cbn; [auto|destruct (f a); cbn; lia]). specialize (H (oi :: post) (fun y => mem y (dm_get oi (d_full d)))). lia. }
      rewrite Es. cbn [rbind fst snd]. apply (Permutation_NoDup (Permutation_sym P)) in N. inversion N as [|? ? Hn N']; subst.
      destruct (IH post') as (l' & El & P' & A'); [apply Permutation_length in P; cbn in *; lia|exact N'|].
      rewrite El. cbn [rbind]. exists (o :: l'). split; [reflexivity|]. split; [rewrite P'; exact P|].
      intros l1 a l2 b E2 H Hb. destruct l1 as [|c l1]; cbn in E2; injection E2 as <- E2.
      + subst l2. apply (F b); [eapply Permutation_in; [exact P'|exact Hb]|exact H].
      + eapply A'; [exact E2|exact H|exact Hb].
  Qed.
End Topo.

Record gwf (g : group) : Prop := { gw_nd : NoDup (g_all g); gw_d : dwf (g_deps g); gw_s : dwf (g_scr g);
  gw_in : forall a b, edge (g_deps g) a b -> In a (g_all g) /\ In b (g_all g);
  gw_sub : forall a b, edge (g_scr g) a b -> edge (g_deps g) a b }.

Lemma NoDup_add_item : forall a l, NoDup l -> NoDup (add_item a l).
Proof. intros a l N. unfold add_item. destruct (mem a l) eqn:E; [exact N|]. apply mem_false in E. rewrite <- Permutation_cons_append. constructor; assumption. Qed.
Lemma add_item_In : forall x a l, In x (add_item a l) <-> x = a \/ In x l.
Proof. intros x a l. unfold add_item. destruct (mem a l) eqn:E; [apply mem_In in E; intuition congruence|]. rewrite in_app_iff. cbn. intuition congruence. Qed.

Definition group0 : group := mkGroup [] deps0 deps0.
Lemma gwf0 : gwf group0.
Proof. constructor; [constructor|apply dwf0|apply dwf0|intros a b []|intros a b []]. Qed.
Lemma gwf_add : forall g a, gwf g -> gwf (mkGroup (add_item a (g_all g)) (g_deps g) (g_scr g)).
Proof. intros g a [A B C D S]. constructor; cbn; auto; [apply NoDup_add_item; exact A|]. intros x y H. rewrite !add_item_In. destruct (D x y H). tauto. Qed.
Lemma gwf_set : forall scr a b g g', gwf g -> g_set_imm scr a b g = Ok g' ->
  gwf g' /\ (forall x, In x (g_all g') <-> x = a \/ x = b \/ In x (g_all g)) /\
  (forall x y, edge (g_deps g') x y <-> (x = a /\ y = b) \/ edge (g_deps g) x y) /\
  (forall x y, edge (g_scr g') x y <-> (x = a /\ y = b /\ scr b = true) \/ edge (g_scr g) x y).
Proof.
  intros scr a b g g' [A B C D S] E. unfold g_set_imm in E. destruct (a =? b) eqn:Eab; [discriminate|]. injection E as <-. cbn.
  assert (ES : forall x y, edge (if scr b then set_imm a b (g_scr g) else g_scr g) x y <-> (x = a /\ y = b /\ scr b = true) \/ edge (g_scr g) x y).
  { intros x y. destruct (scr b); [rewrite edge_set|]; intuition congruence. }
  split; [|split; [|split]].
  - constructor; cbn.
    + apply NoDup_add_item, NoDup_add_item, A.
    + apply dwf_set, B.
    + destruct (scr b); [apply dwf_set|]; exact C.
    + intros x y H. apply edge_set in H. rewrite !add_item_In. destruct H as [(-> & ->)|H]; [tauto|]. destruct (D x y H). tauto.
    + intros x y H. apply ES in H. apply edge_set. destruct H as [H|H]; [left; tauto|right; apply S; exact H].
  - intros x. rewrite !add_item_In. tauto.
  - intros x y. apply edge_set.
  - exact ES.
Qed.
Lemma gwf_cyc : forall g, gwf g -> cyclic (edge (g_scr g)) -> cyclic (edge (g_deps g)).
Proof. intros g W (a & P). exists a. eapply path_mono; [|exact P]. apply (gw_sub _ W). Qed.

Theorem g_find_all_spec : forall g, gwf g ->
  match g_find_all g with
  | Ok g' => gwf g' /\ ~ cyclic (edge (g_deps g)) /\ g_all g' = g_all g /\
             (forall a b, edge (g_deps g') a b <-> edge (g_deps g) a b) /\ (forall a b, edge (g_scr g') a b <-> edge (g_scr g) a b) /\
             d_done (g_deps g') = true /\ d_done (g_scr g') = true /\
             (forall a b, is_dep_on (g_deps g') a b = Ok true <-> path (edge (g_deps g)) a b) /\
             (forall a b, is_dep_on (g_scr g') a b = Ok true <-> path (edge (g_scr g)) a b)
  | Throw => cyclic (edge (g_deps g))
  | _ => False
  end.
Proof.
  intros g W. pose proof W as [A B C D S]. unfold g_find_all.
  pose proof (find_all_spec _ B) as F1. destruct (find_all_deps (g_deps g)) as [d| | |] eqn:E1; cbn [rbind]; try tauto.
  pose proof (find_all_spec _ C) as F2. destruct (find_all_deps (g_scr g)) as [s| | |] eqn:E2; cbn [rbind]; try tauto; [|apply gwf_cyc; assumption].
  destruct F1 as (N1 & P1 & Dn1 & A1 & I1). destruct F2 as (N2 & P2 & Dn2 & A2 & I2). cbn.
  assert (Ed : forall a b, edge d a b <-> edge (g_deps g) a b) by (intros; unfold edge; rewrite I1; reflexivity).
  assert (Es : forall a b, edge s a b <-> edge (g_scr g) a b) by (intros; unfold edge; rewrite I2; reflexivity).
  split; [|split; [exact N1|split; [reflexivity|split; [exact Ed|split; [exact Es|split; [exact Dn1|split; [exact Dn2|split]]]]]]].
  - constructor; cbn; [exact A|exact (find_all_wf _ _ B E1)|exact (find_all_wf _ _ C E2)| |].
    + intros a b H. apply D. apply Ed. exact H.
    + intros a b H. apply Ed, S, Es. exact H.
  - intros a b. unfold is_dep_on. rewrite Dn1, <- P1. unfold dep. rewrite <- mem_In. split; [intros H; injection H; auto|intros ->; reflexivity].
  - intros a b. unfold is_dep_on. rewrite Dn2, <- P2. unfold dep. rewrite <- mem_In. split; [intros H; injection H; auto|intros ->; reflexivity].
Qed.

Theorem topo_sort_spec : forall g, gwf g ->
  match topo_sort g with
  | Ok g' => Permutation (g_all g') (g_all g) /\ after_deps (path (edge (g_deps g))) (g_all g') /\
             dwf (g_deps g') /\ (forall a b, edge (g_deps g') a b <-> edge (g_deps g) a b) /\ (d_done (g_deps g') = true \/ g' = g)
  | Throw => cyclic (edge (g_deps g))
  | _ => False
  end.
Proof.
  intros g W. pose proof W as [Nd Wd Ws Win Sub]. unfold topo_sort. destruct (Nat.leb (length (g_all g)) 1) eqn:L.
  - split; [reflexivity|]. split; [|split; [exact Wd|split; [reflexivity|right; reflexivity]]].
    apply Nat.leb_le in L. intros l1 a l2 b E P Hb. rewrite E in L. rewrite app_length in L. cbn in L. destruct l2; [contradiction|]. cbn in L. lia.
  - unfold g_find_all. pose proof (find_all_spec _ Wd) as S. destruct (find_all_deps (g_deps g)) as [d| | |] eqn:Ed; cbn [rbind]; try tauto.
    destruct S as (NC & F & Dn & _ & I1).
    pose proof (find_all_spec _ Ws) as S2. destruct (find_all_deps (g_scr g)) as [s| | |]; cbn [rbind g_all g_deps]; try tauto; [|apply gwf_cyc; assumption].
    destruct (topo_from_ok d Dn) with (n := length (g_all g)) (l := g_all g) as (l' & E & P & A); [| |reflexivity|exact Nd|].
    + intros a H. apply F in H. apply NC. exists a. exact H.
    + intros a b c H1 H2. apply F in H1, H2. apply F. eapply path_app; eassumption.
    + rewrite E. cbn. split; [exact P|]. split; [intros l1 a l2 b E2 H Hb; eapply A; [exact E2|apply F; exact H|exact Hb]|].
      split; [exact (find_all_wf _ _ Wd Ed)|]. split; [intros a b; unfold edge; rewrite I1; reflexivity|left; exact Dn].
Qed.

(* every acyclic group is sorted *)
Theorem topo_sort_acyclic : forall g, gwf g -> ~ cyclic (edge (g_deps g)) ->
  exists g', topo_sort g = Ok g' /\ Permutation (g_all g') (g_all g) /\ after_deps (path (edge (g_deps g))) (g_all g').
Proof. intros g W N. pose proof (topo_sort_spec g W) as S. destruct (topo_sort g) as [g'| | |]; try contradiction. exists g'. split; [reflexivity|]. tauto. Qed.

(* ---------- inherit_deps_from ---------- *)
Section Inherit.
  Variable full : group.
  Variable items : Z -> list Z.
  Definition lifts (D : deps) (oi oj : Z) : Prop :=
    oi <> oj /\ exists foi foj, In foi (items oi) /\ In foj (items oj) /\ foi <> foj /\ edge D foi foj.

  (* [g'] extends [g] by edges satisfying Q (deps) and R (scratch) *)
  Definition ext (g g' : group) (Q R : Z -> Z -> Prop) : Prop :=
    g_all g' = g_all g /\ dwf (g_deps g') /\ dwf (g_scr g') /\
    (forall x y, edge (g_deps g') x y <-> Q x y \/ edge (g_deps g) x y) /\
    (forall x y, edge (g_scr g') x y <-> R x y \/ edge (g_scr g) x y).

  Lemma ext_refl : forall g (Q R : Z -> Z -> Prop), dwf (g_deps g) -> dwf (g_scr g) -> (forall x y, ~ Q x y) -> (forall x y, ~ R x y) -> ext g g Q R.
  Proof. intros g Q R D S HQ HR. split; [reflexivity|]. split; [exact D|]. split; [exact S|]. split; intros x y; specialize (HQ x y); specialize (HR x y); tauto. Qed.
  Lemma ext_fold : forall A (f : group -> A -> group) (Q R : A -> Z -> Z -> Prop) al,
    (forall g a, g_all g = al -> dwf (g_deps g) -> dwf (g_scr g) -> ext g (f g a) (Q a) (R a)) ->
    forall l g, g_all g = al -> dwf (g_deps g) -> dwf (g_scr g) ->
    ext g (fold_left f l g) (fun x y => exists a, In a l /\ Q a x y) (fun x y => exists a, In a l /\ R a x y).
  Proof.
    intros A f Q R al H. induction l as [|a l IH]; intros g Hal Hd Hs; cbn [fold_left].
    - apply ext_refl; try assumption; intros x y (? & [] & _).
    - destruct (H g a Hal Hd Hs) as (A1 & D1 & S1 & Q1 & R1). destruct (IH (f g a) ltac:(congruence) D1 S1) as (A2 & D2 & S2 & Q2 & R2).
      split; [congruence|]. split; [exact D2|]. split; [exact S2|]. split; intros x y.
      + rewrite Q2, Q1. split.
        * intros [(b & Hb & K)|[K|K]]; [left; exists b; split; [right; exact Hb|exact K]|left; exists a; split; [left; reflexivity|exact K]|right; exact K].
        * intros [(b & [<-|Hb] & K)|K]; [right; left; exact K|left; exists b; auto|right; right; exact K].
      + rewrite R2, R1. split.
        * intros [(b & Hb & K)|[K|K]]; [left; exists b; split; [right; exact Hb|exact K]|left; exists a; split; [left; reflexivity|exact K]|right; exact K].
        * intros [(b & [<-|Hb] & K)|K]; [right; left; exact K|left; exists b; auto|right; right; exact K].
  Qed.

  Lemma is_imm_edge : forall D a b, is_imm_dep_on D a b = true <-> edge D a b.
  Proof. intros. unfold is_imm_dep_on, edge. apply mem_In. Qed.

  Lemma pair_ext : forall g oi oj, dwf (g_deps g) -> dwf (g_scr g) ->
    ext g (inherit_pair full items g oi oj) (fun x y => x = oi /\ y = oj /\ lifts (g_deps full) oi oj) (fun x y => x = oi /\ y = oj /\ lifts (g_scr full) oi oj).
  Proof.
    intros g oi oj Hd Hs. unfold inherit_pair. destruct (oi =? oj) eqn:E.
    - apply ext_refl; try assumption; intros x y (_ & _ & K & _); apply K; lia.
    - set (f := fun g foi => fold_left _ (items oj) g).
      pose proof (ext_fold Z f
        (fun foi x y => exists foj, In foj (items oj) /\ (x = oi /\ y = oj /\ foi <> foj /\ edge (g_deps full) foi foj))
        (fun foi x y => exists foj, In foj (items oj) /\ (x = oi /\ y = oj /\ foi <> foj /\ edge (g_scr full) foi foj)) (g_all g)) as X.
      assert (Y : forall g0 a, g_all g0 = g_all g -> dwf (g_deps g0) -> dwf (g_scr g0) -> ext g0 (f g0 a)
        (fun x y => exists foj, In foj (items oj) /\ (x = oi /\ y = oj /\ a <> foj /\ edge (g_deps full) a foj))
        (fun x y => exists foj, In foj (items oj) /\ (x = oi /\ y = oj /\ a <> foj /\ edge (g_scr full) a foj))).
      { intros g0 foi Hal Hd0 Hs0. unfold f.
        apply (ext_fold Z _ (fun foj x y => x = oi /\ y = oj /\ foi <> foj /\ edge (g_deps full) foi foj) (fun foj x y => x = oi /\ y = oj /\ foi <> foj /\ edge (g_scr full) foi foj) (g_all g)); try assumption.
        intros g1 foj Hal1 Hd1 Hs1. destruct (foi =? foj) eqn:Ef.
        { apply ext_refl; try assumption; intros x y (_ & _ & K & _); apply K; lia. }
        assert (NE : foi <> foj) by lia.
        split; [reflexivity|]. cbn [g_deps g_scr].
        split; [destruct (is_imm_dep_on (g_deps full) foi foj); [apply dwf_set|]; assumption|].
        split; [destruct (is_imm_dep_on (g_scr full) foi foj); [apply dwf_set|]; assumption|].
        split; intros x y.
        - pose proof (is_imm_edge (g_deps full) foi foj) as IE. destruct (is_imm_dep_on (g_deps full) foi foj); [rewrite edge_set|]; intuition congruence.
        - pose proof (is_imm_edge (g_scr full) foi foj) as IE. destruct (is_imm_dep_on (g_scr full) foi foj); [rewrite edge_set|]; intuition congruence. }
      destruct (X Y (items oi) g eq_refl Hd Hs) as (A1 & D1 & S1 & Q1 & R1).
      assert (NE : oi <> oj) by lia.
      split; [exact A1|]. split; [exact D1|]. split; [exact S1|]. unfold lifts. split; intros x y; [rewrite Q1|rewrite R1]; (split; [intros [(foi & Hi & foj & Hj & -> & -> & K)|K]; [left|right; exact K]|intros [(-> & -> & _ & foi & foj & Hi & Hj & K)|K]; [left; eauto 10|right; exact K]]).
      + split; [reflexivity|]. split; [reflexivity|]. split; [exact NE|]. exists foi, foj. tauto.
      + split; [reflexivity|]. split; [reflexivity|]. split; [exact NE|]. exists foi, foj. tauto.
  Qed.

  Definition condensed (g : group) (D : deps) (x y : Z) : Prop := In x (g_all g) /\ In y (g_all g) /\ lifts D x y.

  Theorem inherit_spec : forall g, gwf full -> gwf g -> (forall a b, ~ edge (g_deps g) a b) ->
    match inherit_deps_from full items g with
    | Ok g' => gwf g' /\ g_all g' = g_all g /\ (forall x y, edge (g_deps g') x y <-> condensed g (g_deps full) x y) /\
               (forall x y, edge (g_scr g') x y <-> condensed g (g_scr full) x y) /\ ~ cyclic (condensed g (g_deps full))
    | Throw => cyclic (condensed g (g_deps full))
    | _ => False
    end.
  Proof.
    intros g Wf W Hno. pose proof W as [Nd Wd Ws Win Sub]. unfold inherit_deps_from.
    set (f := fun g oi => _). set (g1 := fold_left f (g_all g) g).
    assert (X : ext g g1 (condensed g (g_deps full)) (condensed g (g_scr full))).
    { pose proof (ext_fold Z f (fun oi x y => exists oj, In oj (g_all g) /\ (x = oi /\ y = oj /\ lifts (g_deps full) oi oj)) (fun oi x y => exists oj, In oj (g_all g) /\ (x = oi /\ y = oj /\ lifts (g_scr full) oi oj)) (g_all g)) as X.
      assert (Y : forall g0 a, g_all g0 = g_all g -> dwf (g_deps g0) -> dwf (g_scr g0) -> ext g0 (f g0 a)
         (fun x y => exists oj, In oj (g_all g) /\ (x = a /\ y = oj /\ lifts (g_deps full) a oj)) (fun x y => exists oj, In oj (g_all g) /\ (x = a /\ y = oj /\ lifts (g_scr full) a oj))).
      { intros g0 oi Hal Hd Hs. unfold f. rewrite Hal.
        apply (ext_fold Z _ (fun oj x y => x = oi /\ y = oj /\ lifts (g_deps full) oi oj) (fun oj x y => x = oi /\ y = oj /\ lifts (g_scr full) oi oj) (g_all g)); try assumption.
        intros g2 oj _ Hd2 Hs2. apply pair_ext; assumption. }
      destruct (X Y (g_all g) g eq_refl Wd Ws) as (A1 & D1 & S1 & Q1 & R1). fold g1 in A1, D1, S1, Q1, R1.
      split; [exact A1|]. split; [exact D1|]. split; [exact S1|]. unfold condensed. split; intros x y; [rewrite Q1|rewrite R1]; (split; [intros [(oi & Hi & oj & Hj & -> & -> & K)|K]; [left; tauto|right; exact K]|intros [(Hi & Hj & K)|K]; [left; eauto 10|right; exact K]]). }
    destruct X as (A1 & D1 & S1 & Q1 & R1).
    assert (E1 : forall x y, edge (g_deps g1) x y <-> condensed g (g_deps full) x y) by (intros x y; rewrite Q1; split; [intros [K|K]; [exact K|destruct (Hno _ _ K)]|tauto]).
    assert (E2 : forall x y, edge (g_scr g1) x y <-> condensed g (g_scr full) x y).
    { intros x y; rewrite R1; split; [intros [K|K]; [exact K|destruct (Hno _ _ (Sub _ _ K))]|tauto]. }
    assert (W1 : gwf g1).
    { constructor; [rewrite A1; exact Nd|exact D1|exact S1| |].
      - intros a b K. apply E1 in K. rewrite A1. destruct K as (K1 & K2 & _). tauto.
      - intros a b K. apply E2 in K. apply E1. destruct K as (K1 & K2 & K3 & foi & foj & H1 & H2 & H3 & H4). split; [exact K1|]. split; [exact K2|]. split; [exact K3|].
        exists foi, foj. repeat split; try assumption. apply (gw_sub _ Wf). exact H4. }
    assert (CC : cyclic (edge (g_deps g1)) <-> cyclic (condensed g (g_deps full))).
    { split; intros (a & P); exists a; (eapply path_mono; [|exact P]); intros; apply E1; assumption. }
    pose proof (g_find_all_spec g1 W1) as F. destruct (g_find_all g1) as [g'| | |]; try tauto.
    destruct F as (W' & NC & A' & Ed & Es & _). split; [exact W'|]. split; [congruence|].
    split; [intros; rewrite Ed; apply E1|]. split; [intros; rewrite Es; apply E2|]. rewrite <- CC. exact NC.
  Qed.
End Inherit.

Lemma inherit_done : forall full items g g', inherit_deps_from full items g = Ok g' -> gwf full -> gwf g -> (forall a b, ~ edge (g_deps g) a b) -> d_done (g_deps g') = true /\ d_done (g_scr g') = true.
Proof.
  intros full items g g' E Wf W Hno. unfold inherit_deps_from in E. unfold g_find_all in E.
  assert (F : forall d d', find_all_deps d = Ok d' -> d_done d' = true).
  { intros d d' H. unfold find_all_deps in H. destruct (d_done d) eqn:D; [injection H as <-; exact D|]. destruct (rfold _ _ _) as [f| | |]; try discriminate. injection H as <-. reflexivity. }
  destruct (find_all_deps (g_deps _)) as [d| | |] eqn:E1; try discriminate. cbn [rbind] in E. destruct (find_all_deps (g_scr _)) as [s| | |] eqn:E2; try discriminate. injection E as <-. cbn. split; eapply F; eassumption.
Qed.

(* any sequence of calls on a group *)
Inductive dop := DSet (a b : Z) | DFind.
Definition run_op (scr : Z -> bool) (g : group) (o : dop) : res group :=
  match o with DSet a b => g_set_imm scr a b g | DFind => g_find_all g end.
Definition run_ops (scr : Z -> bool) (all : list Z) (ops : list dop) : res group :=
  rfold (run_op scr) ops (mkGroup all deps0 deps0).
Definition direct (ops : list dop) (a b : Z) : Prop := In (DSet a b) ops.
Definition direct_scr (scr : Z -> bool) (ops : list dop) (a b : Z) : Prop := In (DSet a b) ops /\ scr b = true.

Lemma gwf_all : forall all, NoDup all -> gwf (mkGroup all deps0 deps0).
Proof. intros all N. constructor; cbn; [exact N|apply dwf0|apply dwf0|intros a b []|intros a b []]. Qed.

Lemma run_ops_inv : forall scr ops g0, gwf g0 ->
  match rfold (run_op scr) ops g0 with
  | Ok g => gwf g /\ (forall x, In x (g_all g) <-> In x (g_all g0) \/ exists y, direct ops x y \/ direct ops y x) /\
      (forall a b, edge (g_deps g) a b <-> direct ops a b \/ edge (g_deps g0) a b) /\
      (forall a b, edge (g_scr g) a b <-> direct_scr scr ops a b \/ edge (g_scr g0) a b) /\
      (incl (g_all g0) (g_all g))
  | Throw => cyclic (fun a b => direct ops a b \/ edge (g_deps g0) a b)
  | _ => False
  end.
Proof.
  intros scr. induction ops as [|o ops IH]; intros g0 W; cbn [rfold].
  - split; [exact W|]. split; [intros x; split; [tauto|intros [H|(y & [[]|[]])]; exact H]|]. split; [intros a b; split; [tauto|intros [[]|H]; exact H]|]. split; [intros a b; split; [tauto|intros [([] & _)|H]; exact H]|intros x Hx; exact Hx].
  - assert (ST : match run_op scr g0 o with
      | Ok g => gwf g /\ (forall x, In x (g_all g) <-> In x (g_all g0) \/ exists y, direct [o] x y \/ direct [o] y x) /\
          (forall a b, edge (g_deps g) a b <-> direct [o] a b \/ edge (g_deps g0) a b) /\ (forall a b, edge (g_scr g) a b <-> direct_scr scr [o] a b \/ edge (g_scr g0) a b)
      | Throw => cyclic (fun a b => direct [o] a b \/ edge (g_deps g0) a b) | _ => False end).
    { destruct o as [a b|]; cbn [run_op].
      - destruct (g_set_imm scr a b g0) as [g| | |] eqn:E; try (unfold g_set_imm in E; destruct (a =? b) eqn:Eab; discriminate E).
        + destruct (gwf_set _ _ _ _ _ W E) as (W' & A & Ed & Es). split; [exact W'|]. unfold direct, direct_scr. cbn [In]. split; [|split].
          * intros x. rewrite A. split.
            -- intros [->|[->|H]]; [right; exists b; left; left; reflexivity|right; exists a; right; left; reflexivity|left; exact H].
            -- intros [H|(y & [[H|[]]|[H|[]]])]; [tauto|injection H as -> _; tauto|injection H as _ ->; tauto].
          * intros x y. rewrite Ed. split; [intros [(-> & ->)|H]; [left; left; reflexivity|tauto]|intros [[H|[]]|H]; [injection H as -> ->; tauto|tauto]].
          * intros x y. rewrite Es. split; [intros [(-> & -> & H)|H]; [left; split; [left; reflexivity|exact H]|tauto]|intros [([H|[]] & K)|H]; [injection H as -> ->; tauto|tauto]].
        + unfold g_set_imm in E. destruct (a =? b) eqn:Eab; [|discriminate]. exists a. apply path_one. left. left. f_equal. lia.
      - pose proof (g_find_all_spec g0 W) as F. destruct (g_find_all g0) as [g| | |]; try contradiction.
        + destruct F as (W' & _ & A & Ed & Es & _). split; [exact W'|]. unfold direct, direct_scr. cbn [In]. split; [|split].
          * intros x. rewrite A. split; [tauto|]. intros [H|(y & [[H|[]]|[H|[]]])]; [exact H|discriminate|discriminate].
          * intros x y. rewrite Ed. split; [tauto|]. intros [[H|[]]|H]; [discriminate|exact H].
          * intros x y. rewrite Es. split; [tauto|]. intros [([H|[]] & _)|H]; [discriminate|exact H].
        + destruct F as (a & P). exists a. eapply path_mono; [|exact P]. tauto. }
    destruct (run_op scr g0 o) as [g1| | |]; cbn [rbind]; try contradiction.
    + destruct ST as (W1 & A1 & E1 & S1). specialize (IH g1 W1). unfold direct, direct_scr in *. cbn [In] in *.
      destruct (rfold (run_op scr) ops g1) as [g| | |]; try contradiction.
      * destruct IH as (W2 & A2 & E2 & S2 & I2). split; [exact W2|]. split; [|split; [|split]].
        -- intros x. rewrite A2, A1. split.
           ++ intros [[H|(y & H)]|(y & H)]; [tauto|right; exists y; tauto|right; exists y; tauto].
           ++ intros [H|(y & H)]; [tauto|]. destruct H as [[H|H]|[H|H]]; [left; right; exists y; tauto|right; exists y; tauto|left; right; exists y; tauto|right; exists y; tauto].
        -- intros a b. rewrite E2, E1. tauto.
        -- intros a b. rewrite S2, S1. tauto.
        -- intros x Hx. apply I2. apply A1. tauto.
      * destruct IH as (a & P). exists a. eapply path_mono; [|exact P]. intros x y [H|H]; [tauto|]. apply E1 in H. tauto.
    + destruct ST as (a & P). exists a. eapply path_mono; [|exact P]. unfold direct. cbn [In]. tauto.
Qed.

Lemma cyclic_iff : forall {A} (E E' : A -> A -> Prop), (forall a b, E a b <-> E' a b) -> (cyclic E <-> cyclic E').
Proof. intros A E E' H. split; intros (a & P); exists a; (eapply path_mono; [|exact P]); apply H. Qed.
Lemma path_iff : forall {A} (E E' : A -> A -> Prop), (forall a b, E a b <-> E' a b) -> forall a b, path E a b <-> path E' a b.
Proof. intros A E E' H a b. split; apply path_mono; apply H. Qed.

Theorem ops_spec : forall scr all ops, NoDup all ->
  match run_ops scr all (ops ++ [DFind]) with
  | Ok g => ~ cyclic (direct ops) /\ forall a b, exists x y,
      is_dep_on (g_deps g) a b = Ok x /\ (x = true <-> path (direct ops) a b) /\
      is_dep_on (g_scr g) a b = Ok y /\ (y = true <-> path (direct_scr scr ops) a b)
  | Throw => cyclic (direct ops)
  | _ => False
  end.
Proof.
  intros scr all ops N. unfold run_ops. rewrite rfold_app. pose proof (run_ops_inv scr ops _ (gwf_all all N)) as H. destruct (rfold (run_op scr) ops _) as [g| | |]; cbn [rbind]; try contradiction.
  - destruct H as (W & A & E & S & _). cbn [rfold run_op]. pose proof (g_find_all_spec g W) as F.
    assert (E' : forall a b, edge (g_deps g) a b <-> direct ops a b) by (intros; rewrite E; unfold edge; cbn; tauto).
    assert (S' : forall a b, edge (g_scr g) a b <-> direct_scr scr ops a b) by (intros; rewrite S; unfold edge; cbn; tauto).
    destruct (g_find_all g) as [g'| | |]; cbn [rbind]; try contradiction.
    + destruct F as (W' & NC & _ & Ed & Es & D1 & D2 & P1 & P2). split; [rewrite <- (cyclic_iff _ _ E'); exact NC|]. intros a b. specialize (P1 a b). specialize (P2 a b). unfold is_dep_on in *. rewrite D1, D2 in *.
      eexists. eexists. split; [reflexivity|]. split; [rewrite <- (path_iff _ _ E'), <- P1; split; congruence|]. split; [reflexivity|]. rewrite <- (path_iff _ _ S'), <- P2. split; congruence.
    + rewrite <- (cyclic_iff _ _ E'). exact F.
  - eapply cyclic_iff; [|exact H]. intros a b. unfold edge. cbn. tauto.
Qed.
Lemma run_ops_noself : forall scr ops g0 g, rfold (run_op scr) ops g0 = Ok g -> forall a, ~ direct ops a a.
Proof.
  intros scr. induction ops as [|o ops IH]; intros g0 g H a; cbn [rfold] in H; [intros []|].
  destruct (run_op scr g0 o) as [g1| | |] eqn:E; try discriminate. cbn [rbind] in H. intros [->|D]; [|exact (IH _ _ H a D)].
  cbn in E. unfold g_set_imm in E. rewrite Z.eqb_refl in E. discriminate.
Qed.
Theorem topo_ops_spec : forall scr all ops, NoDup all ->
  match rbind (run_ops scr all ops) topo_sort with
  | Ok g => ~ cyclic (direct ops) /\ NoDup (g_all g) /\ (forall x, In x (g_all g) <-> In x all \/ exists y, direct ops x y \/ direct ops y x) /\ after_deps (path (direct ops)) (g_all g)
  | Throw => cyclic (direct ops)
  | _ => False
  end.
Proof.
  intros scr all ops N. unfold run_ops. pose proof (run_ops_inv scr ops _ (gwf_all all N)) as H. destruct (rfold (run_op scr) ops _) as [g| | |] eqn:ER; cbn [rbind]; try contradiction.
  - destruct H as (W & A & E & S & _).
    assert (E' : forall a b, edge (g_deps g) a b <-> direct ops a b) by (intros; rewrite E; unfold edge; cbn; tauto).
    pose proof (topo_sort_spec g W) as T. destruct (topo_sort g) as [g'| | |] eqn:ET; try contradiction; [|rewrite <- (cyclic_iff _ _ E'); exact T].
    destruct T as (P & D & _). split; [|split; [eapply Permutation_NoDup; [symmetry; exact P|apply (gw_nd _ W)]|split]].
    + rewrite <- (cyclic_iff _ _ E'). unfold topo_sort in ET. destruct (Nat.leb (length (g_all g)) 1) eqn:L.
      * apply Nat.leb_le in L. intros (a & Pa).
        assert (one : forall x y, edge (g_deps g) x y -> x = y). { intros x y Hxy. destruct (gw_in _ W _ _ Hxy) as (X & Y). destruct (g_all g) as [|u [|v r]]; cbn in L; try lia; [contradiction|]. destruct X as [<-|[]]. destruct Y as [<-|[]]. reflexivity. }
        inversion Pa as [x y Hxy|x y z Hxy _]; subst; pose proof (one _ _ Hxy); subst; apply E' in Hxy; exact (run_ops_noself _ _ _ _ ER _ Hxy).
      * pose proof (g_find_all_spec g W) as F. destruct (g_find_all g) as [g2| | |]; try discriminate. tauto.
    + intros x. rewrite <- A. split; apply Permutation_in; [exact P|symmetry; exact P].
    + intros l1 a l2 b El Pab Hb. eapply D; [exact El|apply (path_iff _ _ E'); exact Pab|exact Hb].
  - eapply cyclic_iff; [|exact H]. intros a b. unfold edge. cbn. tauto.
Qed.

Theorem topo_gwf : forall g g', gwf g -> topo_sort g = Ok g' -> gwf g' /\ (d_done (g_deps g) = true -> d_done (g_deps g') = true) /\
  (forall a b, edge (g_scr g') a b <-> edge (g_scr g) a b) /\ (d_done (g_scr g) = true -> d_done (g_scr g') = true).
Proof.
  intros g g' W E. pose proof (topo_sort_spec g W) as T. rewrite E in T. destruct T as (P & _ & _ & Ed & Dn).
  unfold topo_sort in E. destruct (Nat.leb (length (g_all g)) 1); [injection E as <-; split; [exact W|split; [auto|split; [reflexivity|auto]]]|].
  pose proof (g_find_all_spec g W) as F. destruct (g_find_all g) as [g1| | |]; try discriminate. cbn [rbind] in E. destruct F as (W1 & _ & A1 & E1 & S1 & D1 & D2 & _).
  destruct (topo_from _ _ _) as [l| | |]; try discriminate. cbn [rbind] in E. injection E as <-. cbn in *.
  split; [|split; [intros _; exact D1|split; [exact S1|intros _; exact D2]]]. destruct W1 as [N2 Wd Ws Win Sub]. constructor; cbn; try assumption.
  - eapply Permutation_NoDup; [symmetry; exact P|apply (gw_nd _ W)].
  - intros a b H. destruct (Win a b H) as (X & Y). rewrite A1 in X, Y. split; (eapply Permutation_in; [symmetry; exact P|assumption]).
Qed.
