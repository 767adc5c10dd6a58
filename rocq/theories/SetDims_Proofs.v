From Coq Require Import String ZifyBool.
From Verif Require Import Base Tuple_Model Factors_Model Factors_Spec Factors_Proofs SetDims_Model SetDims_Spec.
Open Scope string_scope.
Open Scope list_scope.
Open Scope Z_scope.

(* ---- lists of names ---- *)

Lemma name_in_In : forall l d, name_in l d = true <-> In d l.
Proof.
  intros l d. unfold name_in. rewrite existsb_exists. split.
  - intros (x & I & E). apply String.eqb_eq in E. subst. assumption.
  - intros I. exists d. split; [assumption|apply String.eqb_refl].
Qed.

Lemma name_in_not : forall l d, name_in l d = false <-> ~ In d l.
Proof. intros l d. rewrite <- name_in_In. destruct (name_in l d); split; congruence. Qed.

Lemma names_back_new : forall l d, ~ In d l -> names_back l d = l ++ [d].
Proof. intros l d N. unfold names_back. apply name_in_not in N. rewrite N. reflexivity. Qed.

Lemma names_back_old : forall l d, In d l -> names_back l d = l.
Proof. intros l d N. unfold names_back. apply name_in_In in N. rewrite N. reflexivity. Qed.

Lemma names_front_new : forall l d, ~ In d l -> names_at 0 l d = d :: l.
Proof. intros l d N. unfold names_at. apply name_in_not in N. rewrite N. reflexivity. Qed.

Lemma names_front_old : forall l d, In d l -> names_at 0 l d = l.
Proof. intros l d N. unfold names_at. apply name_in_In in N. rewrite N. reflexivity. Qed.

Lemma before_in : forall (l : list string) a b, before l a b -> In a l /\ In b l.
Proof.
  intros l a b (l1 & l2 & l3 & ->). split; rewrite in_app_iff; right; [left; reflexivity|].
  right. rewrite in_app_iff. right. left. reflexivity.
Qed.

Lemma before_app_l : forall (l r : list string) a b, before l a b -> before (l ++ r) a b.
Proof.
  intros l r a b (l1 & l2 & l3 & ->). exists l1, l2, (l3 ++ r). rewrite <- app_assoc. cbn. rewrite <- app_assoc. reflexivity.
Qed.

Lemma before_app_r : forall (l r : list string) a b, before r a b -> before (l ++ r) a b.
Proof. intros l r a b (l1 & l2 & l3 & ->). exists (l ++ l1), l2, l3. rewrite <- app_assoc. reflexivity. Qed.

Lemma before_cross : forall (l r : list string) a b, In a l -> In b r -> before (l ++ r) a b.
Proof.
  intros l r a b Ia Ib. apply in_split in Ia as (l1 & l2 & ->). apply in_split in Ib as (r1 & r2 & ->).
  exists l1, (l2 ++ r1), r2. rewrite <- app_assoc. cbn. rewrite <- app_assoc. reflexivity.
Qed.

Lemma before_snoc : forall (l : list string) d a b, before (l ++ [d]) a b -> before l a b \/ In a l /\ b = d.
Proof.
  intros l d a b (l1 & l2 & l3 & E). destruct l3 as [|x l3 _] using rev_ind.
  - right. change (l1 ++ a :: l2 ++ [b]) with (l1 ++ (a :: l2) ++ [b]) in E. rewrite app_assoc in E.
    apply app_inj_tail in E as (-> & ->). split; [|reflexivity]. rewrite in_app_iff. right. left. reflexivity.
  - left. replace (l1 ++ a :: l2 ++ b :: l3 ++ [x]) with ((l1 ++ a :: l2 ++ b :: l3) ++ [x]) in E.
    + apply app_inj_tail in E as (-> & _). exists l1, l2, l3. reflexivity.
    + rewrite <- app_assoc. cbn. rewrite <- app_assoc. reflexivity.
Qed.

Lemma first_order_back : forall m l d, in_first_order m l -> in_first_order (m ++ [d]) (names_back l d).
Proof.
  intros m l d (ND & EQ & OR). destruct (in_dec string_dec d l) as [I|N].
  - rewrite names_back_old by assumption. split; [assumption|]. split.
    + intros x. rewrite in_app_iff, EQ. cbn. apply EQ in I. intuition (subst; auto).
    + intros a b B. destruct (OR a b B) as (m1 & m2 & -> & H). exists m1, (m2 ++ [d]). rewrite <- app_assoc.
      split; [reflexivity|assumption].
  - rewrite names_back_new by assumption. split; [|split].
    + apply (Permutation_NoDup (Permutation_cons_append l d)). constructor; assumption.
    + intros x. rewrite !in_app_iff, EQ. reflexivity.
    + intros a b B. apply before_snoc in B as [B|(Ia & ->)].
      * destruct (OR a b B) as (m1 & m2 & -> & H). exists m1, (m2 ++ [d]). rewrite <- app_assoc. split; [reflexivity|assumption].
      * pose proof Ia as Ia'. apply EQ in Ia. apply in_split in Ia as (m1 & m2 & ->). exists m1, (m2 ++ [d]). rewrite <- app_assoc.
        split; [reflexivity|]. rewrite EQ in N. split.
        -- intros I. apply N. rewrite in_app_iff. left. assumption.
        -- intros [->|[]]. apply N. rewrite in_app_iff. right. left. reflexivity.
Qed.

Lemma first_order_fold : forall m m0 l0, in_first_order m0 l0 -> in_first_order (m0 ++ m) (fold_left names_back m l0).
Proof.
  induction m as [|d m IH]; intros m0 l0 H; cbn.
  - rewrite app_nil_r. assumption.
  - change (m0 ++ d :: m) with (m0 ++ [d] ++ m). rewrite app_assoc. apply IH. apply first_order_back. assumption.
Qed.

Lemma first_order_nil : in_first_order [] [].
Proof.
  split; [constructor|]. split; [reflexivity|]. intros a b (l1 & l2 & l3 & E). destruct l1; discriminate.
Qed.

(* the order of first mentions determines the list *)
Lemma before_nodup_anti : forall (l : list string) a b, NoDup l -> before l a b -> before l b a -> False.
Proof.
  induction l as [|x l IH]; intros a b ND H1 H2.
  - destruct H1 as (l1 & l2 & l3 & E). destruct l1; discriminate.
  - inversion ND as [|? ? N ND']; subst.
    destruct H1 as (l1 & l2 & l3 & E1). destruct H2 as (k1 & k2 & k3 & E2).
    destruct l1 as [|y l1]; cbn in E1; injection E1 as -> E1.
    + destruct k1 as [|z k1]; cbn in E2; injection E2 as -> E2.
      * apply N. rewrite E1. rewrite in_app_iff. right. left. reflexivity.
      * apply N. rewrite E2. rewrite in_app_iff. right. right. rewrite in_app_iff. right. left. reflexivity.
    + destruct k1 as [|z k1]; cbn in E2; injection E2 as -> E2.
      * apply N. rewrite E1. rewrite in_app_iff. right. right. rewrite in_app_iff. right. left. reflexivity.
      * apply (IH a b ND'); [exists l1, l2, l3|exists k1, k2, k3]; assumption.
Qed.

Lemma first_seen_anti : forall m a b, first_seen m a b -> first_seen m b a -> False.
Proof.
  induction m as [|x m IH]; intros a b (m1 & m2 & E1 & N1 & D1) (k1 & k2 & E2 & N2 & D2).
  - destruct m1; discriminate.
  - destruct m1 as [|y m1]; cbn in E1; injection E1 as -> E1.
    + destruct k1 as [|z k1]; cbn in E2; injection E2 as -> E2.
      * apply D1. left. reflexivity.
      * apply N2. left. reflexivity.
    + destruct k1 as [|z k1]; cbn in E2; injection E2 as -> E2.
      * apply N1. left. reflexivity.
      * apply (IH a b).
        -- exists m1, m2. split; [assumption|]. split; [|assumption]. intros I. apply N1. right. assumption.
        -- exists k1, k2. split; [assumption|]. split; [|assumption]. intros I. apply N2. right. assumption.
Qed.

Lemma ordered_unique : forall (R : string -> string -> Prop), (forall a b, R a b -> R b a -> False) ->
  forall l k, NoDup l -> NoDup k -> (forall d, In d l <-> In d k) ->
  (forall a b, before l a b -> R a b) -> (forall a b, before k a b -> R a b) -> l = k.
Proof.
  intros R AS. induction l as [|x l IH]; intros k NL NK EQ OL OK.
  - destruct k as [|y k]; [reflexivity|]. exfalso. apply (EQ y). left. reflexivity.
  - destruct k as [|y k]; [exfalso; apply (EQ x); left; reflexivity|].
    assert (x = y) as ->.
    { destruct (string_dec x y) as [|D]; [assumption|]. exfalso. apply (AS x y).
      - apply OL. destruct (proj2 (EQ y) (or_introl eq_refl)) as [->|I]; [congruence|].
        apply in_split in I as (l1 & l2 & ->). exists [], l1, l2. reflexivity.
      - apply OK. destruct (proj1 (EQ x) (or_introl eq_refl)) as [->|I]; [congruence|].
        apply in_split in I as (l1 & l2 & ->). exists [], l1, l2. reflexivity. }
    f_equal. inversion NL as [|? ? Nl NL']; inversion NK as [|? ? Nk NK']; subst. apply IH; try assumption.
    + intros d. split; intros I.
      * destruct (proj1 (EQ d) (or_intror I)) as [->|]; [contradiction|assumption].
      * destruct (proj2 (EQ d) (or_intror I)) as [->|]; [contradiction|assumption].
    + intros a b B. apply OL. apply (before_app_r [y]). assumption.
    + intros a b B. apply OK. apply (before_app_r [y]). assumption.
Qed.

Lemma first_order_unique : forall m l k, in_first_order m l -> in_first_order m k -> l = k.
Proof.
  intros m l k (NL & EL & OL) (NK & EK & OK). apply (ordered_unique (first_seen m) (first_seen_anti m)); try assumption.
  intros d. rewrite EL, EK. reflexivity.
Qed.

(* ---- scanning the vars ---- *)

Definition flat (vars : list dvar) : list (bool * (string * ikind)) :=
  concat (map (fun v => map (fun i => (dv_scratch v, i)) (dv_dims v)) vars).
Definition scan1 (r : res found) (x : bool * (string * ikind)) : res found := scan_dim (fst x) r (snd x).

Lemma scan_vars_flat : forall vars r,
  fold_left (fun rf v => fold_left (scan_dim (dv_scratch v)) (dv_dims v) rf) vars r = fold_left scan1 (flat vars) r.
Proof.
  induction vars as [|v vars IH]; intros r; [reflexivity|]. cbn [fold_left]. rewrite IH.
  unfold flat. cbn [map concat]. rewrite fold_left_app. f_equal.
  generalize (dv_dims v) as l. intros l. revert r. induction l as [|i l IH2]; intros r; [reflexivity|]. cbn. rewrite IH2. reflexivity.
Qed.

Lemma scan1_throw : forall l, fold_left scan1 l Throw = Throw.
Proof. induction l as [|x l IH]; [reflexivity|]. cbn. exact IH. Qed.

Definition kind_names (p : ikind -> bool) (l : list (bool * (string * ikind))) : list string :=
  map (fun x => fst (snd x)) (filter (fun x => p (snd (snd x))) l).
Definition is_dom (k : ikind) := match k with KDomain => true | _ => false end.
Definition is_misc (k : ikind) := match k with KMisc => true | _ => false end.

Definition stepdim (l : list (bool * (string * ikind))) (d : string) : Prop := exists s, In (s, (d, KStep)) l.

Lemma scan_spec : forall l f, (forall s d k, In (s, (d, k)) l -> d <> "") ->
  match fold_left scan1 l (Ok f) with
  | Ok f' =>
      (forall d, ~ In (true, (d, KStep)) l) /\ (forall d, stepdim l d -> d = f_step f') /\
      (f_step f <> "" -> f_step f' = f_step f) /\ (f_step f' = f_step f \/ stepdim l (f_step f')) /\
      f_domain f' = fold_left names_back (kind_names is_dom l) (f_domain f) /\
      f_misc f' = fold_left names_back (kind_names is_misc l) (f_misc f)
  | Throw =>
      (exists d, In (true, (d, KStep)) l) \/
      (exists d d', d <> d' /\ stepdim l d /\ (d' = f_step f /\ d' <> "" \/ stepdim l d'))
  | _ => False
  end.
Proof.
  induction l as [|(s & (d & k)) l IH]; intros f NE.
  - cbn. split; [auto|]. split; [intros d (s & [])|]. repeat split; auto.
  - cbn [fold_left].
    assert (NE' : forall s d k, In (s, (d, k)) l -> d <> "") by (intros s0 d0 k0 I; apply (NE s0 d0 k0); right; assumption).
    assert (Hd : d <> "") by (apply (NE s d k); left; reflexivity).
    unfold scan1 at 2. cbn [fst snd scan_dim rbind]. destruct k.
    + destruct (String.eqb (f_step f) "") eqn:E0; cbn [negb andb].
      * destruct s.
        -- rewrite scan1_throw. left. exists d. left. reflexivity.
        -- specialize (IH (add_step_dim f d) NE'). destruct (fold_left scan1 l (Ok (add_step_dim f d))) as [f'| | |]; [| |exact IH|exact IH].
           ++ destruct IH as (A & B & C & D & E & F). cbn in C, D, E, F. specialize (C Hd).
              split; [|split; [|split; [|split; [|split]]]].
              ** intros x [X|X]; [discriminate|apply (A x X)].
              ** intros x (s0 & [X|X]); [injection X as _ ->; congruence|apply B; exists s0; assumption].
              ** apply String.eqb_eq in E0. congruence.
              ** right. rewrite C. exists false. left. reflexivity.
              ** exact E.
              ** exact F.
           ++ destruct IH as [(x & X)|(x & y & D & (s0 & X) & Y)]; [left; exists x; right; assumption|].
              right. exists x, y. split; [assumption|]. split; [exists s0; right; assumption|]. right.
              destruct Y as [(-> & _)|(s1 & Y)]; [exists false; left; reflexivity|exists s1; right; assumption].
      * apply String.eqb_neq in E0. destruct (String.eqb (f_step f) d) eqn:E1; cbn [negb].
        -- apply String.eqb_eq in E1. destruct s.
           ++ rewrite scan1_throw. left. exists d. left. reflexivity.
           ++ specialize (IH (add_step_dim f d) NE'). destruct (fold_left scan1 l (Ok (add_step_dim f d))) as [f'| | |]; [| |exact IH|exact IH].
              ** destruct IH as (A & B & C & D & E & F). cbn in C, D, E, F. specialize (C Hd).
                 split; [|split; [|split; [|split; [|split]]]].
                 --- intros x [X|X]; [discriminate|apply (A x X)].
                 --- intros x (s0 & [X|X]); [injection X as _ ->; congruence|apply B; exists s0; assumption].
                 --- congruence.
                 --- left. congruence.
                 --- exact E.
                 --- exact F.
              ** destruct IH as [(x & X)|(x & y & D & (s0 & X) & Y)]; [left; exists x; right; assumption|].
                 right. exists x, y. split; [assumption|]. split; [exists s0; right; assumption|]. right.
                 destruct Y as [(-> & _)|(s1 & Y)]; [exists false; left; reflexivity|exists s1; right; assumption].
        -- apply String.eqb_neq in E1. rewrite scan1_throw. right. exists d, (f_step f). split; [congruence|].
           split; [exists s; left; reflexivity|]. left. split; [reflexivity|assumption].
    + specialize (IH (add_domain_dim f d) NE').
      destruct (fold_left scan1 l (Ok (add_domain_dim f d))) as [f'| | |]; [| |exact IH|exact IH].
      * destruct IH as (A & B & C & D & E & F). cbn in C, D, E, F. split; [|split; [|split; [|split; [|split]]]].
        -- intros x [X|X]; [discriminate|apply (A x X)].
        -- intros x (s0 & [X|X]); [discriminate|apply B; exists s0; assumption].
        -- assumption.
        -- destruct D as [D|(s0 & D)]; [left; assumption|right; exists s0; right; assumption].
        -- exact E.
        -- exact F.
      * destruct IH as [(x & X)|(x & y & D & (s0 & X) & Y)]; [left; exists x; right; assumption|].
        right. exists x, y. split; [assumption|]. split; [exists s0; right; assumption|].
        destruct Y as [Y|(s1 & Y)]; [left; exact Y|right; exists s1; right; assumption].
    + set (g := mkFound _ _ _ _) in *. specialize (IH g NE').
      destruct (fold_left scan1 l (Ok g)) as [f'| | |]; [| |exact IH|exact IH].
      * destruct IH as (A & B & C & D & E & F). cbn in C, D, E, F. split; [|split; [|split; [|split; [|split]]]].
        -- intros x [X|X]; [discriminate|apply (A x X)].
        -- intros x (s0 & [X|X]); [discriminate|apply B; exists s0; assumption].
        -- assumption.
        -- destruct D as [D|(s0 & D)]; [left; assumption|right; exists s0; right; assumption].
        -- exact E.
        -- exact F.
      * destruct IH as [(x & X)|(x & y & D & (s0 & X) & Y)]; [left; exists x; right; assumption|].
        right. exists x, y. split; [assumption|]. split; [exists s0; right; assumption|].
        destruct Y as [Y|(s1 & Y)]; [left; exact Y|right; exists s1; right; assumption].
Qed.

(* the stencil dims when step and domain dims have different names *)
Definition stepl (s : string) : list string := if String.eqb s "" then [] else [s].

Lemma stencil_back : forall st dom d, d <> st -> names_back (stepl st ++ dom) d = stepl st ++ names_back dom d.
Proof.
  intros st dom d D. destruct (in_dec string_dec d dom) as [I|N].
  - rewrite (names_back_old dom) by assumption. apply names_back_old. rewrite in_app_iff. right. assumption.
  - rewrite (names_back_new dom) by assumption. rewrite names_back_new, app_assoc; [reflexivity|].
    rewrite in_app_iff. unfold stepl. destruct (String.eqb st ""); cbn; intuition congruence.
Qed.

Lemma stencil_step : forall st dom d, d <> "" -> (st = "" \/ st = d) -> ~ In d dom ->
  names_at 0 (stepl st ++ dom) d = stepl d ++ dom.
Proof.
  intros st dom d Hd S N. unfold stepl at 2. apply String.eqb_neq in Hd. rewrite Hd. destruct S as [->| ->].
  - cbn [stepl String.eqb app]. apply names_front_new. assumption.
  - unfold stepl. rewrite Hd. apply names_front_old. left. reflexivity.
Qed.

Lemma scan_stencil : forall (Dm : string -> Prop) l f f', (forall s d k, In (s, (d, k)) l -> d <> "") ->
  (forall s d, In (s, (d, KStep)) l -> ~ Dm d) -> (forall s d, In (s, (d, KDomain)) l -> Dm d) ->
  ~ Dm (f_step f) -> (forall d, In d (f_domain f) -> Dm d) ->
  f_stencil f = stepl (f_step f) ++ f_domain f ->
  fold_left scan1 l (Ok f) = Ok f' -> f_stencil f' = stepl (f_step f') ++ f_domain f'.
Proof.
  intros Dm. induction l as [|(s & (d & k)) l IH]; intros f f' NE HS HD H1 H2 H3 E.
  - cbn in E. injection E as <-. assumption.
  - assert (NE' : forall s d k, In (s, (d, k)) l -> d <> "") by (intros s0 d0 k0 I; apply (NE s0 d0 k0); right; assumption).
    assert (HS' : forall s d, In (s, (d, KStep)) l -> ~ Dm d) by (intros s0 d0 I; apply (HS s0); right; assumption).
    assert (HD' : forall s d, In (s, (d, KDomain)) l -> Dm d) by (intros s0 d0 I; apply (HD s0); right; assumption).
    assert (Hd : d <> "") by (apply (NE s d k); left; reflexivity).
    cbn [fold_left] in E. unfold scan1 at 2 in E. cbn [fst snd scan_dim rbind] in E. destruct k.
    + destruct (negb (String.eqb (f_step f) "") && negb (String.eqb (f_step f) d)) eqn:E0; [rewrite scan1_throw in E; discriminate|].
      destruct s; [rewrite scan1_throw in E; discriminate|].
      assert (ND : ~ Dm d) by (apply (HS false); left; reflexivity).
      refine (IH _ f' NE' HS' HD' _ _ _ E); cbn; [assumption|assumption|]. rewrite H3. apply stencil_step; [assumption| |].
      * destruct (String.eqb (f_step f) "") eqn:E1; [left; apply String.eqb_eq; assumption|].
        destruct (String.eqb (f_step f) d) eqn:E2; [right; apply String.eqb_eq; assumption|discriminate].
      * intros I. apply ND. apply H2. assumption.
    + assert (YD : Dm d) by (apply (HD s); left; reflexivity).
      refine (IH _ f' NE' HS' HD' _ _ _ E); cbn; [assumption| |].
      * intros x I. destruct (in_dec string_dec d (f_domain f)) as [J|J].
        -- rewrite names_back_old in I by assumption. auto.
        -- rewrite names_back_new in I by assumption. apply in_app_iff in I as [I|[<-|[]]]; auto.
      * rewrite H3. apply stencil_back. intros ->. contradiction.
    + refine (IH _ f' NE' HS' HD' _ _ _ E); cbn; assumption.
Qed.

Lemma from_settings_spec : forall cs,
  f_step (from_settings cs) = cs_step cs /\ f_misc (from_settings cs) = [] /\
  f_domain (from_settings cs) = fold_left names_back (cs_domain cs) [].
Proof.
  intros cs. unfold from_settings. set (f1 := if String.eqb (cs_step cs) "" then _ else _).
  assert (H : forall l f, f_step (fold_left add_domain_dim l f) = f_step f /\ f_misc (fold_left add_domain_dim l f) = f_misc f /\
              f_domain (fold_left add_domain_dim l f) = fold_left names_back l (f_domain f)).
  { induction l as [|d l IH]; intros f; [auto|]. cbn. destruct (IH (add_domain_dim f d)) as (-> & -> & ->). auto. }
  destruct (H (cs_domain cs) f1) as (-> & -> & ->). unfold f1. destruct (String.eqb (cs_step cs) "") eqn:E; cbn; auto.
  apply String.eqb_eq in E. auto.
Qed.

Lemma from_settings_stencil : forall cs, ~ In (cs_step cs) (cs_domain cs) ->
  f_stencil (from_settings cs) = stepl (cs_step cs) ++ f_domain (from_settings cs).
Proof.
  intros cs N. unfold from_settings.
  assert (H : forall l f, ~ In (f_step f) l -> f_stencil f = stepl (f_step f) ++ f_domain f ->
     f_stencil (fold_left add_domain_dim l f) = stepl (f_step f) ++ f_domain (fold_left add_domain_dim l f)).
  { induction l as [|d l IH]; intros f Nl E; [assumption|]. cbn. apply (IH (add_domain_dim f d)); cbn.
    - intros I. apply Nl. right. assumption.
    - rewrite E. apply stencil_back. intros ->. apply Nl. left. reflexivity. }
  destruct (String.eqb (cs_step cs) "") eqn:E.
  - apply String.eqb_eq in E. rewrite E in *. rewrite H; [reflexivity|assumption|reflexivity].
  - rewrite H; [reflexivity|assumption|]. cbn. unfold stepl. rewrite E. reflexivity.
Qed.

(* ---- in terms of the vars ---- *)

Lemma flat_In : forall vars s i, In (s, i) (flat vars) <-> exists v, In v vars /\ dv_scratch v = s /\ In i (dv_dims v).
Proof.
  intros vars s i. unfold flat. rewrite in_concat. split.
  - intros (x & I & J). apply in_map_iff in I as (v & <- & I). apply in_map_iff in J as (j & E & J). injection E as <- <-.
    exists v. auto.
  - intros (v & I & <- & J). exists (map (fun i => (dv_scratch v, i)) (dv_dims v)). split.
    + apply in_map_iff. exists v. auto.
    + apply in_map_iff. exists i. auto.
Qed.

Lemma uses_flat : forall vars k d, uses vars k d <-> exists s, In (s, (d, k)) (flat vars).
Proof.
  intros vars k d. split.
  - intros (v & I & J). exists (dv_scratch v). apply flat_In. exists v. auto.
  - intros (s & I). apply flat_In in I as (v & I & _ & J). exists v. auto.
Qed.

Lemma kind_names_flat : forall p vars, kind_names p (flat vars) = map fst (filter (fun i => p (snd i)) (concat (map dv_dims vars))).
Proof.
  intros p vars. induction vars as [|v vars IH]; [reflexivity|]. unfold flat in *. cbn [map concat].
  unfold kind_names in *. rewrite !filter_app, !map_app. rewrite IH. f_equal.
  induction (dv_dims v) as [|i l IHl]; [reflexivity|]. cbn. destruct (p (snd i)); cbn; rewrite IHl; reflexivity.
Qed.

Lemma mentions_domain : forall vars cs d, In d (mentions vars cs) <-> domain_name vars cs d.
Proof.
  intros vars cs d. unfold mentions, domain_name. rewrite in_app_iff. apply or_iff_compat_l. rewrite in_map_iff. split.
  - intros ((x & k) & E & I). cbn in E. subst x. apply filter_In in I as (I & K). cbn in K. destruct k; try discriminate.
    apply in_concat in I as (y & Y & J). apply in_map_iff in Y as (v & <- & Y). exists v. auto.
  - intros (v & I & J). exists (d, KDomain). split; [reflexivity|]. apply filter_In. split; [|reflexivity].
    apply in_concat. exists (dv_dims v). split; [apply in_map; assumption|assumption].
Qed.

Lemma scan_result : forall vars cs, named vars cs ->
  match scan_vars vars cs with
  | Ok f =>
      (forall v d, In v vars -> dv_scratch v = true -> ~ In (d, KStep) (dv_dims v)) /\
      (forall d, step_name vars cs d -> d = f_step f) /\
      (f_step f <> "" -> step_name vars cs (f_step f)) /\
      in_first_order (mentions vars cs) (f_domain f) /\
      NoDup (f_misc f) /\ (forall d, In d (f_misc f) <-> misc_name vars d) /\
      ((forall d, step_name vars cs d -> ~ domain_name vars cs d) -> f_step f <> "" ->
         f_stencil f = f_step f :: f_domain f)
  | Throw => ~ legal vars cs
  | _ => False
  end.
Proof.
  intros vars cs (NM & NM2). unfold scan_vars. rewrite scan_vars_flat.
  assert (NE : forall s d k, In (s, (d, k)) (flat vars) -> d <> "").
  { intros s d k I. apply (NM k). apply uses_flat. exists s. assumption. }
  destruct (from_settings_spec cs) as (F1 & F2 & F3).
  pose proof (scan_spec (flat vars) (from_settings cs) NE) as H.
  destruct (fold_left scan1 (flat vars) (Ok (from_settings cs))) as [f| | |] eqn:E; [| |exact H|exact H].
  - destruct H as (A & B & C & D & G & K). rewrite F1, F2, F3 in *.
    split; [|split; [|split; [|split; [|split; [|split]]]]].
    + intros v d I S J. apply (A d). apply flat_In. exists v. auto.
    + intros d [(Hd & ->)|U]; [symmetry; apply C; assumption|]. apply B. apply uses_flat in U. exact U.
    + intros Hf. destruct D as [D|D]; [left; rewrite D in *; auto|right]. apply uses_flat. exact D.
    + rewrite G, kind_names_flat. unfold mentions. apply first_order_fold.
      apply (first_order_fold _ [] [] first_order_nil).
    + rewrite K. pose proof (first_order_fold (kind_names is_misc (flat vars)) [] [] first_order_nil) as (X & _). exact X.
    + intros d. rewrite K. pose proof (first_order_fold (kind_names is_misc (flat vars)) [] [] first_order_nil) as (_ & X & _).
      rewrite X. cbn. unfold kind_names, misc_name. rewrite in_map_iff, uses_flat. split.
      * intros ((s & (x & k)) & Ex & I). cbn in Ex. subst x. apply filter_In in I as (I & Q). cbn in Q. destruct k; try discriminate.
        exists s. assumption.
      * intros (s & I). exists (s, (d, KMisc)). split; [reflexivity|]. apply filter_In. auto.
    + intros DJ Hf.
      assert (Q : f_stencil f = stepl (f_step f) ++ f_domain f).
      { refine (scan_stencil (domain_name vars cs) (flat vars) (from_settings cs) f NE _ _ _ _ _ E).
        - intros s d I. apply DJ. right. apply uses_flat. exists s. assumption.
        - intros s d I. right. apply uses_flat. exists s. assumption.
        - rewrite F1. intros X. destruct (string_dec (cs_step cs) "") as [Z0|Z0].
          + rewrite Z0 in X. destruct X as [X|X]; [contradiction|]. apply (NM KDomain "" X). reflexivity.
          + apply (DJ (cs_step cs)); [left; auto|assumption].
        - intros d I. rewrite F3 in I. pose proof (first_order_fold (cs_domain cs) [] [] first_order_nil) as (_ & X & _).
          apply X in I. left. exact I.
        - rewrite from_settings_stencil; [rewrite F1; reflexivity|]. intros X. destruct (string_dec (cs_step cs) "") as [Z0|Z0].
          + rewrite Z0 in X. contradiction.
          + apply (DJ (cs_step cs)); [left; auto|left; assumption]. }
      rewrite Q. unfold stepl. apply String.eqb_neq in Hf. rewrite Hf. reflexivity.
  - intros ((t & T & U) & _ & S). destruct H as [(d & I)|(d & d' & N & (s & I) & Y)].
    + apply flat_In in I as (v & I & X & J). exact (S v d I X J).
    + apply N. assert (d = t) as -> by (apply U; right; apply uses_flat; exists s; assumption). symmetry. apply U.
      destruct Y as [(-> & Z)|Y]; [left; rewrite F1 in *; auto|right; apply uses_flat; exact Y].
Qed.

(* ---- the inner-loop dim ---- *)

Lemma posn_of_some : forall l d p, posn_of l d = Some p -> nth_error l p = Some d.
Proof.
  induction l as [|n l IH]; intros d p E; cbn in E; [discriminate|]. destruct (String.eqb n d) eqn:D.
  - injection E as <-. apply String.eqb_eq in D. subst. reflexivity.
  - destruct (posn_of l d) as [q|] eqn:Q; [|discriminate]. cbn in E. injection E as <-. cbn. apply IH. assumption.
Qed.

Lemma posn_of_none : forall l d, posn_of l d = None <-> ~ In d l.
Proof.
  induction l as [|n l IH]; intros d; cbn; [intuition|]. destruct (String.eqb n d) eqn:D.
  - apply String.eqb_eq in D. subst. split; [discriminate|intros H; exfalso; apply H; left; reflexivity].
  - apply String.eqb_neq in D. specialize (IH d). destruct (posn_of l d); cbn; split; try discriminate; intuition congruence.
Qed.

Lemma nth_last : forall (dd : list string), dd <> [] -> nth_error dd (List.length dd - 1) = Some (nth (List.length dd - 1) dd "") /\
  is_last dd (nth (List.length dd - 1) dd "").
Proof.
  intros dd NE. destruct (exists_last NE) as (a & x & ->). rewrite app_length. cbn [List.length].
  replace (List.length a + 1 - 1)%nat with (List.length a) by lia.
  rewrite nth_error_app2, app_nth2 by lia. rewrite Nat.sub_diag. cbn. split; [reflexivity|]. exists a. reflexivity.
Qed.

Lemma is_last_unique : forall (dd : list string) a b, is_last dd a -> is_last dd b -> a = b.
Proof. intros dd a b (x & ->) (y & E). apply app_inj_tail in E as (_ & E). congruence. Qed.

Lemma inner_loop_spec : forall dd o, NoDup dd -> dd <> [] ->
  let il := fst (inner_loop_dim dd o) in let num := snd (inner_loop_dim dd o) in
  1 <= num <= Z.of_nat (List.length dd) /\ nth_error dd (Z.to_nat (num - 1)) = Some il /\ inner_choice dd o il.
Proof.
  intros dd o ND NE. cbv zeta.
  assert (L : (1 <= List.length dd)%nat) by (destruct dd; [congruence|cbn; lia]).
  destruct (nth_last dd NE) as (NL & LL).
  assert (BN : forall s, let r := match posn_of dd s with Some p => (s, Z.of_nat p + 1)
                                  | None => (nth (List.length dd - 1) dd "", Z.of_nat (List.length dd)) end in
     1 <= snd r <= Z.of_nat (List.length dd) /\ nth_error dd (Z.to_nat (snd r - 1)) = Some (fst r) /\
     (In s dd /\ fst r = s \/ ~ In s dd /\ is_last dd (fst r))).
  { intros s. cbv zeta. destruct (posn_of dd s) as [p|] eqn:P; cbn [fst snd].
    - apply posn_of_some in P. assert (p < List.length dd)%nat by (apply nth_error_Some; congruence).
      split; [lia|]. split; [|left; split; [apply nth_error_In in P; assumption|reflexivity]].
      replace (Z.to_nat (Z.of_nat p + 1 - 1)) with p by lia. assumption.
    - apply posn_of_none in P. split; [lia|]. split; [|right; auto].
      replace (Z.to_nat (Z.of_nat (List.length dd) - 1)) with (List.length dd - 1)%nat by lia. assumption. }
  destruct o as [|n|s]; cbn [inner_loop_dim inner_choice].
  - cbn [fst snd]. split; [lia|]. split; [|assumption].
    replace (Z.to_nat (Z.of_nat (List.length dd) - 1)) with (List.length dd - 1)%nat by lia. assumption.
  - cbv zeta. set (dn := if n <? 1 then 1 else n). set (dm := if Z.of_nat (List.length dd) <? dn then Z.of_nat (List.length dd) else dn).
    assert (DM : dm = Z.min (Z.max n 1) (Z.of_nat (List.length dd))).
    { assert (E1 : dn = Z.max n 1) by (unfold dn; destruct (Z.ltb_spec n 1); lia).
      unfold dm. rewrite E1. destruct (Z.ltb_spec (Z.of_nat (List.length dd)) (Z.max n 1)); lia. }
    assert (NT : nth_error dd (Z.to_nat (dm - 1)) = Some (nth (Z.to_nat (dm - 1)) dd "")) by (apply nth_error_nth'; lia).
    destruct (BN (nth (Z.to_nat (dm - 1)) dd "")) as (B1 & B2 & [(B3 & B4)|(B3 & _)]).
    + split; [exact B1|]. split; [exact B2|]. rewrite B4. rewrite <- DM. exact NT.
    + exfalso. apply B3. apply nth_error_In in NT. exact NT.
  - destruct (BN s) as (B1 & B2 & B3). split; [exact B1|]. split; [exact B2|exact B3].
Qed.

Lemma inner_choice_unique : forall dd o a b, inner_choice dd o a -> inner_choice dd o b -> a = b.
Proof.
  intros dd [|n|s] a b A B; cbn in *.
  - apply (is_last_unique dd); assumption.
  - congruence.
  - destruct A as [(A & ->)|(A & A')]; destruct B as [(B & ->)|(B & B')]; try contradiction; [reflexivity|].
    apply (is_last_unique dd); assumption.
Qed.

(* ---- tuples with given names ---- *)

Definition tup (dd : list string) (g : string -> Z) : list (string * Z) := map (fun d => (d, g d)) dd.

Lemma lookup_tup : forall dd g d, lookup_list (tup dd g) d = if name_in dd d then Some (g d) else None.
Proof.
  induction dd as [|x dd IH]; intros g d; cbn; [reflexivity|]. rewrite (String.eqb_sym d x). destruct (String.eqb x d) eqn:E.
  - apply String.eqb_eq in E. subst. reflexivity.
  - cbn. apply IH.
Qed.

Lemma update_tup : forall dd g d v, NoDup dd ->
  update_list (tup dd g) d v = tup dd (fun x => if String.eqb x d then v else g x).
Proof.
  induction dd as [|x dd IH]; intros g d v ND; cbn; [reflexivity|]. inversion ND as [|? ? N ND']; subst.
  destruct (String.eqb x d) eqn:E.
  - apply String.eqb_eq in E. subst. f_equal. unfold tup. apply map_ext_in. intros y I.
    destruct (String.eqb y d) eqn:E; [|reflexivity]. apply String.eqb_eq in E. subst. contradiction.
  - f_equal. apply IH. assumption.
Qed.

Lemma tup_ext : forall dd g h, (forall d, In d dd -> g d = h d) -> tup dd g = tup dd h.
Proof. intros dd g h H. apply map_ext_in. intros d I. rewrite H by assumption. reflexivity. Qed.

(* setting some of the values one after the other *)
Lemma set_some : forall dd (o : string -> option Z) l g fi, NoDup dd -> NoDup l -> (forall d, In d l -> In d dd) ->
  fold_left (fun t d => match o d with Some v => set_val t d v | None => t end) l (mkTuple (tup dd g) fi) =
  mkTuple (tup dd (fun d => if name_in l d then match o d with Some v => v | None => g d end else g d)) fi.
Proof.
  intros dd o l. induction l as [|x l IH]; intros g fi ND NL IN; cbn [fold_left].
  - reflexivity.
  - inversion NL as [|? ? N NL']; subst.
    assert (IN' : forall d, In d l -> In d dd) by (intros d I; apply IN; right; assumption).
    assert (EX : forall d, name_in (x :: l) d = String.eqb d x || name_in l d) by reflexivity.
    destruct (o x) as [v|] eqn:O.
    + unfold set_val at 2. cbn [dims first_inner]. rewrite update_tup by assumption. rewrite IH by assumption. f_equal. apply tup_ext.
      intros d _. rewrite EX. destruct (String.eqb d x) eqn:E; cbn [orb]; [|reflexivity].
      apply String.eqb_eq in E. subst d. rewrite O. apply name_in_not in N. rewrite N. reflexivity.
    + rewrite IH by assumption. f_equal. apply tup_ext. intros d _. rewrite EX.
      destruct (String.eqb d x) eqn:E; cbn [orb]; [|reflexivity]. apply String.eqb_eq in E. subst d. rewrite O.
      destruct (name_in l x); reflexivity.
Qed.

Lemma vals_tup : forall dd g fi, vals (mkTuple (tup dd g) fi) = map g dd.
Proof. intros. unfold vals, tup. cbn. rewrite map_map. reflexivity. Qed.
Lemma names_tup : forall dd g fi, names (mkTuple (tup dd g) fi) = dd.
Proof. intros. unfold names, tup. cbn. rewrite map_map. cbn. apply map_id. Qed.
Lemma product_tup : forall dd g fi, product (mkTuple (tup dd g) fi) = zprod (map g dd).
Proof. intros. rewrite product_zprod, vals_tup. reflexivity. Qed.

(* ---- the request ---- *)

Definition askedb (cs : csettings) (d : string) : bool := 1 <=? asked cs d.
Definition want (cs : csettings) (d : string) : Z := Z.max 1 (asked cs d).

Lemma asked_cases : forall cs d,
  match lookup (cs_fold cs) d with
  | None => asked cs d = 0
  | Some sz => if sz <? 1 then asked cs d = 0 else asked cs d = sz /\ 1 <= sz
  end.
Proof.
  intros cs d. unfold asked. destruct (lookup (cs_fold cs) d) as [sz|]; [|reflexivity].
  destruct (sz <? 1) eqn:E; destruct (1 <=? sz) eqn:E2; try lia; auto.
Qed.

Lemma asked_nonneg : forall cs d, 0 <= asked cs d.
Proof. intros cs d. pose proof (asked_cases cs d) as H. destruct (lookup (cs_fold cs) d) as [sz|]; [|lia]. destruct (sz <? 1); lia. Qed.

Lemma requested_spec : forall dd cs, NoDup dd ->
  requested dd cs = (mkTuple (tup dd (want cs)) true, mkTuple (tup (filter (askedb cs) dd) (asked cs)) true).
Proof.
  intros dd cs ND. unfold requested.
  set (step := fun (acc : tuple * tuple) d => _).
  assert (H : forall l pre g, NoDup (pre ++ l) -> (forall d, In d l -> In d dd) ->
    fold_left step l (mkTuple (tup dd g) true, mkTuple (tup (filter (askedb cs) pre) (asked cs)) true) =
    (mkTuple (tup dd (fun d => if name_in l d then if askedb cs d then asked cs d else g d else g d)) true,
     mkTuple (tup (filter (askedb cs) (pre ++ l)) (asked cs)) true)).
  { induction l as [|x l IH]; intros pre g NP IN; cbn [fold_left].
    - rewrite app_nil_r. reflexivity.
    - assert (IN' : forall d, In d l -> In d dd) by (intros d I; apply IN; right; assumption).
      assert (NP' : NoDup ((pre ++ [x]) ++ l)) by (rewrite <- app_assoc; exact NP).
      assert (Nx : ~ In x l /\ ~ In x pre).
      { apply NoDup_remove_2 in NP. rewrite in_app_iff in NP. tauto. }
      destruct Nx as (Nx & Np).
      assert (EX : forall d, name_in (x :: l) d = String.eqb d x || name_in l d) by reflexivity.
      pose proof (asked_cases cs x) as AC.
      assert (SX : step (mkTuple (tup dd g) true, mkTuple (tup (filter (askedb cs) pre) (asked cs)) true) x =
        (mkTuple (tup dd (fun d => if String.eqb d x && askedb cs x then asked cs x else g d)) true,
         mkTuple (tup (filter (askedb cs) (pre ++ [x])) (asked cs)) true)).
      { unfold step. rewrite filter_app. cbn [filter]. destruct (lookup (cs_fold cs) x) as [sz|].
        - destruct (sz <? 1).
          + replace (askedb cs x) with false by (unfold askedb; lia). rewrite app_nil_r. f_equal. f_equal. apply tup_ext.
            intros d _. rewrite andb_false_r. reflexivity.
          + destruct AC as (<- & AC). replace (askedb cs x) with true by (unfold askedb; lia). cbn [fst snd].
            unfold set_val. cbn [dims first_inner]. rewrite update_tup by assumption. f_equal.
            * f_equal. apply tup_ext. intros d _. rewrite andb_true_r. reflexivity.
            * unfold add_dim_back, lookup. cbn [dims first_inner]. rewrite lookup_tup.
              replace (name_in (filter (askedb cs) pre) x) with false.
              -- f_equal. unfold tup. rewrite map_app. reflexivity.
              -- symmetry. apply name_in_not. rewrite filter_In. tauto.
        - replace (askedb cs x) with false by (unfold askedb; lia). rewrite app_nil_r. f_equal. f_equal. apply tup_ext.
          intros d _. rewrite andb_false_r. reflexivity. }
      rewrite SX. rewrite (IH (pre ++ [x])) by assumption. rewrite <- app_assoc. f_equal. f_equal. apply tup_ext.
      intros d _. rewrite EX. destruct (String.eqb d x) eqn:E; cbn [orb andb]; [|reflexivity].
      apply String.eqb_eq in E. subst d. apply name_in_not in Nx. rewrite Nx. destruct (askedb cs x); reflexivity. }
  unfold ones. change (map (fun d => (d, 1)) dd) with (tup dd (fun _ => 1)).
  change (mkTuple [] true) with (mkTuple (tup (filter (askedb cs) []) (asked cs)) true).
  rewrite (H dd []) by auto. cbn [app]. f_equal. f_equal. apply tup_ext. intros d I. apply name_in_In in I. rewrite I.
  unfold want, askedb. pose proof (asked_nonneg cs d). destruct (1 <=? asked cs d) eqn:E; lia.
Qed.

Lemma zprod_filter_asked : forall dd cs, zprod (map (asked cs) (filter (askedb cs) dd)) = zprod (map (want cs) dd).
Proof.
  induction dd as [|d dd IH]; intros cs; [reflexivity|]. cbn. unfold askedb at 1, want at 1. pose proof (asked_nonneg cs d).
  destruct (1 <=? asked cs d) eqn:E; cbn; rewrite IH; f_equal; lia.
Qed.

Lemma want_pos : forall cs dd, Forall (fun x => 1 <= x) (map (want cs) dd).
Proof. intros. apply Forall_forall. intros x I. apply in_map_iff in I as (d & <- & _). unfold want. lia. Qed.
