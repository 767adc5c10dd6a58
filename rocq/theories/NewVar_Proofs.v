From Coq Require Import String.
From Verif Require Import Base Idiv_Model Idiv_Proofs Var_Model Var_Spec Resize_Model Resize_Spec Resize_Proofs NewVar_Model NewVar_Spec.
From Coq Require Import ZifyBool.

Lemma mem_In : forall d l, mem d l = true <-> In d l.
Proof.
  intros d l. unfold mem. rewrite existsb_exists. split.
  - intros (x & H & E). apply String.eqb_eq in E. subst. exact H.
  - intros H. exists d. split; [exact H|]. apply String.eqb_refl.
Qed.

Lemma mem_not : forall d l, mem d l = false <-> ~ In d l.
Proof. intros d l. rewrite <- mem_In. destruct (mem d l); split; intros; try discriminate; try congruence; try tauto. Qed.

Lemma same_names_eq : forall a b, same_names a b = true <-> a = b.
Proof.
  induction a as [|x a IH]; intros [|y b]; cbn; split; intros H; try discriminate; try reflexivity.
  - apply andb_true_iff in H. destruct H as (H1 & H2). apply String.eqb_eq in H1. apply IH in H2. congruence.
  - injection H as -> ->. rewrite String.eqb_refl. apply IH. reflexivity.
Qed.

Lemma tuple_gen : forall ds acc, NoDup (acc ++ ds) -> fold_left add_dim ds acc = acc ++ ds.
Proof.
  induction ds as [|d ds IH]; intros acc H; cbn; [now rewrite app_nil_r|].
  assert (E : add_dim acc d = acc ++ [d]).
  { unfold add_dim. destruct (mem d acc) eqn:E; [|reflexivity]. apply mem_In in E.
    apply NoDup_remove_2 in H. exfalso. apply H. apply in_or_app. now left. }
  rewrite E, IH; rewrite <- app_assoc; [reflexivity|exact H].
Qed.

Lemma tuple_nodup : forall ds, NoDup ds -> tuple_of ds = ds.
Proof. intros ds H. unfold tuple_of. apply (tuple_gen ds []). exact H. Qed.

(* settings without the pads *)
Definition core (d : rdim) : rdim :=
  mkR (r_step d) (r_domain d) (r_inner d) (r_svl d) (r_vvl d) (r_dom d) (r_lh d) (r_rh d) (r_lwf d) (r_rwf d)
      (r_rlp d) (r_rrp d) (r_rle d) (r_rre d) 0 0 0 0 0.

Lemma core_edit : forall s d, core (edit_dim s d) = edit_dim s (core d).
Proof. intros [] d; reflexivity. Qed.
Lemma core_pads : forall d p, core (set_pads d p) = core d.
Proof. reflexivity. Qed.
Lemma core_neg : forall d, any_neg (core d) = any_neg d.
Proof. reflexivity. Qed.

Definition nice (s : setting) : Prop :=
  match s with SDomain n => 0 <= n | SMinPadUp _ _ | SExtraUp _ _ => True | _ => False end.

Lemma nice_neg : forall s d, nice s -> any_neg d = false -> any_neg (edit_dim s d) = false.
Proof. intros [] d H N; cbn in H; try contradiction; unfold any_neg in *; cbn; [exact N| |]; destruct left, right; cbn; lia. Qed.

Definition apply_sets (ops : list (nat * setting)) (l : list rdim) : list rdim :=
  fold_left (fun l ps => upd_nth (fst ps) (edit_dim (snd ps)) l) ops l.
Definition to_rop (ps : nat * setting) : rop := RSet (fst ps) (snd ps).

Lemma upd_nth_map : forall A B (g : A -> B) (f : A -> A) (f' : B -> B) l n, (forall x, g (f x) = f' (g x)) ->
  map g (upd_nth n f l) = upd_nth n f' (map g l).
Proof. induction l as [|x l IH]; intros [|n] H; cbn; try reflexivity; [rewrite H; reflexivity|]. f_equal. auto. Qed.

Lemma upd_nth_Forall : forall A (P : A -> Prop) f n l, (forall x, P x -> P (f x)) -> Forall P l -> Forall P (upd_nth n f l).
Proof. intros. apply Forall_upd_nth; assumption. Qed.

Lemma run_sets_ok : forall ops v, Forall (fun ps => nice (snd ps)) ops -> rv_storage v = false ->
  Forall (fun d => any_neg d = false) (rv_dims v) -> vinv v -> Forall pads_ok (rv_dims v) ->
  exists v', run_sets v (map to_rop ops) = (Ok tt, v') /\
    map core (rv_dims v') = apply_sets ops (map core (rv_dims v)) /\
    vinv v' /\ Forall pads_ok (rv_dims v') /\ Forall (fun d => any_neg d = false) (rv_dims v').
Proof.
  induction ops as [|(p, s) ops IH]; intros v HN HS HA HV HP.
  - exists v. cbn. auto.
  - inversion HN as [|? ? H1 H2]; subst. cbn [snd] in H1. cbn [map run_sets]. change (to_rop (p, s)) with (RSet p s).
    assert (OK : op_ok (RSet p s)) by (destruct s; cbn in *; auto).
    pose proof (run_rop_inv v (RSet p s) HV OK) as (V1 & V2). specialize (V2 p s eq_refl).
    cbn [run_rop] in *.
    set (v1 := mkRV (upd_nth p (edit_dim s) (rv_dims v)) (rv_storage v) (rv_addl v) (rv_vlen_gt1 v) (rv_dirty v)) in *.
    assert (A1 : Forall (fun d => any_neg d = false) (rv_dims v1)).
    { unfold v1. cbn [rv_dims]. apply upd_nth_Forall; [|exact HA]. intros d. apply nice_neg. exact H1. }
    assert (N1 : existsb any_neg (rv_dims v1) = false).
    { apply not_true_is_false. intros X. apply existsb_exists in X. destruct X as (d & I & X).
      rewrite Forall_forall in A1. rewrite (A1 d I) in X. discriminate. }
    assert (R : resize v1 = Ok (mkRV (map (fun d => set_pads d (new_pads (rv_storage v1) (rv_addl v1) (rv_vlen_gt1 v1) d)) (rv_dims v1))
                    (rv_storage v1) (rv_addl v1) (rv_vlen_gt1 v1)
                    (new_dirty (map (fun d => set_pads d (new_pads (rv_storage v1) (rv_addl v1) (rv_vlen_gt1 v1) d)) (rv_dims v1))))).
    { unfold resize. rewrite N1. replace (rv_storage v1) with false by (symmetry; exact HS). reflexivity. }
    match type of R with _ = Ok ?x => set (v2 := x) in * end.  rewrite R in V1, V2 |- *. cbn [fst snd] in V1, V2 |- *.
    destruct (IH v2 H2) as (v' & E1 & E2 & E3 & E4 & E5).
    + exact HS.
    + unfold v2. cbn [rv_dims]. apply Forall_map. eapply Forall_impl; [|exact A1]. intros d X. exact X.
    + exact V1.
    + apply V2. reflexivity.
    + exists v'. split; [exact E1|]. split; [|auto]. rewrite E2.
      change (apply_sets ((p, s) :: ops) (map core (rv_dims v))) with (apply_sets ops (upd_nth p (edit_dim s) (map core (rv_dims v)))).
      apply f_equal. unfold v2. cbn [rv_dims]. rewrite map_map.
      rewrite (map_ext _ core) by (intros; apply core_pads). unfold v1. cbn [rv_dims].
      apply upd_nth_map. intros; apply core_edit.
Qed.

Lemma nth_upd : forall A (f : A -> A) l n i, nth_error (upd_nth n f l) i = if (i =? n)%nat then option_map f (nth_error l i) else nth_error l i.
Proof.
  induction l as [|x l IH]; intros [|n] [|i]; cbn; try reflexivity.
  - destruct (i =? n)%nat; reflexivity.
  - apply IH.
Qed.

Definition edits (i : nat) (ops : list (nat * setting)) (d : rdim) : rdim :=
  fold_left (fun d ps => if (i =? fst ps)%nat then edit_dim (snd ps) d else d) ops d.

Lemma apply_nth : forall ops l i, nth_error (apply_sets ops l) i = option_map (edits i ops) (nth_error l i).
Proof.
  induction ops as [|(p, s) ops IH]; intros l i; cbn.
  - destruct (nth_error l i); reflexivity.
  - unfold apply_sets in IH. rewrite IH, nth_upd. unfold edits. cbn [fst snd fold_left].
    destruct (i =? p)%nat; destruct (nth_error l i); reflexivity.
Qed.

Lemma apply_length : forall ops l, length (apply_sets ops l) = length l.
Proof.
  induction ops as [|(p, s) ops IH]; intros l; cbn; [reflexivity|]. unfold apply_sets in IH. rewrite IH.
  revert p. induction l as [|x l IHl]; intros [|p]; cbn; auto.
Qed.

Lemma edits_app : forall i a b d, edits i (a ++ b) d = edits i b (edits i a d).
Proof. intros. unfold edits. apply fold_left_app. Qed.

Lemma edits_other : forall i ops d, (forall ps, In ps ops -> fst ps <> i) -> edits i ops d = d.
Proof.
  induction ops as [|(p, s) ops IH]; intros d H; [reflexivity|]. unfold edits in *. cbn [fold_left fst snd].
  assert ((i =? p)%nat = false) as ->.
  { apply Nat.eqb_neq. intros E. apply (H (p, s) (or_introl eq_refl)). auto. }
  apply IH. intros ps I. apply H. now right.
Qed.

Definition dsets (c : soln) (p : nat) (d : string) (n : Z) : list (nat * setting) :=
  (p, SDomain n) ::
  (if mem d (s_domain c) then [(p, SExtraUp (Some (s_extra c d)) (Some (s_extra c d))); (p, SMinPadUp (Some (s_min c d)) (Some (s_min c d)))] else []).

Lemma dim_sets_map : forall c p d n, dim_sets c p d n = map to_rop (dsets c p d n).
Proof. intros. unfold dim_sets, dsets. destruct (mem d (s_domain c)); reflexivity. Qed.

Lemma dsets_fst : forall c p d n ps, In ps (dsets c p d n) -> fst ps = p.
Proof. intros c p d n ps H. unfold dsets in H. destruct (mem d (s_domain c)); cbn in H; intuition (subst; reflexivity). Qed.

Lemma dsets_nice : forall c p d n, 0 <= n -> Forall (fun ps => nice (snd ps)) (dsets c p d n).
Proof. intros c p d n H. unfold dsets. destruct (mem d (s_domain c)); repeat constructor; exact H. Qed.

Lemma flat_map_map : forall A B C (f : A -> list B) (g : B -> C) l, flat_map (fun a => map g (f a)) l = map g (flat_map f l).
Proof. induction l; cbn; [reflexivity|]. rewrite map_app. f_equal. assumption. Qed.

(* what remains of the settings of one dim *)
Definition made_core (c : soln) (d : string) (n : option Z) (k k' : rdim) : Prop :=
  r_step k' = r_step k /\ (r_domain k' = r_domain k /\ r_svl k' = r_svl k /\ r_vvl k' = r_vvl k) /\
  (forall x, n = Some x -> r_dom k' = x /\
     (mem d (s_domain c) = true -> s_extra c d <= r_rle k' /\ s_extra c d <= r_rre k' /\ s_min c d <= r_rlp k' /\ s_min c d <= r_rrp k')) /\
  (n = None -> r_dom k' = r_dom k).

Lemma edits_dsets : forall c i d n k, made_core c d (Some n) k (edits i (dsets c i d n) k).
Proof.
  intros. unfold made_core, edits, dsets. destruct (mem d (s_domain c)) eqn:E; cbn [fold_left fst snd]; rewrite Nat.eqb_refl; cbn;
    repeat split; try discriminate; intros; try congruence; try lia.
Qed.

(* the settings of a var with given sizes *)
Lemma fixed_edits : forall c ds l b i d n k, nth_error ds i = Some d -> nth_error l i = Some n ->
  edits (b + i) (flat_map (fun ids => dsets c (fst ids) (fst (snd ids)) (snd (snd ids))) (combine (seq b (length ds)) (combine ds l))) k =
  edits (b + i) (dsets c (b + i) d n) k.
Proof.
  induction ds as [|d0 ds IH]; intros l b i d n k Hd Hl; [destruct i; discriminate|].
  destruct l as [|n0 l]; [destruct i; discriminate|]. cbn [length seq combine flat_map fst snd].
  rewrite edits_app. destruct i as [|i].
  - cbn in Hd, Hl. injection Hd as ->. injection Hl as ->. rewrite Nat.add_0_r.
    apply edits_other. intros ps H. apply in_flat_map in H. destruct H as ((j & (d1 & n1)) & H1 & H2).
    apply dsets_fst in H2. cbn [fst] in H2. apply in_combine_l in H1. apply in_seq in H1. lia.
  - cbn in Hd, Hl. rewrite (edits_other (b + S i) (dsets c b d0 n0)).
    + replace (b + S i)%nat with (S b + i)%nat by lia. apply IH; assumption.
    + intros ps H. apply dsets_fst in H. lia.
Qed.

Lemma posn_ok : forall d l, NoDup l -> forall p, posn d l = Some p <-> nth_error l p = Some d.
Proof.
  induction l as [|x l IH]; intros ND p; cbn; [destruct p; split; discriminate|].
  inversion ND; subst. destruct (String.eqb x d) eqn:E.
  - apply String.eqb_eq in E. subst x. split; [intros X; injection X as <-; reflexivity|].
    destruct p; [reflexivity|]. cbn. intros X. apply nth_error_In in X. contradiction.
  - apply String.eqb_neq in E. destruct p; cbn.
    + split; [destruct (posn d l); discriminate|]. intros X. congruence.
    + rewrite <- IH by assumption. destruct (posn d l); cbn; split; intros X; congruence.
Qed.

Definition free_sets (c : soln) (ds dom : list string) : list (nat * setting) :=
  flat_map (fun d => match posn d ds with Some p => dsets c p d (s_rank c d) | None => [] end) dom.

Lemma free_edits_out : forall c ds dom i d k, NoDup ds -> nth_error ds i = Some d -> ~ In d dom ->
  edits i (free_sets c ds dom) k = k.
Proof.
  intros c ds dom i d k ND Hd H. apply edits_other. intros ps I E. apply in_flat_map in I. destruct I as (x & I1 & I2).
  destruct (posn x ds) as [p|] eqn:P; [|destruct I2]. apply dsets_fst in I2. apply posn_ok in P; [|exact ND].
  assert (p = i) by congruence. subst p. assert (x = d) by congruence. subst x. contradiction.
Qed.

Lemma free_edits_in : forall c ds dom i d k, NoDup ds -> NoDup dom -> nth_error ds i = Some d -> In d dom ->
  edits i (free_sets c ds dom) k = edits i (dsets c i d (s_rank c d)) k.
Proof.
  induction dom as [|x dom IH]; intros i d k ND NDd Hd H; [destruct H|]. inversion NDd; subst.
  unfold free_sets. cbn [flat_map]. fold (free_sets c ds dom). rewrite edits_app.
  destruct (string_dec x d) as [->|NE].
  - assert (P : posn d ds = Some i) by (apply posn_ok; assumption). rewrite P.
    apply (free_edits_out c ds dom i d); assumption.
  - destruct H as [H|H]; [congruence|].
    rewrite (edits_other i (match posn x ds with Some p => dsets c p x (s_rank c x) | None => [] end)).
    + apply IH; assumption.
    + destruct (posn x ds) as [p|] eqn:P; [|intros ? []]. intros ps I E. apply dsets_fst in I.
      apply posn_ok in P; [|exact ND]. assert (p = i) by congruence. subst p. congruence.
Qed.

(* the check of the dims *)
Lemma check_ok : forall c ds i misc, soln_ok c ->
  (forall d, In d (s_domain c) -> ~ In d misc) ->
  (forall j, nth_error ds j = Some (s_step c) -> i = 0 /\ j = O) -> 0 <= i -> NoDup misc -> ~ In (s_step c) misc ->
  exists new, check_dims c [] i ds misc = (Ok tt, misc ++ new) /\
    (forall d, In d new <-> In d ds /\ d <> s_step c /\ ~ In d (s_domain c) /\ ~ In d misc) /\
    NoDup (misc ++ new).
Proof.
  induction ds as [|d ds IH]; intros i misc HC HM HS Hi ND NS.
  - exists []. cbn. rewrite app_nil_r. split; [reflexivity|]. split; [|exact ND]. intros d. tauto.
  - assert (HS' : forall j, nth_error ds j = Some (s_step c) -> i + 1 = 0 /\ j = O).
    { intros j Hj. destruct (HS (S j) Hj) as (_ & X). discriminate. }
    cbn [check_dims mem existsb]. destruct (String.eqb d (s_step c)) eqn:E1.
    + apply String.eqb_eq in E1. subst d. destruct (HS O eq_refl) as (-> & _). cbn [Z.eqb negb].
      destruct (IH (0 + 1) misc HC HM HS' ltac:(lia) ND NS) as (new & A & B & C).
      exists new. split; [exact A|]. split; [|exact C]. intros d. rewrite B. cbn [In]. intuition congruence.
    + apply String.eqb_neq in E1. fold (mem d (s_domain c)). destruct (mem d (s_domain c)) eqn:E2.
      * apply mem_In in E2. destruct (IH (i + 1) misc HC HM HS' ltac:(lia) ND NS) as (new & A & B & C).
        exists new. split; [exact A|]. split; [|exact C]. intros x. rewrite B. cbn [In]. intuition congruence.
      * apply mem_not in E2. fold (mem d misc). destruct (mem d misc) eqn:E3.
        -- apply mem_In in E3. destruct (IH (i + 1) misc HC HM HS' ltac:(lia) ND NS) as (new & A & B & C).
           exists new. split; [exact A|]. split; [|exact C]. intros x. rewrite B. cbn [In]. intuition congruence.
        -- apply mem_not in E3.
           destruct (IH (i + 1) (misc ++ [d]) HC) as (new & A & B & C); auto; try lia.
           { intros x Hx I. apply in_app_or in I. destruct I as [I|[<-|[]]]; [|contradiction]. exact (HM x Hx I). }
           { apply NoDup_Add with (a := d) (l := misc); [|split; assumption].
             pose proof (Add_app d misc []) as X. rewrite app_nil_r in X. exact X. }
           { intros I. apply in_app_or in I. destruct I as [I|[I|[]]]; [contradiction|congruence]. }
           exists (d :: new). rewrite A. rewrite <- app_assoc in *. cbn [app] in *. split; [reflexivity|]. split; [|exact C].
           intros x. cbn [In]. rewrite B. destruct (string_dec d x) as [->|NE].
           ++ intuition.
           ++ rewrite in_app_iff. cbn [In]. intuition congruence.
Qed.

Lemma check_bad : forall c ds i misc j, nth_error ds j = Some (s_step c) -> 0 <= i -> (0 < i + Z.of_nat j) ->
  exists m, check_dims c [] i ds misc = (Throw, m).
Proof.
  induction ds as [|d ds IH]; intros i misc j Hj Hi Hp; [destruct j; discriminate|].
  cbn [check_dims mem existsb]. destruct j as [|j].
  - cbn in Hj. injection Hj as ->. rewrite String.eqb_refl. assert (i =? 0 = false) as -> by lia. cbn. eauto.
  - cbn in Hj. destruct (String.eqb d (s_step c)).
    + destruct (negb (i =? 0)); [eauto|]. apply (IH (i + 1) misc j); auto; lia.
    + destruct (mem d (s_domain c)); [apply (IH (i + 1) misc j); auto; lia|].
      destruct (mem d misc); apply (IH (i + 1) _ j); auto; lia.
Qed.

Lemma fresh_kinds_ok : forall c b ds, soln_ok c -> fresh_kinds (map (make_dim c b) ds).
Proof.
  intros c b ds HC. unfold fresh_kinds. apply Forall_forall. intros k I. apply in_map_iff in I. destruct I as (d & <- & _).
  unfold make_dim. do 5 eexists. split; [reflexivity|]. unfold dim_kind, fresh_dim. cbn [r_svl r_vvl r_domain r_step].
  destruct (so_fold c HC d) as (F1 & F2). split; [exact F1|].
  split; [destruct b; auto|]. split.
  - intros E. destruct b; [|reflexivity]. apply F2. intros I. apply andb_false_iff in E. destruct E as [E|E].
    + apply negb_false_iff in E. apply String.eqb_eq in E. subst d. exact (so_step_dom c HC I).
    + apply mem_not in E. contradiction.
  - intros E. rewrite E. reflexivity.
Qed.

Lemma ctor_ok : forall c b ds, soln_ok c -> NoDup ds ->
  exists v, ctor c b ds = Ok v /\ rv_storage v = false /\ map core (rv_dims v) = map (make_dim c b) ds /\
    vinv v /\ Forall pads_ok (rv_dims v) /\ Forall (fun d => any_neg d = false) (rv_dims v).
Proof.
  intros c b ds HC ND. unfold ctor. rewrite tuple_nodup by exact ND. rewrite Nat.ltb_irrefl.
  pose proof (fresh_kinds_ok c b ds HC) as FK.
  destruct (fresh_ok _ (s_addl c) (s_vgt1 c) FK) as (v & E & P). exists v. split; [exact E|].
  pose proof (fresh_inv _ _ _ _ FK E) as V.
  unfold fresh_var, resize in E. cbn [rv_dims rv_storage andb] in E.
  destruct (existsb any_neg (map (make_dim c b) ds)); [discriminate|]. injection E as <-. cbn [rv_storage rv_dims] in *.
  split; [reflexivity|]. split.
  - rewrite !map_map. apply map_ext. intros d. reflexivity.
  - split; [exact V|]. split; [exact P|]. rewrite !Forall_map. apply Forall_forall. intros d _. reflexivity.
Qed.

Lemma find_stencil : forall c ds,
  match find (fun sd => same_names ds (fst sd)) (s_stencil c) with
  | Some sd => In (ds, snd sd) (s_stencil c)
  | None => forall b, ~ In (ds, b) (s_stencil c)
  end.
Proof.
  intros c ds. destruct (find _ _) as [[x b]|] eqn:F.
  - apply find_some in F. destruct F as (I & E). apply same_names_eq in E. cbn in *. subst. exact I.
  - intros b I. pose proof (find_none _ _ F _ I) as X. cbn in X.
    assert (same_names ds ds = true) by (apply same_names_eq; reflexivity). congruence.
Qed.

Lemma make_ok : forall c ds, soln_ok c -> NoDup ds ->
  ((exists b, In (ds, b) (s_stencil c)) \/
   (s_allow c = true /\ Z.of_nat (length ds) <= s_max c /\ forall i, nth_error ds i = Some (s_step c) -> i = O)) ->
  exists b new, (In (ds, b) (s_stencil c) \/ b = false /\ forall b', ~ In (ds, b') (s_stencil c)) /\ make_var c ds = (ctor c b ds, s_misc c ++ new) /\
    (forall d, In d new <-> In d ds /\ d <> s_step c /\ ~ In d (s_domain c) /\ ~ In d (s_misc c)) /\ NoDup (s_misc c ++ new).
Proof.
  intros c ds HC ND H. unfold make_var. pose proof (find_stencil c ds) as F.
  destruct (find _ _) as [[x b]|].
  - exists b, []. rewrite app_nil_r. split; [left; exact F|]. split; [reflexivity|]. split; [|apply (so_misc_nodup c HC)].
    intros d. cbn. split; [tauto|]. intros (I & A & B & C).
    destruct (proj2 (so_stencil c HC _ _ F) d I) as [X|[X|X]]; contradiction.
  - destruct H as [(b & I)|(H1 & H2 & H3)]; [exfalso; exact (F b I)|]. rewrite H1.
    destruct (check_ok c ds 0 (s_misc c) HC (so_dom_misc c HC)) as (new & A & B & C);
      [intros j Hj; split; [reflexivity|auto]|lia|apply (so_misc_nodup c HC)|apply (so_step_misc c HC)|].
    rewrite A. exists false, new. assert (Z.of_nat (length ds) <=? s_max c = true) as -> by lia. auto 6.
Qed.

Lemma with_misc_ok : forall c new ds, soln_ok c -> NoDup (s_misc c ++ new) ->
  (forall d, In d new -> In d ds /\ d <> s_step c /\ ~ In d (s_domain c) /\ ~ In d (s_misc c)) ->
  soln_ok (with_misc c (s_misc c ++ new)).
Proof.
  intros c new ds [P1 P2 P3 P4 P5 P6 P7 P8] ND HN. constructor; cbn [with_misc s_step s_domain s_misc s_fold s_rank s_stencil]; auto.
  - intros I. apply in_app_or in I. destruct I as [I|I]; [contradiction|]. destruct (HN _ I) as (_ & X & _). congruence.
  - intros d Hd I. apply in_app_or in I. destruct I as [I|I]; [exact (P3 d Hd I)|]. destruct (HN _ I) as (_ & _ & X & _). contradiction.
  - intros l b I. destruct (P8 l b I) as (A & B). split; [exact A|]. intros d Hd. rewrite in_app_iff.
    destruct (B d Hd) as [X|[X|X]]; auto.
Qed.

Lemma with_vars_ok : forall c vs, soln_ok c -> soln_ok (with_vars c vs).
Proof. intros c vs []. constructor; assumption. Qed.

Lemma size_sets_map : forall c ds sizes, NoDup ds ->
  size_sets c ds sizes = map to_rop
    (match sizes with
     | Some l => flat_map (fun ids => dsets c (fst ids) (fst (snd ids)) (snd (snd ids))) (combine (seq 0 (length ds)) (combine ds l))
     | None => free_sets c ds (s_domain c)
     end).
Proof.
  intros c ds [l|] ND; unfold size_sets.
  - rewrite <- flat_map_map. apply flat_map_ext. intros a. apply dim_sets_map.
  - unfold free_sets. rewrite <- flat_map_map. rewrite tuple_nodup by exact ND. apply flat_map_ext. intros a.
    destruct (posn a ds); [apply dim_sets_map|reflexivity].
Qed.

Lemma sets_nice : forall c ds sizes, soln_ok c -> (forall l n, sizes = Some l -> In n l -> 0 <= n) ->
  Forall (fun ps => nice (snd ps))
    (match sizes with
     | Some l => flat_map (fun ids => dsets c (fst ids) (fst (snd ids)) (snd (snd ids))) (combine (seq 0 (length ds)) (combine ds l))
     | None => free_sets c ds (s_domain c)
     end).
Proof.
  intros c ds [l|] HC HS; apply Forall_forall; intros ps I; apply in_flat_map in I; destruct I as (x & I1 & I2).
  - destruct x as (j & (d & n)). cbn [fst snd] in I2. apply in_combine_r in I1. apply in_combine_r in I1.
    pose proof (dsets_nice c j d n (HS l n eq_refl I1)) as F. rewrite Forall_forall in F. auto.
  - destruct (posn x ds) as [p|]; [|destruct I2].
    pose proof (dsets_nice c p x (s_rank c x) (so_rank c HC x)) as F. rewrite Forall_forall in F. auto.
Qed.

Theorem new_var_created : forall c name ds sizes, soln_ok c -> NoDup ds -> valid c name ds sizes ->
  (forall l n, sizes = Some l -> In n l -> 0 <= n) ->
  exists v c', new_var c name ds sizes = (Ok v, c') /\ created c name ds sizes v c' /\ soln_ok c'.
Proof.
  intros c name ds sizes HC ND (V1 & V2 & V3) HS.
  destruct (make_ok c ds HC ND V3) as (b & new & M0 & M1 & M2 & M3).
  unfold new_var.
  assert (B : match sizes with Some l => negb (length ds =? length l)%nat | None => false end = false).
  { destruct sizes as [l|]; [|reflexivity]. rewrite (V2 l eq_refl), Nat.eqb_refl. reflexivity. }
  rewrite B, M1. set (c1 := with_misc c (s_misc c ++ new)).
  assert (HC1 : soln_ok c1) by (apply (with_misc_ok c new ds HC M3); intros d I; apply M2; exact I).
  destruct (ctor_ok c b ds HC ND) as (cv & C1 & C2 & C3 & C4 & C5 & C6). rewrite C1.
  assert (NM : existsb (fun v => String.eqb (u_name v) name) (s_vars c1) = false).
  { apply not_true_is_false. intros X. apply existsb_exists in X. destruct X as (v & I & X). apply String.eqb_eq in X.
    exact (V1 v I X). }
  rewrite NM. rewrite size_sets_map by exact ND.
  set (ops := match sizes with Some _ => _ | None => _ end).
  destruct (run_sets_ok ops cv) as (v' & E1 & E2 & E3 & E4 & E5); auto.
  { apply sets_nice; assumption. }
  rewrite E1. do 2 eexists. split; [reflexivity|]. split; [|apply with_vars_ok; exact HC1].
  unfold created. cbn [u_name u_dims u_user u_fixed u_core].
  assert (LEN : length (rv_dims v') = length ds).
  { rewrite <- (map_length core), E2, apply_length, C3, map_length. reflexivity. }
  split; [reflexivity|]. split; [apply tuple_nodup; exact ND|]. split; [reflexivity|].
  split; [destruct sizes; split; congruence|]. split; [exact LEN|].
  assert (ALL : forall i d, nth_error ds i = Some d -> exists k, nth_error (rv_dims v') i = Some k /\ dim_made c sizes i d k /\
            r_svl k = s_fold c d /\ r_vvl k = if b then s_fold c d else 1).
  { intros i d Hd.
  assert (Li : (i < length ds)%nat) by (apply nth_error_Some; congruence).
  destruct (nth_error (rv_dims v') i) as [k|] eqn:K; [|apply nth_error_None in K; lia].
  exists k. split; [reflexivity|].
  assert (KC : core k = edits i ops (make_dim c b d)).
  { assert (X : nth_error (map core (rv_dims v')) i = Some (core k)) by (apply map_nth_error; exact K).
    rewrite E2, apply_nth, C3 in X. rewrite (map_nth_error (make_dim c b) i ds Hd) in X. cbn in X. congruence. }
  assert (KP : pads_ok k) by (rewrite Forall_forall in E4; apply E4; apply (nth_error_In _ _ K)).
  assert (KN : any_neg k = false) by (rewrite Forall_forall in E5; apply E5; apply (nth_error_In _ _ K)).
  (* what the settings are *)
  assert (MC : exists n, made_core c d n (make_dim c b d) (core k) /\
     (forall l x, sizes = Some l -> nth_error l i = Some x -> n = Some x) /\
     (sizes <> None -> exists x, n = Some x) /\
     (sizes = None -> (In d (s_domain c) -> n = Some (s_rank c d)) /\ (~ In d (s_domain c) -> n = None))).
  { rewrite KC. unfold ops. destruct sizes as [l|].
    - assert (LL : length l = length ds) by (apply V2; reflexivity).
      destruct (nth_error l i) as [x|] eqn:X; [|apply nth_error_None in X; lia].
      exists (Some x). split.
      + pose proof (fixed_edits c1 ds l 0 i d x (make_dim c b d) Hd X) as FE. cbn [Nat.add] in FE. rewrite FE.
        apply (edits_dsets c1 i d x).
      + split; [intros l' y E; injection E as <-; congruence|]. split; [eauto|]. intros; discriminate.
    - destruct (in_dec string_dec d (s_domain c)) as [I|I].
      + exists (Some (s_rank c d)). split.
        * rewrite (free_edits_in c1 ds (s_domain c1) i d _ ND (so_dom_nodup c HC) Hd I). apply (edits_dsets c1 i d (s_rank c d)).
        * split; [intros; discriminate|]. split; [congruence|]. intros _. split; [reflexivity|contradiction].
      + exists None. split.
        * rewrite (free_edits_out c1 ds (s_domain c1) i d _ ND Hd I). unfold made_core. repeat split; discriminate.
        * split; [intros; discriminate|]. split; [congruence|]. intros _. split; [contradiction|reflexivity]. }
  destruct MC as (n & (MA & (MB & MX & MY) & MN & MO) & MS & MS' & MF).
  unfold core in MA, MB, MX, MY, MN, MO. cbn in MA, MB, MX, MY, MN, MO.
  split; [|split; [exact MX|exact MY]].
  assert (DI : r_domain k = true <-> In d (s_domain c)).
  { rewrite MB. rewrite andb_true_iff, negb_true_iff, mem_In. rewrite String.eqb_neq. split; [tauto|]. intros I. split; [|exact I].
    intros ->. exact (so_step_dom c HC I). }
  unfold dim_made. split; [rewrite MA; apply String.eqb_eq|]. split; [exact DI|].
  split; [intros l x E1' E2'; apply MN; apply (MS l x E1' E2')|].
  split.
  { intros E. destruct (MF E) as (F1 & F2). split; intros I; [apply (MN _ (F1 I))|rewrite (MO (F2 I)); reflexivity]. }
  unfold pads_ok in KP. unfold any_neg in KN. split; intros I.
  - assert (D : r_domain k = true) by (apply DI; exact I). rewrite D in KP.
    assert (exists x, n = Some x) as (x & NX).
    { destruct sizes as [l|]; [apply MS'; discriminate|]. exists (s_rank c d). apply MF; auto. }
    destruct (MN x NX) as (_ & PD). specialize (PD (proj2 (mem_In _ _) I)). lia.
  - assert (D : r_domain k = false) by (destruct (r_domain k); [exfalso; apply I, DI; reflexivity|reflexivity]).
    rewrite D in KP. apply KP. }
  split; [intros i d Hd; destruct (ALL i d Hd) as (k & K1 & K2 & _); eauto|].
  split.
  { exists b. split; [exact M0|]. intros i d k Hd Hk. destruct (ALL i d Hd) as (k' & K1 & _ & K2). assert (k' = k) by congruence. subst. exact K2. }
  split; [reflexivity|]. split; [reflexivity|]. split; [reflexivity|].
  exists new. split; [reflexivity|exact M2].
Qed.

Theorem new_var_rejected : forall c name ds sizes, soln_ok c -> NoDup ds -> ~ valid c name ds sizes ->
  exists c', new_var c name ds sizes = (Throw, c') /\ s_vars c' = s_vars c.
Proof.
  intros c name ds sizes HC ND HV. unfold new_var.
  destruct (match sizes with Some l => negb (length ds =? length l)%nat | None => false end) eqn:B; [eauto|].
  assert (V2 : forall l, sizes = Some l -> length l = length ds).
  { intros l ->. apply negb_false_iff, Nat.eqb_eq in B. auto. }
  destruct (existsb (fun v => String.eqb (u_name v) name) (s_vars c)) eqn:N.
  - (* the name is used *)
    destruct (make_var c ds) as (made, misc) eqn:M.
    assert (X : (exists core, made = Ok core) \/ made = Throw).
    { unfold make_var in M. destruct (find _ _) as [sd|].
      - injection M as <- _. destruct (ctor_ok c (snd sd) ds HC ND) as (v & -> & _). eauto.
      - destruct (s_allow c); [|injection M as <- _; auto].
        assert (CH : forall l i m, exists m', check_dims c [] i l m = (Ok tt, m') \/ check_dims c [] i l m = (Throw, m')).
        { clear. induction l as [|d l IH]; intros i m; cbn [check_dims mem existsb]; [eauto|].
          destruct (String.eqb d (s_step c)); [destruct (negb (i =? 0)); eauto|].
          destruct (mem d (s_domain c)); [eauto|]. destruct (mem d m); eauto. }
        destruct (CH ds 0 (s_misc c)) as (m' & [E|E]); rewrite E in M; injection M as <- _; [|auto].
        destruct (Z.of_nat (length ds) <=? s_max c); [|auto]. destruct (ctor_ok c false ds HC ND) as (v & -> & _). eauto. }
    destruct X as [(core & ->)| ->]; cbn [with_misc s_vars]; [rewrite N|]; eexists; split; reflexivity.
  - (* the dims are not right *)
    assert (ST : ~ ((exists b, In (ds, b) (s_stencil c)) \/
       (s_allow c = true /\ Z.of_nat (length ds) <= s_max c /\ forall i, nth_error ds i = Some (s_step c) -> i = O))).
    { intros X. apply HV. split; [|auto]. intros v I E. assert (existsb (fun v => String.eqb (u_name v) name) (s_vars c) = true); [|congruence].
      apply existsb_exists. exists v. split; [exact I|]. apply String.eqb_eq. exact E. }
    enough (exists m, make_var c ds = (Throw, m)) as (m & ->) by (eexists; split; reflexivity).
    unfold make_var. pose proof (find_stencil c ds) as F. destruct (find _ _) as [sd|]; [exfalso; apply ST; left; eauto|].
    destruct (s_allow c) eqn:A; [|eauto].
    destruct (posn (s_step c) (tl ds)) as [p|] eqn:P.
    + destruct ds as [|d ds]; [discriminate|]. cbn [tl] in P. inversion ND; subst. apply posn_ok in P; [|assumption].
      destruct (check_bad c (d :: ds) 0 (s_misc c) (S p) P) as (m & ->); [lia|lia|]. eauto.
    + assert (SF : forall i, nth_error ds i = Some (s_step c) -> i = O).
      { intros [|i] Hi; [reflexivity|]. destruct ds as [|d ds]; [discriminate|]. cbn in Hi. cbn [tl] in P. inversion ND; subst.
        apply posn_ok in Hi; [congruence|assumption]. }
      destruct (check_ok c ds 0 (s_misc c) HC (so_dom_misc c HC)) as (new & E & _);
        [intros j Hj; split; [reflexivity|auto]|lia|apply (so_misc_nodup c HC)|apply (so_step_misc c HC)|].
      rewrite E. assert (Z.of_nat (length ds) <=? s_max c = false) as ->; [|eauto].
      destruct (Z.of_nat (length ds) <=? s_max c) eqn:L; [|reflexivity]. exfalso. apply ST. right. split; [reflexivity|]. split; [lia|exact SF].
Qed.
