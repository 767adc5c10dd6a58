From Coq Require Import ZifyBool.
From Verif Require Import Base Deps_Model Deps_Spec Deps_Proofs Eqs_Model Eqs_Spec.

Lemma oz_eqb_eq : forall a b, oz_eqb a b = true <-> a = b.
Proof. intros [x|] [y|]; cbn; split; intros H; try discriminate; try reflexivity; [f_equal; lia|injection H as ->; lia]. Qed.
Lemma lz_eqb_eq : forall a b, lz_eqb a b = true <-> a = b.
Proof.
  induction a as [|x a IH]; intros [|y b]; cbn; split; intros H; try discriminate; try reflexivity.
  - apply andb_prop in H as (H1 & H2). apply IH in H2. f_equal; [lia|exact H2].
  - injection H as -> ->. rewrite Z.eqb_refl. apply IH. reflexivity.
Qed.
Lemma key_eqb_eq : forall a b, key_eqb a b = true <-> a = b.
Proof.
  intros ((v & s) & m) ((v' & s') & m'). cbn. rewrite !andb_true_iff, oz_eqb_eq, lz_eqb_eq, Z.eqb_eq. split; [intros ((-> & ->) & ->); reflexivity|intros H; injection H as -> -> ->; auto].
Qed.
Lemma pt_eqb_eq : forall a b, pt_eqb a b = true <-> a = b.
Proof.
  intros [v s d m] [v' s' d' m']. unfold pt_eqb. cbn. rewrite !andb_true_iff, oz_eqb_eq, !lz_eqb_eq, Z.eqb_eq. split; [intros (((-> & ->) & ->) & ->); reflexivity|intros H; injection H as -> -> -> ->; auto].
Qed.

Section S.
  Variable scr : Z -> bool.
  Local Notation key_of := (key_of scr).

  Lemma key_same : forall r w, key_of r = key_of w <-> same_value scr r w.
  Proof.
    intros [v s d m] [v' s' d' m']. unfold Eqs_Model.key_of, same_value. cbn. destruct (scr v) eqn:E, (scr v') eqn:E'; split.
    - intros H; injection H as -> ->. repeat split. congruence.
    - intros (-> & -> & _). reflexivity.
    - intros H; injection H as -> -> H. congruence.
    - intros (-> & _). congruence.
    - intros H; injection H as -> -> H. congruence.
    - intros (-> & _). congruence.
    - intros H; injection H as -> -> ->. auto.
    - intros (-> & -> & H). rewrite (H eq_refl). reflexivity.
  Qed.

  Definition kat (keys : list lkey) (i : Z) (k : lkey) : Prop := 0 <= i /\ nth_error keys (Z.to_nat i) = Some k.
  Lemma kat_inj : forall keys i j k, NoDup keys -> kat keys i k -> kat keys j k -> i = j.
  Proof.
    intros keys i j k N (Hi & Ei) (Hj & Ej). assert (Z.to_nat i = Z.to_nat j); [|lia]. eapply NoDup_nth_error; [exact N|apply nth_error_Some; congruence|congruence].
  Qed.
  Lemma kat_app : forall keys l i k, kat keys i k -> kat (keys ++ l) i k.
  Proof. intros keys l i k (H & E). split; [exact H|]. rewrite nth_error_app1; [exact E|]. apply nth_error_Some. congruence. Qed.
  Lemma find_key_spec : forall k l i0, match find_key k l i0 with
    | Some i => i0 <= i /\ nth_error l (Z.to_nat (i - i0)) = Some k
    | None => ~ In k l end.
  Proof.
    intros k. induction l as [|k' l IH]; intros i0; cbn [find_key]; [intros []|].
    destruct (key_eqb k k') eqn:E.
    - apply key_eqb_eq in E. subst. split; [lia|]. rewrite Z.sub_diag. reflexivity.
    - assert (NE : k <> k') by (intros ->; rewrite (proj2 (key_eqb_eq k' k') eq_refl) in E; discriminate).
      specialize (IH (i0 + 1)). destruct (find_key k l (i0 + 1)) as [i|].
      + destruct IH as (H1 & H2). split; [lia|]. replace (Z.to_nat (i - i0)) with (S (Z.to_nat (i - (i0 + 1)))) by lia. exact H2.
      + intros [H|H]; [congruence|contradiction].
  Qed.
  Lemma find_key_kat : forall keys k i, NoDup keys -> kat keys i k -> find_key k keys 0 = Some i.
  Proof.
    intros keys k i N K. pose proof (find_key_spec k keys 0) as S. destruct (find_key k keys 0) as [j|].
    - destruct S as (S1 & S2). rewrite Z.sub_0_r in S2. f_equal. eapply kat_inj; [exact N| |exact K]. split; [lia|exact S2].
    - exfalso. apply S. destruct K as (_ & K). eapply nth_error_In. exact K.
  Qed.

  Definition erel (kes : list (lkey * lkey)) (a b : lkey) : Prop := In (a, b) kes.
  Record linv (s : lvars) (kes : list (lkey * lkey)) : Prop := {
    li_nd : NoDup (lv_keys s);
    li_g : gwf (lv_grp s);
    li_ks : forall a b, In (a, b) kes -> In a (lv_keys s) /\ In b (lv_keys s);
    li_ed : forall i j, edge (g_deps (lv_grp s)) i j <-> exists a b, kat (lv_keys s) i a /\ kat (lv_keys s) j b /\ In (a, b) kes
  }.
  Lemma in_kat : forall keys k, In k keys -> exists i, kat keys i k.
  Proof. intros keys k H. apply In_nth_error in H as (n & E). exists (Z.of_nat n). split; [lia|]. rewrite Nat2Z.id. exact E. Qed.

  Lemma cyc_keys : forall s kes, linv s kes -> (cyclic (edge (g_deps (lv_grp s))) <-> cyclic (erel kes)).
  Proof.
    intros s kes [N G K E].
    assert (P1 : forall i j, path (edge (g_deps (lv_grp s))) i j -> exists a b, kat (lv_keys s) i a /\ kat (lv_keys s) j b /\ path (erel kes) a b).
    { intros i j P. induction P as [i j H|i j l H P IH].
      - apply E in H as (a & b & Ha & Hb & Hab). exists a, b. repeat split; try apply Ha; try apply Hb. apply path_one. exact Hab.
      - apply E in H as (a & b & Ha & Hb & Hab). destruct IH as (b' & c & Hb' & Hc & P'). exists a, c. assert (b' = b) by (destruct Hb, Hb'; congruence). subst.
        repeat split; try apply Ha; try apply Hc. eapply path_step; [exact Hab|exact P']. }
    assert (P2 : forall a b, path (erel kes) a b -> forall i j, kat (lv_keys s) i a -> kat (lv_keys s) j b -> path (edge (g_deps (lv_grp s))) i j).
    { intros a b P. induction P as [a b H|a b c H P IH]; intros i j Hi Hj.
      - apply path_one. apply E. exists a, b. auto.
      - destruct (in_kat _ _ (proj2 (K _ _ H))) as (m & Hm). eapply path_step; [apply E; exists a, b; eauto|apply IH; assumption]. }
    split.
    - intros (i & P). destruct (P1 i i P) as (a & b & Ha & Hb & P'). assert (a = b) by (destruct Ha, Hb; congruence). subst. exists b. exact P'.
    - intros (a & P). assert (Ia : In a (lv_keys s)) by (inversion P as [x y H|x y z H _]; subst; exact (proj1 (K _ _ H))). destruct (in_kat _ _ Ia) as (i & Hi). exists i. eapply P2; eassumption.
  Qed.
  Lemma path_keys : forall s kes i j a b, linv s kes -> kat (lv_keys s) i a -> kat (lv_keys s) j b ->
    (path (edge (g_deps (lv_grp s))) i j <-> path (erel kes) a b).
  Proof.
    intros s kes i j a b [N G K E] Hi Hj. split.
    - intros P. revert a Hi. induction P as [i j H|i j l H P IH]; intros a Hi.
      + apply E in H as (a' & b' & Ha & Hb & Hab). destruct Hi, Hj, Ha, Hb. apply path_one. unfold erel. congruence.
      + apply E in H as (a' & b' & Ha & Hb & Hab). eapply path_step; [|apply IH; [exact Hj|exact Hb]]. destruct Hi, Ha. unfold erel. congruence.
    - intros P. revert i Hi. induction P as [a b H|a b c H P IH]; intros i Hi.
      + apply path_one. apply E. exists a, b. auto.
      + destruct (in_kat _ _ (proj2 (K _ _ H))) as (m & Hm). eapply path_step; [apply E; exists a, b; eauto|apply IH; assumption].
  Qed.
  Lemma cyc_sub : forall kes kes', incl kes kes' -> cyclic (erel kes) -> cyclic (erel kes').
  Proof. intros kes kes' H (a & P). exists a. eapply path_mono; [|exact P]. intros x y. apply H. Qed.

  Lemma add_slice_ok : forall p s kes, linv s kes -> let r := add_slice scr p s in
    linv (snd r) kes /\ kat (lv_keys (snd r)) (fst r) (key_of p) /\ (forall i k, kat (lv_keys s) i k -> kat (lv_keys (snd r)) i k).
  Proof.
    intros p s kes [N G K E]. unfold add_slice. pose proof (find_key_spec (key_of p) (lv_keys s) 0) as F.
    destruct (find_key (key_of p) (lv_keys s) 0) as [i|]; cbn [fst snd].
    - destruct F as (F1 & F2). rewrite Z.sub_0_r in F2. split; [constructor; assumption|]. split; [split; assumption|auto].
    - cbn [lv_keys lv_grp]. split; [|split].
      + constructor; cbn.
        * rewrite <- Permutation_cons_append. constructor; assumption.
        * apply gwf_add. exact G.
        * intros a b H. destruct (K a b H). rewrite !in_app_iff. tauto.
        * intros i j. rewrite E. split; intros (a & b & Ha & Hb & H); exists a, b; (split; [|split; [|exact H]]).
          -- apply kat_app. exact Ha.
          -- apply kat_app. exact Hb.
          -- destruct (K a b H) as (Ia & _). destruct (in_kat _ _ Ia) as (i' & Hi'). assert (i = i'); [|subst; exact Hi']. eapply kat_inj; [|exact Ha|apply kat_app; exact Hi']. rewrite <- Permutation_cons_append. constructor; assumption.
          -- destruct (K a b H) as (_ & Ib). destruct (in_kat _ _ Ib) as (i' & Hi'). assert (j = i'); [|subst; exact Hi']. eapply kat_inj; [|exact Hb|apply kat_app; exact Hi']. rewrite <- Permutation_cons_append. constructor; assumption.
      + split; [lia|]. rewrite Nat2Z.id, nth_error_app2, Nat.sub_diag by lia. reflexivity.
      + intros i k. apply kat_app.
  Qed.

  Definition ekes (e : eqn) : list (lkey * lkey) := map (fun r => (key_of (e_lhs e), key_of r)) (e_rhs e).

  Lemma rhs_ok : forall o k rs s kes, linv s kes -> kat (lv_keys s) o k ->
    match rfold (fun s ip => let '(i, s') := add_slice scr ip s in
             rbind (g_set_imm (lv_scratch scr (lv_keys s')) o i (lv_grp s')) (fun g => Ok (mkLvars (lv_keys s') g))) rs s with
    | Ok s' => linv s' (kes ++ map (fun r => (k, key_of r)) rs) /\ (forall i x, kat (lv_keys s) i x -> kat (lv_keys s') i x)
    | Throw => cyclic (erel (kes ++ map (fun r => (k, key_of r)) rs))
    | _ => False
    end.
  Proof.
    intros o k. induction rs as [|r rs IH]; intros s kes L Ko; cbn [rfold map]; [rewrite app_nil_r; auto|].
    destruct (add_slice_ok r s kes L) as (L1 & Ki & M). destruct (add_slice scr r s) as (i & s1). cbn [fst snd] in *.
    destruct (g_set_imm (lv_scratch scr (lv_keys s1)) o i (lv_grp s1)) as [g| | |] eqn:Eg; cbn [rbind]; try (unfold g_set_imm in Eg; destruct (o =? i) eqn:Eo; discriminate Eg).
    - assert (L2 : linv (mkLvars (lv_keys s1) g) (kes ++ [(k, key_of r)])).
      { destruct L1 as [N1 G1 K1 E1]. destruct (gwf_set _ _ _ _ _ G1 Eg) as (G2 & _ & E2 & _). constructor; cbn; try assumption.
        - intros a b H. apply in_app_iff in H as [H|[H|[]]]; [auto|]. injection H as <- <-. apply M in Ko. split; [destruct Ko as (_ & Ko); eapply nth_error_In; exact Ko|destruct Ki as (_ & Ki); eapply nth_error_In; exact Ki].
        - intros x y. rewrite E2, E1. split.
          + intros [(-> & ->)|(a & b & H)]; [exists k, (key_of r); split; [apply M; exact Ko|split; [exact Ki|apply in_app_iff; right; left; reflexivity]]|exists a, b; rewrite in_app_iff; tauto].
          + intros (a & b & Ha & Hb & H). apply in_app_iff in H as [H|[H|[]]]; [right; exists a, b; auto|]. injection H as <- <-. left. split; [eapply kat_inj; [exact N1|exact Ha|apply M; exact Ko]|eapply kat_inj; [exact N1|exact Hb|exact Ki]]. }
      specialize (IH (mkLvars (lv_keys s1) g) _ L2 (M _ _ Ko)). rewrite <- app_assoc in IH. cbn [app] in IH.
      destruct (rfold _ rs _) as [s'| | |]; try assumption. destruct IH as (A & B). split; [exact A|]. intros j x Hj. apply B. apply M. exact Hj.
    - unfold g_set_imm in Eg. destruct (o =? i) eqn:Eo; [|discriminate]. assert (o = i) by lia. subst i.
      assert (k = key_of r) by (apply M in Ko; destruct Ko, Ki; congruence). exists k. apply path_one. unfold erel. apply in_app_iff. right. left. f_equal. auto.
  Qed.

  Lemma eq_lvars_ok : forall s kes e, linv s kes ->
    match eq_lvars scr s e with
    | Ok s' => linv s' (kes ++ ekes e) /\ In (key_of (e_lhs e)) (lv_keys s') /\ incl (lv_keys s) (lv_keys s') /\ d_done (g_deps (lv_grp s')) = true /\ ~ cyclic (erel (kes ++ ekes e))
    | Throw => cyclic (erel (kes ++ ekes e))
    | _ => False
    end.
  Proof.
    intros s kes e L. unfold eq_lvars, ekes. destruct (add_slice_ok (e_lhs e) s kes L) as (L1 & Ko & M). destruct (add_slice scr (e_lhs e) s) as (o & s1). cbn [fst snd] in *.
    pose proof (rhs_ok o _ (e_rhs e) s1 kes L1 Ko) as R. destruct (rfold _ (e_rhs e) s1) as [s2| | |]; cbn [rbind]; try assumption.
    destruct R as (L2 & M2). pose proof (g_find_all_spec _ (li_g _ _ L2)) as F. pose proof (cyc_keys _ _ L2) as C.
    destruct (g_find_all (lv_grp s2)) as [g| | |]; cbn [rbind]; try tauto.
    destruct F as (W & NC & Al & Ed & Es & Dn & _). split; [|split; [|split; [|split]]].
    - destruct L2 as [N2 G2 K2 E2]. constructor; cbn; try assumption. intros i j. rewrite Ed. apply E2.
    - cbn. specialize (M2 _ _ Ko). destruct M2 as (_ & M2). eapply nth_error_In. exact M2.
    - cbn. intros k Hk. destruct (in_kat _ _ Hk) as (i & Hi). apply M, M2 in Hi. destruct Hi as (_ & Hi). eapply nth_error_In. exact Hi.
    - exact Dn.
    - rewrite <- C. exact NC.
  Qed.

  Definition dir_ok (dir d : Z) : Prop := d = 0 \/ d = dir.
  Definition legal (dir : Z) (e : eqn) : Prop :=
    legal_lhs scr dir e /\ (scr (p_var (e_lhs e)) = false -> dir = 1 -> forall r s, In r (e_rhs e) -> p_step r = Some s -> s <= 1).
  Lemma check_ok : forall dir d e, dir = 1 \/ dir = -1 -> dir_ok dir d -> legal dir e -> exists d', check_eq scr d e = Ok d' /\ dir_ok dir d'.
  Proof.
    intros dir d e Hdir Hd ((L1 & L2) & L3). unfold check_eq.
    assert (F : forallb (Z.eqb 0) (p_dom (e_lhs e)) = true) by (apply forallb_forall; intros x Hx; rewrite Forall_forall in L1; specialize (L1 x Hx); lia).
    rewrite F. cbn [negb]. destruct (scr (p_var (e_lhs e))); rewrite L2; [exists d; auto|].
    replace (Z.abs dir =? 1) with true by (symmetry; lia). cbn [negb].
    assert (D : (if (d =? 0) && negb (dir =? 0) then if 0 <? dir then 1 else -1 else d) = dir).
    { destruct Hd as [->| ->]; cbn; destruct Hdir as [-> | ->]; reflexivity. }
    rewrite D, Z.eqb_refl. cbn [negb].
    match goal with |- context [existsb ?f ?l] => destruct (existsb f l) eqn:X end.
    - apply existsb_exists in X as (r & Hr & X). destruct (p_step r) as [s|] eqn:Es; [|discriminate]. exfalso.
      destruct Hdir as [-> | ->]; cbn in X; [|lia]. specialize (L3 eq_refl eq_refl r s Hr Es). lia.
    - exists dir. split; [reflexivity|right; reflexivity].
  Qed.

  Definition all_kes (eqs : list eqn) : list (lkey * lkey) := flat_map ekes eqs.
  Lemma linv0 : linv (mkLvars [] (mkGroup [] deps0 deps0)) [].
  Proof. constructor; cbn; [constructor|apply gwf0|intros a b []|]. intros i j. unfold edge. cbn. split; [intros []|intros (a & b & _ & _ & [])]. Qed.
  Lemma pass1_ok : forall dir eqs d, dir = 1 \/ dir = -1 -> dir_ok dir d -> Forall (legal dir) eqs ->
    match pass1 scr d eqs with
    | Ok (d', s) => dir_ok dir d' /\ linv s (all_kes eqs) /\ (forall e, In e eqs -> In (key_of (e_lhs e)) (lv_keys s)) /\ (eqs <> [] -> d_done (g_deps (lv_grp s)) = true) /\ ~ cyclic (erel (all_kes eqs))
    | Throw => cyclic (erel (all_kes eqs))
    | _ => False
    end.
  Proof.
    intros dir eqs d Hdir Hd Hl. unfold pass1. set (body := fun st e => _).
    assert (G : forall eqs d s kes, dir_ok dir d -> Forall (legal dir) eqs -> linv s kes -> ~ cyclic (erel kes) ->
      match rfold body eqs (d, s) with
      | Ok (d', s') => dir_ok dir d' /\ linv s' (kes ++ all_kes eqs) /\ incl (lv_keys s) (lv_keys s') /\ (forall e, In e eqs -> In (key_of (e_lhs e)) (lv_keys s')) /\ (d_done (g_deps (lv_grp s)) = true \/ eqs <> [] -> d_done (g_deps (lv_grp s')) = true) /\ ~ cyclic (erel (kes ++ all_kes eqs))
      | Throw => cyclic (erel (kes ++ all_kes eqs))
      | _ => False
      end).
    { clear eqs d Hd Hl. induction eqs as [|e eqs IH]; intros d s kes Hd Hl L NC; cbn [rfold all_kes flat_map].
      - rewrite app_nil_r. split; [exact Hd|]. split; [exact L|]. split; [intros x H; exact H|]. split; [intros e []|]. split; [tauto|exact NC].
      - inversion Hl as [|? ? He Hr]; subst. unfold body at 1. cbn [fst snd]. destruct (check_ok dir d e Hdir Hd He) as (d1 & E1 & Hd1). rewrite E1. cbn [rbind].
        pose proof (eq_lvars_ok s kes e L) as Q. destruct (eq_lvars scr s e) as [s1| | |]; cbn [rbind]; try contradiction.
        + destruct Q as (L1 & I1 & M1 & D1 & N1). specialize (IH d1 s1 _ Hd1 Hr L1 N1). rewrite <- app_assoc in IH. fold (all_kes eqs).
          destruct (rfold body eqs (d1, s1)) as [(d' & s')| | |]; try assumption. destruct IH as (A & B & C & D & E & F).
          split; [exact A|]. split; [exact B|]. split; [intros x Hx; auto|]. split; [intros e' [<-|He']; auto|]. split; [|exact F].
          intros _. apply E. left. exact D1.
        + eapply cyc_sub; [|exact Q]. intros x Hx. rewrite !in_app_iff in *. tauto. }
    specialize (G eqs d _ [] Hd Hl linv0). cbn [app] in G.
    assert (NC : ~ cyclic (erel [])) by (intros (a & P); inversion P; contradiction).
    specialize (G NC). destruct (rfold body eqs _) as [(d' & s')| | |]; try assumption. destruct G as (A & B & C & D & E & F). auto 10.
  Qed.

  (* keys and equations *)
  Definition eqn_at (eqs : list eqn) (i : Z) (e : eqn) : Prop := 0 <= i /\ nth_error eqs (Z.to_nat i) = Some e.
  Lemma in_kes : forall eqs a b, In (a, b) (all_kes eqs) <-> exists i e r, eqn_at eqs i e /\ In r (e_rhs e) /\ key_of (e_lhs e) = a /\ key_of r = b.
  Proof.
    intros eqs a b. unfold all_kes. rewrite in_flat_map. split.
    - intros (e & He & H). unfold ekes in H. apply in_map_iff in H as (r & H & Hr). injection H as <- <-. apply In_nth_error in He as (n & En).
      exists (Z.of_nat n), e, r. split; [split; [lia|rewrite Nat2Z.id; exact En]|auto].
    - intros (i & e & r & (_ & E) & Hr & <- & <-). exists e. split; [eapply nth_error_In; exact E|]. unfold ekes. apply in_map_iff. exists r. auto.
  Qed.
  Lemma needs_at : forall eqs i j, needs scr eqs i j <-> exists e e' r, eqn_at eqs i e /\ eqn_at eqs j e' /\ In r (e_rhs e) /\ key_of r = key_of (e_lhs e').
  Proof.
    intros eqs i j. unfold needs, eqn_at. split.
    - intros (e & e' & r & A & B & C & D & R & S). exists e, e', r. apply key_same in S. auto 10.
    - intros (e & e' & r & (A & B) & (C & D) & R & S). exists e, e', r. apply key_same in S. auto 10.
  Qed.
  Lemma needs_kes : forall eqs i j, path (needs scr eqs) i j -> exists e e', eqn_at eqs i e /\ eqn_at eqs j e' /\ path (erel (all_kes eqs)) (key_of (e_lhs e)) (key_of (e_lhs e')).
  Proof.
    intros eqs i j P. induction P as [i j H|i j l H P IH].
    - apply needs_at in H as (e & e' & r & A & B & R & K). exists e, e'. split; [exact A|]. split; [exact B|]. apply path_one. apply in_kes. exists i, e, r. auto.
    - apply needs_at in H as (e & e' & r & A & B & R & K). destruct IH as (e2 & e3 & B' & C & P'). assert (e2 = e') by (destruct B, B'; congruence). subst.
      exists e, e3. split; [exact A|]. split; [exact C|]. eapply path_step; [|exact P']. apply in_kes. exists i, e, r. auto.
  Qed.
  Lemma kes_needs : forall eqs a b, path (erel (all_kes eqs)) a b -> forall j e', eqn_at eqs j e' -> key_of (e_lhs e') = b ->
    exists i e, eqn_at eqs i e /\ key_of (e_lhs e) = a /\ path (needs scr eqs) i j.
  Proof.
    intros eqs a b P. induction P as [a b H|a b c H P IH]; intros j e' Hj Ej.
    - apply in_kes in H as (i & e & r & Hi & Hr & K1 & K2). exists i, e. split; [exact Hi|]. split; [exact K1|]. apply path_one. apply needs_at. exists e, e', r. split; [exact Hi|]. split; [exact Hj|]. split; [exact Hr|congruence].
    - destruct (IH j e' Hj Ej) as (m & em & Hm & Km & Pm). apply in_kes in H as (i & e & r & Hi & Hr & K1 & K2). exists i, e. split; [exact Hi|]. split; [exact K1|]. eapply path_step; [|exact Pm]. apply needs_at. exists e, em, r. split; [exact Hi|]. split; [exact Hm|]. split; [exact Hr|congruence].
  Qed.
  Lemma needs_retarget : forall eqs i j j' e e', path (needs scr eqs) i j -> eqn_at eqs j e -> eqn_at eqs j' e' -> key_of (e_lhs e) = key_of (e_lhs e') -> path (needs scr eqs) i j'.
  Proof.
    intros eqs i j j' e e' P. revert e e'. induction P as [i j H|i j l H P IH]; intros e e' Hj Hj' K.
    - apply path_one. apply needs_at in H as (x & y & r & A & B & R & K2). apply needs_at. exists x, e', r. split; [exact A|]. split; [exact Hj'|]. split; [exact R|]. assert (y = e) by (destruct B, Hj; congruence). subst. congruence.
    - eapply path_step; [exact H|]. eapply IH; eassumption.
  Qed.
  Lemma cyc_needs : forall eqs, cyclic (erel (all_kes eqs)) <-> cyclic (needs scr eqs).
  Proof.
    intros eqs. split.
    - intros (k & P). assert (X : exists j e', eqn_at eqs j e' /\ key_of (e_lhs e') = k).
      { inversion P as [x y H|x y z H _]; subst; apply in_kes in H as (i & e & r & Hi & _ & K & _); exists i, e; auto. }
      destruct X as (j & e' & Hj & Ej). destruct (kes_needs eqs k k P j e' Hj Ej) as (i & e & Hi & Ki & Pn). exists i. eapply needs_retarget; [exact Pn|exact Hj|exact Hi|congruence].
    - intros (i & P). destruct (needs_kes eqs i i P) as (e & e' & A & B & P'). assert (e = e') by (destruct A, B; congruence). subst. exists (key_of (e_lhs e')). exact P'.
  Qed.

  (* pass 2 *)
  Definition klt (eqs : list eqn) (i j : Z) : Prop := exists e e', eqn_at eqs i e /\ eqn_at eqs j e' /\ path (erel (all_kes eqs)) (key_of (e_lhs e)) (key_of (e_lhs e')).
  Lemma klt_trans : forall eqs i j k, klt eqs i j -> klt eqs j k -> klt eqs i k.
  Proof. intros eqs i j k (a & b & A & B & P) (b' & c & B' & C & Q). assert (b' = b) by (destruct B, B'; congruence). subst. exists a, c. split; [exact A|]. split; [exact C|]. eapply path_app; eassumption. Qed.
  Lemma klt_irr : forall eqs i, ~ cyclic (erel (all_kes eqs)) -> ~ klt eqs i i.
  Proof. intros eqs i N (a & b & A & B & P). assert (a = b) by (destruct A, B; congruence). subst. apply N. exists (key_of (e_lhs b)). exact P. Qed.
  Lemma in_ies : forall eqs i e, In (i, e) (combine (zseq (Z.of_nat (length eqs))) eqs) <-> eqn_at eqs i e.
  Proof.
    intros eqs i e. unfold eqn_at.
    assert (L : length (zseq (Z.of_nat (length eqs))) = length eqs) by (rewrite zseq_length; lia).
    split.
    - intros H. apply In_nth_error in H as (n & E). assert (n < length eqs)%nat.
      { assert (n < length (combine (zseq (Z.of_nat (length eqs))) eqs))%nat by (apply nth_error_Some; congruence). rewrite combine_length in H. lia. }
      assert (X : nth n (combine (zseq (Z.of_nat (length eqs))) eqs) (0, e) = (i, e)) by (apply nth_error_nth; exact E).
      rewrite combine_nth in X by exact L. injection X as X1 X2. unfold zseq in X1. rewrite (nth_indep _ 0 (Z.of_nat 0)) in X1 by (rewrite map_length, seq_length; lia).
      rewrite map_nth, seq_nth in X1 by lia. cbn in X1. subst i. split; [lia|]. rewrite Nat2Z.id. rewrite <- X2. apply nth_error_nth'. exact H.
    - intros (H & E). assert (Z.to_nat i < length eqs)%nat by (apply nth_error_Some; congruence).
      assert (X : nth (Z.to_nat i) (combine (zseq (Z.of_nat (length eqs))) eqs) (0, e) = (i, e)).
      { rewrite combine_nth by exact L. f_equal; [|apply nth_error_nth; exact E]. unfold zseq. rewrite (nth_indep _ 0 (Z.of_nat 0)) by (rewrite map_length, seq_length; lia). rewrite map_nth, seq_nth by lia. lia. }
      rewrite <- X. apply nth_In. rewrite combine_length. lia.
  Qed.

  Lemma pair_ok : forall e1 e2, (e_lhs e1 = e_lhs e2 -> ~ (e_dcond e1 = e_dcond e2 /\ e_scond e1 = e_scond e2) /\ ~ (e_dcond e1 = None /\ e_scond e1 = None) /\ ~ (e_dcond e2 = None /\ e_scond e2 = None)) ->
    pair_check e1 e2 = true.
  Proof.
    intros e1 e2 H. unfold pair_check. destruct (pt_eqb (e_lhs e1) (e_lhs e2)) eqn:E; [|reflexivity]. apply pt_eqb_eq in E. destruct (H E) as (A & B & _).
    destruct (oz_eqb (e_dcond e1) (e_dcond e2)) eqn:E1, (oz_eqb (e_scond e1) (e_scond e2)) eqn:E2; try (apply oz_eqb_eq in E1; apply oz_eqb_eq in E2; exfalso; apply A; auto);
      cbn; destruct (e_dcond e1), (e_scond e1); cbn; try reflexivity; exfalso; apply B; auto.
  Qed.

  Record lvok (eqs : list eqn) (lv : lvars) : Prop := {
    lo_nd : NoDup (lv_keys lv);
    lo_in : forall e, In e eqs -> In (key_of (e_lhs e)) (lv_keys lv);
    lo_done : d_done (g_deps (lv_grp lv)) = true;
    lo_dep : forall i j a b, kat (lv_keys lv) i a -> kat (lv_keys lv) j b -> (is_dep_on (g_deps (lv_grp lv)) i j = Ok true <-> path (erel (all_kes eqs)) a b)
  }.
  Record einv (eqs : list eqn) (done : Z -> Z -> Prop) (g : group) : Prop := {
    ei_g : gwf g;
    ei_all : g_all g = zseq (Z.of_nat (length eqs));
    ei_ed : forall i j, edge (g_deps g) i j <-> done i j /\ klt eqs i j }.

  Lemma einv_ext : forall eqs d d' g, (forall i j, klt eqs i j -> (d i j <-> d' i j)) -> einv eqs d g -> einv eqs d' g.
  Proof. intros eqs d d' g H [A B C]. constructor; auto. intros i j. rewrite C. split; intros (X & Y); (split; [apply (H i j Y); exact X|exact Y]). Qed.
  Lemma add_item_in : forall x l, In x l -> add_item x l = l.
  Proof. intros x l H. unfold add_item. apply mem_In in H. rewrite H. reflexivity. Qed.
  Lemma eqn_lt : forall eqs i e, eqn_at eqs i e -> In i (zseq (Z.of_nat (length eqs))).
  Proof. intros eqs i e (A & B). apply zseq_In. assert (Z.to_nat i < length eqs)%nat by (apply nth_error_Some; congruence). lia. Qed.

  Lemma do_pair_ok : forall eqs lv scrs i1 e1 i2 e2 done g, distinct_lhs eqs -> ~ cyclic (erel (all_kes eqs)) -> lvok eqs lv ->
    eqn_at eqs i1 e1 -> eqn_at eqs i2 e2 -> einv eqs done g ->
    exists g', do_pair scr true lv i1 e1 g (i2, e2) scrs = Ok g' /\ einv eqs (fun i j => done i j \/ (i = i2 /\ j = i1)) g'.
  Proof.
    intros eqs lv scrs i1 e1 i2 e2 done g D NC LV H1 H2 EI. unfold do_pair. destruct (Z.eqb_spec i1 i2) as [<-|NE].
    - exists g. split; [reflexivity|]. eapply einv_ext; [|exact EI]. intros i j K. split; [tauto|]. intros [X|(-> & ->)]; [exact X|]. exfalso. eapply klt_irr; eassumption.
    - rewrite pair_ok. 2:{ intros E. destruct H1 as (P1 & N1), H2 as (P2 & N2). apply (D _ _ _ _ N1 N2); [lia|exact E]. }
      cbn [negb]. destruct (in_kat _ _ (lo_in _ _ LV e1 (nth_error_In _ _ (proj2 H1)))) as (o1 & K1). destruct (in_kat _ _ (lo_in _ _ LV e2 (nth_error_In _ _ (proj2 H2)))) as (o2 & K2).
      rewrite (find_key_kat _ _ _ (lo_nd _ _ LV) K1), (find_key_kat _ _ _ (lo_nd _ _ LV) K2).
      pose proof (lo_dep _ _ LV o2 o1 _ _ K2 K1) as DP. assert (X : exists b, is_dep_on (g_deps (lv_grp lv)) o2 o1 = Ok b) by (unfold is_dep_on; rewrite (lo_done _ _ LV); eauto).
      destruct X as (b & X). rewrite X in *. cbn [rbind]. destruct b.
      + assert (KL : klt eqs i2 i1) by (exists e2, e1; split; [exact H2|split; [exact H1|apply DP; reflexivity]]).
        assert (E : exists g', g_set_imm scrs i2 i1 g = Ok g' /\ g_all g' = zseq (Z.of_nat (length eqs))).
        { unfold g_set_imm. replace (i2 =? i1) with false by (symmetry; lia). eexists. split; [reflexivity|]. cbn. rewrite (ei_all _ _ _ EI).
          rewrite (add_item_in i2) by (eapply eqn_lt; exact H2). apply add_item_in. eapply eqn_lt; exact H1. }
        destruct E as (g' & E & A'). exists g'. split; [exact E|]. destruct (gwf_set _ _ _ _ _ (ei_g _ _ _ EI) E) as (W & _ & Ed & _).
        constructor; [exact W|exact A'|]. intros i j. rewrite Ed, (ei_ed _ _ _ EI). split; [intros [(-> & ->)|(X1 & X2)]; tauto|tauto].
      + exists g. split; [reflexivity|]. eapply einv_ext; [|exact EI]. intros i j K. split; [tauto|]. intros [Y|(-> & ->)]; [exact Y|]. exfalso.
        destruct K as (x & y & Hx & Hy & P). assert (x = e2) by (destruct Hx, H2; congruence). assert (y = e1) by (destruct Hy, H1; congruence). subst. apply DP in P. discriminate.
  Qed.
  Lemma pairs_ok : forall eqs lv scrs i1 e1, distinct_lhs eqs -> ~ cyclic (erel (all_kes eqs)) -> lvok eqs lv -> eqn_at eqs i1 e1 ->
    forall l done g, (forall i e, In (i, e) l -> eqn_at eqs i e) -> einv eqs done g ->
    exists g', rfold (fun g ie2 => do_pair scr true lv i1 e1 g ie2 scrs) l g = Ok g' /\ einv eqs (fun i j => done i j \/ (In i (map fst l) /\ j = i1)) g'.
  Proof.
    intros eqs lv scrs i1 e1 D NC LV H1. induction l as [|(i2 & e2) l IH]; intros done g Hl EI; cbn [rfold map].
    - exists g. split; [reflexivity|]. eapply einv_ext; [|exact EI]. cbn. tauto.
    - destruct (do_pair_ok eqs lv scrs i1 e1 i2 e2 done g D NC LV H1 (Hl _ _ (or_introl eq_refl)) EI) as (g1 & E1 & EI1). rewrite E1. cbn [rbind].
      destruct (IH _ g1 (fun i e H => Hl i e (or_intror H)) EI1) as (g' & E' & EI'). exists g'. split; [exact E'|]. eapply einv_ext; [|exact EI']. cbn. intros i j _. intuition congruence.
  Qed.
  Lemma einv_nc : forall eqs done g, ~ cyclic (erel (all_kes eqs)) -> einv eqs done g -> ~ cyclic (edge (g_deps g)).
  Proof.
    intros eqs done g NC EI (a & P). assert (K : klt eqs a a); [|eapply klt_irr; eassumption].
    clear NC. revert P. generalize a at 2 4. intros b P. induction P as [x y H|x y z H P IH]; [apply (ei_ed _ _ _ EI) in H; tauto|]. apply (ei_ed _ _ _ EI) in H. eapply klt_trans; [apply H|exact IH].
  Qed.
  Lemma pass2_ok : forall eqs lv, distinct_lhs eqs -> ~ cyclic (erel (all_kes eqs)) -> (eqs <> [] -> lvok eqs lv) ->
    exists g, pass2 scr true lv eqs = Ok g /\ einv eqs (fun i j => True) g /\ (eqs <> [] -> d_done (g_deps g) = true).
  Proof.
    intros eqs lv D NC LV. unfold pass2. set (ies := combine _ eqs). set (scrs := fun i : Z => match nth_error eqs (Z.to_nat i) with Some e => scr (p_var (e_lhs e)) | None => false end).
    assert (FI : map fst ies = zseq (Z.of_nat (length eqs))).
    { unfold ies. assert (G : forall {A B} (l : list A) (m : list B), length l = length m -> map fst (combine l m) = l) by (induction l as [|x l IH]; intros [|y m] H; cbn in *; try discriminate; [reflexivity|f_equal; apply IH; lia]). apply G. rewrite zseq_length. lia. }
    assert (G : forall l done g, (forall i e, In (i, e) l -> eqn_at eqs i e) -> einv eqs done g ->
      exists g', rfold (fun g ie1 => rbind (rfold (fun g ie2 => do_pair scr true lv (fst ie1) (snd ie1) g ie2 scrs) ies g) (fun g => g_find_all g)) l g = Ok g' /\
        einv eqs (fun i j => done i j \/ In j (map fst l)) g' /\ (d_done (g_deps g) = true \/ l <> [] -> d_done (g_deps g') = true)).
    { induction l as [|(i1 & e1) l IH]; intros done g Hl EI; cbn [rfold map].
      - exists g. split; [reflexivity|]. split; [eapply einv_ext; [|exact EI]; cbn; tauto|tauto].
      - pose proof (Hl _ _ (or_introl eq_refl)) as H1. assert (NE : eqs <> []) by (intros ->; destruct H1 as (_ & H1); destruct (Z.to_nat i1); discriminate).
        destruct (pairs_ok eqs lv scrs i1 e1 D NC (LV NE) H1 ies done g (fun i e => proj1 (in_ies eqs i e)) EI) as (g1 & E1 & EI1). cbn [fst snd]. rewrite E1. cbn [rbind].
        pose proof (g_find_all_spec g1 (ei_g _ _ _ EI1)) as F. destruct (g_find_all g1) as [g2| | |]; try contradiction.
        + destruct F as (W2 & _ & A2 & Ed2 & _ & Dn & _). cbn [rbind].
          assert (EI2 : einv eqs (fun i j => done i j \/ j = i1) g2).
          { constructor; [exact W2|rewrite A2; apply (ei_all _ _ _ EI1)|]. intros i j. rewrite Ed2, (ei_ed _ _ _ EI1). rewrite FI. split; [tauto|]. intros (X & K). split; [|exact K]. destruct X as [X|X]; [tauto|]. right. split; [|exact X]. destruct K as (x & y & Hx & _). eapply eqn_lt. exact Hx. }
          destruct (IH _ g2 (fun i e H => Hl i e (or_intror H)) EI2) as (g' & E' & EI' & Dn'). exists g'. split; [exact E'|]. split; [|intros _; apply Dn'; left; exact Dn]. eapply einv_ext; [|exact EI']. cbn. intros i j _. intuition congruence.
        + exfalso. eapply einv_nc; eassumption. }
    assert (EI0 : einv eqs (fun _ _ => False) (mkGroup (map fst ies) deps0 deps0)).
    { constructor; cbn; [|exact FI|].
      - constructor; cbn; [rewrite FI; apply zseq_NoDup|apply dwf0|apply dwf0|intros a b []|intros a b []].
      - intros i j. unfold edge. cbn. tauto. }
    destruct (G ies _ _ (fun i e => proj1 (in_ies eqs i e)) EI0) as (g' & E' & EI' & Dn). exists g'. split; [exact E'|]. split.
    - eapply einv_ext; [|exact EI']. cbn. intros i j (x & y & _ & Hy & _). rewrite FI. split; [tauto|]. intros _. right. eapply eqn_lt. exact Hy.
    - intros NE. apply Dn. right. destruct eqs; [congruence|]. unfold ies. cbn [length]. rewrite Nat2Z.inj_succ, zseq_cons by lia. discriminate.
  Qed.

  Theorem analyze_spec : forall dir eqs d, dir = 1 \/ dir = -1 -> d = 0 \/ d = dir -> Forall (legal dir) eqs -> distinct_lhs eqs ->
    match analyze_eqs scr true d eqs with
    | Ok (d', g) => ~ cyclic (needs scr eqs) /\ g_all g = zseq (Z.of_nat (length eqs)) /\ gwf g /\
        (forall i j, In i (g_all g) -> In j (g_all g) ->
           exists b, is_dep_on (g_deps g) i j = Ok b /\
             (b = true <-> exists i' e e', nth_error eqs (Z.to_nat i) = Some e /\ 0 <= i' /\ nth_error eqs (Z.to_nat i') = Some e' /\ same_value scr (e_lhs e) (e_lhs e') /\ path (needs scr eqs) i' j))
    | Throw => cyclic (needs scr eqs)
    | _ => False
    end.
  Proof.
    intros dir eqs d Hdir Hd Hl D. unfold analyze_eqs. pose proof (pass1_ok dir eqs d Hdir Hd Hl) as P1. destruct (pass1 scr d eqs) as [(d1 & s)| | |]; cbn [rbind]; try assumption.
    2:{ apply cyc_needs. exact P1. }
    destruct P1 as (Hd1 & L & I & Dn & NC). cbn [fst snd]. destruct (topo_sort_acyclic _ (li_g _ _ L)) as (g & Eg & _). { rewrite (cyc_keys _ _ L). exact NC. }
    pose proof (topo_sort_spec _ (li_g _ _ L)) as T. rewrite Eg in T |- *. cbn [rbind]. destruct T as (_ & _ & Wd & Ed & Dn').
    assert (LV : eqs <> [] -> lvok eqs (mkLvars (lv_keys s) g)).
    { intros NE. assert (DD : d_done (g_deps g) = true) by (destruct Dn' as [X| ->]; auto). constructor; cbn; [apply (li_nd _ _ L)|exact I|exact DD|].
      intros i j a b Ka Kb. unfold is_dep_on. rewrite DD. rewrite <- (path_keys _ _ i j a b L Ka Kb). destruct (dw_done _ Wd DD) as (_ & Q). specialize (Q i j). unfold dep in Q.
      rewrite <- mem_In in Q. assert (PP : path (edge (g_deps g)) i j <-> path (edge (g_deps (lv_grp s))) i j) by (split; apply path_mono; intros; apply Ed; assumption).
      rewrite <- PP, <- Q. split; [intros X; injection X as X; exact X|intros ->; reflexivity]. }
    destruct (pass2_ok eqs _ D NC LV) as (ge & Ee & EI & De). rewrite Ee. cbn [rbind]. split; [rewrite <- cyc_needs; exact NC|]. split; [apply (ei_all _ _ _ EI)|]. split; [apply (ei_g _ _ _ EI)|].
    rewrite (ei_all _ _ _ EI). intros i j Hi Hj. apply zseq_In in Hi. apply zseq_In in Hj.
    assert (NE : eqs <> []) by (intros ->; cbn in Hi; lia). specialize (De NE). unfold is_dep_on. rewrite De. eexists. split; [reflexivity|].
    rewrite mem_In. destruct (dw_done _ (gw_d _ (ei_g _ _ _ EI)) De) as (_ & Q). specialize (Q i j). unfold dep in Q. rewrite Q.
    assert (PK : path (edge (g_deps ge)) i j <-> klt eqs i j).
    { split; [|intros K; apply path_one; apply (ei_ed _ _ _ EI); auto]. intros P. induction P as [x y H|x y z H P IH]; [apply (ei_ed _ _ _ EI) in H; tauto|].
      apply (ei_ed _ _ _ EI) in H. eapply klt_trans; [apply H|]. apply IH; try assumption.
      - destruct H as (_ & e & e' & _ & (X & Y) & _). assert (Z.to_nat y < length eqs)%nat by (apply nth_error_Some; congruence). lia.
      - specialize (dw_done _ (gw_d _ (ei_g _ _ _ EI)) De) as (_ & Q'). apply Q'. }
    rewrite PK. split.
    - intros (e & e' & He & He' & P). destruct (kes_needs eqs _ _ P j e' He' eq_refl) as (i' & e2 & H2 & K2 & P2). exists i', e, e2. destruct He, H2. repeat split; try assumption; apply key_same; congruence.
    - intros (i' & e & e2 & He & Hi' & He2 & S & P). apply key_same in S. destruct (needs_kes eqs i' j P) as (x & y & Hx & Hy & P'). assert (x = e2) by (destruct Hx; congruence). subst.
      exists e, y. split; [split; [lia|exact He]|]. split; [exact Hy|]. rewrite S. exact P'.
  Qed.
End S.

Section Accept.
  Variable scr : Z -> bool.
  (* what every accepted equation satisfies *)
  Definition accepted (d : Z) (e : eqn) : Prop :=
    legal_lhs scr d e /\ (scr (p_var (e_lhs e)) = false -> (d = 1 \/ d = -1) /\ (d = 1 -> forall r s, In r (e_rhs e) -> p_step r = Some s -> s <= 1)).
  Lemma check_acc : forall d e d', check_eq scr d e = Ok d' -> (d <> 0 -> d' = d) /\ (scr (p_var (e_lhs e)) = false \/ d' <> 0 -> accepted d' e).
  Proof.
    intros d e d' H. unfold check_eq in H. destruct (forallb (Z.eqb 0) (p_dom (e_lhs e))) eqn:F; [|discriminate]. cbn [negb] in H.
    assert (FD : Forall (eq 0) (p_dom (e_lhs e))) by (apply Forall_forall; intros x Hx; rewrite forallb_forall in F; specialize (F x Hx); lia).
    destruct (scr (p_var (e_lhs e))) eqn:Sc.
    - destruct (p_step (e_lhs e)) eqn:Es; [discriminate|]. injection H as <-. split; [auto|]. intros _. split; [split; [exact FD|rewrite Sc; exact Es]|intros; congruence].
    - destruct (p_step (e_lhs e)) as [lofs|] eqn:Es; [|discriminate]. destruct (Z.abs lofs =? 1) eqn:Ea; [|discriminate]. cbn [negb] in H.
      set (dd := if (d =? 0) && negb (lofs =? 0) then if 0 <? lofs then 1 else -1 else d) in *.
      destruct (lofs =? dd) eqn:El; [|discriminate]. cbn [negb] in H. destruct (existsb _ (e_rhs e)) eqn:X; [discriminate|]. injection H as <-.
      assert (lofs = dd) by lia. split; [unfold dd; destruct (Z.eqb_spec d 0); [lia|reflexivity]|].
      intros _. split; [split; [exact FD|rewrite Sc; congruence]|]. intros _. split; [lia|]. intros D1 r s Hr Hs.
      destruct (Z_le_gt_dec s 1) as [L|G]; [exact L|]. exfalso. assert (T : existsb (fun r => match p_step r with Some rofs => ((dd =? 1) && (lofs <? rofs)) || ((dd =? -11) && (rofs <? lofs)) | None => false end) (e_rhs e) = true).
      { apply existsb_exists. exists r. split; [exact Hr|]. rewrite Hs. lia. }
      congruence.
  Qed.
  Lemma acc_nz : forall d d' e, scr (p_var (e_lhs e)) = false -> accepted d e -> (d <> 0 -> d' = d) -> accepted d' e /\ d' = d.
  Proof. intros d d' e Sc A H. destruct A as (A & B). destruct (B Sc) as (C & _). assert (d' = d) by (apply H; lia). subst. split; [split; assumption|reflexivity]. Qed.
  Theorem accepted_spec : forall fd d eqs d' g, analyze_eqs scr fd d eqs = Ok (d', g) ->
    (d <> 0 -> d' = d) /\ forall e, In e eqs -> scr (p_var (e_lhs e)) = false -> accepted d' e.
  Proof.
    intros fd d eqs d' g H. unfold analyze_eqs in H. destruct (pass1 scr d eqs) as [(d1 & s)| | |] eqn:P; try discriminate. cbn [rbind fst snd] in H.
    destruct (topo_sort (lv_grp s)) as [g1| | |]; try discriminate. cbn [rbind] in H. destruct (pass2 _ _ _ _) as [g2| | |]; try discriminate. cbn [rbind] in H. injection H as <- <-.
    unfold pass1 in P. set (body := fun st e => _) in P.
    assert (G : forall eqs d s0 d1 s, rfold body eqs (d, s0) = Ok (d1, s) -> (d <> 0 -> d1 = d) /\ forall e, In e eqs -> scr (p_var (e_lhs e)) = false -> accepted d1 e).
    { clear. induction eqs as [|e eqs IH]; intros d s0 d1 s H; cbn [rfold] in H.
      - injection H as -> ->. split; [auto|intros e []].
      - unfold body at 1 in H. cbn [fst snd] in H. destruct (check_eq scr d e) as [d2| | |] eqn:C; try discriminate. cbn [rbind] in H. destruct (eq_lvars scr s0 e) as [s2| | |]; try discriminate. cbn [rbind] in H.
        destruct (IH d2 s2 d1 s H) as (A & B). destruct (check_acc d e d2 C) as (C1 & C2). split; [intros N; specialize (C1 N); subst; auto|].
        intros e' [<-|He'] Sc; [|auto]. apply (acc_nz d2 d1 e Sc (C2 (or_introl Sc)) A). }
    destruct (G _ _ _ _ _ P) as (A & B). destruct (Z.eqb_spec d1 0) as [E|E]; [|auto].
    split; [intros N; specialize (A N); lia|]. intros e He Sc. destruct (B e He Sc) as (_ & Q). destruct (Q Sc) as (Q1 & _). lia.
  Qed.
End Accept.

Theorem analyze_spec' : forall scr dir eqs d, dir = 1 \/ dir = -1 -> d = 0 \/ d = dir ->
  Forall (fun e => legal_lhs scr dir e /\ (scr (p_var (e_lhs e)) = false -> dir = 1 -> forall r s, In r (e_rhs e) -> p_step r = Some s -> s <= 1)) eqs ->
  distinct_lhs eqs ->
  match analyze_eqs scr true d eqs with
  | Ok (d', g) => ~ cyclic (needs scr eqs) /\ g_all g = zseq (Z.of_nat (length eqs)) /\
      (forall i j, In i (g_all g) -> In j (g_all g) ->
         exists b, is_dep_on (g_deps g) i j = Ok b /\
           (b = true <-> exists i' e e', nth_error eqs (Z.to_nat i) = Some e /\ 0 <= i' /\ nth_error eqs (Z.to_nat i') = Some e' /\ same_value scr (e_lhs e) (e_lhs e') /\ path (needs scr eqs) i' j))
  | Throw => cyclic (needs scr eqs)
  | _ => False
  end.
Proof.
  intros scr dir eqs d H1 H2 H3 H4. pose proof (analyze_spec scr dir eqs d H1 H2 H3 H4) as S. destruct (analyze_eqs scr true d eqs) as [(d' & g)| | |]; try assumption. tauto.
Qed.

Theorem forward_rejects : forall scr fd d eqs e r s, d = 0 \/ d = 1 -> In e eqs -> scr (p_var (e_lhs e)) = false ->
  p_step (e_lhs e) = Some 1 -> In r (e_rhs e) -> p_step r = Some s -> 1 < s -> forall x, analyze_eqs scr fd d eqs <> Ok x.
Proof.
  intros scr fd d eqs e r s Hd He Sc L Hr Hs Hlt (d' & g) H. destruct (accepted_spec scr fd d eqs d' g H) as (_ & A). destruct (A e He Sc) as ((_ & A1) & A2).
  rewrite Sc, L in A1. injection A1 as A1. destruct (A2 Sc) as (_ & A3). specialize (A3 (eq_sym A1) r s Hr Hs). lia.
Qed.

(* the edges of the analysed group are already closed *)
Theorem analyze_closed : forall scr dir eqs d d' g, dir = 1 \/ dir = -1 -> d = 0 \/ d = dir -> Forall (legal scr dir) eqs -> distinct_lhs eqs ->
  analyze_eqs scr true d eqs = Ok (d', g) ->
  (forall a b c, edge (g_deps g) a b -> edge (g_deps g) b c -> edge (g_deps g) a c) /\ (forall a, ~ edge (g_deps g) a a) /\ (g_all g <> [] -> d_done (g_deps g) = true).
Proof.
  intros scr dir eqs d d' g Hdir Hd Hl D H. unfold analyze_eqs in H. pose proof (pass1_ok scr dir eqs d Hdir Hd Hl) as P1.
  destruct (pass1 scr d eqs) as [(d1 & s)| | |]; cbn [rbind] in H; try discriminate. destruct P1 as (Hd1 & L & I & Dn & NC). cbn [fst snd] in H.
  pose proof (topo_sort_spec _ (li_g _ _ L)) as T. destruct (topo_sort (lv_grp s)) as [g1| | |]; cbn [rbind] in H; try discriminate. destruct T as (_ & _ & Wd & Ed & Dn').
  assert (LV : eqs <> [] -> lvok scr eqs (mkLvars (lv_keys s) g1)).
  { intros NE. assert (DD : d_done (g_deps g1) = true) by (destruct Dn' as [X| ->]; auto). constructor; cbn; [apply (li_nd _ _ L)|exact I|exact DD|].
    intros i j a b Ka Kb. unfold is_dep_on. rewrite DD. rewrite <- (path_keys _ _ i j a b L Ka Kb). destruct (dw_done _ Wd DD) as (_ & Q). specialize (Q i j). unfold dep in Q.
    rewrite <- mem_In in Q. assert (PP : path (edge (g_deps g1)) i j <-> path (edge (g_deps (lv_grp s))) i j) by (split; apply path_mono; intros; apply Ed; assumption).
    rewrite <- PP, <- Q. split; [intros X; injection X as X; exact X|intros ->; reflexivity]. }
  destruct (pass2_ok scr eqs _ D NC LV) as (ge & Ee & EI & De). rewrite Ee in H. cbn [rbind] in H. injection H as _ <-.
  split; [|split].
  - intros a b c H1 H2. apply (ei_ed _ _ _ _ EI) in H1, H2. apply (ei_ed _ _ _ _ EI). split; [exact Logic.I|]. eapply klt_trans; [apply H1|apply H2].
  - intros a H. apply (ei_ed _ _ _ _ EI) in H. eapply klt_irr; [exact NC|apply H].
  - intros NE. apply De. intros ->. apply NE. rewrite (ei_all _ _ _ _ EI). reflexivity.
Qed.
