From Coq Require Import ZifyBool.
From Verif Require Import Base Cover_Spec Idiv_Model Idiv_Proofs Loops_Model Loops_Spec Scan_Model Loops_Proofs LoopsRun_Proofs LoopsTop_Proofs.

(* a stride made of whole vectors *)
Definition vec_dim (fold : Z) (d : ldim) : Prop := l_align d = fold /\ (fold | l_stride d) /\ fold <= l_stride d.

Lemma ROUND_UP_div : forall n m, (m | ROUND_UP n m).
Proof. intros. unfold ROUND_UP. apply Z.divide_factor_r. Qed.
Lemma ROUND_UP_ge : forall n m, 0 < m -> 1 <= n -> m <= ROUND_UP n m.
Proof. intros n m Hm Hn. pose proof (ROUND_UP_bounds n m Hm ltac:(lia)) as (H & _). destruct (ROUND_UP_div n m) as (k & E). rewrite E in *. assert (1 <= k) by nia. nia. Qed.

(* what each operation leaves *)
Lemma create_inner_vec : forall fold d s t, 0 < fold -> l_align d = fold -> l_begin d < l_end d -> vec_dim fold (create_inner fold d s t).
Proof.
  intros fold d s t Hf Ha Hr. unfold vec_dim, create_inner. cbn. pose proof (ROUND_UP_ge (l_end d - l_begin d) fold Hf ltac:(lia)).
  repeat split; [exact Ha|apply Z.divide_mul_l; apply ROUND_UP_div|lia].
Qed.
Lemma adjust_vec : forall fold a b c d, 0 < fold -> l_begin d < l_end d -> vec_dim fold d -> vec_dim fold (adjust_from_settings fold a b c d).
Proof.
  intros fold a b c d Hf Hr (Ha & Hd & Hs). unfold vec_dim, adjust_from_settings. cbn. pose proof (ROUND_UP_ge (l_end d - l_begin d) fold Hf ltac:(lia)).
  split; [exact Ha|]. destruct (a <=? c); [split; [apply Z.divide_mul_l; apply ROUND_UP_div|lia]|auto].
Qed.
Lemma strides_vec : forall fold n d, 0 < fold -> 1 <= n -> l_align d = fold -> vec_dim fold (set_strides_from_inner fold n d).
Proof.
  intros fold n d Hf Hn Ha. unfold vec_dim, set_strides_from_inner. cbn. pose proof (ROUND_UP_ge n fold Hf Hn).
  split; [exact Ha|]. destruct (_ <? _); (split; [|lia]); [apply Z.divide_mul_l|]; apply ROUND_UP_div.
Qed.
Lemma set_range_vec : forall fold b e d, vec_dim fold d -> vec_dim fold (set_range b e d).
Proof. intros fold b e d H. exact H. Qed.

Theorem levels_vec : forall fold d, 0 < fold -> l_align d = fold ->
  (forall s t, l_begin d < l_end d -> let d' := create_inner fold d s t in
     vec_dim fold d' /\ l_aofs d' = l_aofs d /\ l_begin d' = s /\ l_end d' = t) /\
  (forall n, 1 <= n -> let d' := set_strides_from_inner fold n d in
     vec_dim fold d' /\ l_aofs d' = l_aofs d /\ l_begin d' = l_begin d /\ l_end d' = l_end d) /\
  (forall a b c, l_begin d < l_end d -> vec_dim fold d -> let d' := adjust_from_settings fold a b c d in
     vec_dim fold d' /\ l_aofs d' = l_aofs d /\ l_begin d' = l_begin d /\ l_end d' = l_end d) /\
  (forall b e, vec_dim fold d -> let d' := set_range b e d in
     vec_dim fold d' /\ l_aofs d' = l_aofs d /\ l_begin d' = b /\ l_end d' = e).
Proof.
  intros fold d Hf Ha. repeat split; cbv zeta; intros; try (apply create_inner_vec; auto); try (apply strides_vec; auto); try (apply adjust_vec; auto); try (apply set_range_vec; auto).
Qed.

Theorem loops_vec_aligned : forall prog nt folds, 0 < nt -> Forall (wf_loop true) prog -> accepted false prog ->
  Forall2 (fun fold d => 1 <= fold /\ vec_dim fold d) folds (flat_map snd prog) ->
  exists calls, run_loops true nt None prog = Ok calls /\
    forall b, In b calls -> Forall2 (fun fd c => forall x, In x (inner_bounds (l_begin (snd fd), l_end (snd fd)) c) ->
       (x - l_aofs (snd fd)) mod fst fd = 0) (combine folds (flat_map snd prog)) b.
Proof.
  intros prog nt folds Hnt Hw Ha Hf.
  assert (D : Forall (fun d => (Z.min (l_align d) (l_stride d) | l_stride d)) (flat_map snd prog)).
  { clear -Hf. induction Hf as [|f d fs ds (H0 & H1 & H2 & H3) Hf IH]; constructor; [|exact IH]. rewrite Z.min_l by lia. rewrite H1. exact H2. }
  destruct (loops_aligned prog nt Hnt Hw Ha D) as (calls & E & P). exists calls. split; [exact E|].
  intros b Hb. specialize (P b Hb). revert P Hf. generalize (flat_map snd prog). clear. intros ds P. revert folds. induction P as [|d c ds b Hc P IH]; intros folds Hf.
  - inversion Hf; subst. constructor.
  - inversion Hf as [|f ? fs ? (H0 & H1 & H2 & H3) Hf']; subst. cbn [combine]. constructor; [|apply IH; exact Hf'].
    cbn [fst snd]. intros x Hx. specialize (Hc x Hx). rewrite Z.min_l in Hc by lia. exact Hc.
Qed.

(* ---------- empty regions ---------- *)
Lemma nit_nonpos : forall d, 1 <= l_stride d -> l_end d <= l_begin d -> num_iters false d <= 0.
Proof. intros d Hs He. pose proof (nit_bounds false d Hs). unfold aligned_begin in H. nia. Qed.

Lemma nest_nil : forall ns, Exists (fun n => n <= 0) ns -> nest ns = [].
Proof.
  intros ns H. destruct (nest ns) as [|os l] eqn:E; [reflexivity|]. exfalso.
  assert (I : In os (nest ns)) by (rewrite E; left; reflexivity). apply nest_In in I. clear E l. revert H. induction I as [|i n os ns Hi I IH]; intros H; inversion H; subst; [lia|auto].
Qed.

Definition plain_divs (d : ldim) : Prop := 1 <= l_stride d.
Lemma divs_false : forall ds, Forall plain_divs ds -> forallb (divisors_ok false) ds = true.
Proof. intros ds H. apply forallb_forall. rewrite Forall_forall in H. intros d Hd. specialize (H d Hd). unfold plain_divs in H. unfold divisors_ok. cbn. rewrite andb_true_r. apply negb_true_iff. apply Z.eqb_neq. lia. Qed.

(* no alignment, loops generated as real nested loops: nothing runs *)
Theorem empty_nested : forall nt f ds rest enc, (2 <= length ds)%nat -> f_nested f = true -> adj_feats (length ds) (is_some enc) f <> None ->
  Forall plain_divs ds -> Exists (fun d => l_end d <= l_begin d) ds ->
  run_loops false nt enc ((f, ds) :: rest) = Ok [].
Proof.
  intros nt f ds rest enc L Hn Ha Hd He. destruct ds as [|d ds]; [cbn in L; lia|]. cbn [run_loops]. fold (is_some enc).
  destruct (adj_feats (length (d :: ds)) (is_some enc) f) as [f'|] eqn:Ef; [|congruence].
  assert (N : f_nested f' = true).
  { unfold adj_feats in Ef. destruct (f_tile f && _); [discriminate|]. destruct (_ && _) in Ef; [discriminate|]. injection Ef as <-. cbn [f_nested]. rewrite Hn.
    assert (Hl : Nat.ltb (length (d :: ds)) 2 = false) by (apply Nat.ltb_ge; exact L). cbn [length] in Hl |- *. rewrite Hl. reflexivity. }
  unfold one_loop. rewrite divs_false by exact Hd. cbn [negb]. rewrite N.
  rewrite nest_nil; [reflexivity|]. clear -Hd He. revert Hd. generalize (d :: ds) He. clear. intros l He. induction He as [a l H|a l H IH]; intros Hd; inversion Hd; subst; cbn; [left; apply nit_nonpos; assumption|right; auto].
Qed.

(* no alignment, flattened (plain, tiled, serpentine, square-wave) loops: nothing runs when exactly one dim is empty *)
Theorem empty_flat : forall nt f ds1 d ds2 rest enc, f_manual f = false -> adj_feats (length (ds1 ++ d :: ds2)) (is_some enc) f <> None ->
  Forall (fun d => plain_divs d /\ l_begin d < l_end d) ds1 -> Forall (fun d => plain_divs d /\ l_begin d < l_end d) ds2 -> plain_divs d -> l_end d <= l_begin d ->
  run_loops false nt enc ((f, ds1 ++ d :: ds2) :: rest) = Ok [].
Proof.
  intros nt f ds1 d ds2 rest enc Hm Ha H1 H2 Hd He.
  assert (PD : Forall plain_divs (ds1 ++ d :: ds2)).
  { apply Forall_app. split; [|constructor; [exact Hd|]]; eapply Forall_impl; try eassumption; cbn; tauto. }
  remember (ds1 ++ d :: ds2) as ds eqn:E. destruct ds as [|x xs]; [destruct ds1; discriminate|]. cbn [run_loops]. fold (is_some enc).
  destruct (adj_feats (length (x :: xs)) (is_some enc) f) as [f'|] eqn:Ef; [|congruence].
  assert (M : f_manual f' = false).
  { unfold adj_feats in Ef. destruct (f_tile f && _); [discriminate|]. destruct (_ && _) in Ef; [discriminate|]. injection Ef as <-. cbn. rewrite Hm. reflexivity. }
  unfold one_loop. rewrite divs_false by exact PD. cbn [negb]. rewrite M.
  assert (P : zprod (map (num_iters false) (x :: xs)) <= 0).
  { rewrite E, map_app, zprod_app. cbn [map zprod]. pose proof (nit_nonpos d Hd He).
    assert (Q : forall l, Forall (fun d => plain_divs d /\ l_begin d < l_end d) l -> 0 < zprod (map (num_iters false) l)).
    { intros l Hl. apply zprod_pos. clear -Hl. induction Hl as [|a l (A & B) Hl IH]; cbn; constructor; [|exact IH]. apply good_nit. repeat split; [exact B|exact A|discriminate]. }
    pose proof (Q ds1 H1). pose proof (Q ds2 H2). nia. }
  destruct (f_nested f') eqn:N.
  - rewrite nest_nil; [reflexivity|]. rewrite E, map_app. apply Exists_app. right. left. apply nit_nonpos; assumption.
  - rewrite zseq_nil by exact P. reflexivity.
Qed.

(* with alignment: whatever runs has an empty range in the empty dim *)
Lemma aligned_empty_range : forall d i, l_end d <= l_begin d -> snd (sub_range true d i) <= fst (sub_range true d i).
Proof. intros d i H. unfold sub_range. cbn [fst snd]. lia. Qed.

Lemma rconcat_In : forall A B (f : A -> res (list B)) l out x, rconcat (map f l) = Ok out -> In x out -> exists a o, In a l /\ f a = Ok o /\ In x o.
Proof.
  induction l as [|a l IH]; intros out x E I; cbn in E; [injection E as <-; contradiction|].
  change (fold_right _ _ (map f l)) with (rconcat (map f l)) in E.
  destruct (f a) as [o| | |] eqn:Fa; cbn in E; try discriminate. destruct (rconcat (map f l)) as [o2| | |] eqn:R; cbn in E; try discriminate. injection E as <-.
  apply in_app_iff in I as [I|I]; [exists a, o; split; [left; reflexivity|]; auto|]. destruct (IH o2 x eq_refl I) as (a' & o' & H & H1 & H2). exists a', o'. split; [right; exact H|]. auto.
Qed.

Lemma path_len : forall s q ns outer prev i r, path_ix s q outer prev ns i = Ok r -> length (snd r) = length ns.
Proof.
  induction ns as [|n ns IH]; intros outer prev i r E; cbn [path_ix] in E; [injection E as <-; reflexivity|].
  destruct (match ns with [] => Ok i | _ => _ end) as [q0| | |]; cbn [rbind] in E; try discriminate.
  destruct (if outer then _ else _) as [d0| | |]; cbn [rbind] in E; try discriminate.
  destruct (match prev with Some _ => _ | None => _ end) as [p d1].
  match type of E with context [path_ix ?a ?b ?c ?d ?e ?f] => destruct (path_ix a b c d e f) as [r'| | |] eqn:R end; cbn [rbind] in E; try discriminate.
  injection E as <-. cbn. f_equal. eapply IH. exact R.
Qed.
Lemma tsplit_len : forall nts pre o r, tile_split pre nts o = Ok r -> length (fst r) = length nts.
Proof.
  induction nts as [|[n t] nts IH]; intros pre o r E; cbn [tile_split] in E; [injection E as <-; reflexivity|]. cbn zeta in E.
  destruct (crem o _) as [o'| | |]; cbn [rbind] in E; try discriminate.
  match type of E with context [tile_split ?a ?b ?c] => destruct (tile_split a b c) as [r'| | |] eqn:R end; cbn [rbind] in E; try discriminate.
  injection E as <-. cbn. f_equal. eapply IH. exact R.
Qed.
Lemma tindex_len : forall l outer o r, tile_index outer l o = Ok r -> length r = length l.
Proof.
  induction l as [|[t [ti lt]] l IH]; intros outer o r E; cbn [tile_index] in E; [injection E as <-; reflexivity|].
  destruct (match l with [] => Ok o | _ => _ end) as [q0| | |]; cbn [rbind] in E; try discriminate.
  destruct (if outer then _ else _) as [d0| | |]; cbn [rbind] in E; try discriminate.
  destruct (tile_index false l o) as [r'| | |] eqn:R; cbn [rbind] in E; try discriminate. injection E as <-. cbn. f_equal. eapply IH. exact R.
Qed.
Lemma tile_len : forall nts i r, tile_ix nts i = Ok r -> length r = length nts.
Proof.
  intros nts i r E. unfold tile_ix in E. destruct (tile_split 1 nts i) as [s| | |] eqn:S; cbn [rbind] in E; try discriminate.
  apply tindex_len in E. rewrite E, combine_length, map_length, (tsplit_len _ _ _ _ S). apply Nat.min_id.
Qed.
Lemma nest_len : forall ns ix, In ix (nest ns) -> length ix = length ns.
Proof. intros ns ix I. apply nest_In in I. induction I; cbn; congruence. Qed.
Lemma manual_len : forall ns ds te i ix, length ds = length ns -> In ix (fst (manual_nest ns ds te i)) -> length ix = length ns.
Proof.
  induction ns as [|n ns IH]; intros ds te i ix L I; destruct ds as [|d ds]; try discriminate L.
  - cbn in I. destruct I as [<-|[]]. reflexivity.
  - cbn [manual_nest] in I. injection L as L.
    set (step := fun (st : list (list Z) * Z * list Z) ix => _) in I.
    assert (G : forall l st, (forall x, In x (fst (fst st)) -> length x = S (length ns)) -> length (snd st) = length ns ->
              let st' := fold_left step l st in (forall x, In x (fst (fst st')) -> length x = S (length ns)) /\ length (snd st') = length ns).
    { induction l as [|y l IHl]; intros [[out j] dsin] H1 H2; cbn zeta in *; cbn [fold_left]; [split; assumption|].
      apply IHl; unfold step; cbn [fst snd] in *; destruct (j <? te); try assumption.
      - destruct (manual_nest ns dsin te j) as [o j'] eqn:M. cbn [fst snd]. intros x Hx. apply in_app_iff in Hx as [Hx|Hx]; [auto|].
        apply in_map_iff in Hx as (x' & <- & Hx). cbn. f_equal. apply (IH dsin te j); [exact H2|]. rewrite M. exact Hx.
      - destruct (manual_nest ns dsin te j) as [o j']. cbn [fst snd]. apply map_length. }
    specialize (G (zrange d n) ([], i, ds)). cbn [fst snd] in G. specialize (G ltac:(intros x []) L). cbn zeta in G.
    destruct (fold_left step (zrange d n) ([], i, ds)) as [[out j] x]. cbn [fst snd] in *. destruct G as (G & _). cbn. apply G. exact I.
Qed.
Lemma one_loop_len : forall da nt f enc ds ixs ix, one_loop da nt f enc ds = Ok ixs -> In ix ixs -> length ix = length ds.
Proof.
  intros da nt f enc ds ixs ix E I. unfold one_loop in E. destruct (negb _); [discriminate|].
  destruct (f_nested f); [injection E as <-; apply nest_len in I; rewrite I; apply map_length|].
  destruct (f_manual f).
  - destruct (rconcat_In _ _ _ _ _ _ E I) as (a & o & _ & M & Io). unfold manual_thread in M.
    destruct (path_ix _ _ _ _ _ _) as [r| | |] eqn:P; cbn [rbind] in M; try discriminate. injection M as <-.
    rewrite <- (map_length (num_iters da) ds). eapply manual_len; [|exact Io]. eapply path_len. exact P.
  - destruct (rconcat_In _ _ _ _ _ _ E I) as (a & o & _ & M & Io).
    destruct (f_tile f).
    + destruct (tile_ix _ a) as [r| | |] eqn:T; cbn [rbind] in M; try discriminate. injection M as <-. destruct Io as [<-|[]].
      rewrite (tile_len _ _ _ T), combine_length, !map_length. apply Nat.min_id.
    + destruct (path_ix _ _ _ _ _ _) as [r| | |] eqn:P; cbn [rbind] in M; try discriminate. injection M as <-. destruct Io as [<-|[]].
      rewrite (path_len _ _ _ _ _ _ _ P). apply map_length.
Qed.
Lemma sub_ranges_F2 : forall da ds ix, length ix = length ds ->
  Forall2 (fun d c => exists i, c = sub_range da d i) ds (map (fun p => sub_range da (fst p) (snd p)) (combine ds ix)).
Proof. induction ds as [|d ds IH]; intros [|i ix] L; try discriminate; cbn; constructor; [exists i; reflexivity|apply IH; injection L as L; exact L]. Qed.
Lemma calls_shape : forall da nt prog enc calls b, run_loops da nt enc prog = Ok calls -> In b calls ->
  Forall2 (fun d c => exists i, c = sub_range da d i) (flat_map snd prog) b.
Proof.
  intros da nt. induction prog as [|[f ds] prog IH]; intros enc calls b E I.
  - cbn in E. injection E as <-. destruct I as [<-|[]]. constructor.
  - cbn [run_loops] in E. cbn [flat_map snd]. destruct ds as [|d0 ds0]; [cbn; eapply IH; eassumption|]. remember (d0 :: ds0) as ds.
    destruct (adj_feats _ _ f) as [f'|]; [|discriminate].
    destruct (one_loop da nt f' enc ds) as [ixs| | |] eqn:O; cbn [rbind] in E; try discriminate.
    destruct (rconcat_In _ _ _ _ _ _ E I) as (ix & o & Iix & R & Io).
    destruct (run_loops da nt (Some (last ix 0)) prog) as [bod| | |] eqn:Rb; cbn [rbind] in R; try discriminate. injection R as <-.
    apply in_map_iff in Io as (b' & <- & Ib). apply Forall2_app; [apply sub_ranges_F2; eapply one_loop_len; eassumption|eapply IH; eassumption].
Qed.
Theorem aligned_only_empty : forall nt prog calls, run_loops true nt None prog = Ok calls ->
  forall b, In b calls -> Forall2 (fun d c => l_begin d <= fst c /\ snd c <= l_end d) (flat_map snd prog) b.
Proof.
  intros nt prog calls E b I. pose proof (calls_shape _ _ _ _ _ _ E I) as S. clear E I. induction S as [|d c ds cs (i & ->) S IH]; constructor; [|exact IH]. unfold sub_range. cbn. lia.
Qed.
