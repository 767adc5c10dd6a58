From Verif Require Import Base Idiv_Proofs MixedRadix Layout_Model Layout_Proofs Var_Model Var_Spec Var_Proofs Ptr_Model Ptr_Spec.
Open Scope Z_scope.

Lemma zsum_ext : forall (f g : nat -> Z) l, (forall k, In k l -> f k = g k) ->
  zsum (map f l) = zsum (map g l).
Proof.
  induction l as [|k l IH]; intros H; [reflexivity|]. cbn [map zsum fold_right].
  change (f k + zsum (map f l) = g k + zsum (map g l)).
  rewrite H by (left; reflexivity). rewrite IH by (intros; apply H; right; assumption). reflexivity.
Qed.

Lemma zsum_cons' : forall x l, zsum (x :: l) = x + zsum l.
Proof. reflexivity. Qed.

Lemma zsum_add : forall (f g : nat -> Z) l,
  zsum (map (fun k => f k + g k) l) = zsum (map f l) + zsum (map g l).
Proof.
  induction l as [|k l IH]; [reflexivity|]. cbn [map]. rewrite !zsum_cons', IH. lia.
Qed.

Lemma zsum_perm : forall (f : nat -> Z) l l', Permutation l l' -> zsum (map f l) = zsum (map f l').
Proof.
  induction 1; cbn [map]; rewrite ?zsum_cons'; try lia.
Qed.

(* a single term *)
Lemma zsum_one : forall (f : nat -> Z) k l, NoDup l ->
  zsum (map (fun j => if Nat.eqb j k then f j else 0) l) = if existsb (Nat.eqb k) l then f k else 0.
Proof.
  induction l as [|j l IH]; intros N; [reflexivity|]. cbn [map existsb]. rewrite zsum_cons'.
  inversion N as [|? ? H1 H2]; subst. rewrite IH by assumption. rewrite (Nat.eqb_sym k j).
  destruct (Nat.eqb_spec j k) as [->|]; cbn [orb]; [|lia].
  destruct (existsb (Nat.eqb k) l) eqn:E; [|lia].
  apply existsb_exists in E. destruct E as (x & Hx & E). apply Nat.eqb_eq in E. subst. contradiction.
Qed.

Lemma gl_sum : forall p ss j, NoDup p ->
  gl_layout p ss j = zsum (map (fun k => dget j k * zprod (map (dget ss) (after k p))) p).
Proof.
  induction p as [|x p IH]; intros ss j N; [reflexivity|].
  inversion N as [|? ? H1 H2]; subst. cbn [gl_layout map]. rewrite zsum_cons'.
  cbn [after]. rewrite Nat.eqb_refl. f_equal. rewrite IH by assumption. apply zsum_ext.
  intros k Hk. destruct (Nat.eqb_spec x k) as [->|]; [contradiction|reflexivity].
Qed.

Lemma fold_sum : forall (b : nat -> bool) (f : nat -> Z) l a,
  fold_left (fun acc k => if b k then acc else acc + f k) l a =
  a + zsum (map (fun k => if b k then 0 else f k) l).
Proof.
  induction l as [|k l IH]; intros a; cbn [fold_left map]; [cbn; lia|].
  rewrite IH, zsum_cons'. destruct (b k); lia.
Qed.

Lemma nth_map2 : forall A B C (f : A -> B -> C) l r k a b c,
  length l = length r -> (k < length l)%nat -> nth k (map2 f l r) c = f (nth k l a) (nth k r b).
Proof.
  induction l as [|x l IH]; intros [|y r] k a b c L Hk; cbn in L, Hk; try lia.
  rewrite map2_cons. destruct k; [reflexivity|]. cbn [nth]. apply IH; lia.
Qed.

Lemma nth_map_seq : forall (f : nat -> Z) n k d, (k < n)%nat -> nth k (map f (seq 0 n)) d = f k.
Proof.
  intros. rewrite nth_indep with (d' := f O) by (rewrite map_length, seq_length; lia).
  rewrite map_nth, seq_nth by lia. reflexivity.
Qed.

Lemma norm_exact : forall d o, 1 <= d_vlen d -> o mod d_vlen d = 0 -> norm_str d o * d_vlen d = o.
Proof.
  intros d o H M. unfold norm_str. apply Z.mod_divide in M; [|lia]. destruct M as (q & ->).
  destruct (Z.ltb_spec 0 (q * d_vlen d)).
  - rewrite Z.quot_mul by lia. reflexivity.
  - replace (- (q * d_vlen d)) with ((- q) * d_vlen d) by lia. rewrite Z.quot_mul by lia. lia.
Qed.

Lemma elems_vec : forall ds a cur lanes vs,
  Forall wf_dim ds -> aligned_args ds a -> lanes_ok ds lanes ->
  length cur = length ds -> length vs = length ds ->
  (forall k, (k < length ds)%nat -> let d := nth k ds (mkDim false false 0 0 0 0 0 1) in
     nth k vs 0 = norm_arg d (argk a k) (nth k cur 0) /\
     match argk a k with AOfs _ => is_misc d = false | AConst _ => is_misc d = true | AExpr _ => False end) ->
  point_elems ds a cur lanes = map2 elem_of_vec ds (combine vs lanes) /\
  Forall2 (fun d (q : Z * Z) => 0 <= snd q < d_vlen d) ds (combine vs lanes) /\
  map fst (combine vs lanes) = vs /\ map snd (combine vs lanes) = lanes.
Proof.
  induction ds as [|d ds IH]; intros a cur lanes vs W A L Lc Lv H.
  - inversion A; subst. inversion L; subst. destruct vs; [|discriminate].
    repeat split; constructor.
  - inversion A as [|? a0 ? a' Ha Ha']; subst. inversion L as [|? l ? lanes' Hl Hl']; subst.
    destruct cur as [|x cur]; [discriminate|]. destruct vs as [|y vs]; [discriminate|].
    inversion W as [|? ? Wd W']; subst.
    destruct (IH a' cur lanes' vs) as (E1 & E2 & E3 & E4); try assumption;
      [cbn in Lc; lia|cbn in Lv; lia| |].
    { intros k Hk. exact (H (Datatypes.S k) ltac:(cbn; lia)). }
    cbn [point_elems combine map fst snd]. rewrite map2_cons, E1, E3, E4.
    split; [|split; [constructor; [assumption|exact E2]|split; reflexivity]].
    f_equal. destruct (H O ltac:(cbn; lia)) as (Ey & Em). cbn in Ey, Em. unfold argk in Ey, Em. cbn [nth] in Ey, Em.
    subst y. destruct Wd as (H1 & H2 & H3 & H4 & H5 & H6 & H7).
    unfold point_elem, elem_of_vec. cbn [fst snd]. destruct a0 as [o|k0|e]; [| |destruct Em].
    + cbn [norm_arg]. destruct (d_step d) eqn:Es.
      * destruct (H6 eq_refl) as (Ed & _). destruct (H5 Ed) as (_ & _ & Ev). rewrite Ev.
        change (1 <? 1) with false. cbn iota. destruct (o =? 0) eqn:E0; lia.
      * destruct (Z.eqb_spec o 0) as [->|]; [lia|].
        destruct (Z.ltb_spec 1 (d_vlen d)).
        -- pose proof (norm_exact d o ltac:(lia) Ha). nia.
        -- assert (d_vlen d = 1) by lia. rewrite H0 in *. lia.
    + cbn [norm_arg]. unfold is_misc in Em. apply andb_true_iff in Em. destruct Em as (Es & Ed).
      apply negb_true_iff in Es, Ed. rewrite Es. destruct (H5 Ed) as (_ & _ & Ev). rewrite Ev in *. lia.
Qed.

Section P.
Variable c : pcfg.
Variable pv : pvar.
Let v := pv_var pv.
Let n := length (v_dims v).
Let p := v_perm v.
Let ss := map d_vec_alloc (v_dims v).
Hypothesis Hwf : wf_var v.
Hypothesis Hm : misc_fixed c pv.

Lemma p_perm : Permutation p (seq 0 n).
Proof. apply Hwf. Qed.
Lemma p_nodup : NoDup p.
Proof. eapply perm_nodup. apply p_perm. Qed.
Lemma p_in : forall k, In k p <-> (k < n)%nat.
Proof.
  intros k. split; intros H.
  - eapply Permutation_in in H; [|apply p_perm]. apply in_seq in H. lia.
  - eapply Permutation_in; [symmetry; apply p_perm|]. apply in_seq. lia.
Qed.

Lemma dim_nth : forall k, (k < n)%nat -> nth_error (v_dims v) k = Some (dimk pv k).
Proof. intros. apply nth_error_nth'. assumption. Qed.
Lemma dim_wf : forall k, (k < n)%nat -> wf_dim (dimk pv k).
Proof.
  intros k Hk. destruct Hwf as (H & _). rewrite Forall_forall in H. apply H. apply nth_In. assumption.
Qed.
Lemma ss_nth : forall k, (k < n)%nat -> dget ss k = d_vec_alloc (dimk pv k).
Proof.
  intros k Hk. unfold dget, ss.
  rewrite nth_indep with (d' := d_vec_alloc (mkDim false false 0 0 0 0 0 1))
    by (rewrite map_length; exact Hk).
  apply map_nth.
Qed.

Lemma misc_size : forall k, (k < n)%nat -> is_misc (dimk pv k) && p_inner_misc c = true ->
  nth k (pv_max pv) 0 - nth k (pv_min pv) 0 + 1 = dget ss k.
Proof.
  intros k Hk E. apply andb_true_iff in E. destruct E as (E1 & E2).
  unfold is_misc in E1. apply andb_true_iff in E1. destruct E1 as (Es & Ed).
  apply negb_true_iff in Es, Ed. rewrite ss_nth by assumption.
  rewrite <- (Hm E2 k _ (dim_nth k Hk) Es Ed). unfold d_vec_alloc, d_alloc. rewrite Ed.
  destruct (dim_wf k Hk) as (_ & _ & _ & _ & H5 & _). destruct (H5 Ed) as (_ & _ & ->).
  rewrite Z.quot_1_r. reflexivity.
Qed.

Lemma scan_found : forall q k fixed prod f' p',
  (forall j, In j q -> (j < n)%nat) ->
  stride_scan c pv k q true fixed prod = (f', p') -> f' = true ->
  fixed = true /\ p' = prod * zprod (map (dget ss) q).
Proof using Hwf Hm.
  induction q as [|j q IH]; intros k fixed prod f' p' Hq E Ef; cbn in E.
  - injection E as <- <-. split; [assumption|]. cbn. lia.
  - destruct (is_misc (dimk pv j) && p_inner_misc c) eqn:Em.
    + apply IH in E; [|intros; apply Hq; right; assumption|assumption].
      destruct E as (-> & ->). split; [reflexivity|].
      rewrite misc_size by (auto; apply Hq; left; reflexivity).
      cbn [map]. change (zprod (dget ss j :: map (dget ss) q)) with (dget ss j * zprod (map (dget ss) q)).
      lia.
    + apply IH in E; [|intros; apply Hq; right; assumption|assumption]. destruct E as (? & _). discriminate.
Qed.

Lemma scan_search : forall q k f' p',
  (forall j, In j q -> (j < n)%nat) -> In k q ->
  stride_scan c pv k q false true 1 = (f', p') -> f' = true ->
  p' = zprod (map (dget ss) (after k q)).
Proof using Hwf Hm.
  induction q as [|j q IH]; intros k f' p' Hq Hk E Ef; [destruct Hk|]. cbn in E. cbn [after].
  destruct (Nat.eqb_spec j k) as [->|Hne].
  - apply scan_found in E; [|intros; apply Hq; right; assumption|assumption].
    destruct E as (_ & ->). lia.
  - eapply IH; [intros; apply Hq; right; assumption| |exact E|assumption].
    destruct Hk; [contradiction|assumption].
Qed.

Lemma stride_ok : forall k, (k < n)%nat -> stride c pv k = zprod (map (dget ss) (after k p)).
Proof using Hwf Hm.
  intros k Hk. unfold stride. fold v p.
  destruct (stride_scan c pv k p false true 1) as (f', p') eqn:E. destruct f'.
  - eapply scan_search; [| |exact E|reflexivity]; [intros; apply p_in; assumption|apply p_in; assumption].
  - fold ss. apply (stride_after n p ss p_perm); [apply map_length|assumption].
Qed.

Let S k := stride c pv k.

Lemma vpn_sum : forall l, length l = n ->
  vec_ptr_norm v l = zsum (map (fun k => vec_norm_adj_idx (dimk pv k) (nth k l 0) * S k) p).
Proof using Hwf Hm.
  intros l L. unfold vec_ptr_norm. fold p ss. rewrite gl_sum by apply p_nodup. apply zsum_ext.
  intros k Hk. apply p_in in Hk. unfold S. rewrite stride_ok by assumption. f_equal.
  unfold dget. apply nth_map2; [symmetry; exact L|exact Hk].
Qed.

Lemma norm_args_len : forall a cur, length (norm_args pv a cur) = n.
Proof. intros. unfold norm_args. rewrite map_length, seq_length. reflexivity. Qed.
Lemma norm_args_nth : forall a cur k, (k < n)%nat ->
  nth k (norm_args pv a cur) 0 = norm_arg (dimk pv k) (argk a k) (nth k cur 0).
Proof. intros. unfold norm_args. apply nth_map_seq with (f := fun k => _). assumption. Qed.

(* two vectors of the same step *)
Lemma vpn_diff : forall l l', length l = n -> length l' = n ->
  (forall k, (k < n)%nat -> d_step (dimk pv k) = true -> nth k l 0 = nth k l' 0) ->
  vec_ptr_norm v l = vec_ptr_norm v l' +
    zsum (map (fun k => if d_step (dimk pv k) then 0 else (nth k l 0 - nth k l' 0) * S k) p).
Proof using Hwf Hm.
  intros l l' L L' H. rewrite !vpn_sum by assumption. rewrite <- zsum_add. apply zsum_ext.
  intros k Hk. apply p_in in Hk. unfold vec_norm_adj_idx.
  destruct (d_step (dimk pv k)) eqn:E; [rewrite H by assumption|]; lia.
Qed.

Lemma argk_map : forall (f : nat -> parg) k, (k < n)%nat -> argk (map f (seq 0 n)) k = f k.
Proof.
  intros. unfold argk. rewrite nth_indep with (d' := f O) by (rewrite map_length, seq_length; lia).
  rewrite map_nth, seq_nth by lia. reflexivity.
Qed.

Lemma ptr_ofs_sum :
  ptr_ofs c pv = - zsum (map (fun k => if d_step (dimk pv k) then 0 else ofs_val c pv k * S k) p).
Proof using Hwf.
  unfold ptr_ofs. fold v n.
  transitivity (0 + zsum (map (fun k => if d_step (dimk pv k) then 0
                                        else - (ofs_val c pv k * S k)) (seq 0 n))).
  { rewrite <- fold_sum. unfold S. generalize 0. induction (seq 0 n) as [|k l IH]; intros a; [reflexivity|].
    cbn [fold_left]. rewrite IH. reflexivity. }
  rewrite (zsum_perm _ p (seq 0 n)) by apply p_perm.
  induction (seq 0 n) as [|k l IH]; [reflexivity|]. cbn [map]. rewrite !zsum_cons'.
  destruct (d_step _); lia.
Qed.

(* base pointer and offset of a point: the index variables cancel *)
Lemma base_ptr_ok : forall args args' cur,
  (forall k, (k < n)%nat -> d_step (dimk pv k) = true -> argk args k = argk args' k) ->
  var_base_ptr c pv args cur + base_ptr_offset c pv args' cur =
  vec_ptr_norm v (norm_args pv args' cur).
Proof using Hwf Hm.
  intros args args' cur H. unfold var_base_ptr, base_ptr_offset. fold v p.
  rewrite fold_sum. rewrite ptr_ofs_sum.
  rewrite (vpn_diff (norm_args pv args' cur) (norm_args pv (var_base_point c pv args) cur)).
  - set (A := vec_ptr_norm _ _).
    rewrite (zsum_ext (fun k => if d_step (dimk pv k) then 0
      else (nth k (norm_args pv args' cur) 0 - nth k (norm_args pv (var_base_point c pv args) cur) 0) * S k)
      (fun k => (if d_step (dimk pv k) then 0
                                   else norm_arg (dimk pv k) (argk args' k) (nth k cur 0) * S k) +
                                  (if d_step (dimk pv k) then 0 else - (ofs_val c pv k * S k)))) .
    + rewrite zsum_add.
      assert (E : zsum (map (fun k => if d_step (dimk pv k) then 0 else - (ofs_val c pv k * S k)) p) =
                  - zsum (map (fun k => if d_step (dimk pv k) then 0 else ofs_val c pv k * S k) p)).
      { induction p as [|k l IH]; [reflexivity|]. cbn [map]. rewrite !zsum_cons', IH.
        destruct (d_step _); lia. }
      rewrite E. unfold S. lia.
    + intros k Hk. apply p_in in Hk. destruct (d_step (dimk pv k)) eqn:E; [lia|].
      rewrite !norm_args_nth by assumption. unfold var_base_point. fold v n.
      rewrite argk_map by assumption. rewrite E. cbn [norm_arg]. lia.
  - apply norm_args_len.
  - apply norm_args_len.
  - intros k Hk E. rewrite !norm_args_nth by assumption. unfold var_base_point. fold v n.
    rewrite argk_map by assumption. rewrite E, H by assumption. reflexivity.
Qed.

Lemma loop_ptr_n : forall args cur i,
  loop_ptr c pv args cur i = loop_ptr0 c pv args cur + Z.of_nat i * S (p_loop c).
Proof.
  induction i as [|i IH]; [cbn [loop_ptr]; lia|]. cbn [loop_ptr]. rewrite IH. fold S. unfold S. lia.
Qed.

(* a point that passes the checks *)
Variable args : list parg.
Hypothesis Hc : check_rhs pv args = true.

Lemma check_at : forall k, (k < n)%nat ->
  (exists o, argk args k = AOfs o /\ is_misc (dimk pv k) = false) \/
  (exists a, argk args k = AConst a /\ is_misc (dimk pv k) = true).
Proof using Hc.
  intros k Hk. unfold check_rhs in Hc. rewrite forallb_forall in Hc.
  specialize (Hc k ltac:(apply in_seq; fold v n; lia)).
  destruct (argk args k); [left|right|discriminate].
  - apply negb_true_iff in Hc. eauto.
  - eauto.
Qed.

Definition dim_ofs (k : nat) : Z :=
  if use_domain c pv k then
    match argk args k with
    | AOfs o => if o =? 0 then 0 else if 1 <? d_vlen (dimk pv k) then norm_str (dimk pv k) o else o
    | _ => 0
    end
  else if is_misc (dimk pv k) then
    match argk args k with AConst a => a - nth k (pv_min pv) 0 | _ => 0 end
  else 0.

Lemma domain_not_misc : forall k, use_domain c pv k = true -> is_misc (dimk pv k) = false.
Proof.
  intros k H. unfold use_domain in H. apply andb_true_iff in H. destruct H as (H & _).
  unfold is_misc. rewrite H. apply andb_false_r.
Qed.

Lemma loop_offset_ok :
  loop_ptr_offset c pv args = Ok (zsum (map (fun k => dim_ofs k * S k) p)).
Proof using Hwf Hc.
  unfold loop_ptr_offset. fold v p.
  assert (G : forall q a, (forall k, In k q -> (k < n)%nat) ->
    rfold (fun acc k =>
    if use_domain c pv k then
      match argk args k with
      | AOfs ofs =>
          if ofs =? 0 then Ok acc
          else let nas := if 1 <? d_vlen (dimk pv k) then norm_str (dimk pv k) ofs else ofs in
               Ok (acc + nas * stride c pv k)
      | _ => UB
      end
    else if is_misc (dimk pv k) then
      match argk args k with
      | AConst a | AExpr a => Ok (acc + (a - nth k (pv_min pv) 0) * stride c pv k)
      | AOfs _ => UB
      end
    else Ok acc) q a = Ok (a + zsum (map (fun k => dim_ofs k * S k) q))).
  { induction q as [|k q IH]; intros a Hq; [cbn; f_equal; lia|].
    cbn [rfold map]. rewrite zsum_cons'.
    assert (Hk : (k < n)%nat) by (apply Hq; left; reflexivity).
    assert (Hq' : forall k, In k q -> (k < n)%nat) by (intros; apply Hq; right; assumption).
    unfold dim_ofs at 1. fold (S k).
    destruct (use_domain c pv k) eqn:Eu.
    - destruct (check_at k Hk) as [(o & -> & _)|(x & _ & Em)];
        [|rewrite (domain_not_misc k Eu) in Em; discriminate].
      destruct (o =? 0); cbn [rbind]; rewrite IH by assumption; f_equal; lia.
    - destruct (is_misc (dimk pv k)) eqn:Em.
      + destruct (check_at k Hk) as [(o & _ & E)|(x & -> & _)]; [congruence|].
        cbn [rbind]. rewrite IH by assumption. f_equal; lia.
      + cbn [rbind]. rewrite IH by assumption. f_equal; lia. }
  rewrite G by (intros; apply p_in; assumption). f_equal; lia.
Qed.

Lemma vec_pos_ok : forall cur cur' i, length args = n -> length cur = n ->
  loop_in_domain c pv -> advance (p_loop c) i cur cur' ->
  vec_pos c pv args cur i = Ok (vec_ptr_norm v (norm_args pv args cur')).
Proof using Hwf Hm Hc.
  intros cur cur' i La Lc Hl (Lc' & Ha). unfold vec_pos. fold v.
  destruct (nth_error (v_dims v) (p_loop c)) as [d|] eqn:El.
  - assert (Hk : (p_loop c < n)%nat) by (apply nth_error_Some; congruence).
    assert (Ed : d_domain (dimk pv (p_loop c)) = true).
    { apply Hl. apply dim_nth. assumption. }
    destruct (check_at _ Hk) as [(o & Eo & _)|(x & _ & Em)];
      [|unfold is_misc in Em; rewrite Ed, andb_false_r in Em; discriminate].
    rewrite Eo. rewrite loop_offset_ok. cbn [rbind]. f_equal. rewrite loop_ptr_n.
    unfold loop_ptr0. rewrite base_ptr_ok.
    2:{ intros k Hk' E. unfold loop_base_point. fold v n. rewrite argk_map by assumption.
        assert (d_domain (dimk pv k) = false).
        { destruct (dim_wf k Hk') as (_ & _ & _ & _ & _ & H6 & _). apply H6. assumption. }
        unfold use_domain, is_misc. rewrite H, E. reflexivity. }
    rewrite (vpn_diff (norm_args pv args cur') (norm_args pv (loop_base_point c pv args) cur));
      [|apply norm_args_len|apply norm_args_len|].
    + rewrite <- Z.add_assoc. f_equal.
      transitivity (zsum (map (fun k => if Nat.eqb k (p_loop c) then Z.of_nat i * S k else 0) p) +
                    zsum (map (fun k => dim_ofs k * S k) p)).
      { f_equal. rewrite zsum_one by apply p_nodup.
        rewrite (proj2 (existsb_exists _ _)); [reflexivity|].
        exists (p_loop c). split; [apply p_in; assumption|apply Nat.eqb_refl]. }
      rewrite <- zsum_add. apply zsum_ext. intros k Hk'. apply p_in in Hk'.
      assert (Hn : nth k cur' 0 = nth k cur 0 + (if Nat.eqb k (p_loop c) then Z.of_nat i else 0)).
      { apply Ha. lia. }
      rewrite !norm_args_nth by assumption. unfold loop_base_point. fold v n.
      rewrite argk_map by assumption. rewrite Hn. unfold dim_ofs.
      destruct (d_step (dimk pv k)) eqn:Es.
      * assert (Edk : d_domain (dimk pv k) = false).
        { destruct (dim_wf k Hk') as (_ & _ & _ & _ & _ & H6 & _). apply H6. assumption. }
        assert (Hne : (k =? p_loop c)%nat = false).
        { apply Nat.eqb_neq. intros ->. congruence. }
        rewrite Hne. unfold use_domain, is_misc. rewrite Edk, Es. cbn [andb negb]. lia.
      * destruct (use_domain c pv k) eqn:Eu.
        -- destruct (check_at k Hk') as [(o' & -> & _)|(x & _ & Em)];
             [|rewrite (domain_not_misc k Eu) in Em; discriminate].
           cbn [norm_arg]. change (0 =? 0) with true. cbn iota.
           destruct (o' =? 0), (1 <? d_vlen (dimk pv k)), (k =? p_loop c)%nat; lia.
        -- destruct (is_misc (dimk pv k)) eqn:Em.
           ++ destruct (check_at k Hk') as [(o' & _ & E)|(x & -> & _)]; [congruence|].
              cbn [norm_arg].
              assert (Hne : (k =? p_loop c)%nat = false).
              { apply Nat.eqb_neq. intros ->. unfold is_misc in Em.
                rewrite Ed, andb_false_r in Em. discriminate. }
              rewrite Hne. lia.
           ++ destruct (check_at k Hk') as [(o' & -> & _)|(x & _ & E)]; [|congruence].
              cbn [norm_arg].
              destruct (o' =? 0), (1 <? d_vlen (dimk pv k)), (k =? p_loop c)%nat; lia.
    + intros k Hk' E. rewrite !norm_args_nth by assumption. unfold loop_base_point. fold v n.
      rewrite argk_map by assumption.
      assert (Edk : d_domain (dimk pv k) = false).
      { destruct (dim_wf k Hk') as (_ & _ & _ & _ & _ & H6 & _). apply H6. assumption. }
      unfold use_domain, is_misc. rewrite Edk, E. cbn [andb negb].
      rewrite Ha by lia. destruct (Nat.eqb_spec k (p_loop c)) as [->|]; [congruence|].
      rewrite Z.add_0_r. reflexivity.
  - assert (Hk : (n <= p_loop c)%nat) by (apply nth_error_None; assumption).
    f_equal. f_equal. unfold norm_args. apply map_ext_in. intros k Hk'. apply in_seq in Hk'.
    fold v n in Hk'. f_equal. rewrite Ha by lia.
    destruct (Nat.eqb_spec k (p_loop c)) as [->|]; [lia|].
    unfold dget in *. rewrite Z.add_0_r. apply dget_set_other. lia.
Qed.

End P.

Lemma aligned_len : forall ds args, aligned_args ds args -> length args = length ds.
Proof. intros ds args H. induction H; cbn; congruence. Qed.

Theorem ptr_pos : forall c pv args cur cur' lanes i,
  let v := pv_var pv in
  wf_var v -> v_vec v = true -> whole_vectors (v_dims v) -> misc_fixed c pv -> loop_in_domain c pv ->
  check_rhs pv args = true -> aligned_args (v_dims v) args -> lanes_ok (v_dims v) lanes ->
  length cur = length (v_dims v) -> advance (p_loop c) i cur cur' ->
  exists a, vec_pos c pv args cur i = Ok a /\
    vec_elem_index v (point_elems (v_dims v) args cur' lanes) =
    a * VLEN v + vec_fold_layout v (get_fold_ofs v lanes).
Proof.
  intros c pv args cur cur' lanes i v W Hv Hwv Hm Hl Hc Ha Hla Lc Had.
  exists (vec_ptr_norm v (norm_args pv args cur')). split.
  - apply vec_pos_ok; try assumption. apply aligned_len. assumption.
  - destruct (elems_vec (v_dims v) args cur' lanes (norm_args pv args cur')) as (E1 & E2 & E3 & E4);
      try assumption; try (apply W).
    + destruct Had as (-> & _). assumption.
    + apply norm_args_len.
    + intros k Hk d. split; [apply (norm_args_nth pv args cur' k Hk)|].
      destruct (check_at pv args Hc k Hk) as [(o & -> & Em)|(x & -> & Em)]; exact Em.
    + rewrite E1, vec_lane by assumption. rewrite E3, E4. reflexivity.
Qed.

(* the base pointer of a var that is not scratch *)
Theorem base_inside : forall c pv args cur,
  let v := pv_var pv in
  wf_var v -> p_offsets c = false -> pv_scratch pv = false ->
  (forall k d, nth_error (v_dims v) k = Some d ->
     1 <= d_dom d /\ (d_step d = false -> d_lofs d = if d_domain d then 0 else nth k (pv_min pv) 0)) ->
  0 <= var_base_ptr c pv args cur < zprod (map d_vec_alloc (v_dims v)).
Proof.
  intros c pv args cur v W Ho Hs Hd. unfold var_base_ptr, vec_ptr_norm. fold v.
  set (ss := map d_vec_alloc (v_dims v)). set (n := length (v_dims v)).
  assert (Hdk : forall k, (k < n)%nat -> 1 <= d_vec_alloc (dimk pv k) /\
    0 <= vec_norm_adj_idx (dimk pv k)
           (nth k (norm_args pv (var_base_point c pv args) cur) 0) < d_vec_alloc (dimk pv k)).
  { intros k Hk. rewrite norm_args_nth by assumption.
    unfold var_base_point. fold v n. rewrite (argk_map pv) by assumption.
    assert (En : nth_error (v_dims v) k = Some (dimk pv k)) by (apply nth_error_nth'; assumption).
    destruct (Hd k _ En) as (Hdom & Hl).
    destruct W as (W & _). rewrite Forall_forall in W.
    destruct (W (dimk pv k) ltac:(apply nth_In; assumption)) as (H1 & H2 & H3 & H4 & H5 & H6 & H7).
    unfold vec_norm_adj_idx, d_vec_alloc, d_alloc.
    destruct (d_domain (dimk pv k)) eqn:Ed.
    - destruct (d_step (dimk pv k)) eqn:Es; [destruct (H6 eq_refl) as (? & _); discriminate|].
      rewrite (Hl eq_refl). cbn [norm_arg]. unfold ofs_val. rewrite Ho, Hs. unfold is_misc.
      rewrite Ed, Es. cbn [andb negb]. rewrite !Z.quot_div_nonneg by lia.
      replace (d_dom (dimk pv k) + (d_lpad (dimk pv k) + d_rpad (dimk pv k)))
        with (d_dom (dimk pv k) + d_lpad (dimk pv k) + d_rpad (dimk pv k)) by lia.
      apply Z.mod_divide in H7; [|lia]. destruct H7 as (q & Hq). rewrite Hq, Z.div_mul by lia.
      rewrite Z.div_0_l by lia.
      assert (d_lpad (dimk pv k) / d_vlen (dimk pv k) < q).
      { apply Z.div_lt_upper_bound; nia. }
      assert (0 <= d_lpad (dimk pv k) / d_vlen (dimk pv k)) by (apply Z.div_pos; lia).
      split; lia.
    - destruct (H5 eq_refl) as (E1 & E2 & E3). rewrite E3, E1, !Z.quot_1_r. split; [lia|].
      destruct (d_step (dimk pv k)) eqn:Es.
      + unfold wrap_step. rewrite imod_flr_spec by lia. apply Z.mod_pos_bound. lia.
      + rewrite (Hl eq_refl). cbn [norm_arg]. unfold ofs_val. rewrite Ho, Hs. unfold is_misc.
        rewrite Ed, Es. cbn [andb negb]. lia. }
  destruct (layout_bijective n (v_perm v) ss) as (B & _).
  - apply W.
  - apply map_length.
  - apply Forall_forall. intros x Hx. apply In_nth with (d := d_vec_alloc (mkDim false false 0 0 0 0 0 1)) in Hx.
    destruct Hx as (k & Hk & <-). unfold ss in *. rewrite map_length in Hk. rewrite map_nth. apply Hdk. assumption.
  - set (l := norm_args pv (var_base_point c pv args) cur) in *.
    assert (Ll : length l = n) by apply norm_args_len.
    assert (Lm : length (map2 vec_norm_adj_idx (v_dims v) l) = n).
    { unfold map2. rewrite map_length, combine_length. lia. }
    apply B. apply in_sizes_dget.
    + unfold ss. rewrite map_length, Lm. reflexivity.
    + intros k Hk. unfold ss in *. rewrite map_length in Hk. rewrite (ss_nth pv) by assumption.
      unfold dget. rewrite nth_map2 with (a := mkDim false false 0 0 0 0 0 1) (b := 0) by (auto; lia).
      apply Hdk. assumption.
Qed.

(* the address of an unaligned load *)
Theorem unaligned_ok : forall pv args cur,
  let v := pv_var pv in
  check_rhs pv args = true -> length args = length (v_dims v) -> length cur = length (v_dims v) ->
  (forall k d, nth_error (v_dims v) k = Some d ->
     if d_step d then True
     else if d_domain d then d_rofs d + nth k cur 0 * d_vlen d = nth k cur 0
     else d_rofs d = 0) ->
  unaligned_pos false pv args cur =
  Ok (vec_elem_index v (point_elems (v_dims v) args cur (map (fun _ => 0) (v_dims v)))).
Proof.
  intros pv args cur v Hc La Lc H. unfold unaligned_pos. f_equal. fold v. f_equal.
  assert (Hc' : forall k, (k < length (v_dims v))%nat ->
    match argk args k with
    | AOfs _ => is_misc (nth k (v_dims v) (mkDim false false 0 0 0 0 0 1)) = false
    | AConst _ => is_misc (nth k (v_dims v) (mkDim false false 0 0 0 0 0 1)) = true
    | AExpr _ => False end).
  { intros k Hk. destruct (check_at pv args Hc k Hk) as [(o & -> & E)|(a & -> & E)]; exact E. }
  clear Hc. revert args cur La Lc H Hc'. generalize (v_dims v) as ds.
  induction ds as [|d ds IH]; intros [|a args] [|x cur] La Lc H Hc'; try discriminate; [reflexivity|].
  cbn [length seq map point_elems]. f_equal.
  - specialize (H O d eq_refl). specialize (Hc' O ltac:(cbn; lia)). unfold argk in *. cbn [nth] in *.
    unfold point_elem, raw_arg, is_misc in *. destruct a as [o|q|e]; [| |destruct Hc'].
    + destruct (d_step d); [reflexivity|]. destruct (d_domain d); [lia|discriminate].
    + destruct (d_step d), (d_domain d); try discriminate. lia.
  - rewrite <- seq_shift, map_map. rewrite <- (IH args cur).
    + reflexivity.
    + cbn in La; lia.
    + cbn in Lc; lia.
    + intros k d' E. exact (H (Datatypes.S k) d' E).
    + intros k Hk. exact (Hc' (Datatypes.S k) ltac:(cbn; lia)).
Qed.
