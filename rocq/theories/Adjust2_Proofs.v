From Coq Require Import ZifyBool.
From Verif Require Import Base Cover_Spec Idiv_Model Idiv_Proofs Scan_Proofs Tile_Model TileCfg_Spec Adjust_Model Adjust_Spec Adjust_Proofs.

Lemma nested_all : forall e k, let n := length (z_d (k_rank k)) in
  Forall (fun x => 1 <= x) (z_d (k_rank k)) -> Forall (fun x => 1 <= x) (a_fold e) -> length (a_fold e) = n ->
  Forall (fun s => length (z_d s) = n) [k_mega k; k_block k; k_micro k; k_nano k; k_pico k; k_rktile k; k_mgtile k; k_bktile k; k_mctile k; k_nntile k] ->
  exists k', adjust_settings e k = Ok k' /\ k_rank k' = k_rank k /\
    let dflt := fun l => map (fun x => if x =? 0 then a_def e else x) l in
    all_fit (z_d (k_rank k)) (a_fold e) (z_d (k_mega k)) (z_d (k_mega k')) /\
    all_fit (z_d (k_mega k')) (a_fold e) (if a_offload e then z_d (k_block k) else dflt (z_d (k_block k))) (z_d (k_block k')) /\
    all_fit (z_d (k_block k')) (a_fold e) (z_d (k_micro k)) (z_d (k_micro k')) /\
    nested (z_d (k_micro k')) (a_fold e) (z_d (k_nano k')) /\
    (a_threads e <= 1 \/ zsum (z_t (k_nano k) :: z_d (k_nano k)) <> 0 -> all_fit (z_d (k_micro k')) (a_fold e) (z_d (k_nano k)) (z_d (k_nano k'))) /\
    all_fit (z_d (k_nano k')) (a_fold e) (if a_offload e then dflt (z_d (k_pico k)) else z_d (k_pico k)) (z_d (k_pico k')) /\
    (a_tiling e = true ->
       all_fit (z_d (k_rank k)) (z_d (k_mega k')) (z_d (k_rktile k)) (z_d (k_rktile k')) /\
       all_fit (z_d (k_mega k')) (z_d (k_block k')) (z_d (k_mgtile k)) (z_d (k_mgtile k')) /\
       all_fit (z_d (k_block k')) (z_d (k_micro k')) (z_d (k_bktile k)) (z_d (k_bktile k')) /\
       all_fit (z_d (k_micro k')) (z_d (k_nano k')) (z_d (k_mctile k)) (z_d (k_mctile k')) /\
       all_fit (z_d (k_nano k')) (z_d (k_pico k')) (z_d (k_nntile k)) (z_d (k_nntile k'))).
Proof.
  intros e k n H1 H2 H3 H4. destruct (adjust_ok e k (conj H1 (conj H2 (conj H3 H4)))) as (k' & E & R & Fm & Fb & Fc & Nn & Fn & Fp & Ft).
  exists k'. split; [exact E|]. split; [exact R|]. cbv zeta. split; [exact Fm|]. split; [exact Fb|]. split; [exact Fc|]. split; [exact Nn|]. split; [exact Fn|].
  split; [exact Fp|]. intros Et. rewrite Et in Ft. exact Ft.
Qed.

Lemma chain_all : forall e k k', hyp e k -> adjust_settings e k = Ok k' ->
  k_rank k' = k_rank k /\
  nested (z_d (k_rank k)) (a_fold e) (z_d (k_mega k')) /\ nested (z_d (k_mega k')) (a_fold e) (z_d (k_block k')) /\
  nested (z_d (k_block k')) (a_fold e) (z_d (k_micro k')) /\ nested (z_d (k_micro k')) (a_fold e) (z_d (k_nano k')) /\
  nested (z_d (k_nano k')) (a_fold e) (z_d (k_pico k')).
Proof.
  intros e k k' H E. destruct (adjust_ok e k H) as (k1 & E1 & R & Fm & Fb & Fc & Nn & _ & Fp & _). rewrite E1 in E. inversion E; subst k1. clear E.
  destruct H as (Pr & Pf & Lf & La). cbv zeta in *. set (n := length (z_d (k_rank k))) in *.
  repeat match goal with H : Forall _ (_ :: _) |- _ => inversion H; clear H; subst end.
  assert (Lb : length (asked_block e k) = n) by (unfold asked_block; destruct (a_offload e); [|rewrite map_length]; assumption).
  assert (Lp : length (asked_pico e k) = n) by (unfold asked_pico; destruct (a_offload e); [rewrite map_length|]; assumption).
  assert (Nm : nested (z_d (k_rank k)) (a_fold e) (z_d (k_mega k'))) by (eapply all_fit_nested; [|exact Fm]; assumption).
  assert (Lm : length (z_d (k_mega k')) = n) by apply Nm.
  assert (Nb : nested (z_d (k_mega k')) (a_fold e) (z_d (k_block k'))) by (eapply all_fit_nested; [|exact Fb]; rewrite Lm; assumption).
  assert (Lk : length (z_d (k_block k')) = n) by (rewrite (proj1 Nb); exact Lm).
  assert (Nc : nested (z_d (k_block k')) (a_fold e) (z_d (k_micro k'))) by (eapply all_fit_nested; [|exact Fc]; rewrite Lk; assumption).
  assert (Lc : length (z_d (k_micro k')) = n) by (rewrite (proj1 Nc); exact Lk).
  assert (Lnn : length (z_d (k_nano k')) = n) by (rewrite (proj1 Nn); exact Lc).
  split; [exact R|]. split; [exact Nm|]. split; [exact Nb|]. split; [exact Nc|]. split; [exact Nn|].
  eapply all_fit_nested; [|exact Fp]; rewrite Lnn; assumption.
Qed.

Lemma aligned_all : forall e k k', let n := length (z_d (k_rank k)) in
  Forall (fun x => 1 <= x) (z_d (k_rank k)) -> Forall (fun x => 1 <= x) (a_fold e) -> length (a_fold e) = n ->
  Forall (fun s => length (z_d s) = n) [k_mega k; k_block k; k_micro k; k_nano k; k_pico k; k_rktile k; k_mgtile k; k_bktile k; k_mctile k; k_nntile k] ->
  adjust_settings e k = Ok k' ->
  Forall (fun s => nested (z_d (k_rank k)) (a_fold e) (z_d s)) [k_mega k'; k_block k'; k_micro k'; k_nano k'; k_pico k'].
Proof.
  intros e k k' n H1 H2 H3 H4 E. destruct (chain_all e k k' (conj H1 (conj H2 (conj H3 H4))) E) as (_ & A & B & C & D & F).
  assert (B' := nest_trans _ _ _ _ H3 A B). assert (C' := nest_trans _ _ _ _ H3 B' C). assert (D' := nest_trans _ _ _ _ H3 C' D). assert (F' := nest_trans _ _ _ _ H3 D' F).
  repeat (constructor; [assumption|]). constructor.
Qed.
Lemma again_all : forall e k k', let n := length (z_d (k_rank k)) in
  Forall (fun x => 1 <= x) (z_d (k_rank k)) -> Forall (fun x => 1 <= x) (a_fold e) -> length (a_fold e) = n ->
  Forall (fun s => length (z_d s) = n) [k_mega k; k_block k; k_micro k; k_nano k; k_pico k; k_rktile k; k_mgtile k; k_bktile k; k_mctile k; k_nntile k] ->
  (0 < n)%nat -> 0 <= z_t (k_nano k) -> adjust_settings e k = Ok k' -> adjust_settings e k' = Ok k'.
Proof.
  intros e k k' n H1 H2 H3 H4 Hn Ht E. apply (adjust_again e k); [exact (conj H1 (conj H2 (conj H3 H4)))|exact Ht| |exact E].
  intros Q. unfold n in Hn. rewrite Q in Hn. cbn in Hn. lia.
Qed.
Lemma counts_all : forall inner outer mults, length mults = length (z_d outer) -> length (z_d inner) = length (z_d outer) ->
  Forall (fun x => 1 <= x) (z_d outer) -> Forall (fun x => 1 <= x) mults ->
  exists cs, length cs = length (z_d outer) /\ snd (find_num_subsets inner outer mults) = zprod cs /\
    forall j o r c, nth_error (z_d outer) j = Some o -> nth_error (z_d (fst (find_num_subsets inner outer mults))) j = Some r -> nth_error cs j = Some c -> tiles_needed o r c.
Proof.
  intros inner outer mults L1 L2 P1 P2. unfold find_num_subsets. cbn [fst snd z_d].
  destruct (count_needed (z_d outer) (fit_dims (z_d outer) mults (z_d inner))) as (cs & L & E & H).
  - apply fit_dims_len; assumption.
  - exact P1.
  - eapply nested_pos; [|apply fit_dims_nested]; eassumption.
  - exists cs. split; [exact L|]. split; [symmetry; exact E|exact H].
Qed.

Lemma nth_fit : forall outer mults ds j, (j < length outer)%nat -> length mults = length outer -> length ds = length outer ->
  nth j (fit_dims outer mults ds) 0 = fit (nth j outer 0) (nth j mults 0) (nth j ds 0).
Proof.
  induction outer as [|o outer IH]; intros [|m mults] [|d ds] [|j] Hj L1 L2; cbn in *; try lia; apply IH; lia.
Qed.
Lemma set_nth_nth : forall k v l i, (i < length l)%nat -> nth i (set_nth k v l) 0 = if Nat.eqb i k then v else nth i l 0.
Proof.
  intros k v l. revert k. induction l as [|x l IH]; intros [|k] [|i] Hi; cbn in *; try lia; try reflexivity; apply IH; lia.
Qed.
Lemma pos_nth : forall l j, pos l -> (j < length l)%nat -> 1 <= nth j l 0.
Proof. intros l j P Hj. unfold pos in P. rewrite Forall_forall in P. apply P. apply nth_In. exact Hj. Qed.

Lemma slabs_all : forall e k k', let n := length (z_d (k_rank k)) in
  Forall (fun x => 1 <= x) (z_d (k_rank k)) -> Forall (fun x => 1 <= x) (a_fold e) -> length (a_fold e) = n ->
  Forall (fun s => length (z_d s) = n) [k_mega k; k_block k; k_micro k; k_nano k; k_pico k; k_rktile k; k_mgtile k; k_bktile k; k_mctile k; k_nntile k] ->
  (2 <= n)%nat -> 1 < a_threads e -> z_t (k_nano k) = 0 -> Forall (fun x => x = 0) (z_d (k_nano k)) -> adjust_settings e k = Ok k' ->
  exists j, (j < n)%nat /\
    nth j (z_d (k_nano k')) 0 = Z.min (nth j (a_fold e) 0) (nth j (z_d (k_micro k')) 0) /\
    (forall i, (i < n)%nat -> i <> j -> nth i (z_d (k_nano k')) 0 = nth i (z_d (k_micro k')) 0) /\
    forall i, (i < n)%nat -> i <> a_inner e -> a_threads e * nth i (a_fold e) 0 <= nth i (z_d (k_block k')) 0 ->
      j <> a_inner e /\ a_threads e * nth j (a_fold e) 0 <= nth j (z_d (k_block k')) 0.
Proof.
  intros e k k' n H1 H2 H3 H4 Hn Ht Hz Ha E.
  destruct (chain_all e k k' (conj H1 (conj H2 (conj H3 H4))) E) as (_ & A & B & C & D & _).
  assert (Lb : length (z_d (k_block k')) = n) by (rewrite (proj1 B); apply A).
  assert (Lc : length (z_d (k_micro k')) = n) by (rewrite (proj1 C); exact Lb).
  assert (Ln0 : length (z_d (k_nano k)) = n) by (do 3 apply Forall_inv_tail in H4; exact (Forall_inv H4)).
  assert (PC : pos (z_d (k_micro k'))) by (eapply nested_pos; [|exact C]; rewrite Lb; exact H3).
  assert (PB : pos (z_d (k_block k'))) by (eapply nested_pos; [|exact B]; rewrite (proj1 A); exact H3).
  assert (Sz : zsum (all_vals (k_nano k)) = 0).
  { unfold all_vals. rewrite Hz. clear -Ha. unfold zsum. cbn. induction Ha as [|x l -> _ IH]; [reflexivity|]. cbn in *. lia. }
  assert (Q : exists np, nano_default e (k_block k') (k_nano k) (k_posn k) = Ok np /\ k_nano k' = fitted (fst np) (k_micro k') (a_fold e)).
  { unfold adjust_settings in E. cbv zeta in E.
    match type of E with context [nano_default e ?b ?nn ?pp] => destruct (nano_default_ok e b nn pp) as (np & En & _); rewrite En in E; cbn [rbind] in E end.
    match type of E with rbind ?r _ = _ => destruct r as [p| | |] eqn:Er; cbn [rbind] in E; try discriminate end.
    inversion E as [E2]. clear E. exists np. destruct (a_tiling e); cbn [k_block k_micro k_nano]; (split; [exact En|reflexivity]). }
  destruct Q as (np & En & ->). unfold nano_default in En. rewrite Sz in En. replace (1 <? a_threads e) with true in En by lia. cbn [andb Z.eqb] in En.
  match type of En with context [first_dim ?i ?j ?ok ?n] => destruct (first_dim_ok i ok n j) as (o & Eo & Po); [intros; eauto|] end.
  rewrite Eo in En. cbn [rbind] in En. rewrite Lb in En, Po. replace (2 <=? n)%nat with true in En by (symmetry; apply Nat.leb_le; exact Hn). inversion En as [En']. clear En.
  set (j := match o with Some j => j | None => 0%nat end).
  assert (Hj : (j < n)%nat) by (unfold j; destruct o; [destruct Po; lia|lia]).
  assert (Ek : Z.to_nat (match o with Some j => Z.of_nat (S j) | None => 1 end - 1) = j) by (unfold j; destruct o; lia).
  rewrite Ek. cbn [fst]. exists j. split; [exact Hj|].
  assert (Fj : 1 <= nth j (a_fold e) 0) by (apply pos_nth; [exact H2|rewrite H3; exact Hj]).
  assert (Fd : nth j (a_fold e) 1 = nth j (a_fold e) 0) by (apply nth_indep; rewrite H3; exact Hj).
  assert (Hfit : forall i, (i < n)%nat -> nth i (z_d (fitted (mkSizes (z_t (k_nano k)) (set_nth j (nth j (a_fold e) 1) (z_d (k_nano k)))) (k_micro k') (a_fold e))) 0 =
            fit (nth i (z_d (k_micro k')) 0) (nth i (a_fold e) 0) (if Nat.eqb i j then nth j (a_fold e) 0 else nth i (z_d (k_nano k)) 0)).
  { intros i Hi. unfold fitted, find_num_subsets. cbn [fst z_d]. rewrite nth_fit; [|rewrite Lc; exact Hi|rewrite H3, Lc; reflexivity|rewrite set_nth_len, Lc; exact Ln0].
    rewrite set_nth_nth by (rewrite Ln0; exact Hi). rewrite Fd. reflexivity. }
  split; [|split].
  - rewrite (Hfit j Hj). rewrite Nat.eqb_refl. pose proof (pos_nth _ j PC ltac:(rewrite Lc; exact Hj)) as Cj.
    destruct (fit_fits (nth j (z_d (k_micro k')) 0) (nth j (a_fold e) 0) (nth j (a_fold e) 0) Cj Fj) as [G1 G2 G3 G4].
    destruct (G3 Fj) as (G5 & G6). specialize (G6 _ (Z.divide_refl _) ltac:(lia)). lia.
  - intros i Hi Nij. rewrite (Hfit i Hi). replace (Nat.eqb i j) with false by (symmetry; apply Nat.eqb_neq; exact Nij).
    assert (Zi : nth i (z_d (k_nano k)) 0 = 0). { rewrite Forall_forall in Ha. apply Ha. apply nth_In. rewrite Ln0. exact Hi. }
    rewrite Zi. apply (fit_fits (nth i (z_d (k_micro k')) 0) (nth i (a_fold e) 0) 0); [apply pos_nth; [exact PC|rewrite Lc; exact Hi]|apply pos_nth; [exact H2|rewrite H3; exact Hi]|lia].
  - intros i Hi Ni Hbig.
    assert (QB : forall x, (x < n)%nat -> (a_threads e <=? Z.quot (nth x (z_d (k_block k')) 0) (nth x (a_fold e) 1)) = true <-> a_threads e * nth x (a_fold e) 0 <= nth x (z_d (k_block k')) 0).
    { intros x Hx. rewrite (nth_indep (a_fold e) 1 0) by (rewrite H3; exact Hx).
      pose proof (pos_nth _ x H2 ltac:(rewrite H3; exact Hx)) as Fx. pose proof (pos_nth _ x PB ltac:(rewrite Lb; exact Hx)) as Bx.
      rewrite Z.quot_div_nonneg by lia. set (f := nth x (a_fold e) 0) in *. set (b := nth x (z_d (k_block k')) 0) in *.
      pose proof (Z.div_mod b f ltac:(lia)). pose proof (Z.mod_pos_bound b f ltac:(lia)). split; intros; nia. }
    unfold j. destruct o as [i0|].
    + destruct Po as (P1 & P2 & P3 & _). split; [exact P2|]. apply QB; [lia|]. inversion P3. reflexivity.
    + exfalso. specialize (Po i ltac:(lia) Ni). apply QB in Hbig; [|exact Hi]. inversion Po as [Po']. rewrite Hbig in Po'. discriminate.
Qed.

Lemma tiling_all : forall e k k' overlap s j, let n := length (z_d (k_rank k)) in
  Forall (fun x => 1 <= x) (z_d (k_rank k)) -> Forall (fun x => 1 <= x) (a_fold e) -> length (a_fold e) = n ->
  Forall (fun s => length (z_d s) = n) [k_mega k; k_block k; k_micro k; k_nano k; k_pico k; k_rktile k; k_mgtile k; k_bktile k; k_mctile k; k_nntile k] ->
  adjust_settings e k = Ok k' -> (j < n)%nat -> nth j (a_fold e) 0 <= nth j (z_d (k_rank k)) 0 ->
  d_fold s = nth j (a_fold e) 0 -> d_rksz s = nth j (z_d (k_rank k')) 0 -> d_mgsz s = nth j (z_d (k_mega k')) 0 ->
  d_bksz s = nth j (z_d (k_block k')) 0 -> d_mcsz s = nth j (z_d (k_micro k')) 0 ->
  0 <= d_halo s -> (d_first s = false -> 1 < d_nranks s) -> (d_last s = false -> 1 < d_nranks s) ->
  (overlap = true -> d_nranks s <= 1 -> d_ib s <= d_rb s /\ d_rb s + d_rksz s <= d_ie s) ->
  dim_settings overlap s.
Proof.
  intros e k k' overlap s j n H1 H2 H3 H4 E Hj Hfr Ef Er Em Eb Ec Hh Hf Hl Hi.
  pose proof (aligned_all e k k' H1 H2 H3 H4 E) as Al. destruct (chain_all e k k' (conj H1 (conj H2 (conj H3 H4))) E) as (R & _).
  rewrite R in Er. pose proof (pos_nth _ j H2 ltac:(rewrite H3; exact Hj)) as Fj. pose proof (pos_nth _ j H1 Hj) as Rj.
  assert (G : forall s, In s [k_mega k'; k_block k'; k_micro k'; k_nano k'; k_pico k'] ->
            1 <= nth j (z_d s) 0 /\ (nth j (z_d s) 0 = nth j (z_d (k_rank k)) 0 \/ (nth j (a_fold e) 0 | nth j (z_d s) 0))).
  { intros x Hx. rewrite Forall_forall in Al. destruct (Al x Hx) as (L & H).
    destruct (H j (nth j (z_d (k_rank k)) 0) (nth j (a_fold e) 0) (nth j (z_d x) 0)) as (A & B); [apply nth_error_nth'; exact Hj|apply nth_error_nth'; rewrite H3; exact Hj|apply nth_error_nth'; rewrite L; exact Hj|]. split; [lia|exact B]. }
  destruct (G (k_mega k') ltac:(left; reflexivity)) as (G1 & _). destruct (G (k_block k') ltac:(right; left; reflexivity)) as (G2 & G2'). destruct (G (k_micro k') ltac:(right; right; left; reflexivity)) as (G3 & _).
  constructor; try assumption; try lia.
  rewrite Ef, Eb. destruct G2' as [-> | Hd]; [exact Hfr|]. apply Z.divide_pos_le; [lia|exact Hd].
Qed.
