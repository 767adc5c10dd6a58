(* Proofs about jobs of several ranks: the passes of a rank, and the whole job. *)
From Coq Require Import ZifyBool.
From Verif Require Import Base Cover_Spec Idiv_Model Idiv_Proofs Loops_Model Tile_Model Sched_Spec Sched_Proofs Sched2_Proofs Tile_Spec TileCfg_Spec TileLoops_Proofs TileSteps_Proofs Tile_Proofs Tile2_Proofs Tile3_Proofs Tile4_Proofs
  Job_Model Job_Spec Job_Proofs.

(* a program that is in good order *)
Lemma regs_run : forall c h dom first regs Q, cfg_ok c h dom -> good_regs c h (Kf c first) dom regs Q -> forall l, runs_regions (programs dom regs) l ->
  NoDup l /\ (forall x, In x l <-> dom (i_s x) (i_p x) /\ Q (i_t x) (i_s x) (i_p x)) /\ pairs (fun x y => ~ bad c h (Kf c first) y x) l.
Proof.
  intros c h dom first regs Q Ok1 G l R. set (badx := bad c h (Kf c first)).
  destruct G as [G1 G2 G3 G4]. change (programs dom regs) with (map (map (map (task dom))) regs) in R.
  assert (Sub : forall g, In g regs -> forall th, In th g -> forall e, In e th -> In e (evs regs)).
  { intros g Hg th Hth e He. apply evs_In. exists g. split; [exact Hg|]. apply in_concat. exists th. split; assumption. }
  assert (TO : forall e, task_ok badx (task dom e)).
  { intros e x y (X1 & X2 & X3 & X4) (Y1 & Y2 & Y3 & Y4) (B1 & B2). unfold Kx in B2. rewrite X1, X2, Y1, Y2, Z.sub_diag in B2.
    destruct (k_dom _ _ _ Ok1 _ _ X4) as (Lx & _). destruct (k_dom _ _ _ Ok1 _ _ Y4) as (Ly & _).
    assert (i_p x = i_p y). { apply (nth_ext _ _ 0 0); [congruence|]. intros j Hj. rewrite Lx in Hj. specialize (B2 j Hj). rewrite Z.mul_0_r in B2. lia. }
    destruct x as [tx sx px], y as [ty sy py]. cbn in *. congruence. }
  assert (P : pairs (fun x y => ~ badx y x) l).
  { apply (regions_pairs badx _ _ R).
    - intros g Hg. apply in_map_iff in Hg. destruct Hg as (g0 & <- & Hg). destruct (G1 g0 Hg) as (A & B). split; [|split].
      + intros t k Ht Hk. apply in_map_iff in Ht. destruct Ht as (th & <- & Hth). apply in_map_iff in Hk. destruct Hk as (e & <- & He). apply TO.
      + intros t Ht. apply in_map_iff in Ht. destruct Ht as (th & <- & Hth). apply pairs_map. apply (A th Hth).
      + apply pairs_map. eapply pairs_impl; [|exact B]. intros th th' _ _ H k k' Hk Hk'. apply in_map_iff in Hk, Hk'. destruct Hk as (e & <- & He), Hk' as (e' & <- & He'). exact (H e e' He He').
    - apply pairs_map. eapply pairs_impl; [|exact G2]. intros g g' _ _ H t k t' k' Ht Hk Ht' Hk'.
      apply in_map_iff in Ht, Ht'. destruct Ht as (th & <- & Hth), Ht' as (th' & <- & Hth'). apply in_map_iff in Hk, Hk'. destruct Hk as (e & <- & He), Hk' as (e' & <- & He').
      apply H; apply in_concat; eexists; split; eassumption. }
  split; [|split; [|exact P]].
  - eapply pairs_NoDup; [|exact P]. intros x N. apply N. split; [lia|]. intros j Hj. rewrite !Z.sub_diag, Z.mul_0_r. cbn. lia.
  - intros x. rewrite (regions_In _ _ R x). split.
    + intros (g & t & k & Hg & Ht & Hk & Hx). apply in_map_iff in Hg. destruct Hg as (g0 & <- & Hg). apply in_map_iff in Ht. destruct Ht as (th & <- & Hth).
      apply in_map_iff in Hk. destruct Hk as (e & <- & He). destruct Hx as (X1 & X2 & X3 & X4). split; [exact X4|]. rewrite X1, X2. apply G3; [|exact X3]. exact (Sub g0 Hg th Hth e He).
    + intros (Hd & Hx). destruct (G4 _ _ _ Hd Hx) as (e & He & X1 & X2 & X3).
      apply evs_In in He. destruct He as (g & Hg & He). apply in_concat in He. destruct He as (th & Hth & He).
      exists (map (map (task dom)) g), (map (task dom) th), (task dom e). split; [apply in_map; exact Hg|]. split; [apply in_map; exact Hth|]. split; [apply in_map; exact He|].
      repeat split; auto.
Qed.

(* the layers of a pass and of a run *)
Definition lay_steps (nst b e : Z) : list (Z * Z) := flat_map (fun t => map (fun s => (t, s)) (zseq nst)) (micro_steps b e).
Definition lay_of (nst : Z) (p : pass) : list (Z * Z) :=
  match fst p with Some s => [(fst (snd p), s)] | None => lay_steps nst (fst (snd p)) (snd (snd p)) end.

Lemma todo_lay : forall c b e, todo_of c None b e = lay_steps (c_nst c) b e.
Proof. reflexivity. Qed.

Lemma flat_map_flat : forall A B C (f : B -> list C) (g : A -> list B) l, flat_map f (flat_map g l) = flat_map (fun x => flat_map f (g x)) l.
Proof. intros A B C f g l. induction l as [|x l IH]; [reflexivity|]. cbn. rewrite flat_map_app, IH. reflexivity. Qed.
Lemma flat_map_map : forall A B C (f : B -> list C) (g : A -> B) l, flat_map f (map g l) = flat_map (fun x => f (g x)) l.
Proof. intros A B C f g l. induction l as [|x l IH]; [reflexivity|]. cbn. rewrite IH. reflexivity. Qed.
Lemma flat_map_ext' : forall A B (f g : A -> list B) l, (forall x, f x = g x) -> flat_map f l = flat_map g l.
Proof. intros A B f g l H. induction l as [|x l IH]; [reflexivity|]. cbn. rewrite H, IH. reflexivity. Qed.
Lemma flat_map_one : forall A B (f : A -> B) l, flat_map (fun x => [f x]) l = map f l.
Proof. intros A B f l. induction l as [|x l IH]; [reflexivity|]. cbn. rewrite IH. reflexivity. Qed.

Lemma all_layers : forall nst wf first last, 0 <= wf -> flat_map (lay_of nst) (passes nst wf first last) = lay_steps nst first (last + dir_of first last).
Proof.
  intros nst wf first last Hw. unfold passes. cbv zeta. rewrite flat_map_flat. destruct (wf =? 0) eqn:W.
  - replace (Z.max wf 1) with 1 by lia. rewrite Z.mul_1_l. unfold lay_steps, micro_steps. rewrite flat_map_map.
    rewrite dir_dir. apply flat_map_ext'. intros (b, e). rewrite flat_map_map. unfold lay_of. cbn [fst snd]. apply flat_map_one.
  - replace (Z.max wf 1) with wf by lia. unfold lay_steps at 1. rewrite <- (chunks_concat wf first (last + dir_of first last)) by lia. rewrite dir_dir, flat_map_flat.
    apply flat_map_ext'. intros (b, e). cbn [flat_map fst snd lay_of]. rewrite app_nil_r. reflexivity.
Qed.
Lemma lay_steps_In : forall nst first last t s, In (t, s) (lay_steps nst first (last + dir_of first last)) <-> between first last t /\ 0 <= s < nst.
Proof.
  intros nst first last t s. unfold lay_steps. rewrite in_flat_map, micro_steps_eq, dir_dir, dir_abs. unfold between. split.
  - intros (t' & H1 & H2). apply in_map_iff in H1, H2. destruct H1 as (u & <- & Hu), H2 as (s' & E & Hs). injection E as <- <-. apply zseq_In in Hu, Hs. split; [|exact Hs].
    unfold dir_of. destruct (first <=? last) eqn:Q; lia.
  - intros (H1 & H2). exists t. split; [|apply in_map_iff; exists s; split; [reflexivity|apply zseq_In; exact H2]].
    apply in_map_iff. exists (Z.abs (t - first)). split; [|apply zseq_In]; unfold dir_of; destruct (first <=? last) eqn:Q; lia.
Qed.
Lemma zseq_pairs : forall k, pairs Z.lt (zseq k).
Proof.
  intros k. unfold zseq. generalize (Z.to_nat k). intros N. generalize 0%nat at 1. revert N. induction N as [|N IH]; intros a; [exact I|].
  cbn [seq map]. split; [|apply IH]. intros y Hy. apply in_map_iff in Hy. destruct Hy as (z & <- & Hz). apply in_seq in Hz. lia.
Qed.
Lemma lay_steps_lt : forall nst b e, pairs (lay_lt (dir_of b e)) (lay_steps nst b e).
Proof.
  intros nst b e. unfold lay_steps. rewrite micro_steps_eq. assert (Hd : dir_of b e = 1 \/ dir_of b e = -1) by (unfold dir_of; destruct (b <=? e); lia).
  rewrite flat_map_concat_map, map_map. apply pairs_concat.
  - intros l Hl. apply in_map_iff in Hl. destruct Hl as (u & <- & _). apply pairs_map. eapply pairs_impl; [|apply zseq_pairs]. intros x y _ _ H. unfold lay_lt. cbn. lia.
  - apply pairs_map. eapply pairs_impl; [|apply zseq_pairs]. intros x y _ _ H a a' Ha Ha'. apply in_map_iff in Ha, Ha'. destruct Ha as (s & <- & _), Ha' as (s' & <- & _).
    unfold lay_lt. cbn [fst snd]. left. destruct Hd as [-> | ->]; lia.
Qed.

(* what is known of the passes *)
Lemma passes_In : forall nst wf first last p, 0 <= wf -> In p (passes nst wf first last) ->
  (wf = 0 /\ exists s b e, p = (Some s, (b, e)) /\ 0 <= s < nst /\ Z.abs (e - b) = 1 /\ dir_of b e = dir_of first last) \/
  (0 < wf /\ exists b e, p = (None, (b, e)) /\ 1 <= Z.abs (e - b) <= wf /\ dir_of b e = dir_of first last).
Proof.
  intros nst wf first last p Hw H. unfold passes in H. cbv zeta in H. apply in_flat_map in H. destruct H as ((b, e) & H1 & H2).
  pose proof (dir_dir first last) as Dd. pose proof (dir_abs first last) as Da. set (e0 := last + dir_of first last) in *. rewrite <- Dd in H1.
  assert (W1 : 1 <= Z.max wf 1) by lia. destruct (chunk_In _ _ _ _ _ W1 H1) as (i & A1 & A2 & A3 & A4 & A5). rewrite Dd in *. rewrite Da in *.
  assert (Hd : dir_of first last = 1 \/ dir_of first last = -1) by (unfold dir_of; destruct (first <=? last); lia).
  assert (El : 1 <= Z.abs (e - b) <= Z.max wf 1) by (rewrite A3, A4; destruct Hd as [-> | ->]; nia).
  destruct (wf =? 0) eqn:W.
  - left. split; [lia|]. apply in_map_iff in H2. destruct H2 as (s & <- & Hs). apply zseq_In in Hs. exists s, b, e. split; [reflexivity|]. split; [exact Hs|]. split; [lia|exact A5].
  - right. split; [lia|]. destruct H2 as [<-|[]]. exists b, e. split; [reflexivity|]. split; [lia|exact A5].
Qed.

Section RankPass.
  Variables (ss : list sdim) (bbs : list (list (Z * Z))) (mg_t bk_t : Z) (ru overlap : bool) (fr fm fb : feats) (nt : Z) (c : tcfg) (dom : Z -> list Z -> Prop).
  Hypothesis H : tile_hyp ss bbs mg_t bk_t ru overlap fr fm fb nt c dom.
  Notation nst := (Z.of_nat (length bbs)).
  Notation wf := (wf_steps mg_t bk_t).
  Notation hh := (halo_of ss).
  Definition near_ss (w : Z) (p : list Z) : Prop := forall j d, nth_error ss j = Some d -> near_rank d (angle d * w) (nth j p 0).

  Lemma c_nst_wf : c_nst c = nst /\ c_wf c = wf.
  Proof using H. destruct (c_eq _ _ _ _ _ _ _ _ _ _ _ (th_c _ _ _ _ _ _ _ _ _ _ _ _ H)) as (-> & _). split; reflexivity. Qed.

  (* the exterior and interior parts of a pass *)
  Definition parts_ok (sel : option Z) (b e : Z) (regs : list region) : Prop := exists re ri,
    rank_part c (exterior_sections c) sel b e = Ok re /\ rank_part c (interior_sections c) sel b e = Ok ri /\ regs = re ++ ri /\
    forall ev p, In ev (evs ri) -> in_box (e_box ev) p = true -> overlap = true /\ forall j d, nth_error ss j = Some d -> d_ib d <= nth j p 0 < d_ie d.
  Lemma rmap_app : forall A B (f : A -> res B) a b, rmap f (a ++ b) = rbind (rmap f a) (fun x => rbind (rmap f b) (fun y => Ok (x ++ y))).
  Proof using.
    intros A B f. induction a as [|x a IH]; intros b; cbn; [destruct (rmap f b); reflexivity|]. destruct (f x); cbn; try reflexivity. rewrite IH. destruct (rmap f a); cbn; try reflexivity. destruct (rmap f b); reflexivity.
  Qed.
  Lemma part_app : forall s1 s2 sel b e regs r2, rank_part c (s1 ++ s2) sel b e = Ok regs -> rank_part c s2 sel b e = Ok r2 -> exists r1, rank_part c s1 sel b e = Ok r1 /\ regs = r1 ++ r2.
  Proof using.
    intros s1 s2 sel b e regs r2. unfold rank_part. cbv zeta. rewrite rmap_app. match goal with |- rbind (rbind (rmap ?f _) _) _ = _ -> _ => set (F := f) end.
    destruct (rmap F s1) as [x| | |]; cbn [rbind]; [|discriminate..]. destruct (rmap F s2) as [y| | |]; cbn [rbind]; [|discriminate..]. intros [= <-] [= <-]. exists (concat x). rewrite concat_app. split; reflexivity.
  Qed.

  (* one pass: [lay] = its layers, counted from 0 by [Kf c b] *)
  Lemma pass_core : forall sel b e lay, todo_of c sel b e = lay -> (tbb c = true -> sel = None) -> (exists a, enum c (Kf c b) a lay /\ lay <> [] /\ (0 < wf -> a = 0)) ->
    Z.of_nat (length lay) <= wf_shifts nst wf + 1 -> (wf = 0 -> (length lay <= 1)%nat) ->
    (forall ts, In ts lay -> (0 < wf -> Z.abs (fst ts - b) < wf) /\ 0 <= snd ts < nst) ->
    (forall x y, In x lay -> In y lay -> lay_lt (dir_of b e) x y -> Kf c b (fst x) (snd x) < Kf c b (fst y) (snd y)) ->
    exists regs, (rank_pass c sel b e = Ok regs /\ parts_ok sel b e regs) /\ forall l, runs_regions (programs dom regs) l ->
      NoDup l /\
      (forall x, In x l <-> In (i_t x, i_s x) lay /\ dom (i_s x) (i_p x) /\ near_ss (moves_left nst wf b (i_t x) (i_s x)) (i_p x)) /\
      forall V (alloc : Z -> Z) (st : stencil V), halo_stencil (length ss) hh st -> stage_indep alloc st ->
      forall r, Permutation r l -> plain_run (dir_of b e) r -> forall m cl, exec alloc st l m cl = exec alloc st r m cl.
  Proof.
    intros sel b e lay El HT (a & En & Ne & Ha) Hlen H1 Hts HK. pose proof (top_cfg _ _ _ _ _ _ _ _ _ _ _ _ H) as Ok1. destruct c_nst_wf as (Cn & Cw).
    pose proof Ok1 as [Kn Kns Kbb Kwf Ktb Kdim Kext Knt Kfr Kfm Kfb Ktw Klw Kdom].
    assert (Hnsh : 0 <= wf_shifts (c_nst c) (c_wf c)) by (unfold wf_shifts; destruct (0 <? c_wf c) eqn:E; nia).
    assert (Hts' : tbb c = true -> c_tb c * c_nst c <= tb_shifts (c_nst c) (c_tb c) + 1) by (intros T; unfold tb_shifts, tbb in *; rewrite T; lia).
    assert (HD : forall s p, dom s p -> forall j, (j < length (c_dims c))%nat -> ext_b (nth j (c_dims c) td0) <= nth j p 0 < ext_e (nth j (c_dims c) td0)) by (intros s p Hp j Hj; apply (Kdom s p Hp); exact Hj).
    destruct (rank_pass_good c hh (wf_shifts (c_nst c) (c_wf c)) (Kf c b) dom Kn Kbb Hnsh Kdim Knt (proj1 Kfr) Kfm (proj1 Kfb) (proj2 Kfr) (proj2 Kfb) (fun T => proj2 (Ktb T)) (tb_shifts (c_nst c) (c_tb c)) Ktw Hts' HD Klw sel b e a HT) as (r & E & G).
    { rewrite El. exact En. }
    { rewrite El, Cn, Cw. exact Hlen. }
    { intros W. rewrite El. apply H1. unfold wfb in W. rewrite Cw in W. rewrite Cw in Kwf. lia. }
    assert (Pt : parts_ok sel b e r).
    { destruct (rank_int_good c hh (wf_shifts (c_nst c) (c_wf c)) (Kf c b) dom Kn Kbb Hnsh Kdim Knt (proj1 Kfr) Kfm (proj1 Kfb) (proj2 Kfr) (proj2 Kfb) (fun T => proj2 (Ktb T)) (tb_shifts (c_nst c) (c_tb c)) Ktw Hts' Klw sel b e a HT) as (ri & Ei & Bi).
      { rewrite El. exact En. }
      { rewrite El, Cn, Cw. exact Hlen. }
      { intros W. rewrite El. apply H1. unfold wfb in W. rewrite Cw in W. rewrite Cw in Kwf. lia. }
      destruct (part_app _ _ _ _ _ _ _ E Ei) as (re & Ee & Er). exists re, ri. split; [exact Ee|]. split; [exact Ei|]. split; [exact Er|].
      destruct (c_eq _ _ _ _ _ _ _ _ _ _ _ (th_c _ _ _ _ _ _ _ _ _ _ _ _ H)) as (Ec & _).
      intros ev q He Hq. destruct (Bi ev q He Hq) as (Ov & Bx). rewrite Ec in Ov, Bx. cbn [c_overlap c_dims] in *. split; [exact Ov|].
      intros j d Hj. assert (Lj : (j < length ss)%nat) by (apply nth_error_Some; congruence). specialize (Bx j ltac:(rewrite map_length; exact Lj)).
      erewrite nth_error_nth in Bx by (rewrite nth_error_map, Hj; reflexivity). exact Bx. }
    rewrite El in G. exists r. split; [split; [exact E|exact Pt]|]. intros l R. destruct (regs_run c hh dom b r _ Ok1 G l R) as (N & I & P). split; [exact N|].
    assert (Dx : forall x, In x l -> length (i_p x) = length (c_dims c)) by (intros x Hx; apply I in Hx; exact (proj1 (Kdom _ _ (proj1 Hx)))).
    split.
    - intros x. rewrite I.
      assert (Iff : In (i_t x, i_s x) lay -> dom (i_s x) (i_p x) -> (prk c SecAll (Kf c b (i_t x) (i_s x) - a) (i_s x) (i_p x) <-> near_ss (moves_left nst wf b (i_t x) (i_s x)) (i_p x))).
      { intros Il D. destruct (Hts _ Il) as (T1 & T2). cbn [fst snd] in *.
        assert (Es : Kf c b (i_t x) (i_s x) - a = shift_of c b (i_t x) (i_s x)).
        { unfold shift_of. rewrite Cw, Cn. unfold Kf. rewrite Cn. rewrite Cw in Kwf. destruct (0 <? wf) eqn:W.
          - rewrite (Ha ltac:(lia)). rewrite Z.mod_small by (specialize (T1 ltac:(lia)); lia). lia.
          - assert (Lw : (length lay <= 1)%nat) by (apply H1; lia). destruct lay as [|(t0, s0) [|? ?]]; [contradiction|cbn in Lw|cbn in Lw; lia]. destruct Il as [Il|[]]. injection Il as E1 E2. subst t0 s0.
            cbn [enum] in En. destruct En as (<- & _). unfold Kf. rewrite Cn. lia. }
        rewrite Es. pose proof (in_run_Q c hh dom b (i_t x) Ok1 x D) as Q. rewrite (top_reach _ _ _ _ _ _ _ _ _ _ _ _ H) in Q. unfold to_do, between, in_reach in Q. rewrite Cn in Q.
        unfold near_ss. split.
        - intros Pk. apply Q. split; [lia|]. split; [exact T2|exact Pk].
        - intros Nr. apply Q. split; [|exact Nr]. split; [lia|]. split; [exact T2|exact D]. }
      split; [intros (D & Il & Pk); split; [exact Il|]; split; [exact D|]; apply Iff; assumption|intros (Il & D & Nr); split; [exact D|]; split; [exact Il|]; apply Iff; assumption].
    - intros V alloc st HS SI r0 Pm Pl m. rewrite <- (top_dims _ _ _ _ _ _ _ _ _ _ _ _ H) in HS.
      assert (Ir : forall x, In x r0 -> In x l) by (intros x Hx; eapply Permutation_in; eassumption).
      assert (Hd : dir_of b e = 1 \/ dir_of b e = -1) by (unfold dir_of; destruct (b <=? e); lia).
      apply (order_exec alloc st (dir_of b e) Hd (bad c hh (Kf c b)) r0 l m); try assumption.
      + eapply Permutation_NoDup; [apply Permutation_sym; exact Pm|exact N].
      + intros x y Ix Iy Nxy Et Es. apply (same_stage c hh V alloc st x y HS SI); [apply Dx; apply Ir; exact Ix|apply Dx; apply Ir; exact Iy|exact Nxy|exact Et|exact Es].
      + intros x y Ix Iy O C. apply (halo_bad c hh b V alloc st); try assumption.
        * intros j Hj. apply (o_h _ _ _ _ (Kdim j Hj)).
        * apply Ir, I in Ix, Iy. apply (HK (i_t x, i_s x) (i_t y, i_s y)); [apply Ix|apply Iy|exact O].
  Qed.

  Lemma lay_K : forall b e t s, In (t, s) (lay_steps nst b e) -> exists u, 0 <= u < Z.abs (e - b) /\ t = b + u * dir_of b e /\ Kf c b t s = u * nst + s /\ 0 <= s < nst.
  Proof using H.
    intros b e t s I1. rewrite <- (proj1 c_nst_wf), <- todo_lay in I1. apply todo_In in I1. destruct I1 as ((u & Hu & Et) & Hs). cbn [sel_stages] in Hs. apply zseq_In in Hs.
    exists u. split; [exact Hu|]. split; [exact Et|]. rewrite (proj1 c_nst_wf) in Hs. split; [|exact Hs]. unfold Kf. rewrite (proj1 c_nst_wf). subst t. unfold dir_of. destruct (b <=? e); f_equal; f_equal; lia.
  Qed.

  Lemma pass_rank : forall first last p, In p (passes nst wf first last) ->
    exists regs, (rank_does c p = Ok regs /\ parts_ok (fst p) (fst (snd p)) (snd (snd p)) regs) /\ forall l, runs_regions (programs dom regs) l ->
      NoDup l /\
      (forall x, In x l <-> In (i_t x, i_s x) (lay_of nst p) /\ dom (i_s x) (i_p x) /\ near_ss (moves_left nst wf (fst (snd p)) (i_t x) (i_s x)) (i_p x)) /\
      forall V (alloc : Z -> Z) (st : stencil V), halo_stencil (length ss) hh st -> stage_indep alloc st ->
      forall r, Permutation r l -> plain_run (dir_of first last) r -> forall m cl, exec alloc st l m cl = exec alloc st r m cl.
  Proof.
    intros first last p Hp. pose proof (top_cfg _ _ _ _ _ _ _ _ _ _ _ _ H) as Ok1. destruct c_nst_wf as (Cn & Cw).
    pose proof (k_nst _ _ _ Ok1) as Kns. pose proof (k_wf _ _ _ Ok1) as Kwf. pose proof (k_tb _ _ _ Ok1) as Ktb. rewrite Cn in Kns. rewrite Cw in Kwf, Ktb.
    destruct (passes_In _ _ _ _ _ Kwf Hp) as [(W & s & b & e & -> & Hs & Hl & Ed)|(W & b & e & -> & Hl & Ed)]; unfold rank_does, lay_of; cbn [fst snd]; rewrite <- Ed.
    - apply (pass_core (Some s) b e [(b, s)]).
      + apply todo_one. exact Hl.
      + intros T. destruct (Ktb T). lia.
      + exists (Kf c b b s). split; [cbn; rewrite Cn; auto|]. split; [discriminate|lia].
      + cbn [length]. unfold wf_shifts. destruct (0 <? wf) eqn:Q; lia.
      + intros _. cbn. lia.
      + intros ts [<-|[]]. cbn [fst snd]. split; [lia|exact Hs].
      + intros x y [<-|[]] [<-|[]] O. destruct (lay_irr _ _ O).
    - apply (pass_core None b e).
      + rewrite todo_lay, Cn. reflexivity.
      + reflexivity.
      + exists 0. rewrite <- Cn, <- todo_lay. split; [apply (enum_todo c hh dom b Ok1 b e 0 (dir_of b e)); [unfold dir_of; destruct (b <=? e); lia|lia|lia|reflexivity]|].
        split; [|reflexivity]. intros Q. pose proof (todo_len c None b e) as T. rewrite Q in T. cbn [length sel_stages] in T. rewrite zseq_length, Cn in T. nia.
      + rewrite <- Cn, <- todo_lay, todo_len. cbn [sel_stages]. rewrite zseq_length, Cn. unfold wf_shifts. replace (0 <? wf) with true by lia. nia.
      + lia.
      + intros (t, s) Ht. cbn [fst snd]. destruct (lay_K b e t s Ht) as (u & Hu & -> & _ & Hs). split; [intros _|exact Hs]. unfold dir_of. destruct (b <=? e); lia.
      + intros (t, s) (t', s') Ht Ht' O. cbn [fst snd]. destruct (lay_K b e t s Ht) as (u & Hu & Et & -> & Hs), (lay_K b e t' s' Ht') as (u' & Hu' & Et' & -> & Hs').
        unfold lay_lt in O. cbn [fst snd] in O. assert (Hd : dir_of b e = 1 \/ dir_of b e = -1) by (unfold dir_of; destruct (b <=? e); lia).
        assert (u < u' \/ (u = u' /\ s < s')) by (destruct Hd as [D|D]; rewrite D in *; lia). nia.
  Qed.
End RankPass.

(* the reach of the layers of a pass *)
Section Reach.
  Variables (nst wf : Z) (dom : Z -> list Z -> Prop) (k : rank_cfg).
  Hypothesis Hn : 1 <= nst.
  Hypothesis Hw : 0 <= wf.
  Lemma reach_list : forall l b lay w,
    (forall i t s, nth_error lay i = Some (t, s) -> moves_left nst wf b t s = w - Z.of_nat i /\ 0 <= w - Z.of_nat i /\ 0 <= s < nst) ->
    (forall x, In (i_t x, i_s x) lay -> (In x l <-> rank_dom nst wf dom k (i_s x) (i_p x) /\ near_all k (moves_left nst wf b (i_t x) (i_s x)) (i_p x))) ->
    reach_ok nst wf dom k l w lay.
  Proof using.
    intros l b lay. induction lay as [|(t, s) lay IH]; intros w I1 I2; [exact I|]. destruct (I1 0%nat t s eq_refl) as (M1 & M2 & M3). cbn [reach_ok]. cbn [snd].
    split; [lia|]. split; [exact M3|]. split.
    - intros x Hx. apply is_at_iff in Hx. injection Hx as E1 E2. rewrite (I2 x) by (left; congruence). rewrite E1, E2, M1. replace (w - Z.of_nat 0) with w by lia. reflexivity.
    - apply IH; [|intros x Hx; apply I2; right; exact Hx]. intros i t' s' Hi. destruct (I1 (S i) t' s' Hi) as (A & B & C). split; [lia|]. split; [lia|exact C].
  Qed.
  Lemma lay_nth : forall b e i t s, nth_error (lay_steps nst b e) i = Some (t, s) -> exists u, 0 <= u < Z.abs (e - b) /\ t = b + u * dir_of b e /\ Z.of_nat i = u * nst + s /\ 0 <= s < nst.
  Proof using Hn.
    clear Hw. intros b e. unfold lay_steps. rewrite micro_steps_eq. rewrite flat_map_map.
    assert (G : forall m u0 i t s, nth_error (flat_map (fun u => map (fun s => (b + u * dir_of b e, s)) (zseq nst)) (map (fun i => u0 + Z.of_nat i) (seq 0 m))) i = Some (t, s) ->
      exists u, 0 <= u < Z.of_nat m /\ t = b + (u0 + u) * dir_of b e /\ Z.of_nat i = u * nst + s /\ 0 <= s < nst).
    { intros m. induction m as [|m IH]; intros u0 i t s E; [destruct i; discriminate|]. cbn [seq map flat_map] in E.
      destruct (Nat.lt_ge_cases i (length (map (fun s : Z => (b + (u0 + Z.of_nat 0) * dir_of b e, s)) (zseq nst)))) as [L|L].
      - rewrite nth_error_app1 in E by exact L. rewrite map_length, zseq_length in L. exists 0. rewrite nth_error_map in E. unfold zseq in E. rewrite nth_error_map in E.
        destruct (nth_error (seq 0 (Z.to_nat nst)) i) as [z|] eqn:Q; [|discriminate]. cbn in E. injection E as E1 E2.
        assert (z = i). { apply nth_error_nth with (d := 0%nat) in Q. rewrite seq_nth in Q by lia. lia. } subst z. rewrite <- E1, <- E2. repeat split; lia.
      - rewrite nth_error_app2 in E by exact L. rewrite map_length, zseq_length in *.
        rewrite <- seq_shift, map_map in E. rewrite (map_ext _ (fun i => (u0 + 1) + Z.of_nat i)) in E by (intros; lia).
        destruct (IH (u0 + 1) _ t s E) as (u & U1 & U2 & U3 & U4). exists (u + 1). split; [lia|]. split; [rewrite U2; f_equal; f_equal; lia|]. split; [|exact U4]. lia. }
    intros i t s E. specialize (G (Z.to_nat (Z.abs (e - b))) 0 i t s). destruct G as (u & U1 & U2 & U3 & U4); [|exists u; repeat split; try lia; rewrite U2; f_equal; f_equal; lia].
    rewrite <- E. reflexivity.
  Qed.
  Lemma lay_moves : forall first last p i t s, In p (passes nst wf first last) -> nth_error (lay_of nst p) i = Some (t, s) ->
    moves_left nst wf (fst (snd p)) t s = moves nst wf - Z.of_nat i /\ 0 <= moves nst wf - Z.of_nat i /\ 0 <= s < nst.
  Proof using Hn Hw.
    intros first last p i t s Hp E. destruct (passes_In _ _ _ _ _ Hw Hp) as [(W & s0 & b & e & -> & Hs & Hl & Ed)|(W & b & e & -> & Hl & Ed)]; unfold lay_of in E; cbn [fst snd] in *; unfold moves_left, moves.
    - destruct i as [|[|i]]; [|discriminate|discriminate]. injection E as <- <-. replace (0 <? wf) with false by lia. lia.
    - destruct (lay_nth b e i t s E) as (u & Hu & Et & Ei & Hs). replace (0 <? wf) with true by lia.
      assert (Ea : Z.abs (t - b) = u) by (subst t; unfold dir_of; destruct (b <=? e); lia). rewrite Ea, Z.mod_small by lia. nia.
  Qed.
End Reach.
