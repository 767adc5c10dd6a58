(* Proofs about jobs of several ranks: the result of a job. *)
From Coq Require Import ZifyBool.
From Verif Require Import Base Cover_Spec Loops_Model Tile_Model Sched_Spec Sched_Proofs Sched2_Proofs Tile_Spec TileCfg_Spec TileSteps_Proofs Tile_Proofs Tile2_Proofs Tile3_Proofs Tile4_Proofs
  Job_Model Job_Spec Job_Proofs Job2_Proofs.

Lemma direction_dir : forall a b, direction a b = dir_of a b.
Proof. reflexivity. Qed.

(* two plain runs of the same instances *)
Lemma two_plain : forall V (alloc : Z -> Z) (st : stencil V) n dir l r, (forall x e, In e (s_wr st x) -> forall j, (j < n)%nat -> nth j (snd e) 0 = nth j (i_p x) 0) -> stage_indep alloc st ->
  dir = 1 \/ dir = -1 -> NoDup r -> Permutation r l -> (forall x, In x l -> length (i_p x) = n) -> plain_run dir l -> plain_run dir r -> forall m c, exec alloc st l m c = exec alloc st r m c.
Proof.
  intros V alloc st n dir l r Hwr SI Hd N P Ln Pl Pr m. apply exec_conflict_order; [exact N|exact P|]. intros a b Bab Q.
  destruct (before_In _ _ _ _ Bab) as (Ia & Ib). assert (Nab : a <> b) by (intros ->; exact (before_asym _ _ _ _ N Bab Bab)).
  assert (Ja : In a l) by (eapply Permutation_in; eassumption). assert (Jb : In b l) by (eapply Permutation_in; eassumption).
  destruct (step_order_total dir Hd a b) as [O|[O|(O1 & O2)]]; [exact (Pl a b Ja Jb O)|destruct (before_asym _ _ _ _ N Bab (Pr b a Ib Ia O))|exfalso].
  assert (At : forall x, i_t x = i_t b -> i_s x = i_s b -> is_at (i_t b, i_s b) x = true) by (intros x E1 E2; apply is_at_iff; congruence).
  destruct Q as (c & [(Ca & [Cb|Cb])|(Ca & Cb)]).
  - apply in_map_iff in Ca, Cb. destruct Ca as (e & Ea & Ie), Cb as (e' & Eb & Ie'). exact (SI b a e' e (eq_sym O1) (eq_sym O2) (not_eq_sym Nab) Ie' Ie ltac:(congruence)).
  - apply Nab. exact (one_writer alloc st n Hwr (i_t b, i_s b) a b c (At a O1 O2) (At b eq_refl eq_refl) (Ln a Ja) (Ln b Jb) Ca Cb).
  - apply in_map_iff in Ca, Cb. destruct Ca as (e & Ea & Ie), Cb as (e' & Eb & Ie'). exact (SI a b e e' O1 O2 Nab Ie Ie' ltac:(congruence)).
Qed.

Lemma in_rank_dec : forall ss q, in_rank ss q \/ ~ in_rank ss q.
Proof.
  intros ss q. unfold in_rank. revert q. assert (G : forall k ss q, (forall j d, nth_error ss j = Some d -> d_rb d <= nth (k + j) q 0 < d_rb d + d_rksz d) \/ ~ (forall j d, nth_error ss j = Some d -> d_rb d <= nth (k + j) q 0 < d_rb d + d_rksz d)).
  { intros k s. revert k. induction s as [|d s IH]; intros k q; [left; intros j d E; destruct j; discriminate|].
    destruct (Z_lt_ge_dec (nth k q 0) (d_rb d)) as [A|A]; [right; intros Q; specialize (Q 0%nat d eq_refl); rewrite Nat.add_0_r in Q; lia|].
    destruct (Z_lt_ge_dec (nth k q 0) (d_rb d + d_rksz d)) as [B|B]; [|right; intros Q; specialize (Q 0%nat d eq_refl); rewrite Nat.add_0_r in Q; lia].
    destruct (IH (S k) q) as [Y|Y].
    - left. intros [|j] d' E; [injection E as <-; rewrite Nat.add_0_r; lia|]. specialize (Y j d' E). replace (k + S j)%nat with (S k + j)%nat by lia. exact Y.
    - right. intros Q. apply Y. intros j d' E. specialize (Q (S j) d' E). replace (S k + j)%nat with (k + S j)%nat by lia. exact Q. }
  intros q. exact (G 0%nat ss q).
Qed.
Lemma owned_dec : forall ranks q, (exists s, owns ranks s q) \/ forall s, ~ owns ranks s q.
Proof.
  intros ranks q. unfold owns. induction ranks as [|k ranks IH]; [right; intros s (k & E & _); destruct s; discriminate|].
  destruct (in_rank_dec (k_ss k) q) as [A|A]; [left; exists 0%nat, k; split; [reflexivity|exact A]|].
  destruct IH as [(s & k' & E & I)|B]; [left; exists (S s), k'; split; [exact E|exact I]|]. right. intros [|s] (k' & E & I); [injection E as <-; contradiction|]. apply (B s). exists k'. split; assumption.
Qed.

(* the same with the exchange after the pass *)
Section Old.
  Context {V : Type}.
  Variables (ranks : list rank_cfg) (nst wf : Z) (dom : Z -> list Z -> Prop) (ex : Z -> bool) (hl hr : Z -> nat -> Z).
  Variables (lk : Z -> nat -> nat -> list Z -> Prop) (alloc : Z -> Z) (st : stencil V).
  Record exchanged0 (M M' : nat -> cell -> V) : Prop := mkExchanged0 {
    xc_own0 : forall r c, owns ranks r (snd c) -> M' r c = M r c;
    xc_halo0 : forall r s v u q, ex v = true -> keeps ranks nst wf hl hr lk r v q -> owns ranks s q -> M' r (v, u, q) = M s (v, u, q);
    xc_edge0 : forall r v u q, ex v = true -> keeps ranks nst wf hl hr lk r v q -> (forall s, ~ owns ranks s q) ->
      M' r (v, u, q) = M r (v, u, q) \/ exists s, keeps ranks nst wf hl hr lk s v q /\ M' r (v, u, q) = M s (v, u, q);
    xc_rest0 : forall r v u q, ex v = false -> M' r (v, u, q) = M r (v, u, q) }.
  Definition rank_moves0 (p : pass) (r : nat) (m m' : cell -> V) : Prop :=
    forall k, nth_error ranks r = Some k -> exists regs l, rank_does (k_c k) p = Ok regs /\
      runs_regions (programs (rank_dom nst wf dom k) regs) l /\ forall c, m' c = exec alloc st l m c.
End Old.
Lemma regions_app : forall a b l r, runs_regions a l -> runs_regions b r -> runs_regions (a ++ b) (l ++ r).
Proof. intros a b l r H. induction H as [|g gs x y G H IH]; intros R; [exact R|]. cbn [app]. rewrite <- app_assoc. constructor; [exact G|exact (IH R)]. Qed.
Lemma parts_does : forall c p re ri, rank_parts c p = Ok (re, ri) -> rank_part c (exterior_sections c) (fst p) (fst (snd p)) (snd (snd p)) = Ok re /\ rank_part c (interior_sections c) (fst p) (fst (snd p)) (snd (snd p)) = Ok ri.
Proof. intros c p re ri. unfold rank_parts. destruct (rank_part c (exterior_sections c) _ _ _); cbn [rbind]; try discriminate. destruct (rank_part c (interior_sections c) _ _ _); cbn [rbind]; try discriminate. intros [= <- <-]. split; reflexivity. Qed.

Section Job.
  Context {V : Type}.
  Variables (ranks : list rank_cfg) (n : nat) (h : nat -> Z) (nst wf : Z) (dom : Z -> list Z -> Prop) (ex : Z -> bool) (hl hr : Z -> nat -> Z).
  Variables (lk : Z -> nat -> nat -> list Z -> Prop) (alloc : Z -> Z) (st : stencil V).
  Hypothesis Hjob : job_ok ranks n h nst wf dom.
  Hypothesis Hst : job_stencil n ex hl hr st.
  Hypothesis Hvh : var_halos n h hl hr.
  Hypothesis Hind : stage_indep alloc st.
  Hypothesis Hov : interiors_ok ranks nst wf ex hl hr.
  Hypothesis Hlk : reads_linked ranks nst wf dom ex lk st.
  Definition ok_cell (r : nat) (v : Z) (q : list Z) : Prop := forall s, r <> s -> owns ranks s q -> lk v r s q.
  Notation Holds := (holds ranks nst wf dom ex hl hr lk alloc st).
  Notation Exch0 := (exchanged0 ranks nst wf ex hl hr lk).
  Notation Moves0 := (rank_moves0 ranks nst wf dom alloc st).
  Notation Exch := (exchanged ranks nst wf ex hl hr lk).
  Notation Moves := (rank_moves ranks nst wf dom alloc st).

  Lemma rank_halo : forall k, In k ranks -> halo_stencil (length (k_ss k)) (halo_of (k_ss k)) st.
  Proof using Hjob Hst Hvh.
    intros k Hk. destruct (jo_same _ _ _ _ _ _ Hjob k Hk) as (-> & _ & _ & Eh). destruct (jo_same _ _ _ _ _ _ Hjob k Hk) as (Ln & _). constructor.
    - intros x e He. apply (js_wr _ _ _ _ _ Hst x e He).
    - intros x y e e' He He' Ev j Hj. destruct (js_wr _ _ _ _ _ Hst y e' He') as (Ex & _). rewrite <- Ev in Ex. pose proof (js_rd _ _ _ _ _ Hst x e He Ex j Hj) as B.
      pose proof (vh_l _ _ _ _ Hvh (fst (fst e)) j Hj). pose proof (vh_r _ _ _ _ Hvh (fst (fst e)) j Hj).
      unfold halo_of. destruct (nth_error (k_ss k) j) as [d|] eqn:E; [rewrite (Eh j d E); lia|]. apply nth_error_None in E. lia.
  Qed.
  Lemma rank_dims : forall k, In k ranks -> forall j d, nth_error (k_ss k) j = Some d -> d_halo d = h j /\ 1 <= d_fold d.
  Proof using Hjob.
    intros k Hk j d E. destruct (jo_same _ _ _ _ _ _ Hjob k Hk) as (_ & _ & _ & Eh). split; [exact (Eh j d E)|].
    pose proof (so_dims _ _ _ _ _ _ _ _ _ (th_s _ _ _ _ _ _ _ _ _ _ _ _ (jo_tile _ _ _ _ _ _ Hjob k Hk))) as (_ & F). rewrite Forall_forall in F. apply (ds_fold _ _ (F d (nth_error_In _ _ E))).
  Qed.
  Lemma unowned : forall x v u q, dom (i_s x) (i_p x) -> In (v, u, q) (wr_cells alloc st x) -> exists s, owns ranks s q.
  Proof using Hjob Hst Hvh.
    intros x v u q D Hc. destruct (jo_owned _ _ _ _ _ _ Hjob _ _ D) as (Lp & k & Hk & I). apply In_nth_error in Hk as Hs. destruct Hs as (s & Hs). exists s, k. split; [exact Hs|].
    apply in_map_iff in Hc. destruct Hc as (e & Ec & He). destruct (cell_pt _ _ _ Ec) as (Ep & _). cbn [snd] in Ep.
    intros j d Hj. specialize (I j d Hj). rewrite <- Ep. rewrite (proj2 (js_wr _ _ _ _ _ Hst x e He)); [exact I|].
    destruct (jo_same _ _ _ _ _ _ Hjob k Hk) as (<- & _). apply nth_error_Some. congruence.
  Qed.

  (* the exchange brings the halos up to date *)
  Lemma exchange_ok : forall M M' g, Holds M g -> Exch0 M M' -> Holds M' g /\ forall r k, nth_error ranks r = Some k -> agree ex hl hr k (ok_cell r) (moves nst wf) (M' r) g.
  Proof using.
    intros M M' g [O E R] [XO XH XE XR].
    assert (Ed : forall r v u q, ex v = true -> keeps ranks nst wf hl hr lk r v q -> (forall s, ~ owns ranks s q) -> M' r (v, u, q) = g (v, u, q)).
    { intros r v u q Ev K N. destruct (XE r v u q Ev K N) as [->|(s & Ks & ->)]; [exact (E r v u q Ev K N)|exact (E s v u q Ev Ks N)]. }
    split; [constructor|].
    - intros r c Hr. rewrite XO by exact Hr. apply O. exact Hr.
    - exact Ed.
    - intros r k x e Hk Hs D He Ee. rewrite <- (R r k x e Hk Hs D He Ee). destruct e as ((v, u), q). apply XR. exact Ee.
    - intros r k Hk v u q Ev Hq Kq. assert (K : keeps ranks nst wf hl hr lk r v q) by (exists k; split; [exact Hk|split; [exact Hq|exact Kq]]).
      destruct (owned_dec ranks q) as [(s & Hs)|N].
      + rewrite (XH r s v u q Ev K Hs). exact (O s (v, u, q) Hs).
      + exact (Ed r v u q Ev K N).
  Qed.

  Variables (first last : Z) (L : list inst).
  Hypothesis NL : NoDup L.
  Hypothesis HL : forall x, In x L <-> to_do nst dom first last x.

  Lemma moves_one : forall p r k m m', In p (passes nst wf first last) -> nth_error ranks r = Some k -> Moves0 p r m m' ->
    exists l, NoDup l /\ (forall c, m' c = exec alloc st (layers (lay_of nst p) l) m c) /\
      forall x, In (i_t x, i_s x) (lay_of nst p) -> (In x l <-> rank_dom nst wf dom k (i_s x) (i_p x) /\ near_all k (moves_left nst wf (fst (snd p)) (i_t x) (i_s x)) (i_p x)).
  Proof using Hjob Hst Hvh Hind.
    intros p r k m m' Hp Hr Mv. pose proof (nth_error_In _ _ Hr) as Hk. destruct (jo_same _ _ _ _ _ _ Hjob k Hk) as (Ln & En & Ew & _). pose proof (jo_tile _ _ _ _ _ _ Hjob k Hk) as T.
    destruct (Mv k Hr) as (regs & l & E & R & Em). assert (Hp' : In p (passes (Z.of_nat (length (k_bbs k))) (wf_steps (k_mg k) (k_bk k)) first last)) by (rewrite En, Ew; exact Hp).
    destruct (pass_rank _ _ _ _ _ _ _ _ _ _ _ _ T first last p Hp') as (regs' & (E' & _) & P). rewrite E in E'. injection E' as <-. destruct (P l R) as (N & I & X). rewrite En, Ew in I.
    exists l. split; [exact N|]. split.
    - intros c. rewrite Em. assert (0 <= wf) by (rewrite <- Ew; pose proof (so_steps _ _ _ _ _ _ _ _ _ (th_s _ _ _ _ _ _ _ _ _ _ _ _ T)); unfold wf_steps; lia).
      assert (Pr : pairs (lay_lt (dir_of first last)) (lay_of nst p)).
      { destruct (passes_In _ _ _ _ _ H Hp) as [(W & s & b & e & -> & _ & _ & Ed)|(W & b & e & -> & _ & Ed)]; unfold lay_of; cbn [fst snd]; [repeat split; intros y []|]. rewrite <- Ed. apply lay_steps_lt. }
      apply (X V alloc st (rank_halo k Hk) Hind).
      + apply layers_perm; [exact (lay_NoDup _ _ Pr)|exact N|]. intros x Hx. apply I in Hx. apply Hx.
      + apply layers_plain; [unfold dir_of; destruct (first <=? last); lia|exact Pr].
    - intros x Hx. rewrite I. unfold near_ss, near_all. tauto.
  Qed.

  Lemma pass_ok : forall p M M' g, In p (passes nst wf first last) -> Holds M g -> (forall r k, nth_error ranks r = Some k -> agree ex hl hr k (ok_cell r) (moves nst wf) (M r) g) ->
    (forall r, Moves0 p r (M r) (M' r)) -> Holds M' (exec alloc st (layers (lay_of nst p) L) g).
  Proof using Hjob Hst Hvh Hind Hlk NL HL.
    intros p M M' g Hp [O E R] A Mv.
    assert (G : forall r k c, nth_error ranks r = Some k -> calm alloc st dom k c -> M r c = g c -> M' r c = exec alloc st (layers (lay_of nst p) L) g c).
    { intros r k c Hr Hc Ec. pose proof (nth_error_In _ _ Hr) as Hk. destruct (jo_same _ _ _ _ _ _ Hjob k Hk) as (Ln & En & Ew & _). pose proof (jo_tile _ _ _ _ _ _ Hjob k Hk) as T.
      assert (Hw : 0 <= wf) by (rewrite <- Ew; pose proof (so_steps _ _ _ _ _ _ _ _ _ (th_s _ _ _ _ _ _ _ _ _ _ _ _ T)); unfold wf_steps; lia).
      assert (Hn : 1 <= nst) by (rewrite <- En; pose proof (so_bbs _ _ _ _ _ _ _ _ _ (th_s _ _ _ _ _ _ _ _ _ _ _ _ T)) as (Q & _); destruct (k_bbs k); [contradiction|cbn; lia]).
      destruct (moves_one p r k (M r) (M' r) Hp Hr (Mv r)) as (l & Nl & -> & Il).
      apply (pass_same alloc st n h nst wf dom ex hl hr k Hst Hvh Hind Ln (rank_dims k Hk) (fun s q D => proj1 (jo_owned _ _ _ _ _ _ Hjob s q D))
        (fun j d s q Hj D => jo_edges _ _ _ _ _ _ Hjob k j d s q Hk Hj D) (ok_cell r) (fun x e Hs D He Ee s N Os => Hlk r k x e s Hr Hs D He Ee N Os) L NL (lay_of nst p) (moves nst wf)); [exact Nl| | | |lia|exact (A r k Hr)| |exact Hc|exact Ec].
      - apply reach_list with (b := fst (snd p)); [|exact Il].
        intros i t s Hi. exact (lay_moves nst wf Hn Hw first last p i t s Hp Hi).
      - intros ts x Hts Hx. apply is_at_iff in Hx. subst ts. rewrite HL. unfold to_do.
        assert (Il' : In (i_t x, i_s x) (lay_steps nst first (last + dir_of first last))) by (rewrite <- (all_layers nst wf) by exact Hw; apply in_flat_map; exists p; split; assumption).
        apply lay_steps_In in Il'. tauto.
      - intros s q. reflexivity.
      - intros x e Hs D He Ee. exact (R r k x e Hr Hs D He Ee). }
    constructor.
    - intros r c (k & Hr & Hi). apply (G r k c Hr (or_introl Hi)). apply O. exists k. split; assumption.
    - intros r v u q Ev K N. destruct K as (k & Hr & Hq & Kq). apply (G r k (v, u, q) Hr); [|apply E; [exact Ev|exists k; split; [exact Hr|split; assumption]|exact N]].
      right. intros x D Hc. destruct (unowned x v u q D Hc) as (s & Hs). exact (N s Hs).
    - intros r k x e Hr Hs D He Ee. apply (G r k _ Hr); [|exact (R r k x e Hr Hs D He Ee)]. right. intros y Dy Hc. apply (writes_ex alloc st n ex hl hr Hst) in Hc. destruct e as ((v, u), q). cbn in *. congruence.
  Qed.

  (* the parts of a pass *)
  Lemma moves_parts : forall p r k m pk m', In p (passes nst wf first last) -> nth_error ranks r = Some k -> Moves p r m pk m' ->
    exists regs re ri le li, rank_does (k_c k) p = Ok regs /\ regs = re ++ ri /\ runs_regions (programs (rank_dom nst wf dom k) re) le /\ runs_regions (programs (rank_dom nst wf dom k) ri) li /\
      (forall c, pk c = exec alloc st le m c) /\ (forall c, m' c = exec alloc st li pk c) /\
      forall x, In x li -> dom (i_s x) (i_p x) /\ k_ov k = true /\ forall j d, nth_error (k_ss k) j = Some d -> d_ib d <= nth j (i_p x) 0 < d_ie d.
  Proof using Hjob.
    intros p r k m pk m' Hp Hr Mv. destruct (Mv k Hr) as (re & ri & le & li & E & Re & Ri & Ep & Em). pose proof (nth_error_In _ _ Hr) as Hk. destruct (jo_same _ _ _ _ _ _ Hjob k Hk) as (Ln & En & Ew & _).
    assert (Hp' := Hp). rewrite <- En, <- Ew in Hp'. destruct (pass_rank _ _ _ _ _ _ _ _ _ _ _ _ (jo_tile _ _ _ _ _ _ Hjob k Hk) first last p Hp') as (regs & (E' & (re' & ri' & X1 & X2 & X3 & X4)) & _).
    destruct (parts_does _ _ _ _ E) as (Y1 & Y2). rewrite X1 in Y1. rewrite X2 in Y2. injection Y1 as ->. injection Y2 as ->. exists regs, re, ri, le, li. repeat (split; [assumption|]).
    intros x Hx. apply (regions_In _ _ Ri) in Hx. destruct Hx as (g & t & e & Hg & Ht & He & Q). apply in_map_iff in Hg. destruct Hg as (g0 & <- & Hg). apply in_map_iff in Ht. destruct Ht as (th & <- & Ht).
    apply in_map_iff in He. destruct He as (ev & <- & He). destruct Q as (_ & _ & Q & Dx). split; [exact (proj1 Dx)|]. apply (X4 ev); [|exact Q]. apply evs_In. exists g0. split; [exact Hg|]. apply in_concat. exists th. split; assumption.
  Qed.
  Lemma moves_old : forall p r m pk m', In p (passes nst wf first last) -> Moves p r m pk m' -> Moves0 p r m m'.
  Proof using Hjob.
    intros p r m pk m' Hp Mv k Hr. destruct (moves_parts p r k m pk m' Hp Hr Mv) as (regs & re & ri & le & li & E & -> & Re & Ri & Ep & Em & _).
    exists (re ++ ri), (le ++ li). split; [exact E|]. split; [unfold programs; rewrite map_app; apply regions_app; assumption|]. intros c. rewrite Em, exec_app. apply exec_ext. exact Ep.
  Qed.
  (* what a neighbour keeps is not written while messages are under way *)
  Lemma interior_away : forall r s k' y v u q, nth_error ranks s = Some k' -> k_ov k' = true -> (forall j d, nth_error (k_ss k') j = Some d -> d_ib d <= nth j (i_p y) 0 < d_ie d) ->
    r <> s -> ex v = true -> keeps ranks nst wf hl hr lk r v q -> ~ In (v, u, q) (wr_cells alloc st y).
  Proof using Hjob Hst Hvh Hov.
    intros r s k' y v u q Hs Ov By Nrs Ev (k & Hr & Kq & _) Hc. destruct (jo_apart _ _ _ _ _ _ Hjob r s k k' Hr Hs Nrs) as (j & d & d' & Hj & Hj' & A).
    pose proof (nth_error_In _ _ Hr) as Hk. pose proof (nth_error_In _ _ Hs) as Hk'.
    assert (Ea : angle d = angle d'). { unfold angle. rewrite (jo_fold _ _ _ _ _ _ Hjob k k' j d d' Hk Hk' Hj Hj'). destruct (rank_dims k Hk j d Hj) as (-> & _), (rank_dims k' Hk' j d' Hj') as (-> & _). reflexivity. }
    assert (Ln : (j < n)%nat) by (destruct (jo_same _ _ _ _ _ _ Hjob k Hk) as (<- & _); apply nth_error_Some; congruence).
    apply in_map_iff in Hc. destruct Hc as (e & Ec & He). destruct (cell_pt _ _ _ Ec) as (Ep & _). cbn [snd] in Ep. pose proof (proj2 (js_wr _ _ _ _ _ Hst y e He) j Ln) as W. rewrite Ep in W.
    specialize (By j d' Hj'). specialize (Kq j d Hj). cbv zeta in Kq. destruct (Hov k' j d' v Hk' Ov Hj' Ev) as (I1 & I2). cbv zeta in I1, I2. rewrite Ea in Kq. clear -W By Kq I1 I2 A.
    destruct A as [(A & B & C)|(A & B & C)]; [specialize (I1 C)|specialize (I2 B)]; rewrite ?B, ?C in Kq; destruct (d_first d), (d_last d); try lia.
  Qed.
  Lemma packed : forall p r s m pk m' v u q, In p (passes nst wf first last) -> Moves p s m pk m' -> r <> s -> ex v = true -> keeps ranks nst wf hl hr lk r v q -> owns ranks s q -> pk (v, u, q) = m' (v, u, q).
  Proof using Hjob Hst Hvh Hov.
    intros p r s m pk m' v u q Hp Mv Nrs Ev K (k' & Hs & Oq). destruct (moves_parts p s k' m pk m' Hp Hs Mv) as (regs & re & ri & le & li & _ & _ & _ & _ & _ & Em & Bx). rewrite Em. symmetry. apply (exec_other alloc st). intros y Hy.
    destruct (Bx y Hy) as (_ & Ov & By). exact (interior_away r s k' y v u q Hs Ov By Nrs Ev K).
  Qed.
  Lemma packed_edge : forall p s m pk m' v u q, In p (passes nst wf first last) -> Moves p s m pk m' -> keeps ranks nst wf hl hr lk s v q -> (forall r, ~ owns ranks r q) -> pk (v, u, q) = m' (v, u, q).
  Proof using Hjob Hst Hvh.
    intros p s m pk m' v u q Hp Mv (k & Hs & _) N. destruct (moves_parts p s k m pk m' Hp Hs Mv) as (regs & re & ri & le & li & _ & _ & _ & _ & _ & Em & Bx). rewrite Em. symmetry. apply (exec_other alloc st). intros y Hy Hc.
    destruct (Bx y Hy) as (D & _). destruct (unowned y v u q D Hc) as (r & Hr). exact (N r Hr).
  Qed.
  Lemma exch_old : forall p M P M1 M2, In p (passes nst wf first last) -> (forall r, Moves p r (M r) (P r) (M1 r)) -> Exch P M1 M2 -> Exch0 M1 M2.
  Proof using Hjob Hst Hvh Hov.
    intros p M P M1 M2 Hp Mv [XO XH XE XR]. constructor; [exact XO| | |exact XR].
    - intros r s v u q Ev K O. destruct (Nat.eq_dec r s) as [->|N]; [apply XO; exact O|]. rewrite (XH r s v u q N Ev K O). exact (packed p r s _ _ _ v u q Hp (Mv s) N Ev K O).
    - intros r v u q Ev K N. destruct (XE r v u q Ev K N) as [E|(s & Ks & E)]; [left; exact E|right]. exists s. split; [exact Ks|]. rewrite E. exact (packed_edge p s _ _ _ v u q Hp (Mv s) Ks N).
  Qed.
  Lemma exch_start : forall M M' : nat -> cell -> V, Exch M M M' -> Exch0 M M'.
  Proof using.
    intros M M' [XO XH XE XR]. constructor; [exact XO| |exact XE|exact XR].
    intros r s v u q Ev K O. destruct (Nat.eq_dec r s) as [->|N]; [apply XO; exact O|]. exact (XH r s v u q N Ev K O).
  Qed.

  Lemma passes_ok : forall ps M M' g, (forall p, In p ps -> In p (passes nst wf first last)) -> Holds M g -> (forall r k, nth_error ranks r = Some k -> agree ex hl hr k (ok_cell r) (moves nst wf) (M r) g) ->
    job_passes Moves Exch ps M M' ->
    let g' := exec alloc st (layers (flat_map (lay_of nst) ps) L) g in
    Holds M' g' /\ forall r k, nth_error ranks r = Some k -> agree ex hl hr k (ok_cell r) (moves nst wf) (M' r) g'.
  Proof using Hjob Hst Hvh Hind Hov Hlk NL HL.
    intros ps M M' g Hps Ho A J. revert g Hps Ho A. induction J as [M|p ps M P M1 M2 M3 Mv X J IH]; intros g Hps Ho A; cbv zeta; [split; assumption|].
    pose proof (pass_ok p M M1 g (Hps p (or_introl eq_refl)) Ho A (fun r => moves_old p r _ _ _ (Hps p (or_introl eq_refl)) (Mv r))) as Ho1. destruct (exchange_ok M1 M2 _ Ho1 (exch_old p M P M1 M2 (Hps p (or_introl eq_refl)) Mv X)) as (Ho2 & A2).
    destruct (IH _ (fun q Hq => Hps q (or_intror Hq)) Ho2 A2) as (Ho3 & A3). cbn [flat_map]. unfold layers in *. rewrite flat_map_app, exec_app. split; assumption.
  Qed.

  Theorem job_same0 : plain_run (direction first last) L -> 0 <= wf -> forall M M' g, Holds M g -> runs_job ranks nst wf dom ex hl hr lk alloc st first last M M' ->
    Holds M' (exec alloc st L g) /\ forall r v u q, ex v = true -> keeps ranks nst wf hl hr lk r v q -> M' r (v, u, q) = exec alloc st L g (v, u, q).
  Proof using Hjob Hst Hvh Hind Hov Hlk NL HL.
    intros Pl Hw M M' g Ho (M1 & X & J). destruct (exchange_ok M M1 g Ho (exch_start M M1 X)) as (Ho1 & A1). destruct (passes_ok _ M1 M' g (fun p Hp => Hp) Ho1 A1 J) as (Ho2 & A2).
    rewrite (all_layers nst wf first last Hw) in *. set (lay := lay_steps nst first (last + dir_of first last)) in *.
    assert (E : forall c, exec alloc st (layers lay L) g c = exec alloc st L g c).
    { assert (Pr : pairs (lay_lt (dir_of first last)) lay) by (unfold lay; rewrite <- (dir_dir first last) at 1; apply lay_steps_lt).
      intros c. symmetry. apply (two_plain V alloc st n (direction first last)).
      - intros x e He. apply (js_wr _ _ _ _ _ Hst x e He).
      - exact Hind.
      - unfold direction. destruct (first <=? last); lia.
      - apply layers_NoDup; [exact (lay_NoDup _ _ Pr)|exact NL].
      - apply layers_perm; [exact (lay_NoDup _ _ Pr)|exact NL|]. intros x Hx. apply HL in Hx. apply lay_steps_In. unfold to_do in Hx. tauto.
      - intros x Hx. apply HL in Hx. apply (jo_owned _ _ _ _ _ _ Hjob _ _ (proj2 (proj2 Hx))).
      - exact Pl.
      - apply layers_plain; [unfold direction; destruct (first <=? last); lia|exact Pr]. }
    destruct Ho2 as [O2 E2 R2]. split; [constructor|].
    - intros r c Hr. rewrite <- E. exact (O2 r c Hr).
    - intros r v u q Ev K N. rewrite <- E. exact (E2 r v u q Ev K N).
    - intros r k x e Hk Hs D He Ee. rewrite <- E. exact (R2 r k x e Hk Hs D He Ee).
    - intros r v u q Ev (k & Hr & K & Kq). rewrite <- E. exact (A2 r k Hr v u q Ev K Kq).
  Qed.

  Theorem job_same : plain_run (direction first last) L -> forall M M' g, Holds M g -> runs_job ranks nst wf dom ex hl hr lk alloc st first last M M' ->
    Holds M' (exec alloc st L g) /\ forall r v u q, ex v = true -> keeps ranks nst wf hl hr lk r v q -> M' r (v, u, q) = exec alloc st L g (v, u, q).
  Proof using Hjob Hst Hvh Hind Hov Hlk NL HL.
    intros Pl M M' g. destruct (Z_lt_ge_dec wf 0) as [Hw|Hw]; [|apply job_same0; [exact Pl|lia]].
    assert (E : forall r k, nth_error ranks r = Some k -> False).
    { intros r k Hr. destruct (jo_same _ _ _ _ _ _ Hjob k (nth_error_In _ _ Hr)) as (_ & _ & Ew & _).
      pose proof (so_steps _ _ _ _ _ _ _ _ _ (th_s _ _ _ _ _ _ _ _ _ _ _ _ (jo_tile _ _ _ _ _ _ Hjob k (nth_error_In _ _ Hr)))). unfold wf_steps in Ew. lia. }
    intros _ _. split; [constructor|].
    - intros r c (k & Hr & _). destruct (E r k Hr).
    - intros r v u q _ (k & Hr & _). destruct (E r k Hr).
    - intros r k x e Hr. destruct (E r k Hr).
    - intros r v u q _ (k & Hr & _). destruct (E r k Hr).
  Qed.
End Job.
