(* Ready-made forms of the tiling theorems, and tools for one-dimensional examples. *)
From Coq Require Import ZifyBool Bool.
From Verif Require Import Base Cover_Spec Idiv_Model Loops_Model Tile_Model Sched_Spec Sched_Proofs Sched2_Proofs Tile_Spec TileCfg_Spec Tile2_Proofs Tile3_Proofs Tile4_Proofs.

Lemma no_tb : forall ss bbs mg_t ru overlap fr fm fb nt c dom, settings_ok ss bbs mg_t 0 overlap fr fm fb nt -> setup ss bbs mg_t 0 ru overlap fr fm fb nt = Ok c ->
  inside ss bbs mg_t dom -> tile_hyp ss bbs mg_t 0 ru overlap fr fm fb nt c dom.
Proof.
  intros ss bbs mg_t ru overlap fr fm fb nt c dom S C I. destruct (c_eq _ _ _ _ _ _ _ _ _ _ _ C) as (E & _).
  assert (W : wf_steps mg_t 0 = mg_t) by (destruct (so_steps _ _ _ _ _ _ _ _ _ S); unfold wf_steps; lia).
  constructor; [exact S|exact C|rewrite W; exact I|]. rewrite E. cbn [c_tb]. unfold tb_steps. cbn. lia.
Qed.

Lemma wavefront : forall ss bbs mg_t ru fr fm fb nt c dom, settings_ok ss bbs mg_t 0 false fr fm fb nt -> setup ss bbs mg_t 0 ru false fr fm fb nt = Ok c ->
  inside ss bbs mg_t dom -> forall first last, exists regs, run_solution c first last = Ok regs /\
  forall l, runs_regions (programs dom regs) l ->
    NoDup l /\
    (forall x, In x l <-> to_do (Z.of_nat (length bbs)) dom first last x /\ in_reach ss (Z.of_nat (length bbs)) mg_t first x) /\
    forall V (alloc : Z -> Z) (st : stencil V), halo_stencil (length ss) (halo_of ss) st ->
      (forall a b, In a l -> In b l -> step_order (direction first last) a b -> conflict alloc st a b -> before l a b) /\
      (stage_indep alloc st -> forall r, Permutation r l -> plain_run (direction first last) r -> forall m cl, exec alloc st l m cl = exec alloc st r m cl).
Proof.
  intros ss bbs mg_t ru fr fm fb nt c dom S C I first last. pose proof (no_tb _ _ _ _ _ _ _ _ _ _ _ S C I) as H.
  assert (W : wf_steps mg_t 0 = mg_t) by (destruct (so_steps _ _ _ _ _ _ _ _ _ S); unfold wf_steps; lia).
  destruct (tile_cover _ _ _ _ _ _ _ _ _ _ _ _ H first last) as (regs & E & M). rewrite W in M. exists regs. split; [exact E|]. intros l R. destruct (M l R) as (N & In').
  split; [exact N|]. split; [exact In'|]. intros V alloc st HS. split.
  - exact (tile_order _ _ _ _ _ _ _ _ _ _ _ _ H first last regs l V alloc st E R HS).
  - intros SI. exact (tile_exec _ _ _ _ _ _ _ _ _ _ _ _ H first last regs l V alloc st E R HS SI).
Qed.

Lemma tblocks : forall ss bbs mg_t bk_t ru overlap fr fm fb nt c dom, tile_hyp ss bbs mg_t bk_t ru overlap fr fm fb nt c dom -> forall first last, exists regs, run_solution c first last = Ok regs /\
  (forall V (alloc : Z -> Z) (st : stencil V), halo_stencil (length ss) (halo_of ss) st -> stage_indep alloc st ->
     forall g i i' th th' e e' x y, In g regs -> nth_error g i = Some th -> nth_error g i' = Some th' -> i <> i' -> In e th -> In e' th' ->
      event_task dom e x -> event_task dom e' y -> ~ conflict alloc st x y) /\
  forall l, runs_regions (programs dom regs) l ->
    NoDup l /\
    (forall x, In x l <-> to_do (Z.of_nat (length bbs)) dom first last x /\ in_reach ss (Z.of_nat (length bbs)) (Z.max mg_t bk_t) first x) /\
    forall V (alloc : Z -> Z) (st : stencil V), halo_stencil (length ss) (halo_of ss) st ->
      (forall a b, In a l -> In b l -> step_order (direction first last) a b -> conflict alloc st a b -> before l a b) /\
      (stage_indep alloc st -> forall r, Permutation r l -> plain_run (direction first last) r -> forall m cl, exec alloc st l m cl = exec alloc st r m cl).
Proof.
  intros ss bbs mg_t bk_t ru overlap fr fm fb nt c dom H first last.
  destruct (tile_cover _ _ _ _ _ _ _ _ _ _ _ _ H first last) as (regs & E & M). exists regs. split; [exact E|]. split.
  - intros V alloc st HS SI. exact (tile_threads _ _ _ _ _ _ _ _ _ _ _ _ H first last regs V alloc st E HS SI).
  - intros l R. destruct (M l R) as (N & In'). split; [exact N|]. split; [exact In'|]. intros V alloc st HS. split.
    + exact (tile_order _ _ _ _ _ _ _ _ _ _ _ _ H first last regs l V alloc st E R HS).
    + intros SI. exact (tile_exec _ _ _ _ _ _ _ _ _ _ _ _ H first last regs l V alloc st E R HS SI).
Qed.

(* a rank without neighbours: tiled or not, the same *)
Lemma untiled : forall ss bbs mg_t bk_t ru overlap fr fm fb nt c dom ru0 fr0 fm0 fb0 nt0 c0,
  tile_hyp ss bbs mg_t bk_t ru overlap fr fm fb nt c dom -> settings_ok ss bbs 0 0 false fr0 fm0 fb0 nt0 -> setup ss bbs 0 0 ru0 false fr0 fm0 fb0 nt0 = Ok c0 ->
  (forall d, In d ss -> d_first d = true /\ d_last d = true) ->
  forall first last regs regs0 l l0, run_solution c first last = Ok regs -> runs_regions (programs dom regs) l -> run_solution c0 first last = Ok regs0 -> runs_regions (programs dom regs0) l0 ->
    (forall x, In x l <-> In x l0) /\
    forall V (alloc : Z -> Z) (st : stencil V), halo_stencil (length ss) (halo_of ss) st -> stage_indep alloc st -> forall m cl, exec alloc st l m cl = exec alloc st l0 m cl.
Proof.
  intros ss bbs mg_t bk_t ru overlap fr fm fb nt c dom ru0 fr0 fm0 fb0 nt0 c0 H S0 C0 A first last regs regs0 l l0 E R E0 R0.
  assert (I0 : inside ss bbs 0 dom).
  { intros s p D. destruct (th_in _ _ _ _ _ _ _ _ _ _ _ _ H s p D) as (L & Q). split; [exact L|]. intros j d Ej. destruct (Q j d Ej) as (N & B). split; [|exact B].
    destruct (A d (nth_error_In _ _ Ej)) as (A1 & A2). unfold near_rank in *. rewrite A1, A2 in *. exact N. }
  pose proof (no_tb _ _ _ _ _ _ _ _ _ _ _ S0 C0 I0) as H0.
  assert (Same : forall x, In x l <-> In x l0).
  { intros x. destruct (tile_cover _ _ _ _ _ _ _ _ _ _ _ _ H first last) as (q & Eq & M). rewrite E in Eq. injection Eq as <-.
    destruct (tile_cover _ _ _ _ _ _ _ _ _ _ _ _ H0 first last) as (q & Eq & M0). rewrite E0 in Eq. injection Eq as <-.
    rewrite (proj2 (M l R)), (proj2 (M0 l0 R0)).
    assert (Z1 : to_do (Z.of_nat (length bbs)) dom first last x -> forall w, in_reach ss (Z.of_nat (length bbs)) w first x).
    { intros (_ & _ & D) w. apply alone_reach; [exact A|]. exact (alone_inside _ _ _ _ _ _ A I0 D). }
    split; intros (T & _); split; auto. }
  split; [exact Same|]. intros V alloc st HS SI. exact (tile_two _ _ _ _ _ _ _ _ _ _ _ _ _ _ _ _ _ _ _ _ _ _ H H0 first last regs regs0 l l0 E R E0 R0 Same V alloc st HS HS SI).
Qed.

(* overlapped communication: the same instances, the same values *)
Lemma overlapped : forall ss ss0 bbs mg_t bk_t ru fr fm fb nt c c0 dom,
  tile_hyp ss bbs mg_t bk_t ru true fr fm fb nt c dom -> tile_hyp ss0 bbs mg_t bk_t ru false fr fm fb nt c0 dom ->
  Forall2 (fun d d0 => d_fold d = d_fold d0 /\ d_halo d = d_halo d0 /\ d_rb d = d_rb d0 /\ d_rksz d = d_rksz d0 /\ d_first d = d_first d0 /\ d_last d = d_last d0) ss ss0 ->
  forall first last, exists regs regs0, run_solution c first last = Ok regs /\ run_solution c0 first last = Ok regs0 /\
  forall l l0, runs_regions (programs dom regs) l -> runs_regions (programs dom regs0) l0 ->
    NoDup l /\ (forall x, In x l <-> In x l0) /\
    forall V (alloc : Z -> Z) (st : stencil V), halo_stencil (length ss) (halo_of ss) st -> stage_indep alloc st -> forall m cl, exec alloc st l m cl = exec alloc st l0 m cl.
Proof.
  intros ss ss0 bbs mg_t bk_t ru fr fm fb nt c c0 dom H H0 F first last.
  destruct (tile_cover _ _ _ _ _ _ _ _ _ _ _ _ H first last) as (regs & E & M). destruct (tile_cover _ _ _ _ _ _ _ _ _ _ _ _ H0 first last) as (regs0 & E0 & M0).
  exists regs, regs0. split; [exact E|]. split; [exact E0|]. intros l l0 R R0. destruct (M l R) as (N & I). destruct (M0 l0 R0) as (N0 & I0). split; [exact N|].
  assert (NE : forall j, match nth_error ss j, nth_error ss0 j with Some d, Some d0 => d_fold d = d_fold d0 /\ d_halo d = d_halo d0 /\ d_rb d = d_rb d0 /\ d_rksz d = d_rksz d0 /\ d_first d = d_first d0 /\ d_last d = d_last d0 | None, None => True | _, _ => False end).
  { clear -F. induction F as [|d d0 ss ss0 Hd F IH]; intros j; [destruct j; exact I|]. destruct j; [exact Hd|exact (IH j)]. }
  assert (Same : forall x, In x l <-> In x l0).
  { intros x. rewrite I, I0. unfold in_reach, near_rank, angle. split; intros (T & Q); (split; [exact T|]); intros j d Ej; specialize (NE j); rewrite Ej in NE.
    - destruct (nth_error ss j) as [d'|] eqn:Ej'; [|destruct NE]. destruct NE as (-> & -> & -> & -> & -> & ->) || destruct NE as (<- & <- & <- & <- & <- & <-). exact (Q j d' Ej').
    - destruct (nth_error ss0 j) as [d'|] eqn:Ej'; [|destruct NE]. destruct NE as (-> & -> & -> & -> & -> & ->). exact (Q j d' Ej'). }
  split; [exact Same|]. intros V alloc st HS SI. refine (tile_two _ _ _ _ _ _ _ _ _ _ _ _ _ _ _ _ _ _ _ _ _ _ H H0 first last regs regs0 l l0 E R E0 R0 Same V alloc st HS _ SI).
  assert (L : length ss = length ss0) by (clear -F; induction F; cbn; congruence). rewrite <- L. destruct HS as [A B]. constructor; [exact A|]. intros x y e e' He He' Hv j Hj.
  specialize (B x y e e' He He' Hv j Hj). specialize (NE j). unfold halo_of in *. destruct (nth_error ss j), (nth_error ss0 j); try tauto. destruct NE as (_ & <- & _). exact B.
Qed.

(* ----- one-dimensional examples ----- *)
Lemma shuffle_nil : forall A (ls : list (list A)) out, shuffle ls out -> shuffle ([] :: ls) out.
Proof.
  intros A ls out S. induction S as [ls F|l1 x r l2 out S IH]; [apply sh_nil; constructor; auto|]. exact (sh_cons ([] :: l1) x r l2 out IH).
Qed.
Lemma shuffle_concat : forall A (ls : list (list A)), shuffle ls (concat ls).
Proof.
  intros A ls. induction ls as [|l ls IH]; [apply sh_nil; constructor|]. cbn [concat]. induction l as [|x l IHl]; [apply shuffle_nil; exact IH|]. exact (sh_cons [] x l ls _ IHl).
Qed.
Definition points1 (e : event) : list inst := match e_box e with [(a, b)] => map (fun i => mkInst (e_t e) (e_s e) [i]) (zrange a b) | _ => [] end.
Definition is1 (lo hi : Z) (e : event) : bool := match e_box e with [(a, b)] => (lo <=? a) && (b <=? hi) && (e_s e =? 0) | _ => false end.
Definition dom1 (lo hi : Z) (s : Z) (p : list Z) : Prop := s = 0 /\ exists i, p = [i] /\ lo <= i < hi.
Lemma points1_task : forall lo hi e, is1 lo hi e = true -> runs_task (event_task (dom1 lo hi) e) (points1 e).
Proof.
  intros lo hi [t s bx] H. unfold is1, points1, event_task in *. cbn [e_t e_s e_box] in *. destruct bx as [|(a, b) [|? ?]]; try discriminate. split.
  - apply FinFun.Injective_map_NoDup; [intros i j Q; injection Q as ->; reflexivity|]. apply zrange_NoDup.
  - intros [t' s' p]. cbn [i_t i_s i_p]. rewrite in_map_iff. split.
    + intros (i & Q & Hi). injection Q as <- <- <-. apply zrange_In in Hi. split; [reflexivity|]. split; [reflexivity|]. split; [cbn [in_box]; unfold in_iv; cbn [fst snd]; lia|]. split; [lia|]. exists i. split; [reflexivity|lia].
    + intros (-> & -> & B & _ & i & -> & Hi). exists i. split; [reflexivity|]. apply zrange_In. cbn [in_box] in B; unfold in_iv in B; cbn [fst snd] in B; lia.
Qed.
Definition seq1 (regs : list region) : list inst := concat (map (fun g => concat (map (fun th => concat (map points1 th)) g)) regs).
Lemma seq1_runs : forall lo hi regs, forallb (forallb (forallb (is1 lo hi))) regs = true -> runs_regions (programs (dom1 lo hi) regs) (seq1 regs).
Proof.
  intros lo hi regs. induction regs as [|g regs IH]; intros H; [constructor|]. cbn [forallb] in H. apply andb_prop in H. destruct H as (H1 & H2). unfold seq1. cbn [map concat programs].
  apply rr_cons; [|exact (IH H2)]. exists (map (fun th => concat (map points1 th)) g). split; [|apply shuffle_concat].
  clear -H1. induction g as [|th g IH]; [constructor|]. cbn [forallb map] in *. apply andb_prop in H1. destruct H1 as (H1 & H2). constructor; [|exact (IH H2)].
  clear -H1. induction th as [|e th IH]; [constructor|]. cbn [forallb map concat] in *. apply andb_prop in H1. destruct H1 as (H1 & H2). constructor; [apply points1_task; exact H1|exact (IH H2)].
Qed.

(* ----- checks by calculation ----- *)
Definition inst_dec : forall a b : inst, {a = b} + {a <> b}.
Proof. repeat decide equality. Defined.
Fixpoint nodupb (l : list inst) : bool := match l with [] => true | x :: r => negb (if in_dec inst_dec x r then true else false) && nodupb r end.
Lemma nodupb_ok : forall l, nodupb l = true -> NoDup l.
Proof. induction l as [|x l IH]; intros H; [constructor|]. cbn in H. apply andb_prop in H. destruct H as (H1 & H2). constructor; [|exact (IH H2)]. destruct (in_dec inst_dec x l); [discriminate|assumption]. Qed.
Definition inclb (l r : list inst) : bool := forallb (fun x => if in_dec inst_dec x r then true else false) l.
Lemma inclb_ok : forall l r, inclb l r = true -> forall x, In x l -> In x r.
Proof. intros l r H x Hx. unfold inclb in H. rewrite forallb_forall in H. specialize (H x Hx). cbv beta in H. destruct (in_dec inst_dec x r); [assumption|discriminate]. Qed.
Lemma perm_check : forall l r, nodupb l && nodupb r && inclb l r && inclb r l = true -> Permutation l r.
Proof.
  intros l r H. apply andb_prop in H. destruct H as (H & H4). apply andb_prop in H. destruct H as (H & H3). apply andb_prop in H. destruct H as (H1 & H2).
  apply NoDup_Permutation; [apply nodupb_ok; exact H1|apply nodupb_ok; exact H2|]. intros x. split; apply inclb_ok; assumption.
Qed.
Fixpoint sortedb (dir : Z) (l : list inst) : bool := match l with [] => true | x :: r => forallb (fun y => negb (so_b dir y x)) r && sortedb dir r end.
Lemma plain_check : forall dir l, dir = 1 \/ dir = -1 -> sortedb dir l = true -> plain_run dir l.
Proof.
  intros dir l Hd S a b Ia Ib O. assert (N : a <> b) by (intros ->; revert O; unfold step_order; lia). destruct (before_total _ l a b Ia Ib N) as [B|B]; [exact B|exfalso].
  assert (P : pairs (fun x y => so_b dir y x = false) l).
  { clear -S. induction l as [|x l IH]; [exact I|]. cbn in S. apply andb_prop in S. destruct S as (S1 & S2). split; [|exact (IH S2)]. intros y Hy. rewrite forallb_forall in S1. specialize (S1 y Hy). destruct (so_b dir y x); [discriminate|reflexivity]. }
  pose proof (pairs_before _ _ _ _ _ P B) as Q. cbv beta in Q. apply so_b_iff in O. rewrite O in Q. discriminate.
Qed.
