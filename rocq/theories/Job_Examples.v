(* Data shared by the examples on jobs of several ranks: one dim, the ranks run one thread after the other. *)
From Coq Require Import ZifyBool.
From Verif Require Import Base Cover_Spec Loops_Model Tile_Model Sched_Spec Sched2_Proofs Tile_Spec TileCfg_Spec Tile5_Proofs Tile_Examples Job_Model Job_Spec.

Lemma task_ext : forall k k' l, (forall x, k x <-> k' x) -> runs_task k l -> runs_task k' l.
Proof. intros k k' l E (N & I). split; [exact N|]. intros x. rewrite I. apply E. Qed.
Lemma programs_ext : forall (D D' : Z -> list Z -> Prop), (forall s p, D s p <-> D' s p) -> forall regs l, runs_regions (programs D regs) l -> runs_regions (programs D' regs) l.
Proof.
  intros D D' E. assert (T : forall e x, event_task D e x <-> event_task D' e x) by (intros e x; unfold event_task; rewrite E; tauto).
  assert (Th : forall th l, runs_thread (map (event_task D) th) l -> runs_thread (map (event_task D') th) l).
  { induction th as [|e th IH]; intros l R; inversion R; subst; cbn [map]; constructor; [eapply task_ext; [apply T|eassumption]|apply IH; assumption]. }
  assert (Rg : forall g l, runs_region (map (map (event_task D)) g) l -> runs_region (map (map (event_task D')) g) l).
  { intros g l (ls & F & S). exists ls. split; [|exact S]. clear -F Th. revert ls F. induction g as [|th g IH]; intros ls F; inversion F; subst; cbn [map]; constructor; [apply Th; assumption|apply IH; assumption]. }
  induction regs as [|g regs IH]; intros l R; inversion R; subst; cbn [programs map]; constructor; [apply Rg; assumption|apply IH; assumption].
Qed.

(* A rank of points [lo..hi): wave-fronts of [wf] steps, halo 1, no fold; [ov] = overlapped communication. *)
Definition dim1 (lo hi : Z) (fst lst : bool) (nr ib ie mg : Z) : sdim := mkSdim 1 1 lo (hi - lo) nr fst lst ib ie mg 8 8 8 8 8.
Definition cfg1 (d : sdim) (bb : Z * Z) (wf : Z) (ov : bool) : rank_cfg :=
  mkRankCfg [d] [[bb]] wf 0 false ov f_nest f_omp f_nest 1 (match setup [d] [[bb]] wf 0 false ov f_nest f_omp f_nest 1 with Ok c => c | _ => mkTcfg [] [] 0 0 false f_nest f_omp f_nest 0 end).

(* a job in which every thread of a region finishes before the next one starts, and all ranks exchange at once *)
Definition seq_parts (k : rank_cfg) (p : pass) : list inst * list inst := match rank_parts (k_c k) p with Ok (re, ri) => (seq1 re, seq1 ri) | _ => ([], []) end.
Section Seq.
  Variables (ranks : list rank_cfg) (alloc : Z -> Z) (st : stencil Z) (swap : (nat -> cell -> Z) -> (nat -> cell -> Z) -> nat -> cell -> Z).
  Definition seq_pass (p : pass) (M : nat -> cell -> Z) : nat -> cell -> Z :=
    let P := fun r => match nth_error ranks r with Some k => exec alloc st (fst (seq_parts k p)) (M r) | None => M r end in
    let M1 := fun r => match nth_error ranks r with Some k => exec alloc st (snd (seq_parts k p)) (P r) | None => P r end in
    swap P M1.
  Definition seq_job (nst wf first last : Z) (M : nat -> cell -> Z) : nat -> cell -> Z := fold_left (fun m p => seq_pass p m) (passes nst wf first last) (swap M M).

  Variables (nst wf : Z) (dom : Z -> list Z -> Prop) (ex : Z -> bool) (hl hr : Z -> nat -> Z) (lk : Z -> nat -> nat -> list Z -> Prop) (box : nat -> Z * Z).
  Hypothesis Hbox : forall r k, nth_error ranks r = Some k -> forall s p, dom1 (fst (box r)) (snd (box r)) s p <-> rank_dom nst wf dom k s p.
  Hypothesis Hswap : forall P M, exchanged ranks nst wf ex hl hr lk P M (swap P M).
  Definition part1 (p : pass) (r : nat) (k : rank_cfg) : bool :=
    match rank_parts (k_c k) p with Ok (re, ri) => forallb (forallb (forallb (is1 (fst (box r)) (snd (box r))))) (re ++ ri) | _ => false end.
  Lemma seq_runs : forall first last M, (forall p, In p (passes nst wf first last) -> forall r k, nth_error ranks r = Some k -> part1 p r k = true) ->
    runs_job ranks nst wf dom ex hl hr lk alloc st first last M (seq_job nst wf first last M).
  Proof.
    intros first last M H. exists (swap M M). split; [apply Hswap|]. unfold seq_job. generalize (swap M M). revert H. generalize (passes nst wf first last). induction l as [|p ps IH]; intros H m; [constructor|].
    cbn [fold_left]. econstructor; [|apply Hswap|apply IH; intros q Hq; apply H; right; exact Hq]. intros r k Hr. cbv beta. rewrite Hr. specialize (H p (or_introl eq_refl) r k Hr). unfold part1 in H. unfold seq_parts.
    destruct (rank_parts (k_c k) p) as [(re, ri)| | |]; try discriminate. rewrite forallb_app in H. apply andb_prop in H. destruct H as (H1 & H2). cbn [fst snd].
    exists re, ri, (seq1 re), (seq1 ri). split; [reflexivity|]. split; [eapply programs_ext; [apply (Hbox r k Hr)|apply seq1_runs; exact H1]|]. split; [eapply programs_ext; [apply (Hbox r k Hr)|apply seq1_runs; exact H2]|]. split; intros c; reflexivity.
  Qed.
End Seq.

(* 20 points as two ranks of 10, wave-fronts of two steps, overlapped communication; and as one rank without tiling. *)
Definition two_ranks : list rank_cfg :=
  [cfg1 (dim1 0 10 true false 2 0 8 8) (0, 11) 2 true; cfg1 (dim1 10 20 false true 2 12 20 8) (9, 20) 2 true].
Definition one_rank : list rank_cfg := [cfg1 (dim1 0 20 true true 1 0 20 20) (0, 20) 0 false].
Definition halo1 (v : Z) (j : nat) : Z := 1.
Definition all_vars (v : Z) : bool := true.
Definition all_links (v : Z) (r s : nat) (q : list Z) : Prop := True.
(* the halos of the two ranks *)
Definition swap_two (P M : nat -> cell -> Z) (r : nat) (c : cell) : Z :=
  match r, c with
  | 0%nat, (_, _, q) => if (10 <=? nth 0 q 0) && (nth 0 q 0 <? 12) then P 1%nat c else M 0%nat c
  | 1%nat, (_, _, q) => if (8 <=? nth 0 q 0) && (nth 0 q 0 <? 10) then P 0%nat c else M 1%nat c
  | _, _ => M r c
  end.
Definition swap_none (P M : nat -> cell -> Z) : nat -> cell -> Z := M.

Ltac near1 := unfold near_rank; match goal with |- context [angle ?d * moves ?a ?b] => let v := eval vm_compute in (angle d * moves a b) in change (angle d * moves a b) with v end; cbn; lia.

Lemma one_dim : forall d bb wf ov lo hi, dim_settings ov d -> 0 <= wf -> bb = (lo, hi) -> (forall i, lo <= i < hi -> near_rank d (angle d * moves 1 wf) i) ->
  forall c, setup [d] [[bb]] wf 0 false ov f_nest f_omp f_nest 1 = Ok c -> tile_hyp [d] [[bb]] wf 0 false ov f_nest f_omp f_nest 1 c (dom1 lo hi).
Proof.
  intros d bb wf ov lo hi D W E N c C. apply no_tb; [|exact C|apply dom1_inside; assumption].
  constructor; [split; [discriminate|]; constructor; [exact D|constructor]|split; [discriminate|]; repeat constructor|lia|lia|discriminate|repeat split; discriminate].
Qed.
Lemma hyp_ext : forall ss bbs mg bk ru ov fr fm fb nt c (D D' : Z -> list Z -> Prop), (forall s p, D s p <-> D' s p) -> tile_hyp ss bbs mg bk ru ov fr fm fb nt c D -> tile_hyp ss bbs mg bk ru ov fr fm fb nt c D'.
Proof. intros ss bbs mg bk ru ov fr fm fb nt c D D' E [S C I T]. constructor; [exact S|exact C| |exact T]. intros s p H. apply I. apply E. exact H. Qed.
Lemma rank_dom1 : forall d bb wf ov a b lo hi, (forall i, (lo <= i < hi) <-> (a <= i < b /\ near_rank d (angle d * moves 1 wf) i)) -> forall s p, dom1 lo hi s p <-> rank_dom 1 wf (dom1 a b) (cfg1 d bb wf ov) s p.
Proof.
  intros d bb wf ov a b lo hi H s p. unfold rank_dom, cfg1. cbn [k_ss]. split.
  - intros (-> & i & -> & Hi). apply H in Hi. split; [split; [reflexivity|exists i; split; [reflexivity|tauto]]|]. intros [|[|j]] d' E; try discriminate. injection E as <-. cbn [nth]. tauto.
  - intros ((-> & i & -> & Hi) & N). split; [reflexivity|]. exists i. split; [reflexivity|]. apply H. split; [exact Hi|]. exact (N 0%nat d eq_refl).
Qed.

Definition box_two (r : nat) : Z * Z := match r with 0%nat => (0, 11) | _ => (9, 20) end.
Lemma two_box : forall r k, nth_error two_ranks r = Some k -> forall s p, dom1 (fst (box_two r)) (snd (box_two r)) s p <-> rank_dom 1 2 (dom1 0 20) k s p.
Proof. intros [|[|[|r]]] k E; try discriminate; injection E as <-; apply rank_dom1; intros i; near1. Qed.
Lemma one_box : forall r k, nth_error one_rank r = Some k -> forall s p, dom1 0 20 s p <-> rank_dom 1 0 (dom1 0 20) k s p.
Proof. intros [|[|r]] k E; try discriminate; injection E as <-; apply rank_dom1; intros i; near1. Qed.

Lemma two_ok : job_ok two_ranks 1 (fun _ => 1) 1 2 (dom1 0 20).
Proof.
  constructor.
  - intros k [<-|[<-|[]]].
    + eapply hyp_ext; [apply (two_box 0 _ eq_refl)|]. apply one_dim; [constructor; cbn; intros; try lia; discriminate|cbn; lia|reflexivity|intros i Hi; cbn in Hi; near1|vm_compute; reflexivity].
    + eapply hyp_ext; [apply (two_box 1 _ eq_refl)|]. apply one_dim; [constructor; cbn; intros; try lia; discriminate|cbn; lia|reflexivity|intros i Hi; cbn in Hi; near1|vm_compute; reflexivity].
  - intros k [<-|[<-|[]]]; (split; [reflexivity|]; split; [reflexivity|]; split; [reflexivity|]; intros [|[|j]] d E; try discriminate; injection E as <-; reflexivity).
  - intros k k' [|[|j]] d d' [<-|[<-|[]]] [<-|[<-|[]]] E E'; try discriminate; injection E as <-; injection E' as <-; reflexivity.
  - intros [|[|[|r]]] [|[|[|r']]] k k' E E' N; try discriminate; try congruence; injection E as <-; injection E' as <-; (eexists 0%nat, _, _; split; [reflexivity|]; split; [reflexivity|]); unfold left_of; cbn; intuition lia.
  - intros s p (-> & i & -> & Hi). split; [reflexivity|]. destruct (Z_lt_ge_dec i 10).
    + eexists. split; [left; reflexivity|]. intros [|[|j]] d E; try discriminate. injection E as <-. cbn. lia.
    + eexists. split; [right; left; reflexivity|]. intros [|[|j]] d E; try discriminate. injection E as <-. cbn. lia.
  - intros k [|[|j]] d s p [<-|[<-|[]]] E; try discriminate; injection E as <-; intros (-> & i & -> & Hi); cbn; lia.
Qed.

Lemma one_ok : job_ok one_rank 1 (fun _ => 1) 1 0 (dom1 0 20).
Proof.
  constructor.
  - intros k [<-|[]]. eapply hyp_ext; [apply (one_box 0 _ eq_refl)|]. apply one_dim; [constructor; cbn; intros; try lia; discriminate|cbn; lia|reflexivity|intros i Hi; near1|vm_compute; reflexivity].
  - intros k [<-|[]]; (split; [reflexivity|]; split; [reflexivity|]; split; [reflexivity|]; intros [|[|j]] d E; try discriminate; injection E as <-; reflexivity).
  - intros k k' [|[|j]] d d' [<-|[]] [<-|[]] E E'; try discriminate; injection E as <-; injection E' as <-; reflexivity.
  - intros [|[|r]] [|[|r']] k k' E E' N; try discriminate; congruence.
  - intros s p (-> & i & -> & Hi). split; [reflexivity|]. eexists. split; [left; reflexivity|]. intros [|[|j]] d E; try discriminate. injection E as <-. cbn. lia.
  - intros k [|[|j]] d s p [<-|[]] E; try discriminate; injection E as <-; intros (-> & i & -> & Hi); cbn; lia.
Qed.
Lemma two_interiors : interiors_ok two_ranks 1 2 all_vars halo1 halo1.
Proof. intros k [|[|j]] d v [<-|[<-|[]]] _ E _; try discriminate; injection E as <-; cbv zeta; match goal with |- context [angle ?d * moves ?a ?b] => change (angle d * moves a b) with 1 end; unfold halo1; cbn; intuition (try discriminate; lia). Qed.
Lemma one_interiors : interiors_ok one_rank 1 0 all_vars halo1 halo1.
Proof. intros k j d v [<-|[]] E; discriminate. Qed.
Lemma halo1_ok : var_halos 1 (fun _ => 1) halo1 halo1.
Proof. constructor; unfold halo1; intros; lia. Qed.
Lemma sum3_job : job_stencil 1 all_vars halo1 halo1 (sum3 1).
Proof.
  constructor.
  - intros x e [<-|[]]. split; [reflexivity|]. intros j Hj. reflexivity.
  - intros x e He _ j Hj. assert (j = 0%nat) by lia. subst j. unfold halo1. cbn in He. destruct He as [<-|[<-|[<-|[]]]]; cbn [snd nth]; lia.
Qed.
(* who owns and keeps a point *)
Lemma two_owns : forall r q, owns two_ranks r q <-> (r = 0%nat /\ 0 <= nth 0 q 0 < 10) \/ (r = 1%nat /\ 10 <= nth 0 q 0 < 20).
Proof.
  intros r q. split.
  - intros (k & E & I). destruct r as [|[|[|r]]]; try discriminate; injection E as <-; specialize (I 0%nat _ eq_refl); cbn in I; lia.
  - intros [(-> & H)|(-> & H)]; (eexists; split; [reflexivity|]; intros [|[|j]] d E; try discriminate; injection E as <-; cbn; lia).
Qed.
Lemma two_keeps : forall r v q, keeps two_ranks 1 2 halo1 halo1 all_links r v q <-> (r = 0%nat /\ -1 <= nth 0 q 0 < 12) \/ (r = 1%nat /\ 8 <= nth 0 q 0 < 21).
Proof.
  intros r v q. split.
  - intros (k & E & I & _). destruct r as [|[|[|r]]]; try discriminate; injection E as <-; specialize (I 0%nat _ eq_refl); cbv zeta in I;
      match type of I with context [angle ?d * moves ?a ?b] => change (angle d * moves a b) with 1 in I end; unfold halo1 in I; cbn in I; lia.
  - intros [(-> & H)|(-> & H)]; (eexists; split; [reflexivity|]; split; [|intros; exact I]; intros [|[|j]] d E; try discriminate; injection E as <-; cbv zeta;
      match goal with |- context [angle ?d * moves ?a ?b] => change (angle d * moves a b) with 1 end; unfold halo1; cbn; lia).
Qed.
Lemma swap_two_ok : forall P M, exchanged two_ranks 1 2 all_vars halo1 halo1 all_links P M (swap_two P M).
Proof.
  intros P M. constructor.
  - intros r ((v, u), q) O. apply two_owns in O. cbn [snd] in O. destruct O as [(-> & H)|(-> & H)]; cbn; [replace (_ && _) with false by lia|replace (_ && _) with false by lia]; reflexivity.
  - intros r s v u q N _ K O. apply two_owns in O. apply two_keeps in K. destruct O as [(-> & H)|(-> & H)], K as [(-> & H')|(-> & H')]; try congruence; cbn; replace (_ && _) with true by lia; reflexivity.
  - intros r v u q Ev K N. left. apply two_keeps in K. pose proof (N 0%nat) as N0. pose proof (N 1%nat) as N1. rewrite two_owns in N0, N1. destruct K as [(-> & H)|(-> & H)]; cbn; (replace (_ && _) with false; [reflexivity|symmetry; apply andb_false_iff; lia]).
  - discriminate.
Qed.
Lemma swap_none_ok : forall P M, exchanged one_rank 1 0 all_vars halo1 halo1 all_links P M (swap_none P M).
Proof.
  intros P M. constructor; [reflexivity| |left; reflexivity|reflexivity].
  intros r s v u q N _ (k & E & _) (k' & E' & _). destruct r as [|[|r]], s as [|[|s]]; try discriminate. congruence.
Qed.
(* at the start the halos between the ranks are out of date *)
Definition square (c : cell) : Z := match c with (_, u, q) => if u =? 0 then nth 0 q 0 * nth 0 q 0 + 1 else 0 end.
Definition two_start (r : nat) (c : cell) : Z :=
  let x := nth 0 (snd c) 0 in
  match r with
  | 0%nat => if (10 <=? x) && (x <? 20) then 777 else square c
  | 1%nat => if (0 <=? x) && (x <? 10) then 777 else square c
  | _ => 0
  end.
Lemma two_holds : holds two_ranks 1 2 (dom1 0 20) all_vars halo1 halo1 all_links (fun _ => 2) (sum3 1) two_start square.
Proof.
  constructor.
  - intros r c O. apply two_owns in O. destruct O as [(-> & H)|(-> & H)]; unfold two_start; cbv zeta; replace (_ && _) with false by lia; reflexivity.
  - intros r v u q _ K N. pose proof (N 0%nat) as N0. pose proof (N 1%nat) as N1. rewrite two_owns in N0, N1. apply two_keeps in K.
    destruct K as [(-> & H)|(-> & H)]; unfold two_start; cbv zeta; cbn [snd]; (replace (_ && _) with false; [reflexivity|symmetry; apply andb_false_iff; lia]).
  - intros r k x e _ _ _ _ E. discriminate.
Qed.
Lemma one_holds : holds one_rank 1 0 (dom1 0 20) all_vars halo1 halo1 all_links (fun _ => 2) (sum3 1) (fun _ => square) square.
Proof. constructor; reflexivity. Qed.
Lemma all_linked : forall ranks nst wf dom ex (st : stencil Z), reads_linked ranks nst wf dom ex all_links st.
Proof. intros ranks nst wf dom ex st r k x e s _ _ _ _ _ _ _. exact I. Qed.
