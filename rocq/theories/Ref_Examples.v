(* One dim, rank [0, 8) in micro-blocks [3, 8) and [0, 3).  Scratch var 5 is written by part 1 where x < 3 (u + 1) and by part 4 where
   x > 3 (10 u), so it is zero at x = 3; scratch var 6 by part 2 (sum of var 5 at x - 1 and x); part 3 writes u of the next step (sum
   of var 6 at x - 1 and x + 1).  Part 7 writes var 1, in even steps only, in a second stage (u of the next step plus one). *)
From Coq Require Import ZifyBool.
From Verif Require Import Base ParFor_Model Bbox_Model Bbox_Spec Cover_Spec Loops_Model Sched_Spec Micro_Model Micro_Spec Ref_Model Ref_Spec.

Definition rx_set (scalar init : bool) : mset := mkMset 1 false 1 0 scalar init true 0 (mkFeats false false false true false false) [0] [2] [2] [4] [1] [2] 4.
Definition rx_rank : list (Z * Z) := [(0, 8)].
Definition rx_dss : list (list ldim) := [[mkLdim 3 8 2 2 0 2]; [mkLdim 0 3 2 2 0 2]].
Definition rx_dom : list (Z * Z) := [(-4, 12)].
Definition rx_c1 (p : list Z) : bool := hd 0 p <? 3.
Definition rx_c4 (p : list Z) : bool := 3 <? hd 0 p.
Definition rx_full : part_bbs := mkPB rx_dom 16 [rx_dom].
Definition rx_q1 : mpart := mkMpart 1 true true false true (mkPB [(-4, 3)] 7 [[(-4, 3)]]) [2] [1] [5].
Definition rx_q4 : mpart := mkMpart 4 true true false true (mkPB [(4, 12)] 8 [[(4, 12)]]) [2] [1] [5].
Definition rx_q2 : mpart := mkMpart 2 true false false true rx_full [1] [1] [6].
Definition rx_q3 : mpart := mkMpart 3 false false false true rx_full [] [] [].
Definition rx_q7 (t : Z) : mpart := mkMpart 7 false false true (Z.even t) rx_full [] [] [].
Definition rx_cond (q : mpart) (p : list Z) : bool := if mp_id q =? 1 then rx_c1 p else if mp_id q =? 4 then rx_c4 p else true.
Definition rx_reg (q : mpart) : list Z -> bool := region rx_dom (if mp_id q =? 1 then Some rx_c1 else if mp_id q =? 4 then Some rx_c4 else None).
Definition rx_ord : list mpart := [rx_q1; rx_q4; rx_q2].
Definition rx_dep (sp q : mpart) : bool := mp_id sp =? 3.
Definition rx_reqd : mpart -> list mpart := reqd_parts [[rx_q1; rx_q4]; [rx_q2]] rx_dep.
Definition rx_stages (t : Z) : list (list mpart) := [[rx_q3]; [rx_q7 t]].
Definition rx_alloc (v : Z) : Z := if v =? 0 then 2 else 1.
Definition rx_scr (v : Z) : bool := (v =? 5) || (v =? 6).
Definition rx_rd (i : inst) : list (Z * Z * list Z) :=
  match i_p i with
  | [x] => if (i_s i =? 1) || (i_s i =? 4) then [(0, i_t i, [x])] else if i_s i =? 2 then [(5, 0, [x - 1]); (5, 0, [x])]
           else if i_s i =? 3 then [(6, 0, [x - 1]); (6, 0, [x + 1])] else if i_s i =? 7 then [(0, i_t i + 1, [x])] else []
  | _ => []
  end.
Definition rx_wr (i : inst) : list (Z * Z * list Z) :=
  if (i_s i =? 1) || (i_s i =? 4) then [(5, 0, i_p i)] else if i_s i =? 2 then [(6, 0, i_p i)]
  else if i_s i =? 3 then [(0, i_t i + 1, i_p i)] else if i_s i =? 7 then [(1, 0, i_p i)] else [].
Definition rx_val (i : inst) (vs : list Z) (c : Z * Z * list Z) : Z :=
  if (i_s i =? 1) || (i_s i =? 7) then hd 0 vs + 1 else if i_s i =? 4 then 10 * hd 0 vs else zsum vs.
Definition rx_st : stencil Z := mkStencil Z rx_rd rx_wr rx_val.

Lemma rx_mods t : (t + 1) mod 2 <> t mod 2.
Proof. pose proof (Z.mod_pos_bound t 2). pose proof (Z.mod_pos_bound (t + 1) 2). pose proof (Z.div_mod t 2). pose proof (Z.div_mod (t + 1) 2). lia. Qed.


Ltac rx_in := repeat match goal with
  | H : In _ (_ ++ _) |- _ => apply in_app_or in H
  | H : _ \/ _ |- _ => destruct H
  | H : False |- _ => destruct H
  | H : In _ [] |- _ => destruct H
  | H : In _ (_ :: _) |- _ => destruct H
  | H : exists _, _ |- _ => destruct H
  | H : _ /\ _ |- _ => destruct H
  end; subst.
Ltac rx_pt p := destruct p as [|? [|? ?]]; cbn in *; try contradiction.

Lemma rx_main_ok t : stage_ok rx_alloc rx_st rx_scr rx_cond t rx_rank rx_ord rx_reqd [rx_q3].
Proof.
  constructor.
  - intros q q' I I' E. cbn in I, I'. rx_in; try reflexivity; discriminate.
  - split; repeat constructor; cbn; intros K; rx_in; discriminate.
  - split; repeat constructor.
  - intros q p c I. cbn in I. rx_in; cbn; (split; [intros K; rx_in; eexists; split; [left; reflexivity|reflexivity]|intros K; rx_in; left; reflexivity]).
  - intros q v I J. cbn in I. rx_in; cbn in J; rx_in; reflexivity.
  - intros sp p c I J. cbn in I. rx_in. cbn in J. rx_in. split; reflexivity.
  - intros q p c I J K. cbn in I. rx_in; rx_pt p; rx_in; cbn in *; try discriminate; reflexivity.
  - intros sp I. cbn in I. rx_in. exists (fun _ => true). reflexivity.
  - intros q p c I J K. cbn in I. rx_in; rx_pt p; rx_in; cbn in *; try discriminate; first [exists rx_q2; split; [tauto|left; reflexivity]|exists rx_q1; split; [tauto|left; reflexivity]].
  - intros q p c q' I J I' O. cbn in I, I'. rx_in; rx_pt p; rx_in; cbn in *; rx_in; try discriminate; first [exists [], [rx_q4; rx_q2]; split; [reflexivity|cbn; tauto]|exists [rx_q1], [rx_q2]; split; [reflexivity|cbn; tauto]].
  - intros sp q p c q' I J K I' O. cbn in I, I'. rx_in; cbn; tauto.
  - intros q p c q' b I J I' O B. cbn in I, I'. rx_in; rx_pt p; rx_in; cbn in *; rx_in; try discriminate; destruct b as [|(u & w) [|? ?]]; cbn in *; try discriminate; unfold in_iv in *; cbn in *; lia.
  - intros q q' v p I I' O O' E E'. cbn in I, I'. rx_in; cbn in *; rx_in; try reflexivity; try discriminate; unfold on, rx_cond in *; cbn in *; unfold rx_c1, rx_c4 in *; lia.
  - intros q p I E. cbn in I. rx_in; cbn in *; try discriminate; reflexivity.
  - intros sp q p sp' p' c I J B E I' B' E' R W. cbn in I, I', J. pose proof (rx_mods t). rx_in; rx_pt p; rx_in; cbn in *; rx_in; exfalso; congruence.
  - intros sp sp' p c I I' _ _ _ _ _. cbn in I, I'. rx_in. reflexivity.
Qed.
Lemma rx_second_ok t : stage_ok rx_alloc rx_st rx_scr rx_cond t rx_rank rx_ord rx_reqd [rx_q7 t].
Proof.
  constructor.
  - intros q q' I I' E. cbn in I, I'. rx_in; try reflexivity; discriminate.
  - split; repeat constructor; cbn; intros K; rx_in; discriminate.
  - split; repeat constructor.
  - apply (rx_main_ok t).
  - apply (rx_main_ok t).
  - intros sp p c I J. cbn in I. rx_in. cbn in J. rx_in. split; reflexivity.
  - intros q p c I J K. cbn in I. rx_in; rx_pt p; rx_in; cbn in *; try discriminate; reflexivity.
  - intros sp I. cbn in I. rx_in. exists (fun _ => false). reflexivity.
  - intros q p c I J K. cbn in I. rx_in; rx_pt p; rx_in; cbn in *; try discriminate; first [exists rx_q2; split; [tauto|left; reflexivity]|exists rx_q1; split; [tauto|left; reflexivity]].
  - apply (rx_main_ok t).
  - intros sp q p c q' I J K I' O. cbn in I, I'. rx_in; cbn in J; rx_in; rx_pt p; cbn in *; rx_in; discriminate.
  - intros q p c q' b I J I' O B. cbn in I, I'. rx_in; rx_pt p; rx_in; cbn in *; rx_in; try discriminate; destruct b as [|(u & w) [|? ?]]; cbn in *; try discriminate; unfold in_iv in *; cbn in *; lia.
  - apply (rx_main_ok t).
  - apply (rx_main_ok t).
  - intros sp q p sp' p' c I J B E I' B' E' R W. cbn in I, I', J. rx_in; cbn in *; rx_in; rx_pt p; rx_in; cbn in *; rx_in; exfalso; congruence.
  - intros sp sp' p c I I' _ _ _ _ _. cbn in I, I'. rx_in. reflexivity.
Qed.
Lemma rx_stage_ok t parts : In parts (rx_stages t) -> stage_ok rx_alloc rx_st rx_scr rx_cond t rx_rank rx_ord rx_reqd parts.
Proof. intros [<-|[<-|[]]]; [apply rx_main_ok|apply rx_second_ok]. Qed.

Definition rx_cfg := Build_omp_cfg true 1 1 0 0.
Lemma rx_parts t parts : In parts (rx_stages t) -> parts_ok 1 rx_reqd parts rx_reg /\ forall q p, required rx_reqd parts q -> in_box (span q rx_rank) p = true -> rx_reg q p = rx_cond q p.
Proof.
  intros Ip. assert (K : forall q, required rx_reqd parts q -> In q [rx_q1; rx_q4; rx_q2; rx_q3] \/ q = rx_q7 t).
  { intros q (sp & I & J). destruct Ip as [<-|[<-|[]]]; cbn in I; rx_in; cbn in J; rx_in; cbn; tauto. }
  split; [split|].
  - intros q Hq. apply K in Hq. destruct Hq as [[<-|[<-|[<-|[<-|[]]]]]| ->]; (split; [intros C; try discriminate C; cbn; repeat split; repeat constructor; lia|]);
      (split; [intros C; try discriminate C; reflexivity|]); exists rx_cfg.
    + exists (Some rx_c1), rx_dom. split; [cbn; lia|]. split; [reflexivity|]. split; [repeat constructor; cbn; lia|]. split; [vm_compute; reflexivity|reflexivity].
    + exists (Some rx_c4), rx_dom. split; [cbn; lia|]. split; [reflexivity|]. split; [repeat constructor; cbn; lia|]. split; [vm_compute; reflexivity|reflexivity].
    + exists None, rx_dom. split; [cbn; lia|]. split; [reflexivity|]. split; [repeat constructor; cbn; lia|]. split; [vm_compute; reflexivity|reflexivity].
    + exists None, rx_dom. split; [cbn; lia|]. split; [reflexivity|]. split; [repeat constructor; cbn; lia|]. split; [vm_compute; reflexivity|reflexivity].
    + exists None, rx_dom. split; [cbn; lia|]. split; [reflexivity|]. split; [repeat constructor; cbn; lia|]. split; [vm_compute; reflexivity|reflexivity].
  - intros q q' Hq Hq' E. apply K in Hq. apply K in Hq'. destruct Hq as [Hq| ->], Hq' as [Hq'| ->]; cbn in *; rx_in; try reflexivity; discriminate.
  - intros q p Hq B. apply K in Hq. unfold rx_reg, rx_cond, region. destruct Hq as [Hq| ->]; [cbn in Hq; rx_in|]; cbn [mp_id rx_q1 rx_q2 rx_q3 rx_q4 rx_q7]; cbn in B |- *;
      destruct p as [|x [|? ?]]; cbn in *; rewrite ?andb_false_r in B; try discriminate; unfold in_iv in *; cbn in *; replace ((-4 <=? x) && (x <? 12)) with true by lia; reflexivity.
Qed.
Lemma rx_mset scalar init : mset_ok (rx_set scalar init) 1 /\ (length (ms_mbs (rx_set scalar init)) = 1%nat /\ length (ms_mbt (rx_set scalar init)) = 1%nat /\ length (ms_nbs (rx_set scalar init)) = 1%nat).
Proof. split; [unfold mset_ok; cbn; repeat split; try lia; repeat constructor; try lia; discriminate|repeat split]. Qed.
Lemma rx_setup t scalar parts : In parts (rx_stages t) -> setup_ok (rx_set scalar true) 1 rx_rank rx_ord rx_reqd parts rx_cond rx_reg.
Proof.
  intros I. destruct (rx_mset scalar true) as (A & B). destruct (rx_parts t parts I) as (C & D). split; [exact A|]. split; [exact B|]. split; [exact C|]. split; [exact D|].
  split; [split; [reflexivity|repeat constructor]|left; reflexivity].
Qed.
Lemma rx_blocks : blocks_ok 1 rx_rank rx_dss.
Proof.
  split; [repeat constructor; cbn; lia|]. intros p. unfold hits. destruct p as [|x [|? ?]]; cbn; rewrite ?andb_false_r; try reflexivity. rewrite !andb_true_r. unfold in_iv; cbn.
  destruct (Z_lt_dec x 0); [|destruct (Z_lt_dec x 3); [|destruct (Z_lt_dec x 8)]].
  - replace (0 <=? x) with false by lia. replace (3 <=? x) with false by lia. reflexivity.
  - replace (0 <=? x) with true by lia. replace (3 <=? x) with false by lia. replace (x <? 3) with true by lia. replace (x <? 8) with true by lia. reflexivity.
  - replace (0 <=? x) with true by lia. replace (3 <=? x) with true by lia. replace (x <? 3) with false by lia. replace (x <? 8) with true by lia. reflexivity.
  - replace (0 <=? x) with true by lia. replace (3 <=? x) with true by lia. replace (x <? 3) with false by lia. replace (x <? 8) with false by lia. reflexivity.
Qed.

(* scratch vars not initialised, points one by one: what the micro-blocks do, and what they leave in memory *)
Definition rx_pts (l : list Z) : list wr := map (fun x => WPt [x]) l.
Definition rx_logs : list (list event) :=
  [[EvPart 1 (rx_pts [1; 2]); EvPart 4 (rx_pts [4; 5; 6; 7; 8]); EvPart 2 (rx_pts [2; 3; 4; 5; 6; 7; 8]); EvPart 3 (rx_pts [3; 4; 5; 6; 7])];
   [EvPart 1 (rx_pts [-2; -1; 0; 1; 2]); EvPart 4 []; EvPart 2 (rx_pts [-1; 0; 1; 2; 3]); EvPart 3 (rx_pts [0; 1; 2])]].
Definition rx_mem (c : Z * Z * list Z) : Z := if fst (fst c) =? 5 then 7 else 0.
Definition rx_do (l : list (Z * list Z)) (m : Z * Z * list Z -> Z) := fold_left (fun m a => exec rx_alloc rx_st (map (mkInst 0 (fst a)) (map (fun x => [x]) (snd a))) m) l m.
Definition rx_after : Z * Z * list Z -> Z :=
  rx_do [(1, [-2; -1; 0; 1; 2]); (4, []); (2, [-1; 0; 1; 2; 3]); (3, [0; 1; 2])]
    (rx_do [(1, [1; 2]); (4, [4; 5; 6; 7; 8]); (2, [2; 3; 4; 5; 6; 7; 8]); (3, [3; 4; 5; 6; 7])] rx_mem).

Lemma rx_expands fi rofs folds l : expands fi rofs folds (rx_pts l) (map (fun x => [x]) l).
Proof.
  exists (map (fun x => [[x]]) l). split.
  - induction l as [|x l IH]; constructor; [|exact IH]. split; [constructor; [intros []|constructor]|]. intros p. cbn. unfold Nano_Spec.list_eqb. destruct (list_eq_dec Z.eq_dec [x] p) as [<-|N]; split; auto; [intros [K|[]]; contradiction|discriminate].
  - replace (concat (map (fun x => [[x]]) l)) with (map (fun x => [x]) l); [apply Permutation_refl|]. induction l as [|x l IH]; [reflexivity|]. cbn. f_equal. exact IH.
Qed.
Lemma rx_plays : plays_blocks 0 rx_alloc rx_st (expands true [0] [2]) rx_scr 0 rx_logs rx_mem rx_after.
Proof.
  econstructor; [intros c _; reflexivity| |econstructor; [intros c _; reflexivity| |constructor]].
  - do 4 (eapply pl_part; [apply rx_expands|]). apply pl_nil.
  - eapply pl_part; [apply rx_expands|]. eapply (pl_part _ _ _ _ _ 4 []); [apply (rx_expands _ _ _ [])|]. do 2 (eapply pl_part; [apply rx_expands|]). apply pl_nil.
Qed.
Lemma rx_wrong : ~ stage_result 0 rx_alloc rx_st rx_scr rx_cond 0 rx_rank rx_ord [rx_q3] rx_mem rx_after.
Proof.
  intros (X & (X1 & X2 & X3) & R & _).
  assert (U : forall x, X (0, 0, [x]) = 0) by (intros x; rewrite (X1 (0, 0, [x])) by reflexivity; reflexivity).
  assert (A : forall x, x < 3 -> X (5, 0, [x]) = 1).
  { intros x L. rewrite (X2 rx_q1 [x] (5, 0, [x])); [| left; reflexivity|unfold on; cbn; unfold rx_c1; cbn; lia|left; reflexivity]. cbn. change (X (0, 0 mod 2, [x]) + 1 = 1). change (0 mod 2) with 0. rewrite U. reflexivity. }
  assert (B : X (5, 0, [3]) = 0).
  { apply X3; [reflexivity|]. intros q I O W. cbn in I. rx_in; vm_compute in O, W; try discriminate. rx_in; discriminate. }
  assert (C : forall x, X (6, 0, [x]) = X (5, 0, [x - 1]) + X (5, 0, [x])).
  { intros x. rewrite (X2 rx_q2 [x] (6, 0, [x])); [|cbn; tauto|reflexivity|left; reflexivity]. unfold result. cbn. change (0 mod rx_alloc 5) with 0. cbn. change (0 mod 1) with 0. lia. }
  specialize (R rx_q3 [2] (0, 1, [2]) (or_introl eq_refl) eq_refl eq_refl (or_introl eq_refl)).
  replace (rx_after (0, 1, [2])) with 10 in R by (vm_compute; reflexivity).
  assert (E : result rx_alloc rx_st 0 X rx_q3 [2] (0, 1, [2]) = X (6, 0, [1]) + (X (6, 0, [3]) + 0)) by reflexivity. rewrite E, !C in R. cbn [Z.sub Z.add] in R.
  change (1 - 1) with 0 in R. change (3 - 1) with 2 in R. rewrite (A 0), (A 1), (A 2), B in R by lia. lia.
Qed.
