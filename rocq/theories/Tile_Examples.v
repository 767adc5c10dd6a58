(* Data shared by the examples on temporal tiling. *)
From Coq Require Import ZifyBool.
From Verif Require Import Base Cover_Spec Loops_Model Tile_Model Sched_Spec Tile_Spec TileCfg_Spec Tile5_Proofs.

Definition f_nest : feats := mkFeats false false false false false true.
Definition f_omp : feats := mkFeats false false false true false false.
(* the sum of the values [k] points to the left, here, and [k] points to the right; two steps stored *)
Definition sum3 (k : Z) : stencil Z := mkStencil Z
  (fun x => map (fun o => (0, i_t x, [nth 0 (i_p x) 0 + o])) [- k; 0; k]) (fun x => [(0, i_t x + 1, i_p x)]) (fun _ vs _ => fold_right Z.add 0 vs).
Lemma sum3_halo : forall k h, 0 <= k <= h 0%nat -> halo_stencil 1 h (sum3 k).
Proof.
  intros k h Hk. constructor.
  - intros x e [<-|[]] j Hj. reflexivity.
  - intros x y e e' He He' _ j Hj. assert (j = 0%nat) by lia. subst j. cbn in He. destruct He as [<-|[<-|[<-|[]]]]; cbn [snd nth]; lia.
Qed.
Lemma sum3_indep : forall k, stage_indep (fun _ => 2) (sum3 k).
Proof.
  intros k x y e e' Et _ _ He [<-|[]] C. cbn in He. unfold cell_of in C. destruct He as [<-|[<-|[<-|[]]]]; injection C as C _; rewrite Et in C; Z.to_euclidean_division_equations; lia.
Qed.
Lemma dom1_inside : forall d bb wf lo hi, bb = (lo, hi) -> (forall i, lo <= i < hi -> near_rank d (angle d * moves 1 wf) i) -> inside [d] [[bb]] wf (dom1 lo hi).
Proof.
  intros d bb wf lo hi -> N s p (-> & i & -> & Hi). split; [reflexivity|]. intros j d' Ej. destruct j as [|j]; [|destruct j; discriminate]. injection Ej as <-. split; [apply N; exact Hi|].
  exists [(lo, hi)]. split; [reflexivity|exact Hi].
Qed.
