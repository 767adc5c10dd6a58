From Coq Require Import ZifyBool.
From Verif Require Import Base Cover_Spec Sched_Spec Sched_Proofs Micro_Model Micro_Spec Ref_Model Ref_Spec.

(* expanding an exact cover *)
Lemma expand_cover : forall fi rofs folds ws P pts, exact_cover (wr_hits fi rofs folds) ws P -> expands fi rofs folds ws pts ->
  NoDup pts /\ forall p, In p pts <-> P p = true.
Proof.
  intros fi rofs folds ws P pts C (ls & F & Pe).
  assert (G : forall ws ls, Forall2 (fun w l => NoDup l /\ forall p, In p l <-> wr_hits fi rofs folds w p = true) ws ls ->
    forall p, count_occ (list_eq_dec Z.eq_dec) (concat ls) p = hits (wr_hits fi rofs folds) ws p).
  { clear. intros ws ls F p. unfold hits. induction F as [|w l ws ls (N & H) F IH]; [reflexivity|]. cbn [concat filter]. rewrite count_occ_app, IH.
    destruct (wr_hits fi rofs folds w p) eqn:E.
    - assert (I : In p l) by (apply H; exact E). rewrite (proj1 (NoDup_count_occ' _ l) N p I). reflexivity.
    - assert (I : ~ In p l) by (rewrite H, E; discriminate). rewrite (proj1 (count_occ_not_In _ l p) I). reflexivity. }
  assert (K : forall p, count_occ (list_eq_dec Z.eq_dec) pts p = if P p then 1%nat else 0%nat).
  { intros p. rewrite <- (C p), <- (G ws ls F p). symmetry. apply Permutation_count_occ. exact Pe. }
  split.
  - apply (NoDup_count_occ (list_eq_dec Z.eq_dec)). intros p. rewrite K. destruct (P p); lia.
  - intros p. rewrite (count_occ_In (list_eq_dec Z.eq_dec)), K. destruct (P p); split; intros; try reflexivity; try lia; discriminate.
Qed.

Section Plays.
  Context {V : Type} (zero : V) (alloc : Z -> Z) (st : stencil V) (hit : list wr -> list (list Z) -> Prop) (scr : Z -> bool).
  Notation plays := (plays zero alloc st hit).

  Lemma plays_app t l1 : forall l2 m m', plays t (l1 ++ l2) m m' -> exists mid, plays t l1 m mid /\ plays t l2 mid m'.
  Proof.
    induction l1 as [|e l1 IH]; intros l2 m m' H; cbn [app] in H; [exists m; split; [constructor|exact H]|].
    inversion H as [|v l m1 m1' H1|id ws pts l m1 m1' H0 H1]; subst; destruct (IH _ _ _ H1) as (mid & A & B); exists mid; (split; [econstructor; eauto|exact B]).
  Qed.

  (* zeroing a list of vars *)
  Lemma plays_inits t vs : forall m m', plays t (map EvInit vs) m m' ->
    (forall c, In (var_of c) vs -> m' c = zero) /\ (forall c, ~ In (var_of c) vs -> m' c = m c).
  Proof.
    induction vs as [|v vs IH]; intros m m' H; cbn [map] in H.
    - inversion H; subst. split; [contradiction|reflexivity].
    - inversion H as [|v0 l m1 m1' H1|]; subst. destruct (IH _ _ H1) as (A & B). split; intros c I.
      + destruct (in_dec Z.eq_dec (var_of c) vs) as [J|J]; [apply A; exact J|]. rewrite B by exact J. unfold zeroed. destruct I as [->|I]; [|contradiction]. rewrite Z.eqb_refl. reflexivity.
      + rewrite B by (intros J; apply I; right; exact J). unfold zeroed. destruct (Z.eqb_spec (var_of c) v) as [E|]; [|reflexivity]. exfalso. apply I. left. congruence.
  Qed.

  (* evaluating a part at distinct points that do not disturb each other *)
  Lemma exec_pts t id : forall pts m, NoDup pts ->
    (forall p c, In p pts -> In c (wr_cells alloc st (mkInst t id p)) -> snd c = p) ->
    (forall p p' c, In p pts -> In p' pts -> In c (rd_cells alloc st (mkInst t id p)) -> In c (wr_cells alloc st (mkInst t id p')) -> p = p') ->
    forall c, let m' := exec alloc st (map (mkInst t id) pts) m in
      (forall p, In p pts -> In c (wr_cells alloc st (mkInst t id p)) -> m' c = s_val st (mkInst t id p) (map m (rd_cells alloc st (mkInst t id p))) c) /\
      ((forall p, In p pts -> ~ In c (wr_cells alloc st (mkInst t id p))) -> m' c = m c).
  Proof.
    induction pts as [|x pts IH]; intros m N W R c; [split; [contradiction|reflexivity]|].
    inversion N as [|? ? Nx Np]; subst.
    destruct (IH (update alloc st m (mkInst t id x)) Np) with (c := c) as (A & B).
    { intros p c0 Ip. apply W. right. exact Ip. } { intros p p' c0 Ip Ip'. apply R; right; assumption. }
    cbn [map]. unfold exec in *. cbn [fold_left]. split.
    - intros p [<-|Ip] Ic.
      + rewrite B; [unfold update; destruct (in_dec cell_eq_dec c (wr_cells alloc st (mkInst t id x))); [reflexivity|contradiction]|].
        intros p Ip Jc. apply Nx. rewrite <- (W x c (or_introl eq_refl) Ic), (W p c (or_intror Ip) Jc). exact Ip.
      + rewrite (A p Ip Ic). f_equal. apply map_ext_In. intros c' Ic'. unfold update. destruct (in_dec cell_eq_dec c' (wr_cells alloc st (mkInst t id x))) as [J|]; [|reflexivity].
        exfalso. apply Nx. rewrite <- (R p x c' (or_intror Ip) (or_introl eq_refl) Ic' J). exact Ip.
    - intros H. rewrite B by (intros p Ip; apply H; right; exact Ip). unfold update. destruct (in_dec cell_eq_dec c (wr_cells alloc st (mkInst t id x))) as [J|]; [|reflexivity].
      exfalso. exact (H x (or_introl eq_refl) J).
  Qed.
End Plays.

(* spans of contained boxes *)
Definition inside (b c : list (Z * Z)) : Prop := Forall2 (fun x y => fst y <= fst x /\ snd x <= snd y) b c.
Lemma in_inside b c p : inside b c -> in_box b p = true -> in_box c p = true.
Proof.
  intros H. revert p. induction H as [|x y b c (A & B) H IH]; intros [|i p] E; cbn in *; try discriminate; auto.
  apply andb_true_iff in E as (E1 & E2). rewrite (IH p E2), andb_true_r. unfold in_iv in *. lia.
Qed.
Lemma inside_span q b c : inside b c -> inside (span q b) (span q c).
Proof.
  intros H. unfold span. destruct (mp_scratch q); [|exact H]. revert H. generalize (mp_wl q) (mp_wr q). intros wl wr H. revert wl wr.
  induction H as [|x y b c (A & B) H IH]; intros [|l wl] [|r wr]; cbn; try constructor; cbn; try lia. apply IH.
Qed.
Lemma inside_refl b : inside b b.
Proof. induction b; constructor; auto. lia. Qed.
