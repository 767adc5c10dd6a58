From Coq Require Import ZifyBool.
From Verif Require Import Base Idiv_Model Idiv_Proofs Scan_Proofs Tuple_Model Tuple_Proofs Adjust_Model Adjust_Spec Adjust_Proofs Tuner_Model.

(* The five levels of the settings and how they are adjusted, without thread binding. *)
Record lvs := mkLvs { l_mg : sizes; l_bk : sizes; l_mc : sizes; l_nn : sizes; l_pc : sizes }.
Definition lv (k : kset) : lvs := mkLvs (k_mega k) (k_block k) (k_micro k) (k_nano k) (k_pico k).
Definition getL (g : target) (l : lvs) : sizes :=
  match g with TMega => l_mg l | TBlock => l_bk l | TMicro => l_mc l | TNano => l_nn l | TPico => l_pc l | TUnknown => l_mg l end.
Definition setL (g : target) (v : sizes) (l : lvs) : lvs :=
  match g with
  | TMega => mkLvs v (l_bk l) (l_mc l) (l_nn l) (l_pc l)
  | TBlock => mkLvs (l_mg l) v (l_mc l) (l_nn l) (l_pc l)
  | TMicro => mkLvs (l_mg l) (l_bk l) v (l_nn l) (l_pc l)
  | TNano => mkLvs (l_mg l) (l_bk l) (l_mc l) v (l_pc l)
  | TPico => mkLvs (l_mg l) (l_bk l) (l_mc l) (l_nn l) v
  | TUnknown => l
  end.
Definition outL (g : target) (rank : sizes) (l : lvs) : sizes :=
  match g with TMega => rank | TBlock => l_mg l | TMicro => l_bk l | TNano => l_mc l | TPico => l_nn l | TUnknown => rank end.
Definition nanoL (e : aenv) (block nano : sizes) : sizes :=
  match nano_default e block nano 0 with Ok r => fst r | _ => nano end.
Definition levM (e : aenv) (rank : sizes) (l : lvs) : sizes :=
  fitted (mkSizes (if Z.max (z_t (l_mg l)) 0 =? 0 then Z.max (z_t (l_bk l)) 0 else Z.max (z_t (l_mg l)) 0) (z_d (l_mg l))) rank (a_fold e).
Definition levB (e : aenv) (rank : sizes) (l : lvs) : sizes :=
  fitted (mkSizes (Z.max (z_t (l_bk l)) 0) (z_d (if a_offload e then l_bk l else or_default (a_def e) (l_bk l)))) (levM e rank l) (a_fold e).
Definition levC (e : aenv) (rank : sizes) (l : lvs) : sizes :=
  fitted (mkSizes (if Z.max (z_t (l_mc l)) 0 =? 0 then Z.max (z_t (l_bk l)) 0 else Z.max (z_t (l_mc l)) 0) (z_d (l_mc l))) (levB e rank l) (a_fold e).
Definition levN (e : aenv) (rank : sizes) (l : lvs) : sizes := fitted (nanoL e (levB e rank l) (l_nn l)) (levC e rank l) (a_fold e).
Definition levP (e : aenv) (rank : sizes) (l : lvs) : sizes :=
  fitted (if a_offload e then or_default (a_def e) (l_pc l) else l_pc l) (levN e rank l) (a_fold e).
Definition lev (e : aenv) (rank : sizes) (l : lvs) : lvs := mkLvs (levM e rank l) (levB e rank l) (levC e rank l) (levN e rank l) (levP e rank l).

Definition known_t (g : target) : Prop := g <> TUnknown.
Lemma lv_set : forall g v k, lv (set_t g v k) = setL g v (lv k).
Proof. intros [] v k; reflexivity. Qed.
Lemma lv_get : forall g k, known_t g -> get_t g k = getL g (lv k).
Proof. intros [] k H; try reflexivity. destruct H; reflexivity. Qed.
Lemma lv_out : forall g k, get_outer g k = outL g (k_rank k) (lv k).
Proof. intros [] k; reflexivity. Qed.
Lemma lv_reset : forall g k req, known_t g -> lv (reset_others g k req) = setL g (getL g (lv k)) (lv req).
Proof. intros g k req H. unfold reset_others. rewrite lv_set, lv_get by exact H. reflexivity. Qed.
Lemma rank_set : forall g v k, k_rank (set_t g v k) = k_rank k.
Proof. intros [] v k; reflexivity. Qed.
Lemma rank_reset : forall g k req, k_rank (reset_others g k req) = k_rank k.
Proof. intros g k req. unfold reset_others. rewrite rank_set. reflexivity. Qed.
Lemma get_set : forall g v l, known_t g -> getL g (setL g v l) = v.
Proof. intros [] v l H; try reflexivity. destruct H; reflexivity. Qed.
Lemma set_set : forall g v w l, setL g v (setL g w l) = setL g v l.
Proof. intros [] v w l; reflexivity. Qed.
Lemma set_get : forall g l, setL g (getL g l) l = l.
Proof. intros [] []; reflexivity. Qed.

Lemma nano_posn : forall e block nano p, exists p', nano_default e block nano p = Ok (nanoL e block nano, p').
Proof.
  intros e block nano p. unfold nanoL, nano_default. destruct ((1 <? a_threads e) && (zsum (all_vals nano) =? 0)); [|eexists; reflexivity].
  match goal with |- context [first_dim ?i ?j ?ok ?n] => destruct (first_dim_ok i ok n j) as (o & Eo & _); [intros; eauto|] end.
  rewrite Eo. cbn [rbind]. eexists. reflexivity.
Qed.
Lemma adjust_lev : forall e k k', adjust_settings e k = Ok k' -> k_rank k' = k_rank k /\ lv k' = lev e (k_rank k) (lv k).
Proof.
  intros e k k' E. unfold adjust_settings in E. cbv zeta in E.
  match type of E with context [nano_default e ?b ?nn ?pp] => destruct (nano_posn e b nn pp) as (p' & En); rewrite En in E; cbn [rbind fst snd] in E end.
  match type of E with rbind ?r _ = _ => destruct r as [p| | |]; cbn [rbind] in E; try discriminate end.
  inversion E as [E2]. clear E En. destruct (a_tiling e); (split; [reflexivity|]); unfold lv; cbn [k_mega k_block k_micro k_nano k_pico]; unfold lev, levP, levN, levC, levB, levM; cbn [l_mg l_bk l_mc l_nn l_pc];
    destruct (a_offload e); reflexivity.
Qed.

(* Lengths *)
Definition lenL (n : nat) (l : lvs) : Prop :=
  length (z_d (l_mg l)) = n /\ length (z_d (l_bk l)) = n /\ length (z_d (l_mc l)) = n /\ length (z_d (l_nn l)) = n /\ length (z_d (l_pc l)) = n.
Lemma lenL_set : forall n g v l, lenL n l -> length (z_d v) = n -> lenL n (setL g v l).
Proof. intros n [] v l (A & B & C & D & E) H; unfold lenL; cbn [setL l_mg l_bk l_mc l_nn l_pc]; auto. Qed.
Lemma lenL_get : forall n g l, lenL n l -> length (z_d (getL g l)) = n.
Proof. intros n [] l (A & B & C & D & E); assumption. Qed.
Lemma nanoL_len : forall e block nano, length (z_d (nanoL e block nano)) = length (z_d nano) /\ z_t (nanoL e block nano) = z_t nano.
Proof. intros. destruct (nano_default_ok e block nano 0) as (r & E & A & B & _). unfold nanoL. rewrite E. auto. Qed.
Lemma nanoL_same : forall e block nano, pos (z_d nano) -> z_d nano <> [] -> 0 <= z_t nano -> nanoL e block nano = nano.
Proof.
  intros e block nano P N T. destruct (nano_default_ok e block nano 0) as (r & E & _ & _ & C). unfold nanoL. rewrite E. rewrite C; [reflexivity|].
  right. unfold all_vals. pose proof (zsum_pos_ne _ P N) as Q. unfold zsum in *. cbn in *. lia.
Qed.
Lemma or_default_len : forall d s, length (z_d (or_default d s)) = length (z_d s).
Proof. intros. unfold or_default. cbn. apply map_length. Qed.
Lemma or_default_same : forall d s, pos (z_d s) -> or_default d s = s.
Proof.
  intros d [t ds] P. unfold or_default. cbn in *. f_equal. induction P as [|x l Hx _ IH]; cbn; [reflexivity|]. rewrite IH. replace (x =? 0) with false by lia. reflexivity.
Qed.

Section Lev.
  Variables (e : aenv) (rank : sizes).
  Let n := length (z_d rank).
  Hypotheses (Pr : pos (z_d rank)) (Pf : pos (a_fold e)) (Lf : length (a_fold e) = n) (Nz : n <> O).

  Lemma fitted_nested : forall outer inner, length (z_d outer) = n -> pos (z_d outer) -> length (z_d inner) = n ->
    nested (z_d outer) (a_fold e) (z_d (fitted inner outer (a_fold e))) /\ length (z_d (fitted inner outer (a_fold e))) = n /\ pos (z_d (fitted inner outer (a_fold e))) /\
    z_t (fitted inner outer (a_fold e)) = z_t inner.
  Proof using Pf Lf.
    intros outer inner Lo Po Li. unfold fitted, find_num_subsets. cbn [fst z_d z_t].
    assert (N : nested (z_d outer) (a_fold e) (fit_dims (z_d outer) (a_fold e) (z_d inner))) by (apply fit_dims_nested; try assumption; rewrite Lo; assumption).
    split; [exact N|]. split; [rewrite (proj1 N); exact Lo|]. split; [|reflexivity]. eapply nested_pos; [|exact N]. rewrite Lo. exact Lf.
  Qed.
  Lemma fitted_again : forall outer inner, length (z_d outer) = n -> nested (z_d outer) (a_fold e) (z_d inner) -> fitted inner outer (a_fold e) = inner.
  Proof using Pf Lf.
    intros outer [t ds] Lo N. unfold fitted, find_num_subsets. cbn [fst z_d z_t] in *. rewrite fit_dims_again; [reflexivity|exact Pf|rewrite Lo; exact Lf|exact N].
  Qed.
  Lemma asked_len : forall (b : bool) d s, length (z_d s) = n -> length (z_d (if b then s else or_default d s)) = n.
  Proof. intros [] d s H; [exact H|rewrite or_default_len; exact H]. Qed.

  (* Every level is nested in the one outside. *)
  Lemma lev_nested : forall l, lenL n l -> lenL n (lev e rank l) /\
    forall g, known_t g -> nested (z_d (outL g rank (lev e rank l))) (a_fold e) (z_d (getL g (lev e rank l))) /\ pos (z_d (getL g (lev e rank l))) /\
                         pos (z_d (outL g rank (lev e rank l))) /\ length (z_d (outL g rank (lev e rank l))) = n.
  Proof using Pr Pf Lf.
    intros l (A & B & C & D & E).
    destruct (fitted_nested rank (mkSizes (if Z.max (z_t (l_mg l)) 0 =? 0 then Z.max (z_t (l_bk l)) 0 else Z.max (z_t (l_mg l)) 0) (z_d (l_mg l))) eq_refl Pr A) as (M1 & M2 & M3 & _). fold (levM e rank l) in *.
    assert (B' := asked_len (a_offload e) (a_def e) _ B).
    destruct (fitted_nested (levM e rank l) (mkSizes (Z.max (z_t (l_bk l)) 0) (z_d (if a_offload e then l_bk l else or_default (a_def e) (l_bk l)))) M2 M3 B') as (B1 & B2 & B3 & _). fold (levB e rank l) in *.
    destruct (fitted_nested (levB e rank l) (mkSizes (if Z.max (z_t (l_mc l)) 0 =? 0 then Z.max (z_t (l_bk l)) 0 else Z.max (z_t (l_mc l)) 0) (z_d (l_mc l))) B2 B3 C) as (C1 & C2 & C3 & _). fold (levC e rank l) in *.
    assert (D' : length (z_d (nanoL e (levB e rank l) (l_nn l))) = n) by (rewrite (proj1 (nanoL_len _ _ _)); exact D).
    destruct (fitted_nested (levC e rank l) _ C2 C3 D') as (D1 & D2 & D3 & _). fold (levN e rank l) in *.
    assert (E' : length (z_d (if a_offload e then or_default (a_def e) (l_pc l) else l_pc l)) = n) by (destruct (a_offload e); [rewrite or_default_len|]; exact E).
    destruct (fitted_nested (levN e rank l) _ D2 D3 E') as (E1 & E2 & E3 & _). fold (levP e rank l) in *.
    split; [repeat split; assumption|]. intros [] Hg; cbn [lev outL getL l_mg l_bk l_mc l_nn l_pc]; auto.
  Qed.

  (* Adjusting with the adjusted size of one level gives the same. *)
  Lemma lev_idem : forall g l, lenL n l -> 0 <= z_t (l_nn l) -> lev e rank (setL g (getL g (lev e rank l)) l) = lev e rank l.
  Proof using Pr Pf Lf Nz.
    intros g l Hl Ht. destruct (lev_nested l Hl) as (Hll & Hn).
    assert (NE : forall s, length (z_d s) = n -> z_d s <> []) by (intros s Hs Q; rewrite Q in Hs; cbn in Hs; congruence).
    destruct g; cbn [setL getL lev l_mg l_bk l_mc l_nn l_pc].
    - (* mega *)
      destruct (Hn TMega ltac:(discriminate)) as (N1 & _). cbn [outL getL lev l_mg] in N1.
      assert (EM : levM e rank (mkLvs (levM e rank l) (l_bk l) (l_mc l) (l_nn l) (l_pc l)) = levM e rank l).
      { unfold levM at 1. cbn [l_mg l_bk].
        assert (ET : z_t (levM e rank l) = if Z.max (z_t (l_mg l)) 0 =? 0 then Z.max (z_t (l_bk l)) 0 else Z.max (z_t (l_mg l)) 0) by reflexivity.
        rewrite fitted_again; [|reflexivity|exact N1]. destruct (levM e rank l) as [t ds] eqn:Q. cbn [z_t z_d] in *. f_equal. rewrite ET.
        pose proof (step_again (z_t (l_mg l)) (z_t (l_bk l))) as S. cbv zeta in S. rewrite Z.max_l with (n := Z.max (z_t (l_bk l)) 0) in S by lia. exact S. }
      unfold lev, levP, levN, levC, levB. cbn [l_mg l_bk l_mc l_nn l_pc]. rewrite EM. reflexivity.
    - (* block *)
      destruct (Hn TBlock ltac:(discriminate)) as (N1 & P1 & _). cbn [outL getL lev l_mg l_bk] in N1, P1.
      set (l2 := mkLvs (l_mg l) (levB e rank l) (l_mc l) (l_nn l) (l_pc l)).
      assert (ET : z_t (levB e rank l) = Z.max (z_t (l_bk l)) 0) by reflexivity.
      assert (EM : levM e rank l2 = levM e rank l).
      { unfold levM, l2. cbn [l_mg l_bk]. rewrite ET. rewrite Z.max_l with (n := Z.max (z_t (l_bk l)) 0) by lia. reflexivity. }
      assert (EB : levB e rank l2 = levB e rank l).
      { unfold levB at 1. rewrite EM. unfold l2. cbn [l_bk]. rewrite (or_default_same _ _ P1).
        replace (if a_offload e then levB e rank l else levB e rank l) with (levB e rank l) by (destruct (a_offload e); reflexivity).
        rewrite fitted_again; [|apply Hll|exact N1]. rewrite ET. rewrite Z.max_l with (n := Z.max (z_t (l_bk l)) 0) by lia. rewrite <- ET. destruct (levB e rank l); reflexivity. }
      assert (EC : levC e rank l2 = levC e rank l).
      { unfold levC. rewrite EB. unfold l2. cbn [l_bk l_mc]. rewrite ET. rewrite Z.max_l with (n := Z.max (z_t (l_bk l)) 0) by lia. reflexivity. }
      unfold lev, levP, levN. rewrite EM, EB, EC. reflexivity.
    - (* micro *)
      destruct (Hn TMicro ltac:(discriminate)) as (N1 & _). cbn [outL getL lev l_mc l_bk] in N1.
      assert (EC : levC e rank (mkLvs (l_mg l) (l_bk l) (levC e rank l) (l_nn l) (l_pc l)) = levC e rank l).
      { unfold levC at 1. cbn [l_mc l_bk]. change (levB e rank (mkLvs (l_mg l) (l_bk l) (levC e rank l) (l_nn l) (l_pc l))) with (levB e rank l).
        assert (ET : z_t (levC e rank l) = if Z.max (z_t (l_mc l)) 0 =? 0 then Z.max (z_t (l_bk l)) 0 else Z.max (z_t (l_mc l)) 0) by reflexivity.
        rewrite fitted_again; [|apply Hll|exact N1]. destruct (levC e rank l) as [t ds] eqn:Q. cbn [z_t z_d] in *. f_equal. rewrite ET.
        pose proof (step_again (z_t (l_mc l)) (z_t (l_bk l))) as S. cbv zeta in S. rewrite Z.max_l with (n := Z.max (z_t (l_bk l)) 0) in S by lia. exact S. }
      unfold lev, levP, levN. rewrite EC. reflexivity.
    - (* nano *)
      destruct (Hn TNano ltac:(discriminate)) as (N1 & P1 & _). cbn [outL getL lev l_nn l_mc] in N1, P1.
      assert (EN : levN e rank (mkLvs (l_mg l) (l_bk l) (l_mc l) (levN e rank l) (l_pc l)) = levN e rank l).
      { unfold levN at 1. cbn [l_nn]. rewrite nanoL_same; [|exact P1|apply NE, Hll|].
        - apply fitted_again; [apply Hll|exact N1].
        - change (z_t (levN e rank l)) with (z_t (nanoL e (levB e rank l) (l_nn l))). rewrite (proj2 (nanoL_len _ _ _)). exact Ht. }
      unfold lev, levP. rewrite EN. reflexivity.
    - (* pico *)
      destruct (Hn TPico ltac:(discriminate)) as (N1 & P1 & _). cbn [outL getL lev l_nn l_pc] in N1, P1.
      assert (EP : levP e rank (mkLvs (l_mg l) (l_bk l) (l_mc l) (l_nn l) (levP e rank l)) = levP e rank l).
      { unfold levP at 1. cbn [l_pc]. rewrite (or_default_same _ _ P1). replace (if a_offload e then levP e rank l else levP e rank l) with (levP e rank l) by (destruct (a_offload e); reflexivity).
        apply fitted_again; [apply Hll|exact N1]. }
      unfold lev. rewrite EP. reflexivity.
    - reflexivity.
  Qed.

  (* The size outside does not depend on the size of the level. *)
  Lemma out_indep : forall g v w l, z_d (outL g rank (lev e rank (setL g v l))) = z_d (outL g rank (lev e rank (setL g w l))).
  Proof. intros [] v w l; try reflexivity. Qed.

  (* A step size that adjusting keeps *)
  Definition tfix (g : target) (q : lvs) (t : Z) : Prop :=
    match g with
    | TMega | TMicro => 0 <= t /\ (t = 0 -> z_t (l_bk q) <= 0)
    | TBlock | TNano => 0 <= t
    | _ => True
    end.
  Lemma tfix_set : forall g q v t, tfix g (setL g v q) t <-> tfix g q t.
  Proof. intros [] q v t; reflexivity. Qed.
  Lemma lev_tfix : forall g q, 0 <= z_t (l_nn q) -> tfix g q (z_t (getL g (lev e rank q))).
  Proof using. clear Pr Pf Lf Nz.
    intros [] q H; cbn [tfix getL lev l_mg l_bk l_mc l_nn l_pc].
    - change (z_t (levM e rank q)) with (if Z.max (z_t (l_mg q)) 0 =? 0 then Z.max (z_t (l_bk q)) 0 else Z.max (z_t (l_mg q)) 0). destruct (Z.max (z_t (l_mg q)) 0 =? 0) eqn:E; split; lia.
    - change (z_t (levB e rank q)) with (Z.max (z_t (l_bk q)) 0). lia.
    - change (z_t (levC e rank q)) with (if Z.max (z_t (l_mc q)) 0 =? 0 then Z.max (z_t (l_bk q)) 0 else Z.max (z_t (l_mc q)) 0). destruct (Z.max (z_t (l_mc q)) 0 =? 0) eqn:E; split; lia.
    - change (z_t (levN e rank q)) with (z_t (nanoL e (levB e rank q) (l_nn q))). rewrite (proj2 (nanoL_len _ _ _)). exact H.
    - exact I.
    - exact I.
  Qed.
  (* A legal size is used as it is. *)
  Lemma lev_keeps : forall g q b, known_t g -> lenL n q -> length (z_d b) = n -> tfix g q (z_t b) -> nested (z_d (outL g rank (lev e rank (setL g b q)))) (a_fold e) (z_d b) ->
    getL g (lev e rank (setL g b q)) = b.
  Proof using Pr Pf Lf Nz.
    intros g q b Hg Hq Lb Hf N. pose proof (lenL_set n g b q Hq Lb) as Hl. destruct (lev_nested _ Hl) as (Hll & Hn).
    destruct (Hn g Hg) as (_ & _ & Po & Lo).
    assert (Pb : pos (z_d b)) by (eapply nested_pos; [|exact N]; rewrite Lo; exact Lf).
    assert (Nb : z_d b <> []) by (intros Q; rewrite Q in Lb; cbn in Lb; congruence).
    destruct g; cbn [outL setL getL lev l_mg l_bk l_mc l_nn l_pc tfix] in *.
    - unfold levM. cbn [l_mg l_bk]. rewrite fitted_again; [|reflexivity|exact N]. destruct b as [t ds]. cbn [z_t z_d] in *. f_equal. destruct Hf. destruct (Z.max t 0 =? 0) eqn:E; lia.
    - unfold levB. cbn [l_bk]. rewrite (or_default_same _ _ Pb). replace (if a_offload e then b else b) with b by (destruct (a_offload e); reflexivity).
      rewrite fitted_again; [|exact Lo|exact N]. destruct b as [t ds]. cbn [z_t z_d] in *. f_equal. lia.
    - unfold levC. cbn [l_mc l_bk]. rewrite fitted_again; [|exact Lo|exact N]. destruct b as [t ds]. cbn [z_t z_d] in *. f_equal. destruct Hf. destruct (Z.max t 0 =? 0) eqn:E; lia.
    - unfold levN. cbn [l_nn]. rewrite nanoL_same; [|exact Pb|exact Nb|exact Hf]. apply fitted_again; [exact Lo|exact N].
    - unfold levP. cbn [l_pc]. rewrite (or_default_same _ _ Pb). replace (if a_offload e then b else b) with b by (destruct (a_offload e); reflexivity). apply fitted_again; [exact Lo|exact N].
    - destruct Hg; reflexivity.
  Qed.
End Lev.
