From Coq Require Import String QArith.
From Verif Require Import Base Idiv_Model Expr_Model Expr_Spec Expr_Proofs.
Open Scope Z_scope.

Section Val.
Variable V : Type.
Variable N : nsys V.
Hypothesis HN : lawful N.

Definition cop_fun (c : cop) : V -> V -> V := match c with OAdd => n_add N | OMul => n_mul N end.
Definition cop_unit (c : cop) : V := match c with OAdd => n_zero N | OMul => n_one N end.
Definition cfold (c : cop) (l : list expr) : V := fold_right (fun x s => cop_fun c (value N x) s) (cop_unit c) l.

Lemma value_comm : forall c l, value N (E (LComm c) l) = cfold c l.
Proof. intros [|] l; reflexivity. Qed.
Lemma cop_laws : forall c, comm_monoid (cop_fun c) (cop_unit c).
Proof. intros [|]; [exact (proj1 HN)|exact (proj1 (proj2 HN))]. Qed.

Lemma cfold_app : forall c a b, cfold c (a ++ b) = cop_fun c (cfold c a) (cfold c b).
Proof.
  intros c a b. destruct (cop_laws c) as (C & A & U). induction a as [|x a IH]; cbn.
  - symmetry. apply U.
  - unfold cfold in IH |- *. cbn. rewrite IH. apply A.
Qed.
Lemma cfold_perm : forall c a b, Permutation a b -> cfold c a = cfold c b.
Proof.
  intros c a b H. destruct (cop_laws c) as (C & A & U). induction H; cbn; try reflexivity.
  - unfold cfold in IHPermutation |- *. cbn. rewrite IHPermutation. reflexivity.
  - rewrite !A. f_equal. apply C.
  - congruence.
Qed.
Lemma cfold_one : forall c e, cfold c [e] = value N e.
Proof. intros c e. destruct (cop_laws c) as (C & A & U). cbn. rewrite C. apply U. Qed.

Lemma cop_eqb_eq : forall a b, cop_eqb a b = true -> a = b.
Proof. intros [|] [|] H; (reflexivity || discriminate). Qed.
Lemma cop_eqb_refl : forall a, cop_eqb a a = true.
Proof. intros [|]; reflexivity. Qed.

Lemma merge_value : forall c ops op, cfold c (merge_expr c ops op) = cop_fun c (cfold c ops) (value N op).
Proof.
  intros c ops op. destruct op as [l k].
  assert (D : cfold c (ops ++ [E l k]) = cop_fun c (cfold c ops) (value N (E l k))) by (rewrite cfold_app, cfold_one; reflexivity).
  destruct l; cbn [merge_expr]; try exact D.
  destruct (cop_eqb o c) eqn:Q; [|exact D]. apply cop_eqb_eq in Q. subst o. rewrite cfold_app, value_comm. reflexivity.
Qed.

Lemma new_comm_value : forall c l r, value N (new_comm_node c l r) = cop_fun c (value N l) (value N r).
Proof.
  intros c l r. unfold new_comm_node. rewrite value_comm, !merge_value. destruct (cop_laws c) as (_ & _ & U). cbn [cfold fold_right]. rewrite U. reflexivity.
Qed.

(* values depend on the values of the operands only *)
Lemma value_cong : forall l es es', map (value N) es = map (value N) es' -> value N (E l es) = value N (E l es').
Proof.
  intros l es es' H. destruct l as [c|s|s|d t| |o|o|f]; try reflexivity.
  - destruct es as [|a [|? ?]], es' as [|a' [|? ?]]; try discriminate; try reflexivity. cbn in *. congruence.
  - destruct es as [|a [|b [|? ?]]], es' as [|a' [|b' [|? ?]]]; try discriminate; try reflexivity. injection H as H1 H2. destruct o; cbn; congruence.
  - rewrite !value_comm. assert (G : forall k, cfold o k = fold_right (cop_fun o) (cop_unit o) (map (value N) k)).
    { intros k. induction k as [|x k IH]; cbn; [reflexivity|]. unfold cfold in IH. rewrite IH. reflexivity. }
    rewrite !G, H. reflexivity.
  - cbn. rewrite H. reflexivity.
Qed.

(* ------------------------------------------------------------------ combination *)
Lemma find_comm_spec : forall c ops x rest, find_comm c ops = Some (x, rest) ->
  Permutation (x :: rest) ops /\ exists l, x = E (LComm c) l.
Proof.
  intros c ops. induction ops as [|y ops IH]; intros x rest H; [discriminate|]. cbn [find_comm] in H.
  assert (D : match find_comm c ops with Some (z, r') => Some (z, y :: r') | None => None end = Some (x, rest) ->
              Permutation (x :: rest) (y :: ops) /\ exists l, x = E (LComm c) l).
  { intros D. destruct (find_comm c ops) as [(z & r')|] eqn:F; [|discriminate]. injection D as -> <-.
    destruct (IH x r' eq_refl) as (P & Q). split; [|exact Q]. etransitivity; [apply perm_swap|]. constructor. exact P. }
  destruct y as [[| | | | | |c'|] k]; try exact (D H).
  destruct (cop_eqb c' c) eqn:Q; [|exact (D H)]. apply cop_eqb_eq in Q. subst c'. injection H as <- <-. split; [reflexivity|exists k; reflexivity].
Qed.
Lemma find_comm_none : forall c ops, find_comm c ops = None -> forall l, ~ In (E (LComm c) l) ops.
Proof.
  intros c ops. induction ops as [|y ops IH]; intros H l I; [exact I|]. cbn [find_comm] in H.
  assert (D : find_comm c ops = None -> ~ In (E (LComm c) l) ops) by (intros F; apply (IH F)).
  destruct I as [->|I].
  - rewrite cop_eqb_refl in H. discriminate.
  - destruct y as [[| | | | | |c'|] k]; try (destruct (find_comm c ops) as [(? & ?)|]; [discriminate|exact (D eq_refl I)]).
    destruct (cop_eqb c' c); [discriminate|]. destruct (find_comm c ops) as [(? & ?)|]; [discriminate|exact (D eq_refl I)].
Qed.

Definition lsize (l : list expr) : nat := fold_right (fun x n => (num_nodes x + n)%nat) O l.
Lemma lsize_app : forall a b, lsize (a ++ b) = (lsize a + lsize b)%nat.
Proof. induction a as [|x a IH]; intros b; cbn; [reflexivity|]. unfold lsize in IH |- *. rewrite IH. lia. Qed.
Lemma lsize_perm : forall a b, Permutation a b -> lsize a = lsize b.
Proof. induction 1; cbn; unfold lsize in *; cbn; lia. Qed.

Definition top_flat (l : list expr) : Prop := Forall flat l.

Lemma flat_kids : forall l ops, flat (E l ops) -> Forall flat ops.
Proof. intros l ops (_ & F). apply fold_and_Forall in F. exact F. Qed.

Lemma combine_loop_ok : forall fuel c ops, (lsize ops < fuel)%nat -> Forall flat ops ->
  exists ops', combine_loop fuel c ops = Ok ops' /\ cfold c ops' = cfold c ops /\ Forall flat ops' /\ (forall l, ~ In (E (LComm c) l) ops').
Proof.
  induction fuel as [|f IH]; intros c ops L F; [lia|]. cbn [combine_loop].
  destruct (find_comm c ops) as [(x & rest)|] eqn:H.
  - destruct (find_comm_spec c ops x rest H) as (P & l & ->).
    assert (S1 : lsize ops = lsize (E (LComm c) l :: rest)) by (symmetry; apply lsize_perm; exact P).
    cbn [merge_expr]. rewrite cop_eqb_refl.
    assert (Fp : Forall flat (E (LComm c) l :: rest)) by (apply (Permutation_Forall (Permutation_sym P)); exact F).
    inversion Fp as [|? ? F1 F2]; subst.
    destruct (IH c (rest ++ l)) as (ops' & A & B & C & D).
    + rewrite lsize_app. cbn in S1. fold (lsize l) (lsize rest) in S1. lia.
    + apply Forall_app. split; [exact F2|exact (flat_kids _ _ F1)].
    + exists ops'. split; [exact A|]. split; [|split; assumption]. rewrite B, <- (cfold_perm c _ _ P), cfold_app.
      change (cfold c (E (LComm c) l :: rest)) with (cop_fun c (value N (E (LComm c) l)) (cfold c rest)). rewrite value_comm. destruct (cop_laws c) as (Cm & _). apply Cm.
  - exists ops. split; [reflexivity|]. split; [reflexivity|]. split; [exact F|]. exact (find_comm_none c ops H).
Qed.

Lemma rmap_ok : forall (g : expr -> res expr) l, Forall (fun e => exists e', g e = Ok e' /\ value N e' = value N e /\ flat e') l ->
  exists l', (fix go (l : list expr) : res (list expr) :=
                match l with
                | [] => Ok []
                | x :: r => rbind (g x) (fun y => rbind (go r) (fun ys => Ok (y :: ys)))
                end) l = Ok l' /\ map (value N) l' = map (value N) l /\ Forall flat l'.
Proof.
  intros g l F. induction F as [|x l (y & A & B & C) F (l' & D & G & K)]; [exists []; split; [reflexivity|split; [reflexivity|constructor]]|].
  exists (y :: l'). rewrite A. cbn [rbind]. rewrite D. cbn [rbind]. split; [reflexivity|]. split; [cbn; congruence|constructor; assumption].
Qed.

Lemma combine_ok : forall e, exists e', combine_visit e = Ok e' /\ value N e' = value N e /\ flat e'.
Proof.
  induction e as [l ops IH] using expr_ind2. destruct (rmap_ok combine_visit ops IH) as (ops' & A & B & C).
  destruct l as [c|s|s|d t| |o|o|f]; cbn [combine_visit]; rewrite A; cbn [rbind];
    try (eexists; split; [reflexivity|]; split; [apply value_cong; exact B|]; split; [intros; discriminate|apply fold_and_Forall; exact C]).
  destruct (combine_loop_ok (num_nodes (E (LComm o) ops')) o ops') as (ops2 & D & G & K & M).
  - cbn. fold (lsize ops'). lia.
  - exact C.
  - rewrite D. cbn [rbind]. eexists. split; [reflexivity|]. split.
    + rewrite (value_cong (LComm o) ops ops' (eq_sym B)). rewrite !value_comm. exact G.
    + split; [|apply fold_and_Forall; exact K]. intros c l' Q. injection Q as <-. apply M.
Qed.

(* ------------------------------------------------------------------ reordering *)
Lemma zmem_In : forall x l, zmem x l = true <-> In x l.
Proof. clear. intros x l. unfold zmem. rewrite existsb_exists. split; [intros (y & A & B); apply Z.eqb_eq in B; subst; exact A|intros A; exists x; split; [exact A|apply Z.eqb_refl]]. Qed.

Section Reorder.
Variable needs : expr -> list Z.

Lemma scan_best_spec : forall have used oev j best,
  let r := scan_best needs have used j oev best in
  (snd r = None -> snd best = None /\ forall k, j <= k < j + Z.of_nat (List.length oev) -> In k used) /\
  (forall c, snd r = Some c -> r = best \/ (j <= fst r < j + Z.of_nat (List.length oev) /\ ~ In (fst r) used)).
Proof.
  clear. intros have used oev. induction oev as [|e oev IH]; intros j best; cbn [scan_best].
  - cbn. split; [intros H; split; [exact H|intros k Hk; cbn in Hk; lia]|intros c H; left; reflexivity].
  - set (b' := if zmem j used then best else _).
    destruct (IH (j + 1) b') as (A & B). set (r := scan_best needs have used (j + 1) oev b') in *.
    replace (Z.of_nat (List.length (e :: oev))) with (1 + Z.of_nat (List.length oev)) by (cbn [List.length]; lia).
    assert (C : zmem j used = true /\ b' = best \/ zmem j used = false /\ (exists c, snd b' = Some c) /\ (b' = best \/ fst b' = j)).
    { unfold b'. destruct (zmem j used); [left; split; reflexivity|right]. split; [reflexivity|].
      destruct (snd best) as [c'|] eqn:Sb.
      - destruct (_ <? c'); [split; [eexists; reflexivity|right; reflexivity]|split; [exists c'; exact Sb|left; reflexivity]].
      - split; [eexists; reflexivity|right; reflexivity]. }
    split.
    + intros H. destruct (A H) as (A1 & A2). destruct C as [(Z1 & C)|(_ & (c & C) & _)]; [|congruence].
      rewrite C in A1. split; [exact A1|]. intros k Hk. destruct (Z.eq_dec k j) as [->|Nk]; [apply zmem_In; exact Z1|apply A2; lia].
    + intros c H. destruct (B c H) as [R|(R1 & R2)]; [|right; split; [lia|exact R2]].
      destruct C as [(_ & C)|(Z1 & _ & [C|C])]; [left; congruence|left; congruence|].
      right. rewrite R, C. split; [lia|]. intros I. apply zmem_In in I. congruence.
Qed.

Lemma reorder_loop_ok : forall n oev have used nev,
  NoDup used -> (forall k, In k used -> 0 <= k < Z.of_nat (List.length oev)) -> (List.length used + n = List.length oev)%nat ->
  nev = map (fun k => nth (Z.to_nat k) oev (E LNeg [])) (rev used) ->
  exists nev', reorder_loop needs n oev have used nev = Ok nev' /\ Permutation nev' oev.
Proof.
  clear. induction n as [|n IH]; intros oev have used nev ND B L E.
  - exists nev. split; [reflexivity|]. subst nev.
    assert (P : Permutation used (zseq (Z.of_nat (List.length oev)))).
    { apply NoDup_Permutation_bis; [exact ND|rewrite zseq_length; lia|intros k Hk; apply zseq_In; apply B; exact Hk]. }
    etransitivity; [apply Permutation_map; etransitivity; [symmetry; apply Permutation_rev|exact P]|].
    assert (M : map (fun k => nth (Z.to_nat k) oev (E LNeg [])) (zseq (Z.of_nat (List.length oev))) = oev); [|rewrite M; reflexivity].
    unfold zseq. rewrite map_map, Nat2Z.id. rewrite (map_ext _ (fun x => nth x oev (Expr_Model.E LNeg []))) by (intros k; rewrite Nat2Z.id; reflexivity).
    clear. induction oev as [|x oev IH]; [reflexivity|]. cbn [List.length seq map nth]. f_equal. rewrite <- seq_shift, map_map. exact IH.
  - cbn [reorder_loop]. destruct (scan_best_spec have used oev 0 (0, None)) as (A & C).
    destruct (scan_best needs have used 0 oev (0, None)) as (j & c) eqn:Sb. cbn [fst snd] in A, C. destruct c as [c|].
    + destruct (C c eq_refl) as [R|(R1 & R2)]; [discriminate|].
      destruct (nth_error oev (Z.to_nat j)) as [e|] eqn:Ne; [|apply nth_error_None in Ne; lia].
      apply IH.
      * constructor; assumption.
      * intros k [<-|Hk]; [lia|apply B; exact Hk].
      * cbn [List.length]. lia.
      * subst nev. cbn [rev]. rewrite map_app. cbn [map]. rewrite (nth_error_nth _ _ _ Ne). reflexivity.
    + exfalso. destruct (A eq_refl) as (_ & A2).
      assert (I : incl (zseq (Z.of_nat (List.length oev))) used) by (intros k Hk; apply zseq_In in Hk; apply A2; lia).
      apply (NoDup_incl_length (zseq_NoDup _)) in I. rewrite zseq_length in I. lia.
Qed.

Lemma rmap_ok2 : forall (g : expr -> res expr) l, Forall (fun e => exists e', g e = Ok e' /\ value N e' = value N e) l ->
  exists l', (fix go (l : list expr) : res (list expr) :=
                match l with
                | [] => Ok []
                | x :: r => rbind (g x) (fun y => rbind (go r) (fun ys => Ok (y :: ys)))
                end) l = Ok l' /\ map (value N) l' = map (value N) l.
Proof.
  intros g l F. induction F as [|x l (y & A & B) F (l' & D & G)]; [exists []; split; reflexivity|].
  exists (y :: l'). rewrite A. cbn [rbind]. rewrite D. cbn [rbind]. split; [reflexivity|]. cbn; congruence.
Qed.

Lemma reorder_ok : forall e, exists e', reorder_visit needs e = Ok e' /\ value N e' = value N e.
Proof.
  induction e as [l ops IH] using expr_ind2. destruct (rmap_ok2 (reorder_visit needs) ops IH) as (ops' & A & B).
  destruct l as [c|s|s|d t| |o|o|f]; cbn [reorder_visit];
    try (rewrite A; cbn [rbind]; eexists; split; [reflexivity|]; apply value_cong; exact B).
  destruct (reorder_loop_ok (List.length ops) ops [] [] []) as (nev & C & D).
  - constructor.
  - intros k [].
  - reflexivity.
  - reflexivity.
  - rewrite C. cbn [rbind]. eexists. split; [reflexivity|]. rewrite !value_comm. apply cfold_perm. exact D.
Qed.
End Reorder.

(* ------------------------------------------------------------------ is_same *)
Fixpoint height (e : expr) : nat := match e with E _ ops => S (fold_right (fun x n => Nat.max (height x) n) O ops) end.
Definition lheight (l : list expr) : nat := fold_right (fun x n => Nat.max (height x) n) O l.

Fixpoint no_label (p : label -> bool) (e : expr) : Prop :=
  match e with E l ops => p l = false /\ fold_right (fun x P => no_label p x /\ P) True ops end.
Definition is_neg (l : label) : bool := match l with LNeg => true | _ => false end.
Definition is_sub (l : label) : bool := match l with LBin OSub => true | _ => false end.
Definition leafs_ok : expr -> Prop := arity_ok.

Definition same_ok (e : expr) : Prop := forall o, arity_ok e -> arity_ok o -> (no_label is_neg e \/ no_label is_sub o) ->
  is_same e o = true -> value N e = value N o /\ height e = height o.

Lemma arity_kids : forall l ops, arity_ok (E l ops) -> Forall arity_ok ops.
Proof. intros l ops (_ & F). apply fold_and_Forall in F. exact F. Qed.
Lemma nolab_kids : forall p l ops, no_label p (E l ops) -> Forall (no_label p) ops.
Proof. intros p l ops (_ & F). apply fold_and_Forall in F. exact F. Qed.

Lemma take_first_spec : forall p l r, take_first p l = Some r -> exists x, p x = true /\ In x l /\ Permutation (x :: r) l.
Proof.
  intros p l. induction l as [|y l IH]; intros r H; [discriminate|]. cbn [take_first] in H. destruct (p y) eqn:P.
  - injection H as <-. exists y. split; [exact P|]. split; [left; reflexivity|reflexivity].
  - destruct (take_first p l) as [r'|] eqn:T; [|discriminate]. injection H as <-. destruct (IH r' eq_refl) as (x & A & B & C).
    exists x. split; [exact A|]. split; [right; exact B|]. etransitivity; [apply perm_swap|]. constructor. exact C.
Qed.

Lemma lheight_perm : forall a b, Permutation a b -> lheight a = lheight b.
Proof. induction 1; cbn; unfold lheight in *; cbn; lia. Qed.

Lemma comm_go : forall c l, Forall same_ok l -> forall rem, List.length l = List.length rem -> Forall arity_ok l -> Forall arity_ok rem ->
  (Forall (no_label is_neg) l \/ Forall (no_label is_sub) rem) ->
  (fix go (l rem : list expr) : bool :=
         match l with
         | [] => true
         | op :: l' => match take_first (is_same op) rem with Some rem' => go l' rem' | None => false end
         end) l rem = true -> cfold c l = cfold c rem /\ lheight l = lheight rem.
Proof.
  intros c l F. induction F as [|x l Sx F IH]; intros rem L A1 A2 D G.
  - destruct rem; [split; reflexivity|discriminate].
  - destruct (take_first (is_same x) rem) as [rem'|] eqn:T; [|discriminate].
    destruct (take_first_spec _ _ _ T) as (y & Sm & Iy & P).
    assert (A3 : Forall arity_ok (y :: rem')) by (apply (Permutation_Forall (Permutation_sym P)); exact A2).
    inversion A1 as [|? ? A11 A12]; subst. inversion A3 as [|? ? A31 A32]; subst.
    assert (D' : Forall (no_label is_neg) (x :: l) \/ Forall (no_label is_sub) (y :: rem')).
    { destruct D as [D|D]; [left; exact D|right; apply (Permutation_Forall (Permutation_sym P)); exact D]. }
    destruct (IH rem') as (E1 & E2).
    + pose proof (Permutation_length P) as PL. cbn in PL, L. lia.
    + exact A12.
    + exact A32.
    + destruct D' as [D'|D']; [left|right]; inversion D'; assumption.
    + exact G.
    + destruct (Sx y A11 A31) as (V1 & V2); [destruct D' as [D'|D']; [left|right]; inversion D'; assumption|exact Sm|].
      split.
      * rewrite <- (cfold_perm c _ _ P). cbn. unfold cfold in E1. rewrite V1, E1. reflexivity.
      * rewrite <- (lheight_perm _ _ P). cbn. unfold lheight in E2. rewrite V2, E2. reflexivity.
Qed.

Lemma func_go : forall l, Forall same_ok l -> forall m, List.length l = List.length m -> Forall arity_ok l -> Forall arity_ok m ->
  (Forall (no_label is_neg) l \/ Forall (no_label is_sub) m) ->
  (fix go (l m : list expr) : bool :=
         match l, m with
         | x :: l', y :: m' => is_same x y && go l' m'
         | _, _ => true
         end) l m = true -> map (value N) l = map (value N) m /\ lheight l = lheight m.
Proof.
  intros l F. induction F as [|x l Sx F IH]; intros m L A1 A2 D G; destruct m as [|y m]; try discriminate.
  - split; reflexivity.
  - apply andb_true_iff in G. destruct G as (G1 & G2). inversion A1 as [|? ? A11 A12]; subst. inversion A2 as [|? ? A21 A22]; subst.
    destruct (IH m) as (E1 & E2); [cbn in L; lia|exact A12|exact A22|destruct D as [D|D]; [left|right]; inversion D; assumption|exact G2|].
    destruct (Sx y A11 A21) as (V1 & V2); [destruct D as [D|D]; [left|right]; inversion D; assumption|exact G1|].
    split; [cbn; congruence|]. cbn. unfold lheight in E2. rewrite V2, E2. reflexivity.
Qed.

Lemma same_value : forall e, same_ok e.
Proof.
  induction e as [l ops IH] using expr_ind2. intros [l' ops'] A1 A2 D H.
  pose proof (arity_kids _ _ A1) as K1. pose proof (arity_kids _ _ A2) as K2.
  assert (DK : Forall (no_label is_neg) ops \/ Forall (no_label is_sub) ops') by (destruct D as [D|D]; [left|right]; exact (nolab_kids _ _ _ D)).
  destruct A1 as (A1 & _). destruct A2 as (A2 & _). destruct HN as (HN1 & HN2 & HN3).
  destruct l as [c|s|s|d t| |o|o|f].
  - destruct l' as [c'|s'|s'|d' t'| |o'|o'|f']; try (cbn in H; discriminate). subst ops ops'. cbn in H. apply Qeq_bool_eq in H. split; [cbn; apply HN3; exact H|reflexivity].
  - destruct l' as [c'|s'|s'|d' t'| |o'|o'|f']; try (cbn in H; discriminate). subst ops ops'. cbn in H. apply String.eqb_eq in H. subst s'. split; reflexivity.
  - destruct l' as [c'|s'|s'|d' t'| |o'|o'|f']; try (cbn in H; discriminate). subst ops ops'. cbn in H. apply String.eqb_eq in H. subst s'. split; reflexivity.
  - destruct l' as [c'|s'|s'|d' t'| |o'|o'|f']; try (cbn in H; discriminate). subst ops ops'. cbn in H. apply andb_true_iff in H. destruct H as (H1 & H2). apply String.eqb_eq in H1. subst d'.
    assert (t = t') by (destruct t, t'; try discriminate; reflexivity). subst t'. split; reflexivity.
  - destruct ops as [|r [|? ?]]; try (cbn in A1; discriminate). inversion IH as [|? ? I1 _]; subst. inversion K1 as [|? ? K11 _]; subst.
    destruct l' as [c'|s'|s'|d' t'| |o'|o'|f']; try (cbn in H; discriminate).
    + destruct ops' as [|r' [|? ?]]; try (cbn in A2; discriminate). inversion K2 as [|? ? K21 _]; subst. cbn in H.
      destruct (I1 r' K11 K21) as (V1 & V2); [destruct DK as [DK|DK]; [left|right]; inversion DK; assumption|exact H|]. cbn. rewrite V1, V2. split; reflexivity.
    + destruct D as [(D & _)|(D & _)]; [discriminate|]. destruct o'; [discriminate| |]; cbn in H; discriminate.
  - destruct ops as [|a [|b [|? ?]]]; try (cbn in A1; discriminate). inversion IH as [|? ? I1 I2]; subst. inversion I2 as [|? ? I3 _]; subst.
    inversion K1 as [|? ? K11 K12]; subst. inversion K12 as [|? ? K13 _]; subst.
    destruct l' as [c'|s'|s'|d' t'| |o'|o'|f']; try (cbn in H; discriminate).
    destruct ops' as [|a' [|b' [|? ?]]]; try (cbn in A2; discriminate). inversion K2 as [|? ? K21 K22]; subst. inversion K22 as [|? ? K23 _]; subst.
    cbn [is_same] in H. apply andb_true_iff in H. destruct H as (H & H3). apply andb_true_iff in H. destruct H as (H1 & H2).
    assert (o = o') by (destruct o, o'; try discriminate; reflexivity). subst o'.
    destruct (I1 a' K11 K21) as (V1 & V2); [destruct DK as [DK|DK]; [left|right]; inversion DK; assumption|exact H2|].
    destruct (I3 b' K13 K23) as (V3 & V4); [destruct DK as [DK|DK]; [left|right]; inversion DK as [|? ? ? DK2]; inversion DK2; assumption|exact H3|].
    split; [apply value_cong; cbn; congruence|]. cbn. rewrite V2, V4. reflexivity.
  - destruct l' as [c'|s'|s'|d' t'| |o'|o'|f']; try (cbn in H; discriminate). cbn [is_same] in H.
    apply andb_true_iff in H. destruct H as (H & H3). apply andb_true_iff in H. destruct H as (H1 & H2). apply cop_eqb_eq in H1. subst o'.
    destruct (comm_go o ops IH ops') as (V1 & V2); [lia|exact K1|exact K2|exact DK|exact H3|]. split; [rewrite !value_comm; exact V1|].
    cbn. fold (lheight ops) (lheight ops'). rewrite V2. reflexivity.
  - destruct l' as [c'|s'|s'|d' t'| |o'|o'|f']; try (cbn in H; discriminate). cbn [is_same] in H.
    apply andb_true_iff in H. destruct H as (H & H3). apply andb_true_iff in H. destruct H as (H1 & H2). apply String.eqb_eq in H1. subst f'.
    destruct (func_go ops IH ops') as (V1 & V2); [lia|exact K1|exact K2|exact DK|exact H3|]. split; [cbn; rewrite V1; reflexivity|].
    cbn. fold (lheight ops) (lheight ops'). rewrite V2. reflexivity.
Qed.

(* ------------------------------------------------------------------ heaps *)
Lemma stands_inv : forall h a e, stands h a e -> exists l ps es, e = E l es /\ h a = Some (l, ps) /\ Forall2 (stands h) ps es.
Proof. intros h a e H. destruct H as [a l ps es A B]. exists l, ps, es. split; [reflexivity|split; assumption]. Qed.

Lemma stands_fun : forall h e a e', stands h a e -> stands h a e' -> e = e'.
Proof.
  intros h. induction e as [l ops IH] using expr_ind2. intros a e' H1 H2.
  apply stands_inv in H1. destruct H1 as (l1 & ps & es & Q & A & B). injection Q as <- <-.
  apply stands_inv in H2. destruct H2 as (l2 & ps2 & es2 & -> & A2 & B2). rewrite A in A2. injection A2 as <- <-.
  f_equal. clear A. revert es2 B2 IH. induction B as [|p x ps es X B IB]; intros es2 B2 IH; inversion B2 as [|p' y ps' es' Y B2']; subst; [reflexivity|].
  inversion IH as [|? ? I1 I2]; subst. f_equal; [exact (I1 p y X Y)|exact (IB _ B2' I2)].
Qed.

Lemma height_kid : forall l es x, In x es -> (height x < height (E l es))%nat.
Proof.
  intros l es x H. cbn. assert (height x <= fold_right (fun x n => Nat.max (height x) n) O es)%nat; [|lia].
  induction es as [|y es IH]; [contradiction|]. cbn. destruct H as [->|H]; [lia|]. specialize (IH H). lia.
Qed.
Lemma height_cong : forall l es es', map height es = map height es' -> height (E l es) = height (E l es').
Proof.
  intros l es es' H. cbn. f_equal. revert es' H. induction es as [|x es IH]; intros [|y es'] H; try discriminate; [reflexivity|].
  injection H as H1 H2. cbn. rewrite H1, (IH es' H2). reflexivity.
Qed.

(* same nodes with other operands, same values *)
Definition shape (h h' : heap) : Prop := forall a,
  match h a, h' a with
  | Some (l, ps), Some (l', ps') => l = l' /\ List.length ps = List.length ps'
  | None, None => True
  | _, _ => False
  end.
Definition keeps (h h' : heap) : Prop :=
  shape h h' /\ forall a e, stands h a e -> exists e', stands h' a e' /\ value N e' = value N e /\ height e' = height e.

Lemma keeps_refl : forall h, keeps h h.
Proof. intros h. split; [intros a; destruct (h a) as [(l & ps)|]; [split; reflexivity|exact I]|]. intros a e S1. exists e. split; [exact S1|split; reflexivity]. Qed.
Lemma keeps_trans : forall h1 h2 h3, keeps h1 h2 -> keeps h2 h3 -> keeps h1 h3.
Proof.
  intros h1 h2 h3 (A1 & A2) (B1 & B2). split.
  - intros a. specialize (A1 a). specialize (B1 a). destruct (h1 a) as [(? & ?)|], (h2 a) as [(? & ?)|], (h3 a) as [(? & ?)|]; try contradiction; [|exact I]. destruct A1 as (-> & ->). exact B1.
  - intros a e S1. destruct (A2 a e S1) as (e2 & S2 & V2 & H2). destruct (B2 a e2 S2) as (e3 & S3 & V3 & H3). exists e3. split; [exact S3|]. split; congruence.
Qed.

Lemma set_nth_length : forall i x l, List.length (set_nth i x l) = List.length l.
Proof. induction i as [|i IH]; intros x [|y l]; cbn; try reflexivity. rewrite IH. reflexivity. Qed.

Lemma redirect : forall h a l qs i ep ep' e e2, h a = Some (l, qs) -> nth_error qs i = Some ep ->
  stands h ep e -> stands h ep' e2 -> value N e2 = value N e -> height e2 = height e ->
  keeps h (hset h a (l, set_nth i ep' qs)).
Proof.
  intros h a l qs i ep ep' e e2 Ha Hi Se Se2 Hv Hh. split.
  - intros x. unfold hset. destruct (x =? a) eqn:X; [apply Z.eqb_eq in X; subst x; rewrite Ha; split; [reflexivity|symmetry; apply set_nth_length]|].
    destruct (h x) as [(? & ?)|]; [split; reflexivity|exact I].
  - set (h' := hset h a (l, set_nth i ep' qs)).
    assert (G : forall n x t, (height t < n)%nat -> stands h x t -> exists t', stands h' x t' /\ value N t' = value N t /\ height t' = height t);
      [|intros x t S1; apply (G (Datatypes.S (height t)) x t); [lia|exact S1]].
    induction n as [|n IH]; intros x t L S1; [lia|].
    apply stands_inv in S1. destruct S1 as (l1 & ps & es & -> & A & B).
    assert (K : forall p y, In y es -> stands h p y -> exists y', stands h' p y' /\ value N y' = value N y /\ height y' = height y).
    { intros p y Iy Sy. apply IH; [pose proof (height_kid l1 es y Iy); lia|exact Sy]. }
    destruct (Z.eq_dec x a) as [->|Nx].
    + rewrite Ha in A. injection A as <- <-.
      assert (W : exists es', Forall2 (stands h') (set_nth i ep' qs) es' /\ map (value N) es' = map (value N) es /\ map height es' = map height es).
      { assert (K' : forall y, In y es -> height y = height e -> exists y', stands h' ep' y' /\ value N y' = value N e /\ height y' = height e).
        { intros y Iy Hy. destruct (IH ep' e2) as (y' & Q1 & Q2 & Q3); [pose proof (height_kid l es y Iy); lia|exact Se2|]. exists y'. split; [exact Q1|split; congruence]. }
        clear IH L Ha. clearbody h'. revert i Hi K K'. induction B as [|p y qs es Sy B IB]; intros i Hi K K'; [destruct i; discriminate|].
        destruct i as [|i]; cbn [nth_error set_nth] in Hi |- *.
        - injection Hi as ->. assert (y = e) by (exact (stands_fun h y ep e Sy Se)). subst y.
          destruct (K' e (or_introl eq_refl) eq_refl) as (y' & Q1 & Q2 & Q3).
          assert (R : exists es', Forall2 (stands h') qs es' /\ map (value N) es' = map (value N) es /\ map height es' = map height es).
          { clear IB K'. assert (K2 : forall p y, In y es -> stands h p y -> exists y', stands h' p y' /\ value N y' = value N y /\ height y' = height y) by (intros; apply K; [right; assumption|assumption]).
            clear K. induction B as [|p z qs es Sz B IB]; [exists []; split; [constructor|split; reflexivity]|].
            destruct (K2 p z (or_introl eq_refl) Sz) as (z' & Z1 & Z2 & Z3). destruct IB as (es' & R1 & R2 & R3); [intros; apply K2; [right; assumption|assumption]|].
            exists (z' :: es'). split; [constructor; assumption|]. cbn. split; congruence. }
          destruct R as (es' & R1 & R2 & R3). exists (y' :: es'). split; [constructor; assumption|]. cbn. split; congruence.
        - destruct (K p y (or_introl eq_refl) Sy) as (y' & Q1 & Q2 & Q3).
          destruct (IB i Hi) as (es' & R1 & R2 & R3); [intros; apply K; [right; assumption|assumption]|intros z Iz; apply K'; right; exact Iz|].
          exists (y' :: es'). split; [constructor; assumption|]. cbn. split; congruence. }
      destruct W as (es' & W1 & W2 & W3). exists (E l es'). split; [|split; [apply value_cong; exact W2|apply height_cong; exact W3]].
      apply (st_node h' a l (set_nth i ep' qs)); [unfold h', hset; rewrite Z.eqb_refl; reflexivity|exact W1].
    + assert (W : exists es', Forall2 (stands h') ps es' /\ map (value N) es' = map (value N) es /\ map height es' = map height es).
      { clear IH L A. clearbody h'. induction B as [|p y ps es Sy B IB]; [exists []; split; [constructor|split; reflexivity]|].
        destruct (K p y (or_introl eq_refl) Sy) as (y' & Q1 & Q2 & Q3). destruct IB as (es' & R1 & R2 & R3); [intros; apply K; [right; assumption|assumption]|].
        exists (y' :: es'). split; [constructor; assumption|]. cbn. split; congruence. }
      destruct W as (es' & W1 & W2 & W3). exists (E l1 es'). split; [|split; [apply value_cong; exact W2|apply height_cong; exact W3]].
      apply (st_node h' x l1 ps); [|exact W1]. unfold h', hset. destruct (x =? a) eqn:X; [apply Z.eqb_eq in X; contradiction|exact A].
Qed.

Lemma tree_of_ok : forall n h a e, stands h a e -> (height e <= n)%nat -> tree_of n h a = Ok e.
Proof.
  induction n as [|n IH]; intros h a e S1 L; [destruct e; cbn in L; lia|].
  apply stands_inv in S1. destruct S1 as (l & ps & es & -> & A & B). cbn [tree_of]. rewrite A.
  assert (R : rmap (tree_of n h) ps = Ok es); [|rewrite R; reflexivity].
  assert (K : forall y, In y es -> (height y <= n)%nat) by (intros y Iy; pose proof (height_kid l es y Iy); lia).
  clear A L. induction B as [|p y ps es Sy B IB]; [reflexivity|]. cbn [rmap]. rewrite (IH h p y Sy (K y (or_introl eq_refl))). cbn [rbind]. rewrite IB; [reflexivity|]. intros z Iz. apply K. right. exact Iz.
Qed.

(* trees of heaps *)
Lemma stands_arity : forall h, nodes_ok h -> forall e a, stands h a e -> arity_ok e.
Proof.
  intros h W. induction e as [l ops IH] using expr_ind2. intros a S1.
  apply stands_inv in S1. destruct S1 as (l1 & ps & es & Q & A & B). injection Q as <- <-. cbn [arity_ok]. split.
  - pose proof (Forall2_length' _ _ _ _ _ B) as L. specialize (W a l ps A). destruct l; try (subst ps; inversion B; reflexivity); try congruence; exact W.
  - apply fold_and_Forall. clear A. induction B as [|p y ps es Sy B IB]; [constructor|]. inversion IH as [|? ? I1 I2]; subst. constructor; [exact (I1 p Sy)|exact (IB I2)].
Qed.
Lemma stands_nolab : forall p h, (forall a l ps, h a = Some (l, ps) -> p l = false) -> forall e a, stands h a e -> no_label p e.
Proof.
  intros p h W. induction e as [l ops IH] using expr_ind2. intros a S1.
  apply stands_inv in S1. destruct S1 as (l1 & ps & es & Q & A & B). injection Q as <- <-. cbn [no_label]. split; [exact (W a l ps A)|].
  apply fold_and_Forall. clear A. induction B as [|q y ps es Sy B IB]; [constructor|]. inversion IH as [|? ? I1 I2]; subst. constructor; [exact (I1 q Sy)|exact (IB I2)].
Qed.

Definition hinv (h : heap) : Prop := nodes_ok h /\ no_clash h.
Lemma shape_inv : forall h h', shape h h' -> hinv h -> hinv h'.
Proof.
  intros h h' Sh (A & B). split.
  - intros a l ps H. specialize (Sh a). rewrite H in Sh. destruct (h a) as [(l1 & ps1)|] eqn:Ha; [|contradiction]. destruct Sh as (-> & L). specialize (A a l ps1 Ha).
    destruct l; try (rewrite A in L; destruct ps; [reflexivity|discriminate]); try (rewrite <- L; exact A); exact A.
  - destruct B as [B|B]; [left|right]; intros a ps H; specialize (Sh a); rewrite H in Sh; destruct (h a) as [(l1 & ps1)|] eqn:Ha; try contradiction; destruct Sh as (-> & L); exact (B a ps1 Ha).
Qed.

Lemma same_stands : forall h a b e o, hinv h -> stands h a e -> stands h b o -> is_same e o = true -> value N e = value N o /\ height e = height o.
Proof.
  intros h a b e o (A & B) Se So H. apply same_value; [exact (stands_arity h A e a Se)|exact (stands_arity h A o b So)| |exact H].
  destruct B as [B|B]; [left; apply (stands_nolab is_neg h) with (a := a); [|exact Se]|right; apply (stands_nolab is_sub h) with (a := b); [|exact So]];
    intros x l ps Hx; destruct l as [| | | | |[| |]| |]; try reflexivity; exfalso; exact (B x ps Hx).
Qed.

(* nodes seen are trees of bounded height *)
Definition seen_ok (tf : nat) (h : heap) (seen : list Z) : Prop := forall o, In o seen -> exists e, stands h o e /\ (height e <= tf)%nat.
Lemma seen_keeps : forall tf h h' seen, keeps h h' -> seen_ok tf h seen -> seen_ok tf h' seen.
Proof. intros tf h h' seen (_ & K) H o Io. destruct (H o Io) as (e & S1 & L). destruct (K o e S1) as (e' & S2 & _ & L2). exists e'. split; [exact S2|lia]. Qed.
Lemma set_insert_In : forall a s x, In x (set_insert a s) -> x = a \/ In x s.
Proof.
  intros a s. induction s as [|y s IH]; intros x H; cbn [set_insert] in H.
  - destruct H as [<-|[]]. left. reflexivity.
  - destruct (a <? y); [destruct H as [<-|H]; [left; reflexivity|right; exact H]|]. destruct (a =? y); [right; exact H|].
    destruct H as [<-|H]; [right; left; reflexivity|]. destruct (IH x H) as [Q|Q]; [left; exact Q|right; right; exact Q].
Qed.

Lemma find_seen_ok : forall tf h e a seen, hinv h -> stands h a e -> seen_ok tf h seen ->
  exists m, find_seen tf h e seen = Ok m /\ forall o, m = Some o -> In o seen /\ exists e2, stands h o e2 /\ value N e2 = value N e /\ height e2 = height e.
Proof.
  intros tf h e a seen I Se. induction seen as [|o seen IH]; intros So.
  - exists None. split; [reflexivity|]. intros; discriminate.
  - cbn [find_seen]. destruct (So o (or_introl eq_refl)) as (eo & S1 & L). rewrite (tree_of_ok tf h o eo S1 L). cbn [rbind].
    destruct (is_same e eo) eqn:Sm.
    + exists (Some o). split; [reflexivity|]. intros x Q. injection Q as <-. destruct (same_stands h a o e eo I Se S1 Sm) as (V1 & V2). split; [left; reflexivity|]. exists eo. split; [exact S1|split; congruence].
    + destruct IH as (m & A & B); [intros x Ix; apply So; right; exact Ix|]. exists m. split; [exact A|]. intros x Q. destruct (B x Q) as (B1 & B2). split; [right; exact B1|exact B2].
Qed.

Lemma find_match_ok : forall tf h seen ep e, hinv h -> stands h ep e -> (height e <= tf)%nat -> seen_ok tf h seen ->
  exists ep' seen' found e2, find_match_to tf h seen ep = Ok (ep', seen', found) /\ stands h ep' e2 /\ value N e2 = value N e /\ height e2 = height e /\
    seen_ok tf h seen' /\ (found = false -> ep' = ep).
Proof.
  intros tf h seen ep e I Se L So. unfold find_match_to. destruct (zmem ep seen).
  - exists ep, seen, true, e. split; [reflexivity|]. split; [exact Se|]. split; [reflexivity|]. split; [reflexivity|]. split; [exact So|]. discriminate.
  - rewrite (tree_of_ok tf h ep e Se L). cbn [rbind]. destruct (find_seen_ok tf h e ep seen I Se So) as (m & A & B). rewrite A. cbn [rbind]. destruct m as [o|].
    + destruct (B o eq_refl) as (_ & e2 & S2 & V2 & H2). exists o, seen, true, e2. split; [reflexivity|]. split; [exact S2|]. split; [exact V2|]. split; [exact H2|]. split; [exact So|]. discriminate.
    + exists ep, (set_insert ep seen), false, e. split; [reflexivity|]. split; [exact Se|]. split; [reflexivity|]. split; [reflexivity|]. split; [|reflexivity].
      intros o Io. destruct (set_insert_In ep seen o Io) as [->|Q]; [exists e; split; assumption|apply So; exact Q].
Qed.

Lemma cse_visit_ok : forall tf fuel h seen a e, hinv h -> stands h a e -> (height e <= fuel)%nat -> (fuel <= tf)%nat -> seen_ok tf h seen ->
  exists h' seen', cse_visit tf fuel h seen a = Ok (h', seen') /\ keeps h h' /\ seen_ok tf h' seen'.
Proof.
  intros tf. induction fuel as [|f IH]; intros h seen a e I Se L Lf So; [destruct e; cbn in L; lia|].
  pose proof (stands_inv h a e Se) as (l & ps & es & -> & Ha & B). cbn [cse_visit]. rewrite Ha.
  assert (G : forall k i h1 seen1, (i + k = List.length ps)%nat -> keeps h h1 -> seen_ok tf h1 seen1 -> exists h' seen',
    (fix slots (k i : nat) (h : heap) (seen : list Z) : res (heap * list Z) :=
             match k with
             | O => Ok (h, seen)
             | S k' =>
                 match h a with
                 | None => UB
                 | Some (l, qs) =>
                     match nth_error qs i with
                     | None => UB
                     | Some ep =>
                         rbind (find_match_to tf h seen ep) (fun m =>
                           let '(ep', seen', found) := m in
                           let h' := hset h a (l, set_nth i ep' qs) in
                           rbind (if found : bool then Ok (h', seen') else cse_visit tf f h' seen' ep')
                                 (fun st => slots k' (Datatypes.S i) (fst st) (snd st)))
                     end
                 end
             end) k i h1 seen1 = Ok (h', seen') /\ keeps h h' /\ seen_ok tf h' seen').
  { induction k as [|k IK]; intros i h1 seen1 Lk K1 So1.
    - exists h1, seen1. split; [reflexivity|]. split; assumption.
    - assert (I1 : hinv h1) by (apply (shape_inv h); [exact (proj1 K1)|exact I]).
      destruct (proj2 K1 a (E l es) Se) as (t1 & St1 & _ & Ht1).
      pose proof (stands_inv h1 a t1 St1) as (l1 & qs & es1 & -> & Ha1 & B1). rewrite Ha1.
      assert (Lq : List.length ps = List.length qs).
      { pose proof (proj1 K1 a) as Sh. rewrite Ha, Ha1 in Sh. exact (proj2 Sh). }
      destruct (nth_error qs i) as [ep|] eqn:Nq; [|apply nth_error_None in Nq; lia].
      assert (Se1 : exists x, stands h1 ep x /\ (height x < height (E l1 es1))%nat).
      { assert (Q : exists x, stands h1 ep x /\ In x es1).
        { clear - B1 Nq. revert i Nq. induction B1 as [|p y qs es1 Sy B1 IB]; intros i Nq; [destruct i; discriminate|].
          destruct i as [|i]; [injection Nq as ->; exists y; split; [exact Sy|left; reflexivity]|]. destruct (IB i Nq) as (x & X1 & X2). exists x. split; [exact X1|right; exact X2]. }
        destruct Q as (x & X1 & X2). exists x. split; [exact X1|apply height_kid; exact X2]. }
      destruct Se1 as (x & Sx & Lx).
      destruct (find_match_ok tf h1 seen1 ep x I1 Sx ltac:(lia) So1) as (ep' & seen' & found & x2 & F1 & Sx2 & Vx2 & Hx2 & So2 & Fd).
      rewrite F1. cbn [rbind]. pose proof (redirect h1 a l1 qs i ep ep' x x2 Ha1 Nq Sx Sx2 Vx2 Hx2) as K2.
      set (h2 := hset h1 a (l1, set_nth i ep' qs)) in *. cbn zeta.
      pose proof (keeps_trans h h1 h2 K1 K2) as K3. assert (So3 : seen_ok tf h2 seen') by (apply (seen_keeps tf h1); assumption).
      assert (W : exists h3 seen3, (if found then Ok (h2, seen') else cse_visit tf f h2 seen' ep') = Ok (h3, seen3) /\ keeps h h3 /\ seen_ok tf h3 seen3).
      { destruct found; [exists h2, seen'; split; [reflexivity|split; assumption]|].
        destruct (proj2 K2 ep' x2 Sx2) as (x3 & Sx3 & _ & Hx3).
        destruct (IH h2 seen' ep' x3) as (h3 & seen3 & V1 & V2 & V3); [apply (shape_inv h); [exact (proj1 K3)|exact I]|exact Sx3|lia|lia|exact So3|].
        exists h3, seen3. split; [exact V1|]. split; [exact (keeps_trans h h2 h3 K3 V2)|exact V3]. }
      destruct W as (h3 & seen3 & W1 & W2 & W3). rewrite W1. cbn [rbind fst snd]. apply IK; [lia|exact W2|exact W3]. }
  apply G; [reflexivity|apply keeps_refl|exact So].
Qed.

Lemma cse_eqs_ok : forall tf roots h seen es, hinv h -> Forall2 (stands h) roots es -> (forall e, In e es -> (height e <= tf)%nat) -> seen_ok tf h seen ->
  exists h' seen' roots', cse_eqs tf h seen roots = Ok (h', seen', roots') /\ keeps h h' /\
    exists es', Forall2 (stands h') roots' es' /\ map (value N) es' = map (value N) es.
Proof.
  intros tf. induction roots as [|r roots IH]; intros h seen es I F L So; inversion F as [|r1 e roots1 es1 Se F1]; subst.
  - exists h, seen, []. split; [reflexivity|]. split; [apply keeps_refl|]. exists []. split; [constructor|reflexivity].
  - cbn [cse_eqs]. destruct (find_match_ok tf h seen r e I Se (L e (or_introl eq_refl)) So) as (r' & seen' & found & e2 & A1 & Se2 & V2 & H2 & So2 & Fd).
    rewrite A1. cbn [rbind].
    assert (W : exists h1 seen1, (if found then Ok (h, seen') else cse_visit tf tf h seen' r') = Ok (h1, seen1) /\ keeps h h1 /\ seen_ok tf h1 seen1).
    { destruct found; [exists h, seen'; split; [reflexivity|split; [apply keeps_refl|exact So2]]|].
      apply (cse_visit_ok tf tf h seen' r' e2 I Se2); [rewrite H2; apply L; left; reflexivity|lia|exact So2]. }
    destruct W as (h1 & seen1 & W1 & W2 & W3). rewrite W1. cbn [rbind fst snd].
    assert (F2 : exists es2, Forall2 (stands h1) roots es2 /\ map (value N) es2 = map (value N) es1 /\ (forall x, In x es2 -> (height x <= tf)%nat)).
    { assert (L1 : forall x, In x es1 -> (height x <= tf)%nat) by (intros; apply L; right; assumption). clear - F1 W2 L1.
      induction F1 as [|p y ps ys Sy F1 IF]; [exists []; split; [constructor|split; [reflexivity|intros x []]]|].
      destruct IF as (es2 & X1 & X2 & X3); [intros; apply L1; right; assumption|]. destruct (proj2 W2 p y Sy) as (y' & Y1 & Y2 & Y3).
      exists (y' :: es2). split; [constructor; assumption|]. split; [cbn; congruence|]. intros x [<-|Ix]; [rewrite Y3; apply L1; left; reflexivity|apply X3; exact Ix]. }
    destruct F2 as (es2 & X1 & X2 & X3).
    destruct (IH h1 seen1 es2) as (h2 & seen2 & roots2 & Y1 & Y2 & es3 & Y3 & Y4); [apply (shape_inv h); [exact (proj1 W2)|exact I]|exact X1|exact X3|exact W3|].
    rewrite Y1. cbn [rbind]. exists h2, seen2, (r' :: roots2). split; [reflexivity|]. split; [exact (keeps_trans _ _ _ W2 Y2)|].
    destruct (proj2 (keeps_trans _ _ _ W2 Y2) r' e2 Se2) as (e3 & Z1 & Z2 & _). exists (e3 :: es3). split; [constructor; assumption|]. cbn. congruence.
Qed.

Lemma cse_ok : forall h roots es, nodes_ok h -> no_clash h -> Forall2 (stands h) roots es ->
  exists f0, forall fuel, (f0 <= fuel)%nat -> exists h' roots', cse fuel h roots = Ok (h', roots') /\
    (exists es', Forall2 (stands h') roots' es' /\ map (value N) es' = map (value N) es) /\
    (forall a e, stands h a e -> exists e', stands h' a e' /\ value N e' = value N e).
Proof.
  intros h roots es A B F. exists (lheight es). intros fuel Lf.
  assert (L : forall e, In e es -> (height e <= fuel)%nat).
  { intros e Ie. assert (height e <= lheight es)%nat; [|lia]. clear - Ie. unfold lheight. induction es as [|x es IH]; [contradiction|]. cbn. destruct Ie as [->|Ie]; [lia|specialize (IH Ie); lia]. }
  destruct (cse_eqs_ok fuel roots h [] es (conj A B) F L) as (h' & seen' & roots' & E1 & K & es' & E2 & E3); [intros o []|].
  exists h', roots'. split; [unfold cse; rewrite E1; reflexivity|]. split; [exists es'; split; assumption|].
  intros a e Se. destruct (proj2 K a e Se) as (e' & X1 & X2 & _). exists e'. split; assumption.
Qed.
End Val.

Lemma tree_of_stands : forall n h a e, tree_of n h a = Ok e -> stands h a e.
Proof.
  induction n as [|n IH]; intros h a e H; [discriminate|]. cbn [tree_of] in H. destruct (h a) as [(l & ps)|] eqn:Ha; [|discriminate].
  destruct (rmap (tree_of n h) ps) as [es| | |] eqn:R; try discriminate. injection H as <-. apply (st_node h a l ps); [exact Ha|].
  clear Ha. revert es R. induction ps as [|p ps IP]; intros es R; [injection R as <-; constructor|]. cbn [rmap] in R.
  destruct (tree_of n h p) as [y| | |] eqn:T; try discriminate. cbn [rbind] in R. destruct (rmap (tree_of n h) ps) as [ys| | |]; try discriminate. injection R as <-.
  constructor; [apply IH; exact T|apply IP; reflexivity].
Qed.
