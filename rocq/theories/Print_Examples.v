(* Examples for Print_Model: exact rational numbers. *)
From Coq Require Import String QArith Qabs Qpower Lqa.
From Verif Require Import Base Expr_Model Expr_Spec Expr_Proofs ExprOpt_Proofs Print_Model Print_Spec Print_Proofs Dec_Proofs Double_Proofs.
Open Scope Z_scope.

Definition qn (var : string -> Q) : nsys Q :=
  mkNsys Q Qred (fun _ => 0%Q) var (fun _ _ => 0%Q) (fun f l => match l with [x] => if String.eqb f "sin" then Qred (x + 1) else Qred (x * 2) | _ => 0%Q end)
    (fun a => Qred (- a)) (fun a b => Qred (a - b)) (fun a b => Qred (a / b)) (fun a _ => a) (fun a b => Qred (a + b)) 0%Q
    (fun a b => Qred (a * b)) 1%Q 0%Q.
Definition qv : nsys Q := qn (fun _ => 3 # 4).

Lemma qn_exact var B : 0 <= B < 2 ^ 31 -> ints_exact (qn var) B.
Proof.
  intros HB. split; [auto|]. cbn [n_const n_neg n_add n_sub n_mul qn]. split; [intros; apply Qred_complete; auto|].
  split; [intros q; apply Qred_complete; rewrite Qred_correct; reflexivity|].
  intros x y _ _. repeat split; intros _; apply Qred_complete; rewrite !Qred_correct.
  - rewrite inject_Z_plus. reflexivity.
  - unfold Z.sub. rewrite inject_Z_plus, inject_Z_opp. reflexivity.
  - rewrite inject_Z_mult. reflexivity.
Qed.

Definition heap_of (l : list (label * list Z)) : heap := fun a => if a <? 0 then None else nth_error l (Z.to_nat a).

(* v, 0.5, 0.5*v, 2, 3, 2*3, 0.5*v + 2*3 + 0.5*v, sin and cos of it, their quotient, minus 3, negated *)
Definition ex_nodes : list (label * list Z) :=
  [(LVar "v(t,x)", []); (LConst (1 # 2), []); (LComm OMul, [1; 0]); (LConst 2, []); (LConst 3, []); (LComm OMul, [3; 4]);
   (LComm OAdd, [2; 5; 2]); (LFunc "sin", [6]); (LFunc "cos", [6]); (LBin ODiv, [7; 8]); (LBin OSub, [9; 4]); (LNeg, [10])].
Definition ex_count (a : Z) : Z := if (a =? 2) || (a =? 6) then 2 else 1.
Definition ex_pair (a : Z) : option Z := if a =? 7 then Some 8 else if a =? 8 then Some 7 else None.
Definition e_v : expr := E (LVar "v(t,x)") [].
Definition e_hv : expr := E (LComm OMul) [E (LConst (1 # 2)) []; e_v].
Definition e_6 : expr := E (LComm OMul) [E (LConst 2) []; E (LConst 3) []].
Definition e_sum : expr := E (LComm OAdd) [e_hv; e_6; e_hv].
Definition e_neg : expr := E LNeg [E (LBin OSub) [E (LBin ODiv) [E (LFunc "sin") [e_sum]; E (LFunc "cos") [e_sum]]; E (LConst 3) []]].

Lemma half_ok var : const_ok (qn var) 1000 (1 # 2).
Proof.
  split; [reflexivity|]. change (q_int (1 # 2)) with (@None Z). intros p Hp. apply Qred_complete. apply dec_exact; [|exact Hp].
  exists 5, (-1). split; [discriminate|reflexivity].
Qed.
Lemma int_ok var z : - 1000 <= z <= 1000 -> const_ok (qn var) 1000 (inject_Z z).
Proof.
  intros H. split.
  - rewrite Qabs_inject. rewrite <- Zlt_Qlt. lia.
  - unfold q_int. cbn [Qnum Qden inject_Z]. rewrite Z.mod_1_r, Z.div_1_r. exact H.
Qed.
Lemma comm_small B o l : Forall (fun k => small B (ival (E (LComm o) (firstn k l)))) (seq 0 (S (List.length l))) ->
  forall k, small B (ival (E (LComm o) (firstn k l))).
Proof.
  intros F k. rewrite Forall_forall in F. destruct (Nat.le_gt_cases k (List.length l)).
  - apply F. apply in_seq. lia.
  - rewrite firstn_all2 by lia. specialize (F (List.length l)). rewrite firstn_all in F. apply F. apply in_seq. lia.
Qed.
Lemma e_hv_ok : printable qv 1000 e_hv.
Proof.
  cbn [printable]. split; [exact I|]. split; [|split; [cbn; lia|]].
  - cbn. repeat split. apply half_ok.
  - apply comm_small. repeat constructor.
Qed.
Lemma e_6_ok : printable qv 1000 e_6.
Proof.
  cbn [e_6 printable]. split; [vm_compute; split; discriminate|]. split; [|split; [apply le_n|]].
  - cbn [fold_right printable]. repeat split; vm_compute; discriminate.
  - apply comm_small. repeat constructor; vm_compute; discriminate.
Qed.
Lemma e_sum_ok : printable qv 1000 e_sum.
Proof.
  pose proof e_hv_ok. pose proof e_6_ok. unfold e_sum. cbn [printable fold_right]. split; [exact I|]. split; [tauto|].
  split; [cbn; lia|]. apply comm_small. repeat constructor.
Qed.
Lemma e_neg_ok : printable qv 1000 e_neg.
Proof.
  pose proof e_sum_ok. unfold e_neg. cbn [printable fold_right].
  assert (K : small 1000 (ival (E (LConst 3) [])) /\ [] = @nil expr /\ const_ok qv 1000 3).
  { split; [vm_compute; split; discriminate|]. split; [reflexivity|]. apply (int_ok (fun _ => 3 # 4) 3). lia. }
  repeat (split; try exact I; try tauto; try discriminate); cbn; auto.
Qed.

Lemma ex_part : ints_exact qv 1000 /\ pairs_ok qv (heap_of ex_nodes) ex_pair /\
  Forall2 (stands (heap_of ex_nodes)) [11; 5] [e_neg; e_6] /\ Forall (printable qv 1000) [e_neg; e_6] /\
  exists prog en, print_part (heap_of ex_nodes) ex_count (fun _ => 3) ex_pair 4 2 20 [("u"%string, 11); ("w"%string, 5)] = Ok prog /\
    List.length prog = 13%nat /\ run qv (fun _ _ => 0) (fun _ => None) prog = Some (en, [("u"%string, (131 # 54)%Q); ("w"%string, 6%Q)]).
Proof.
  split; [apply qn_exact; lia|]. split.
  { intros a b H. unfold ex_pair in H. destruct (Z.eqb_spec a 7) as [->|]; [|destruct (Z.eqb_spec a 8) as [->|]; [|discriminate]]; injection H as <-.
    - exists "sin"%string, "cos"%string, [6], [6]. repeat split. intros es es' F1 F2. f_equal. revert es' F2.
      induction F1 as [|p e ps es S1 _ IH]; intros es' F2; inversion F2; subst; f_equal; [eapply stands_fun; eauto|apply IH; auto].
    - exists "cos"%string, "sin"%string, [6], [6]. repeat split. intros es es' F1 F2. f_equal. revert es' F2.
      induction F1 as [|p e ps es S1 _ IH]; intros es' F2; inversion F2; subst; f_equal; [eapply stands_fun; eauto|apply IH; auto]. }
  split; [repeat (econstructor; try reflexivity)|].
  split; [constructor; [apply e_neg_ok|constructor; [apply e_6_ok|constructor]]|].
  do 2 eexists. split; [vm_compute; reflexivity|]. split; [reflexivity|]. vm_compute. reflexivity.
Qed.

(* A double p is closer to *)
Lemma not_read p q f : double f -> ~ (f == q)%Q -> (Qabs (f - p) <= Qabs (q - p))%Q -> ~ reads_as p q.
Proof. intros D Ne L [_ R]. destruct (R f D) as [E|E]; [auto|]. apply (Qlt_not_le _ _ E). exact L. Qed.

Lemma three_tenths : exists q p, double q /\ format_real q = Ok [TReal p] /\ ~ reads_as p q.
Proof.
  exists (5404319552844596 # 18014398509481984)%Q. eexists. split; [exists 5404319552844596, (-54); split; reflexivity|].
  split; [vm_compute; reflexivity|]. apply (not_read _ _ (5404319552844595 # 18014398509481984)).
  - exists 5404319552844595, (-54). split; reflexivity.
  - discriminate.
  - vm_compute. discriminate.
Qed.
Lemma power_24 : exists q d p, double q /\ digits16 d /\ reads_as d q /\ format_real q = Ok [TReal p] /\ ~ reads_as p q.
Proof.
  exists (Qpower 2 (-24)), (5960464477539063 # 100000000000000000000000). eexists.
  split; [exists 1, (-24); split; reflexivity|]. split; [exists 5960464477539063, (-23); split; [discriminate|reflexivity]|].
  split; [exact power_reads|]. split; [vm_compute; reflexivity|].
  apply (not_read _ _ (9007199254740991 # 151115727451828646838272)).
  - exists 9007199254740991, (-77). split; reflexivity.
  - discriminate.
  - vm_compute. discriminate.
Qed.
Lemma tenth : let q := (3602879701896397 # 36028797018963968)%Q in
  (Qabs q < inject_Z (2 ^ 31))%Q /\ double q /\ digits16 (1 # 10) /\ reads_as (1 # 10) q /\ ~ power2 q /\
  format_real q = Ok [TReal (1000000000000000 # 10000000000000000)].
Proof.
  intros q. assert (D : double q) by (exists 7205759403792794, (-56); split; reflexivity).
  split; [reflexivity|]. split; [exact D|]. split; [exists 1, (-1); split; [discriminate|reflexivity]|].
  split; [split; [exact D|]|split].
  - intros f Df. destruct (Qeq_dec f q) as [E|E]; [left; auto|right].
    pose proof (gap q 7205759403792794 (-56) f ltac:(reflexivity) ltac:(reflexivity) Df E) as G.
    assert (X : (2 * Qabs (q - (1 # 10)) < Qpower 2 (-56))%Q) by reflexivity.
    pose proof (Qabs_triangle (f - (1 # 10)) (- (q - (1 # 10)))) as T.
    assert (E2 : (f - (1 # 10) + - (q - (1 # 10)) == f - q)%Q) by ring. rewrite E2, Qabs_opp in T. lra.
  - intros (k & Hk). change (Qabs q) with q in Hk.
    destruct (Z_le_gt_dec k (-4)) as [L|L].
    + assert (A : (Qpower 2 k <= Qpower 2 (-4))%Q) by (apply Qpower_le_compat_l; [lia|discriminate]).
      rewrite <- Hk in A. vm_compute in A. congruence.
    + assert (A : (Qpower 2 (-3) <= Qpower 2 k)%Q) by (apply Qpower_le_compat_l; [lia|discriminate]).
      rewrite <- Hk in A. vm_compute in A. congruence.
  - vm_compute. reflexivity.
Qed.
Lemma half_texts : format_real (-7) = Ok [TMinus; TInt 7] /\
  format_real (-5 # 2) = Ok [TMinus; TReal (2500000000000000 # 1000000000000000)] /\
  reads_as (1 # 2) (1 # 2) /\ digits16 (1 # 2) /\ power2 (1 # 2).
Proof.
  split; [reflexivity|]. split; [vm_compute; reflexivity|]. split; [split; [exists 1, (-1); split; reflexivity|]|split].
  - intros f _. destruct (Qeq_dec f (1 # 2)) as [E|E]; [left; auto|right].
    change (Qabs ((1 # 2) - (1 # 2))) with (0 # 4)%Q.
    destruct (Qlt_le_dec (0 # 4) (Qabs (f - (1 # 2)))) as [|C]; [auto|]. exfalso. apply E.
    pose proof (Qle_Qabs (f - (1 # 2))). pose proof (Qle_Qabs (- (f - (1 # 2)))) as G. rewrite Qabs_opp in G. lra.
  - exists 5, (-1). split; [discriminate|reflexivity].
  - exists (-1). reflexivity.
Qed.
