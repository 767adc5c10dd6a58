From Coq Require Import QArith Qcanon ZifyBool.
From Verif Require Import Base FD_Model FD_Spec.
Open Scope Z_scope.

(* ---------- polynomials ---------- *)
Fixpoint padd (p q : list Qc) : list Qc :=
  match p, q with
  | [], _ => q
  | _, [] => p
  | a :: p', b :: q' => (a + b)%Qc :: padd p' q'
  end.
Definition pscale (c : Qc) (p : list Qc) : list Qc := map (fun a => c * a)%Qc p.
Definition pmulx (p : list Qc) : list Qc := 0%Qc :: p.
(* (x - a) p *)
Definition pmuls (a : Qc) (p : list Qc) : list Qc := padd (pmulx p) (pscale (- a)%Qc p).
(* quotient of p by (x - a) *)
Fixpoint pdivs (a : Qc) (p : list Qc) : list Qc :=
  match p with
  | [] => []
  | _ :: r => match r with [] => [] | _ => peval r a :: pdivs a r end
  end.

Definition coef (p : list Qc) (k : nat) : Qc := nth k p 0%Qc.
Definition peqv (p q : list Qc) : Prop := forall k, coef p k = coef q k.

Lemma zq_add : forall a b, zq (a + b) = (zq a + zq b)%Qc.
Proof.
  intros. unfold zq. apply Qc_is_canon. cbn [this Q2Qc Qcplus]. rewrite !Qred_correct. rewrite inject_Z_plus. reflexivity.
Qed.
Lemma zq_0 : zq 0 = 0%Qc. Proof. reflexivity. Qed.
Lemma zq_1 : zq 1 = 1%Qc. Proof. reflexivity. Qed.

Lemma coef_add : forall p q k, coef (padd p q) k = (coef p k + coef q k)%Qc.
Proof.
  unfold coef. induction p as [|a p IH]; intros q k; cbn [padd].
  - destruct k; cbn; ring.
  - destruct q as [|b q]; [destruct k; cbn; ring|]. destruct k; cbn; [ring|]. apply IH.
Qed.
Lemma coef_scale : forall c p k, coef (pscale c p) k = (c * coef p k)%Qc.
Proof.
  unfold coef, pscale. induction p as [|a p IH]; intros k; destruct k; cbn; try ring. apply IH.
Qed.
Lemma coef_deriv_from : forall p e k, coef (pderiv_from e p) k = (zq (e + Z.of_nat k) * coef p k)%Qc.
Proof.
  unfold coef. induction p as [|a p IH]; intros e k; destruct k; cbn [pderiv_from nth]; try ring.
  - replace (e + Z.of_nat 0) with e by lia. reflexivity.
  - rewrite IH. do 2 f_equal. lia.
Qed.
Lemma coef_deriv : forall p k, coef (pderiv p) k = (zq (Z.of_nat (S k)) * coef p (S k))%Qc.
Proof.
  intros [|a p] k; unfold pderiv; [unfold coef; destruct k; cbn [nth]; ring|].
  rewrite coef_deriv_from. unfold coef. cbn [nth]. do 2 f_equal. lia.
Qed.
Lemma coef_muls : forall a p k, coef (pmuls a p) k = ((match k with O => 0 | S j => coef p j end) - a * coef p k)%Qc.
Proof.
  intros. unfold pmuls. rewrite coef_add, coef_scale. destruct k; unfold pmulx, coef; cbn [nth]; ring.
Qed.

Lemma peval_zero : forall p x, (forall k, coef p k = 0%Qc) -> peval p x = 0%Qc.
Proof.
  induction p as [|a p IH]; intros x H; [reflexivity|]. cbn. rewrite IH; [|intros k; apply (H (S k))].
  pose proof (H O) as H0. unfold coef in H0. cbn in H0. rewrite H0. ring.
Qed.
Lemma peval_eqv : forall p q x, peqv p q -> peval p x = peval q x.
Proof.
  induction p as [|a p IH]; intros q x H.
  - symmetry. apply peval_zero. intros k. rewrite <- H. destruct k; reflexivity.
  - destruct q as [|b q].
    + apply peval_zero. intros k. rewrite H. destruct k; reflexivity.
    + cbn. rewrite (IH q x); [|intros k; apply (H (S k))]. specialize (H O). unfold coef in H. cbn in H. rewrite H. reflexivity.
Qed.
Lemma deriv_eqv : forall p q, peqv p q -> peqv (pderiv p) (pderiv q).
Proof. intros p q H k. rewrite !coef_deriv, H. reflexivity. Qed.
Lemma iter_eqv : forall n p q, peqv p q -> peqv (Nat.iter n pderiv p) (Nat.iter n pderiv q).
Proof. induction n; intros p q H; cbn; [assumption|]. apply deriv_eqv, IHn. assumption. Qed.
Lemma D_eqv : forall n p q x, peqv p q -> deriv_at n p x = deriv_at n q x.
Proof. intros. unfold deriv_at. apply peval_eqv, iter_eqv. assumption. Qed.

Lemma peval_add : forall p q x, peval (padd p q) x = (peval p x + peval q x)%Qc.
Proof.
  induction p as [|a p IH]; intros q x; cbn [padd]; [cbn; ring|].
  destruct q as [|b q]; cbn; [ring|]. rewrite IH. ring.
Qed.
Lemma peval_scale : forall c p x, peval (pscale c p) x = (c * peval p x)%Qc.
Proof. induction p as [|a p IH]; intros x; cbn; [ring|]. unfold pscale in IH. rewrite IH. ring. Qed.
Lemma peval_muls : forall a p x, peval (pmuls a p) x = ((x - a) * peval p x)%Qc.
Proof. intros. unfold pmuls, pmulx. rewrite peval_add, peval_scale. cbn. ring. Qed.

Lemma D_0 : forall p x, deriv_at 0 p x = peval p x. Proof. reflexivity. Qed.
Lemma iter_succ_r : forall A (f : A -> A) n x, Nat.iter (S n) f x = Nat.iter n f (f x).
Proof. induction n; intros x; cbn; [reflexivity|]. f_equal. apply IHn. Qed.
Lemma D_S : forall n p x, deriv_at (S n) p x = deriv_at n (pderiv p) x.
Proof. intros. unfold deriv_at. rewrite iter_succ_r. reflexivity. Qed.

Lemma deriv_add : forall p q, peqv (pderiv (padd p q)) (padd (pderiv p) (pderiv q)).
Proof. intros p q k. rewrite coef_deriv, !coef_add, !coef_deriv. ring. Qed.
Lemma deriv_scale : forall c p, peqv (pderiv (pscale c p)) (pscale c (pderiv p)).
Proof. intros c p k. rewrite coef_deriv, !coef_scale, coef_deriv. ring. Qed.
Lemma deriv_muls : forall a p, peqv (pderiv (pmuls a p)) (padd p (pmuls a (pderiv p))).
Proof.
  intros a p k. rewrite coef_deriv, coef_add, !coef_muls, coef_deriv. destruct k as [|k].
  - change (zq (Z.of_nat 1)) with 1%Qc. ring.
  - rewrite coef_deriv. rewrite (Nat2Z.inj_succ (S k)). unfold Z.succ. rewrite zq_add, zq_1. ring.
Qed.

Lemma D_add : forall n p q x, deriv_at n (padd p q) x = (deriv_at n p x + deriv_at n q x)%Qc.
Proof.
  induction n; intros p q x; [apply peval_add|]. rewrite !D_S, (D_eqv n _ _ x (deriv_add p q)). apply IHn.
Qed.
Lemma D_scale : forall n c p x, deriv_at n (pscale c p) x = (c * deriv_at n p x)%Qc.
Proof.
  induction n; intros c p x; [apply peval_scale|]. rewrite !D_S, (D_eqv n _ _ x (deriv_scale c p)). apply IHn.
Qed.
(* Leibniz for a linear factor *)
Lemma D_muls : forall n a p x,
  deriv_at n (pmuls a p) x =
  ((x - a) * deriv_at n p x + zq (Z.of_nat n) * (match n with O => 0 | S j => deriv_at j p x end))%Qc.
Proof.
  induction n; intros a p x.
  - change (peval (pmuls a p) x = ((x - a) * peval p x + zq (Z.of_nat 0) * 0)%Qc). rewrite peval_muls. change (zq (Z.of_nat 0)) with 0%Qc. ring.
  - rewrite D_S, (D_eqv n _ _ x (deriv_muls a p)), D_add, IHn, (D_S n p x).
    replace (Z.of_nat (S n)) with (Z.of_nat n + 1) by lia. rewrite zq_add, zq_1.
    destruct n as [|j]; [change (zq (Z.of_nat 0)) with 0%Qc; ring|]. rewrite <- (D_S j p x). ring.
Qed.

(* synthetic division *)
Lemma pdivs_length : forall a p, (length (pdivs a p) <= pred (length p))%nat.
Proof.
  induction p as [|b r IH]; [cbn; lia|]. cbn [pdivs]. destruct r as [|c r']; [cbn; lia|].
  cbn [length pred] in *. lia.
Qed.
Lemma pdivs_cons : forall a b r, peqv (pdivs a (b :: r)) (peval r a :: pdivs a r).
Proof.
  intros a b r k. cbn [pdivs]. destruct r as [|c r']; [|reflexivity].
  destruct k as [|[|k]]; reflexivity.
Qed.
Lemma pdivs_spec : forall a p, peqv p (padd (pmuls a (pdivs a p)) [peval p a]).
Proof.
  induction p as [|b r IH]; intros k.
  - rewrite coef_add, coef_muls. cbn [pdivs]. unfold coef. destruct k as [|[|k]]; cbn; ring.
  - rewrite coef_add, coef_muls. destruct k as [|k].
    + rewrite (pdivs_cons a b r 0%nat). unfold coef. cbn. ring.
    + rewrite (pdivs_cons a b r k), (pdivs_cons a b r (S k)). specialize (IH k). rewrite coef_add, coef_muls in IH.
      unfold coef in IH |- *. cbn [nth]. rewrite IH. destruct k as [|k]; cbn [nth peval].
      * ring.
      * destruct k; ring.
Qed.

(* ---------- the mathematical recurrence ---------- *)
Section Rec.
  Variables (x0 : Qc) (x : Z -> Qc).

  (* product of x n - x j, j < k *)
  Fixpoint wprod (n : Z) (k : nat) : Qc :=
    match k with
    | O => 1%Qc
    | S k' => (wprod n k' * (x n - x (Z.of_nat k')))%Qc
    end.
  Definition cc (n : nat) : Qc := wprod (Z.of_nat n) n.

  Fixpoint delta (n : nat) (m : nat) (v : Z) : Qc :=
    match n with
    | O => match m with O => if v =? 0 then 1%Qc else 0%Qc | _ => 0%Qc end
    | S n' =>
        if v <? Z.of_nat n then
          (((x (Z.of_nat n) - x0) * delta n' m v - zq (Z.of_nat m) * (match m with O => 0 | S j => delta n' j v end))
           * (1 / (x (Z.of_nat n) - x v)))%Qc
        else
          ((zq (Z.of_nat m) * (match m with O => 0 | S j => delta n' j (Z.of_nat n') end) -
           (x (Z.of_nat n') - x0) * delta n' m (Z.of_nat n')) * (cc n' / cc n))%Qc
    end.

  Variable N : nat.
  Hypothesis distinct : forall i j, 0 <= i < Z.of_nat N -> 0 <= j < Z.of_nat N -> i <> j -> x i <> x j.

  Lemma sub_ne : forall i j, 0 <= i < Z.of_nat N -> 0 <= j < Z.of_nat N -> i <> j -> (x i - x j)%Qc <> 0%Qc.
  Proof.
    intros i j Hi Hj H C. apply (distinct i j Hi Hj H).
    replace (x i) with (x i - x j + x j)%Qc by ring. rewrite C. ring.
  Qed.

  Lemma wprod_ne : forall n k, (Z.of_nat k <= n) -> n < Z.of_nat N -> wprod n k <> 0%Qc.
  Proof.
    induction k; intros H H2; cbn; [discriminate|].
    intros C. apply Qcmult_integral in C as [C|C]; [apply IHk; [lia|lia|exact C]|].
    revert C. apply sub_ne; lia.
  Qed.
  Lemma cc_ne : forall n, (n < N)%nat -> cc n <> 0%Qc.
  Proof. intros. unfold cc. apply wprod_ne; lia. Qed.

  (* w_k = prod_{j<k} (X - x_j) *)
  Fixpoint wpoly (k : nat) : list Qc :=
    match k with
    | O => [1%Qc]
    | S k' => pmuls (x (Z.of_nat k')) (wpoly k')
    end.
  Lemma wpoly_eval : forall k n, peval (wpoly k) (x n) = wprod n k.
  Proof. induction k; intros n; cbn [wpoly wprod]; [cbn; ring|]. rewrite peval_muls, IHk. ring. Qed.
  Lemma wpoly_root : forall k j, 0 <= j < Z.of_nat k -> peval (wpoly k) (x j) = 0%Qc.
  Proof.
    induction k; intros j Hj; [lia|]. cbn [wpoly]. rewrite peval_muls.
    destruct (Z.eq_dec j (Z.of_nat k)) as [->|]; [ring|]. rewrite IHk by lia. ring.
  Qed.
  Lemma length_padd : forall p q, length (padd p q) = Nat.max (length p) (length q).
  Proof. induction p as [|a p IH]; intros [|b q]; cbn; auto. Qed.
  Lemma wpoly_length : forall k, length (wpoly k) = S k.
  Proof.
    induction k; cbn [wpoly]; [reflexivity|]. unfold pmuls, pmulx, pscale. rewrite length_padd, map_length. cbn [length]. lia.
  Qed.

  Lemma delta_nn : forall n m, (n < N)%nat -> (delta n m (Z.of_nat n) * cc n)%Qc = deriv_at m (wpoly n) x0.
  Proof.
    induction n; intros m Hn.
    - cbn [delta]. unfold cc. cbn [wprod wpoly]. change (Z.of_nat 0 =? 0) with true. cbn [Z.of_nat].
      destruct m; [rewrite D_0; cbn; ring|].
      rewrite D_S. unfold pderiv. cbn [pderiv_from].
      assert (forall k, deriv_at k [] x0 = 0%Qc) as ->; [|ring].
      clear. induction k; [reflexivity|]. rewrite D_S. exact IHk.
    - cbn [delta]. replace (Z.of_nat (S n) <? Z.of_nat (S n)) with false by lia.
      cbn [wpoly]. rewrite D_muls, <- (IHn m) by lia.
      assert (Hm : (match m with O => 0 | S j => deriv_at j (wpoly n) x0 end)%Qc =
                   ((match m with O => 0 | S j => delta n j (Z.of_nat n) end) * cc n)%Qc).
      { destruct m as [|j]; [ring|]. rewrite <- IHn by lia. reflexivity. }
      rewrite Hm. field. apply cc_ne. assumption.
  Qed.

  (* sum over the first k points *)
  Fixpoint wsum (k : nat) (f : Z -> Qc) : Qc :=
    match k with O => 0%Qc | S k' => (wsum k' f + f (Z.of_nat k'))%Qc end.
  Lemma wsum_S : forall k f, wsum (S k) f = (wsum k f + f (Z.of_nat k))%Qc.
  Proof. reflexivity. Qed.
  Lemma wsum_ext : forall k f g, (forall v, 0 <= v < Z.of_nat k -> f v = g v) -> wsum k f = wsum k g.
  Proof. induction k; intros f g H; cbn; [reflexivity|]. rewrite (IHk f g), (H (Z.of_nat k)); [reflexivity|lia|]. intros; apply H; lia. Qed.
  Lemma wsum_lin : forall k a b f g, wsum k (fun v => a * f v + b * g v)%Qc = (a * wsum k f + b * wsum k g)%Qc.
  Proof. induction k; intros; cbn; [ring|]. rewrite IHk. ring. Qed.
  Lemma wsum_zero : forall k, wsum k (fun _ => 0%Qc) = 0%Qc.
  Proof. induction k; cbn; [reflexivity|]. rewrite IHk. ring. Qed.

  Theorem delta_exact : forall n m p, (n < N)%nat -> (length p <= S n)%nat ->
    wsum (S n) (fun v => delta n m v * peval p (x v))%Qc = deriv_at m p x0.
  Proof.
    induction n; intros m p Hn Hp.
    - assert (Z0 : forall k, deriv_at k [] x0 = 0%Qc). { induction k; [reflexivity|]. rewrite D_S. exact IHk. }
      cbn [wsum delta]. change (Z.of_nat 0 =? 0) with true. cbn iota.
      destruct p as [|a [|b p]]; [| |cbn in Hp; lia].
      + rewrite Z0. cbn. ring.
      + destruct m; [unfold deriv_at; cbn; ring|]. rewrite D_S. unfold pderiv. cbn [pderiv_from]. rewrite Z0. ring.
    - set (xn := x (Z.of_nat (S n))).
      (* polynomials that vanish at xn *)
      assert (A : forall q, (length q <= S n)%nat ->
        wsum (S (S n)) (fun v => delta (S n) m v * peval (pmuls xn q) (x v))%Qc = deriv_at m (pmuls xn q) x0).
      { intros q Hq. rewrite wsum_S.
        rewrite (peval_muls xn q (x (Z.of_nat (S n)))). fold xn.
        replace (delta (S n) m (Z.of_nat (S n)) * ((xn - xn) * peval q xn))%Qc with 0%Qc by ring.
        rewrite (wsum_ext (S n) _ (fun v => (x0 - xn) * (delta n m v * peval q (x v)) +
            zq (Z.of_nat m) * ((match m with O => 0 | S j => delta n j v end) * peval q (x v)))%Qc).
        2:{ intros v Hv. cbn [delta]. replace (v <? Z.of_nat (S n)) with true by lia. rewrite peval_muls. fold xn.
            assert ((xn - x v)%Qc <> 0%Qc) by (apply sub_ne; lia). field. assumption. }
        rewrite wsum_lin, (IHn m q) by lia. rewrite D_muls.
        destruct m as [|j].
        - change (zq (Z.of_nat 0)) with 0%Qc. ring.
        - rewrite (IHn j q) by lia. ring. }
      (* the node polynomial *)
      assert (B : wsum (S (S n)) (fun v => delta (S n) m v * peval (wpoly (S n)) (x v))%Qc = deriv_at m (wpoly (S n)) x0).
      { rewrite wsum_S.
        rewrite (wsum_ext (S n) _ (fun _ => 0%Qc)); [|intros v Hv; rewrite wpoly_root by lia; ring].
        rewrite wsum_zero, wpoly_eval. fold (cc (S n)). rewrite delta_nn by lia. ring. }
      (* p = (p(xn)/c2) w + (X - xn) q *)
      set (c := (peval p xn / cc (S n))%Qc).
      set (r := padd p (pscale (- c)%Qc (wpoly (S n)))).
      set (q := pdivs xn r).
      assert (Rz : peval r xn = 0%Qc).
      { unfold r. rewrite peval_add, peval_scale. unfold xn at 2. rewrite wpoly_eval. fold (cc (S n)). unfold c. field. apply cc_ne. assumption. }
      assert (Hq : (length q <= S n)%nat).
      { unfold q. pose proof (pdivs_length xn r). unfold r in *. rewrite length_padd in *. unfold pscale in *. rewrite map_length, wpoly_length in *. lia. }
      assert (E : peqv p (padd (pscale c (wpoly (S n))) (pmuls xn q))).
      { intros k. pose proof (pdivs_spec xn r k) as E. fold q in E. rewrite Rz in E. rewrite coef_add in E.
        assert (coef [0%Qc] k = 0%Qc) as Hz by (unfold coef; destruct k as [|[|k]]; reflexivity). rewrite Hz in E.
        rewrite coef_add. transitivity (coef r k + coef (pscale c (wpoly (S n))) k)%Qc.
        - unfold r. rewrite coef_add, !coef_scale. ring.
        - rewrite E. ring. }
      rewrite (D_eqv m _ _ x0 E), D_add, D_scale, <- A, <- B by assumption.
      rewrite (wsum_ext _ _ (fun v => c * (delta (S n) m v * peval (wpoly (S n)) (x v)) + 1 * (delta (S n) m v * peval (pmuls xn q) (x v)))%Qc).
      + rewrite wsum_lin. ring.
      + intros v _. rewrite (peval_eqv _ _ _ E), peval_add, peval_scale. ring.
  Qed.
End Rec.
