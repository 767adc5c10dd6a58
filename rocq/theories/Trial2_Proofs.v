(* When further calibration runs are made, and of how many steps. *)
From Verif Require Import Base Trial_Model Trial_Spec Trial_Proofs.
From Coq Require Import ZifyBool.

Section Ranks.
Variable wt : Z -> list Z.
Variable N : nat.
Hypothesis Npos : (0 < N)%nat.
Hypothesis wt_len : forall n, length (wt n) = N.

(* the runs made from run [n] on, at most [k] *)
Fixpoint chain (k : nat) (n cap : Z) (l : list Z) : Prop :=
  match k, l with
  | S k', w :: r =>
    (r = [] -> k' = O \/ exists m, next_steps (wt n) n w cap m /\ m <= 1) /\
    (forall x r', r = x :: r' -> next_steps (wt n) n w cap x /\ 1 < x /\ chain k' (n + 1) (cap * cap) r)
  | _, _ => False
  end.

Lemma calib_chain : forall t k n w cap rates runs, t <= 0 -> (0 < k)%nat -> 0 <= n -> 1 <= w -> 0 <= cap ->
  exists rates' new, calib wt (repeat t N) k n (repeat w N) cap rates runs = Ok (rates', runs ++ new) /\
    hd 0 new = w /\ chain k n cap new.
Proof using Npos wt_len.
  induction k as [|k IH]; intros n w cap rates runs Ht Hk Hn Hw Hc; [lia|].
  cbn [calib]. rewrite same_repeat. cbn [negb]. rewrite hd_repeat by exact Npos.
  rewrite forallb_repeat, existsb_repeat by exact Npos. assert (0 <? t = false) as -> by lia.
  rewrite average_repeat.
  set (l := map (fun r => Z.min (ceil_steps r (500000000 * (n + 1))) cap) (map2 mk_rate (repeat w N) (wt n))).
  assert (Ll : length l = N).
  { unfold l. rewrite map_length, map2_length; rewrite repeat_length; auto. }
  rewrite Ll. set (c := ceil_div (zsum l) (Z.of_nat N)).
  assert (NX : next_steps (wt n) n w cap c).
  { assert (NE : forall i t', nth_error (wt n) i = Some t' -> nth_error l i = Some (Z.min (ceil_steps (mk_rate w t') (500000000 * (n + 1))) cap)).
    { intros i t' H. unfold l. apply (map_nth_error (fun r => Z.min (ceil_steps r (500000000 * (n + 1))) cap)).
      apply map2_nth; [|exact H]. apply nth_error_repeat. rewrite <- (wt_len n). apply nth_error_Some. congruence. }
    exists l. rewrite wt_len. split; [exact Ll|]. split.
    - unfold mean_up. rewrite Ll. apply ceil_div_bounds; [|lia]. apply zsum_nonneg. intros x Hx.
      apply In_nth_error in Hx. destruct Hx as (i & Hi).
      assert (Li : (i < N)%nat) by (rewrite <- Ll; apply nth_error_Some; congruence).
      destruct (nth_error (wt n) i) as [t'|] eqn:E; [|apply nth_error_None in E; rewrite wt_len in E; lia].
      rewrite (NE i t' E) in Hi. injection Hi as <-.
      pose proof (proj2 (ceil_steps_need w t' (500000000 * (n + 1)) ltac:(lia) ltac:(lia))). lia.
    - intros i t' H. eexists. split; [|apply NE; exact H]. apply ceil_steps_need; lia. }
  rewrite forallb_repeat, existsb_repeat by exact Npos.
  destruct (c <=? 1) eqn:Ec.
  - do 2 eexists. split; [reflexivity|]. split; [reflexivity|]. cbn [chain]. split; [|intros; discriminate].
    intros _. right. exists c. split; [exact NX|lia].
  - destruct k as [|k].
    + do 2 eexists. split; [reflexivity|]. split; [reflexivity|]. cbn [chain]. split; [auto|intros; discriminate].
    + destruct (IH (n + 1) c (cap * cap) (map2 mk_rate (repeat w N) (wt n)) (runs ++ [w])) as (rates' & new & E & H1 & H2); try lia.
      exists rates', (w :: new). rewrite E, <- app_assoc. split; [reflexivity|]. split; [reflexivity|].
      remember (S k) as k1. cbn [chain]. split.
      * intros ->. subst k1. destruct H2.
      * intros x r' ->. cbn [hd] in H1. subst x. split; [exact NX|]. split; [lia|exact H2].
Qed.
End Ranks.

Theorem calibrated : forall wt os runs nt s, os <> [] -> (forall n, length (wt n) = length os) ->
  plan wt os = Ok (runs, nt, s) -> (forall o, In o os -> trial_steps o <= 0) ->
  forall k w, (k < 2)%nat -> nth_error runs k = Some w ->
  exists m, next_steps (wt (Z.of_nat k)) (Z.of_nat k) w (if (k =? 0)%nat then 10 else 100) m /\
    (nth_error runs (S k) = None <-> m <= 1) /\ (forall x, nth_error runs (S k) = Some x -> x = m).
Proof.
  intros wt os runs nt s Hne Hwt H HO k w Hk Hw. destruct (plan_inv _ _ _ _ _ H) as (Hc & Ha).
  assert (HN : (0 < length os)%nat) by (destruct os; [congruence|cbn; lia]).
  destruct (checked_eqs os Hne Hc) as (nt' & ts & b & HE).
  assert (Ht : ts <= 0).
  { destruct os as [|o os]; [congruence|]. destruct (HE o (or_introl eq_refl)) as (_ & <- & _). apply HO. now left. }
  assert (Ets : map trial_steps os = repeat ts (length os)) by (apply map_field; intros o Ho; apply HE; exact Ho).
  unfold plan in H. rewrite Hc, Ha in H. cbn [negb] in H.
  destruct (forallb warm os) eqn:W.
  - rewrite Ets, map_const_repeat in H.
    destruct (calib_chain wt (length os) HN Hwt ts 3 0 1 10 (map (fun _ => mkRate 1 1000000000) os) [] Ht) as (rates' & new & E & E1 & E2); try lia.
    rewrite E in H. cbn [rbind app] in H.
    assert (runs = new) as ->.
    { destruct (existsb (fun o => num_trials o <? 1) os); [discriminate|]. destruct (negb _); [discriminate|].
      destruct (existsb _ _); [discriminate|]. congruence. }
    clear E H. destruct new as [|a new]; [destruct k; discriminate|]. cbn [hd] in E1. subst a.
    cbn [chain] in E2. destruct E2 as (A1 & A2). destruct k as [|[|k]]; [| |lia].
    + cbn in Hw. injection Hw as <-. cbn [nth_error Nat.eqb]. destruct new as [|x new].
      * destruct (A1 eq_refl) as [X|(m & M1 & M2)]; [discriminate|]. exists m. split; [exact M1|]. split; [tauto|discriminate].
      * destruct (A2 x new eq_refl) as (B1 & B2 & _). exists x. split; [exact B1|]. split; [split; [discriminate|lia]|congruence].
    + cbn in Hw. destruct new as [|x new]; [discriminate|]. injection Hw as ->.
      destruct (A2 w new eq_refl) as (_ & _ & C1 & C2). cbn [nth_error Nat.eqb]. change (10 * 10) with 100 in *. change (Z.of_nat 1) with (0 + 1).
      destruct new as [|y new].
      * destruct (C1 eq_refl) as [X|(m & M1 & M2)]; [discriminate|]. exists m. split; [exact M1|]. split; [tauto|discriminate].
      * destruct (C2 y new eq_refl) as (B1 & B2 & _). exists y. split; [exact B1|]. split; [split; [discriminate|lia]|congruence].
  - cbn [rbind] in H. exfalso. assert (runs = []) as ->.
    { destruct (existsb (fun o => num_trials o <? 1) os); [discriminate|]. destruct (negb _); [discriminate|].
      destruct (existsb _ _); [discriminate|]. congruence. }
    destruct k; discriminate.
Qed.
