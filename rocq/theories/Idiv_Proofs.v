From Verif Require Import Base Idiv_Model.

Lemma idiv_flr_spec : forall a b, 0 < b -> idiv_flr a b = a / b.
Proof.
  intros a b Hb. unfold idiv_flr, sign_shift.
  destruct (a <? 0) eqn:Ha.
  - apply Z.ltb_lt in Ha.
    replace (a + -1 * (b - 1)) with (- ((- a) + (b - 1))) by lia.
    rewrite Z.quot_opp_l by lia. rewrite Z.quot_div_nonneg by lia.
    pose proof (Z.div_mod (- a + (b - 1)) b ltac:(lia)) as E.
    pose proof (Z.mod_pos_bound (- a + (b - 1)) b Hb) as M.
    apply Z.div_unique with (r := b - 1 - (- a + (b - 1)) mod b); [left; lia|]. lia.
  - apply Z.ltb_ge in Ha. rewrite Z.mul_0_l, Z.add_0_r. apply Z.quot_div_nonneg; lia.
Qed.

Lemma imod_flr_spec : forall a b, 0 < b -> imod_flr a b = a mod b.
Proof.
  intros a b Hb. unfold imod_flr, sign_shift. cbn zeta.
  pose proof (Z.quot_rem' a b) as E.
  pose proof (Z.rem_bound_abs a b ltac:(lia)) as M.
  destruct (Z.rem a b <? 0) eqn:Hc.
  - apply Z.ltb_lt in Hc. apply Z.mod_unique with (q := Z.quot a b - 1); [left; lia|]. lia.
  - apply Z.ltb_ge in Hc. apply Z.mod_unique with (q := Z.quot a b); [left; lia|]. lia.
Qed.

Lemma ceil_idiv_flr_spec : forall a b, 0 < b -> ceil_idiv_flr a b = (a + b - 1) / b.
Proof. intros. unfold ceil_idiv_flr. apply idiv_flr_spec. assumption. Qed.

Lemma round_down_flr_spec : forall a b, 0 < b -> round_down_flr a b = a / b * b.
Proof. intros. unfold round_down_flr. rewrite idiv_flr_spec by assumption. reflexivity. Qed.

Lemma round_down_flr_bounds : forall a b, 0 < b ->
  round_down_flr a b <= a < round_down_flr a b + b /\ round_down_flr a b mod b = 0.
Proof.
  intros a b Hb. rewrite round_down_flr_spec by assumption.
  pose proof (Z.div_mod a b ltac:(lia)). pose proof (Z.mod_pos_bound a b Hb).
  split; [lia|]. apply Z.mod_mul. lia.
Qed.

Lemma round_up_flr_bounds : forall a b, 0 < b ->
  a <= round_up_flr a b < a + b /\ round_up_flr a b mod b = 0.
Proof.
  intros a b Hb. unfold round_up_flr. rewrite ceil_idiv_flr_spec by assumption.
  pose proof (Z.div_mod (a + b - 1) b ltac:(lia)). pose proof (Z.mod_pos_bound (a + b - 1) b Hb).
  split; [lia|]. apply Z.mod_mul. lia.
Qed.

Lemma CEIL_DIV_spec : forall n d, 0 < d -> 0 <= n + d - 1 -> CEIL_DIV n d = (n + d - 1) / d.
Proof. intros. unfold CEIL_DIV. apply Z.quot_div_nonneg; lia. Qed.

Lemma CEIL_DIV_bounds : forall n d, 0 < d -> 0 <= n ->
  (CEIL_DIV n d - 1) * d < n <= CEIL_DIV n d * d /\ 0 <= CEIL_DIV n d.
Proof.
  intros n d Hd Hn. rewrite CEIL_DIV_spec by lia.
  pose proof (Z.div_mod (n + d - 1) d ltac:(lia)). pose proof (Z.mod_pos_bound (n + d - 1) d Hd).
  assert (0 <= (n + d - 1) / d) by (apply Z.div_pos; lia). nia.
Qed.

Lemma ROUND_UP_bounds : forall n m, 0 < m -> 0 <= n ->
  n <= ROUND_UP n m < n + m /\ ROUND_UP n m mod m = 0.
Proof.
  intros n m Hm Hn. unfold ROUND_UP. pose proof (CEIL_DIV_bounds n m Hm Hn).
  split; [nia|]. apply Z.mod_mul. lia.
Qed.

Lemma ROUND_DOWN_bounds : forall n m, 0 < m -> 0 <= n ->
  ROUND_DOWN n m <= n < ROUND_DOWN n m + m /\ ROUND_DOWN n m mod m = 0.
Proof.
  intros n m Hm Hn. unfold ROUND_DOWN. rewrite Z.quot_div_nonneg by lia.
  pose proof (Z.div_mod n m ltac:(lia)). pose proof (Z.mod_pos_bound n m Hm).
  split; [lia|]. apply Z.mod_mul. lia.
Qed.
