From Verif Require Import Base Threads_Model.

Lemma comp_threads_spec : forall mt ni no ct ot it,
  get_num_comp_threads mt ni no = (ct, ot, it) ->
  1 <= ot /\ 1 <= it /\ ct = ot * it /\ ot * it <= Z.max mt 1 /\
  (1 <= ni <= mt -> it = ni) /\
  (1 <= no -> 1 <= ni -> no * ni <= mt -> ot = no /\ it = ni) /\
  (no <= 0 -> Z.max mt 1 < (ot + 1) * it) .
Proof.
  intros mt ni no ct ot it H. unfold get_num_comp_threads in H. cbn zeta in H.
  set (m := Z.max mt 1) in *. set (i := Z.min (Z.max ni 1) m) in *.
  assert (Hm : 1 <= m) by lia. assert (Hi : 1 <= i <= m) by lia.
  rewrite Z.quot_div_nonneg in H by lia.
  pose proof (Z.div_mod m i ltac:(lia)) as D. pose proof (Z.mod_pos_bound m i ltac:(lia)) as B.
  assert (Q : 1 <= m / i) by (apply Z.div_le_lower_bound; lia).
  inversion H; subst; clear H. fold m i.
  set (q := m / i) in *. replace (Z.max q 1) with q by lia.
  set (o := Z.min (if no <=? 0 then q else no) q).
  assert (Ho : 1 <= o <= q) by (unfold o; destruct (no <=? 0) eqn:E; lia).
  assert (o * i <= q * i) by nia.
  split; [lia|]. split; [lia|]. split; [lia|]. split; [lia|]. split; [unfold i, m; lia|]. split.
  - intros H1 H2 H3. assert (ni <= mt) by nia. assert (i = ni) as Ei by (unfold i, m; lia). split; [|exact Ei].
    unfold o. destruct (Z.leb_spec no 0); [lia|]. apply Z.min_l. unfold q. rewrite Ei. apply Z.div_le_lower_bound; [lia|]. unfold m. lia.
  - intros H1. unfold o. destruct (Z.leb_spec no 0); [|lia]. rewrite Z.min_id. nia.
Qed.

Lemma threads_set : forall mt ni no,
  let '(r, n0, n1) := set_num_outer_threads mt ni no in
  r = n0 /\ n1 = set_num_inner_threads mt ni no /\ 1 <= n0 /\ 1 <= n1 /\ n0 * n1 <= Z.max mt 1.
Proof.
  intros mt ni no. unfold set_num_outer_threads, set_num_inner_threads.
  destruct (get_num_comp_threads mt ni no) as ((ct & ot) & it) eqn:E. pose proof (comp_threads_spec _ _ _ _ _ _ E). intuition.
Qed.
