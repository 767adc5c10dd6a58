From Coq Require Import String QArith Lqa Qround.
From Verif Require Import Base Idiv_Model Idiv_Proofs Expr_Model Expr_Spec.
Open Scope Z_scope.

Fixpoint expr_ind2 (P : expr -> Prop) (H : forall l ops, Forall P ops -> P (E l ops)) (e : expr) {struct e} : P e :=
  match e with
  | E l ops => H l ops ((fix go (o : list expr) : Forall P o :=
      match o with [] => Forall_nil P | x :: r => Forall_cons x (expr_ind2 P H x) (go r) end) ops)
  end.

(* ------------------------------------------------------------------ numbers *)
Lemma truncates_fun : forall a b m n, truncates a m -> truncates b n -> (a == b)%Q -> m = n.
Proof.
  intros a b m n (A1 & A2) (B1 & B2) E.
  destruct (Qlt_le_dec a 0) as [L|L].
  - assert (La : (a <= 0)%Q) by lra. assert (Lb : (b <= 0)%Q) by lra.
    destruct (A2 La) as (X1 & X2). destruct (B2 Lb) as (Y1 & Y2).
    assert (U1 : (inject_Z (m - 1) < inject_Z n)%Q) by lra. assert (U2 : (inject_Z (n - 1) < inject_Z m)%Q) by lra.
    rewrite <- Zlt_Qlt in U1, U2. lia.
  - assert (Lb : (0 <= b)%Q) by lra.
    destruct (A1 L) as (X1 & X2). destruct (B1 Lb) as (Y1 & Y2).
    assert (U1 : (inject_Z m < inject_Z (n + 1))%Q) by lra. assert (U2 : (inject_Z n < inject_Z (m + 1))%Q) by lra.
    rewrite <- Zlt_Qlt in U1, U2. lia.
Qed.

Lemma quot_truncates : forall q, truncates q (Z.quot (Qnum q) (Zpos (Qden q))).
Proof.
  intros (n & d). cbn [Qnum Qden]. unfold truncates, Qle, Qlt, inject_Z. cbn [Qnum Qden].
  pose proof (Z.quot_rem' n (Zpos d)) as A. assert (D : 0 < Zpos d) by lia.
  set (m := Z.quot n (Zpos d)) in *. set (r := Z.rem n (Zpos d)) in *. split; intros H.
  - assert (N : 0 <= n) by lia. pose proof (Z.rem_bound_pos n (Zpos d) N D) as B. fold r in B. clearbody m r. nia.
  - assert (N : n <= 0) by lia. pose proof (Z.rem_bound_pos (- n) (Zpos d) ltac:(lia) D) as B. rewrite Z.rem_opp_l' in B. fold r in B. clearbody m r. nia.
Qed.

Lemma to_int_spec : forall bits q n, to_int bits q = Ok n -> truncates q n /\ - 2 ^ (bits - 1) <= n < 2 ^ (bits - 1).
Proof.
  intros bits q n H. unfold to_int in H. destruct (_ && _) eqn:Bb in H; [|discriminate]. injection H as <-.
  split; [apply quot_truncates|lia].
Qed.

(* ------------------------------------------------------------------ C39 *)
Section C39.
Variable rnd : Q -> Q.
Variable w : leaves.
Variable BD : Z.
Hypothesis Hr : rounding rnd BD.

Lemma rnd_comp : forall a b, (a == b)%Q -> (rnd a == rnd b)%Q.
Proof. exact (proj1 Hr). Qed.

Definition fadd (vs : list Q) (s : Q) : Q := fold_left (fun a v => rnd (a + v)%Q) vs s.
Definition fmul (vs : list Q) (s : Q) : Q := fold_left (fun a v => rnd (a * v)%Q) vs s.

Lemma means_add : forall l s, means rnd w (E (LComm OAdd) l) s <-> exists vs, Forall2 (means rnd w) l vs /\ s = fadd vs 0.
Proof.
  intros l s. split.
  - intros H. remember (E (LComm OAdd) l) as e eqn:He. revert l He.
    induction H; intros l0 He; try discriminate; injection He as <-.
    + exists []. split; [constructor|reflexivity].
    + destruct (IHmeans1 l eq_refl) as (vs & A & B). exists (vs ++ [v]). split; [apply Forall2_app; [exact A|constructor; [exact H0|constructor]]|].
      unfold fadd. rewrite fold_left_app. cbn. rewrite B. reflexivity.
  - intros (vs & A & ->). revert l A. induction vs as [|v vs IH] using rev_ind; intros l A.
    + inversion A; subst. constructor.
    + apply Forall2_app_inv_r in A. destruct A as (l1 & l2 & A1 & A2 & ->). inversion A2 as [|x y l3 l4 B1 B2]; subst. inversion B2; subst.
      unfold fadd. rewrite fold_left_app. cbn. apply m_add; [apply IH; exact A1|exact B1].
Qed.
Lemma means_mul : forall l s, means rnd w (E (LComm OMul) l) s <-> exists vs, Forall2 (means rnd w) l vs /\ s = fmul vs 1.
Proof.
  intros l s. split.
  - intros H. remember (E (LComm OMul) l) as e eqn:He. revert l He.
    induction H; intros l0 He; try discriminate; injection He as <-.
    + exists []. split; [constructor|reflexivity].
    + destruct (IHmeans1 l eq_refl) as (vs & A & B). exists (vs ++ [v]). split; [apply Forall2_app; [exact A|constructor; [exact H0|constructor]]|].
      unfold fmul. rewrite fold_left_app. cbn. rewrite B. reflexivity.
  - intros (vs & A & ->). revert l A. induction vs as [|v vs IH] using rev_ind; intros l A.
    + inversion A; subst. constructor.
    + apply Forall2_app_inv_r in A. destruct A as (l1 & l2 & A1 & A2 & ->). inversion A2 as [|x y l3 l4 B1 B2]; subst. inversion B2; subst.
      unfold fmul. rewrite fold_left_app. cbn. apply m_mul; [apply IH; exact A1|exact B1].
Qed.

Definition const_ok (e : expr) : Prop := is_const_val e = true -> forall q v, get_num_val rnd e = Ok q -> means rnd w e v -> (v == q)%Q.

Lemma const_add : forall l vs, Forall2 (means rnd w) l vs -> Forall const_ok l -> forallb is_const_val l = true ->
  forall acc acc' q, (acc == acc')%Q ->
  (fix go (l : list expr) (val : Q) : res Q :=
     match l with [] => Ok val | op :: l' => rbind (get_num_val rnd op) (fun r => go l' (rnd (val + r)%Q)) end) l acc = Ok q ->
  (fadd vs acc' == q)%Q.
Proof.
  intros l vs F. induction F as [|e v l vs M F IH]; intros C B acc acc' q Ea G.
  - injection G as <-. cbn. symmetry. exact Ea.
  - inversion C as [|? ? C1 C2]; subst. cbn [forallb] in B. apply andb_true_iff in B. destruct B as (B1 & B2).
    destruct (get_num_val rnd e) as [r| | |] eqn:G1; try discriminate. cbn [rbind] in G.
    unfold fadd. cbn [fold_left]. refine (IH C2 B2 _ _ q _ G). apply rnd_comp.
    rewrite (C1 B1 r v eq_refl M) || rewrite (C1 B1 r v G1 M). rewrite Ea. reflexivity.
Qed.
Lemma const_mul : forall l vs, Forall2 (means rnd w) l vs -> Forall const_ok l -> forallb is_const_val l = true ->
  forall acc acc' q, (acc == acc')%Q ->
  (fix go (l : list expr) (val : Q) : res Q :=
     match l with [] => Ok val | op :: l' => rbind (get_num_val rnd op) (fun r => go l' (rnd (val * r)%Q)) end) l acc = Ok q ->
  (fmul vs acc' == q)%Q.
Proof.
  intros l vs F. induction F as [|e v l vs M F IH]; intros C B acc acc' q Ea G.
  - injection G as <-. cbn. symmetry. exact Ea.
  - inversion C as [|? ? C1 C2]; subst. cbn [forallb] in B. apply andb_true_iff in B. destruct B as (B1 & B2).
    destruct (get_num_val rnd e) as [r| | |] eqn:G1; try discriminate. cbn [rbind] in G.
    unfold fmul. cbn [fold_left]. refine (IH C2 B2 _ _ q _ G). apply rnd_comp.
    rewrite (C1 B1 r v eq_refl M) || rewrite (C1 B1 r v G1 M). rewrite Ea. reflexivity.
Qed.

Lemma const_means : forall e, const_ok e.
Proof.
  induction e as [l ops IH] using expr_ind2. intros C q v G M.
  destruct l as [c|s|s|d t| |o|o|f]; cbn [is_const_val] in C; try discriminate.
  - inversion M; subst. injection G as <-. reflexivity.
  - inversion M as [| | | |e1 v1 M1| | | | | | | |]; subst. inversion IH as [|? ? I1 _]; subst. cbn [get_num_val] in G.
    destruct (get_num_val rnd e1) as [r| | |] eqn:G1; try discriminate. injection G as <-.
    rewrite (I1 C r v1 G1 M1). reflexivity.
  - destruct o.
    + inversion M as [| | | | |a b x y Ma Mb| | | | | | |]; subst. inversion IH as [|? ? I1 I2]; subst. inversion I2 as [|? ? I3 _]; subst.
      cbn [is_const_val] in C. apply andb_true_iff in C. destruct C as (C1 & C2). cbn [get_num_val] in G.
      destruct (get_num_val rnd a) as [r1| | |] eqn:G1; try discriminate. cbn [rbind] in G.
      destruct (get_num_val rnd b) as [r2| | |] eqn:G2; try discriminate. cbn [rbind] in G. injection G as <-.
      apply rnd_comp. rewrite (I1 C1 r1 x G1 Ma), (I3 C2 r2 y G2 Mb). reflexivity.
    + inversion M as [| | | | | |a b x y Ma Mb Nz| | | | | |]; subst. inversion IH as [|? ? I1 I2]; subst. inversion I2 as [|? ? I3 _]; subst.
      cbn [is_const_val] in C. apply andb_true_iff in C. destruct C as (C1 & C2). cbn [get_num_val] in G.
      destruct (get_num_val rnd a) as [r1| | |] eqn:G1; try discriminate. cbn [rbind] in G.
      destruct (get_num_val rnd b) as [r2| | |] eqn:G2; try discriminate. cbn [rbind] in G. destruct (Qeq_bool r2 0); [discriminate|]. injection G as <-.
      apply rnd_comp. rewrite (I1 C1 r1 x G1 Ma), (I3 C2 r2 y G2 Mb). reflexivity.
    + inversion M as [| | | | | | |a b x y m n Ma Mb Tm Tn Pn| | | | |]; subst. inversion IH as [|? ? I1 I2]; subst. inversion I2 as [|? ? I3 _]; subst.
      cbn [is_const_val] in C. apply andb_true_iff in C. destruct C as (C1 & C2). cbn [get_num_val] in G.
      destruct (get_num_val rnd a) as [r1| | |] eqn:G1; try discriminate. cbn [rbind] in G.
      destruct (get_num_val rnd b) as [r2| | |] eqn:G2; try discriminate. cbn [rbind] in G.
      destruct (to_int 64 r1) as [m'| | |] eqn:T1; try discriminate. cbn [rbind] in G.
      destruct (to_int 64 r2) as [n'| | |] eqn:T2; try discriminate. cbn [rbind] in G.
      destruct (n' =? 0); [discriminate|]. injection G as <-.
      apply to_int_spec in T1. apply to_int_spec in T2.
      assert (m = m') by (refine (truncates_fun x r1 _ _ Tm (proj1 T1) _); apply (I1 C1 r1 x G1 Ma)).
      assert (n = n') by (refine (truncates_fun y r2 _ _ Tn (proj1 T2) _); apply (I3 C2 r2 y G2 Mb)).
      subst m' n'. rewrite (imod_flr_spec m n Pn). reflexivity.
  - destruct o; cbn [get_num_val] in G.
    + apply means_add in M. destruct M as (vs & F & ->). refine (const_add ops vs F IH C 0%Q 0%Q q _ G). reflexivity.
    + apply means_mul in M. destruct M as (vs & F & ->). refine (const_mul ops vs F IH C 1%Q 1%Q q _ G). reflexivity.
Qed.

Lemma int_means : forall e c v, is_const_val e = true -> get_int_val rnd e = Ok c -> means rnd w e v -> (v == inject_Z c)%Q /\ - 2 ^ 31 <= c < 2 ^ 31.
Proof.
  intros e c v C G M. unfold get_int_val in G. destruct (get_num_val rnd e) as [q| | |] eqn:G1; try discriminate. cbn [rbind] in G.
  destruct (to_int 32 q) as [i| | |] eqn:T; try discriminate. cbn [rbind] in G. destruct (Qeq_bool q (inject_Z i)) eqn:Eq; [|discriminate]. injection G as <-.
  apply Qeq_bool_eq in Eq. apply to_int_spec in T. split; [|exact (proj2 T)]. rewrite <- Eq. exact (const_means e C q v G1 M).
Qed.

Variable dim : string.
Variable i : Z.
Hypothesis Hi : Z.abs i + 2 ^ 33 <= BD.
Hypothesis Hd : v_idx w dim DomainI = i.
Hypothesis Hs : v_idx w dim StepI = i.

Definition off_ok (e : expr) : Prop := forall k, is_offset_from rnd dim e = Ok (Some k) -> - 2 ^ 31 <= k < 2 ^ 31 /\ forall v, means rnd w e v -> (v == inject_Z (i + k))%Q.

Lemma chk_spec : forall z k, chk_int z = Ok k -> k = z /\ - 2 ^ 31 <= z < 2 ^ 31.
Proof. clear. intros z k H. unfold chk_int in H. destruct (_ && _) eqn:Bb in H; [|discriminate]. injection H as <-. lia. Qed.

Lemma rnd_int : forall q z, (q == inject_Z z)%Q -> - BD <= z <= BD -> (rnd q == inject_Z z)%Q.
Proof. intros q z A B. rewrite (rnd_comp q (inject_Z z) A). exact (proj2 Hr z B). Qed.

Lemma add_go_nd : forall l sum nd tmp k, 
  (fix go (l : list expr) (sum num_dims tmp : Z) : res (option Z) :=
           match l with
           | [] => if num_dims =? 1 then rbind (chk_int (tmp + sum)) (fun k => Ok (Some k)) else Ok None
           | op :: l' =>
               rbind (is_offset_from rnd dim op) (fun t =>
                 match t with
                 | Some tmp' => go l' sum (num_dims + 1) tmp'
                 | None => if is_const_val op
                           then rbind (get_int_val rnd op) (fun c => rbind (chk_int (sum + c)) (fun s => go l' s num_dims tmp))
                           else Ok None
                 end)
           end) l sum nd tmp = Ok (Some k) -> nd <= 1 /\ - 2 ^ 31 <= k < 2 ^ 31.
Proof.
  clear. induction l as [|e l IH]; intros sum nd tmp k G.
  - destruct (nd =? 1) eqn:N; [|discriminate]. destruct (chk_int (tmp + sum)) as [z| | |] eqn:K; try discriminate. injection G as <-. apply chk_spec in K. lia.
  - destruct (is_offset_from rnd dim e) as [[t|]| | |]; try discriminate; cbn [rbind] in G.
    + apply IH in G. lia.
    + destruct (is_const_val e); [|discriminate]. destruct (get_int_val rnd e) as [c| | |]; try discriminate. cbn [rbind] in G.
      destruct (chk_int (sum + c)) as [z| | |]; try discriminate. cbn [rbind] in G. apply IH in G. exact G.
Qed.

Lemma add_go : forall l vs, Forall2 (means rnd w) l vs -> Forall off_ok l -> forall sum nd tmp k acc,
  (fix go (l : list expr) (sum num_dims tmp : Z) : res (option Z) :=
           match l with
           | [] => if num_dims =? 1 then rbind (chk_int (tmp + sum)) (fun k => Ok (Some k)) else Ok None
           | op :: l' =>
               rbind (is_offset_from rnd dim op) (fun t =>
                 match t with
                 | Some tmp' => go l' sum (num_dims + 1) tmp'
                 | None => if is_const_val op
                           then rbind (get_int_val rnd op) (fun c => rbind (chk_int (sum + c)) (fun s => go l' s num_dims tmp))
                           else Ok None
                 end)
           end) l sum nd tmp = Ok (Some k) ->
  0 <= nd -> - 2 ^ 31 <= sum < 2 ^ 31 -> - 2 ^ 31 <= tmp < 2 ^ 31 ->
  (acc == inject_Z (sum + if nd =? 1 then i + tmp else 0))%Q -> (fadd vs acc == inject_Z (i + k))%Q.
Proof.
  intros l vs F. induction F as [|e v l vs M F IH]; intros C sum nd tmp k acc G N0 Bs Bt Ea.
  - destruct (nd =? 1) eqn:N; [|discriminate]. destruct (chk_int (tmp + sum)) as [z| | |] eqn:K; try discriminate. injection G as <-. apply chk_spec in K.
    cbn. rewrite Ea. replace (sum + (i + tmp)) with (i + z) by lia. reflexivity.
  - inversion C as [|? ? C1 C2]; subst. unfold fadd. cbn [fold_left]. fold (fadd vs (rnd (acc + v))).
    destruct (is_offset_from rnd dim e) as [[t|]| | |] eqn:O; try discriminate; cbn [rbind] in G.
    + destruct (C1 t O) as (Bt' & V). specialize (V v M). pose proof (add_go_nd _ _ _ _ _ G) as (Nd & _).
      refine (IH C2 sum (nd + 1) t k _ G _ Bs Bt' _); [lia|]. assert (nd = 0) by lia. subst nd. cbn [Z.eqb] in Ea. change (0 + 1 =? 1) with true. cbn iota.
      assert (P31 : 2 ^ 33 = 2 ^ 31 * 4) by reflexivity.
      apply rnd_int; [|lia]. rewrite Ea, V, <- inject_Z_plus. replace (sum + 0 + (i + t)) with (sum + (i + t)) by lia. reflexivity.
    + destruct (is_const_val e) eqn:Ce; [|discriminate]. destruct (get_int_val rnd e) as [c| | |] eqn:Ge; try discriminate. cbn [rbind] in G.
      destruct (chk_int (sum + c)) as [z| | |] eqn:K; try discriminate. cbn [rbind] in G. apply chk_spec in K. destruct K as (-> & K).
      destruct (int_means e c v Ce Ge M) as (V & Bc).
      refine (IH C2 (sum + c) nd tmp k _ G N0 K Bt _).
      assert (P31 : 2 ^ 33 = 2 ^ 31 * 4) by reflexivity.
      apply rnd_int; [|destruct (nd =? 1); lia]. rewrite Ea, V, <- inject_Z_plus.
      match goal with |- (inject_Z ?a == inject_Z ?b)%Q => replace a with b by lia end. reflexivity.
Qed.

Lemma off_means : forall e, off_ok e.
Proof.
  induction e as [l ops IH] using expr_ind2. intros k G.
  destruct l as [c|s|s|d t| |o|o|f]; cbn [is_offset_from] in G; try discriminate.
  - destruct (match t with DomainI | StepI => true | _ => false end && String.eqb d dim) eqn:B in G; [|discriminate]. injection G as <-.
    apply andb_true_iff in B. destruct B as (B1 & B2). apply String.eqb_eq in B2. subst d. split; [split; [discriminate|reflexivity]|].
    intros v M. inversion M; subst. rewrite Z.add_0_r. destruct t; try discriminate; [rewrite Hs|rewrite Hd]; reflexivity.
  - destruct o; try discriminate. destruct ops as [|a [|b [|? ?]]]; try discriminate.
    inversion IH as [|? ? I1 _]; subst.
    destruct (is_offset_from rnd dim a) as [[t|]| | |] eqn:O; try discriminate; cbn [rbind] in G.
    destruct (is_const_val b) eqn:C; [|discriminate]. destruct (get_int_val rnd b) as [c| | |] eqn:Gc; try discriminate. cbn [rbind] in G.
    destruct (chk_int (t - c)) as [z| | |] eqn:K; try discriminate. cbn [rbind] in G. injection G as <-. apply chk_spec in K. destruct K as (-> & K).
    split; [exact K|]. intros v M. inversion M as [| | | | |a' b' x y Ma Mb| | | | | | |]; subst.
    destruct (I1 t O) as (Bt & V). specialize (V x Ma). destruct (int_means b c y C Gc Mb) as (Vb & Bc).
    assert (P31 : 2 ^ 33 = 2 ^ 31 * 4) by reflexivity.
    apply rnd_int; [|lia]. rewrite V, Vb. unfold Qminus. rewrite <- inject_Z_opp, <- inject_Z_plus. replace (i + t + - c) with (i + (t - c)) by lia. reflexivity.
  - destruct o; [|discriminate]. split; [exact (proj2 (add_go_nd _ _ _ _ _ G))|].
    intros v M. apply means_add in M. destruct M as (vs & F & ->).
    refine (add_go ops vs F IH 0 0 0 k 0%Q G _ _ _ _); [lia| | |reflexivity]; split; (discriminate || reflexivity).
Qed.

(* existence of a value *)
Lemma fold_and_Forall : forall (P : expr -> Prop) l, fold_right (fun x Q => P x /\ Q) True l <-> Forall P l.
Proof.
  clear. intros P l. induction l as [|x l IH]; cbn; [split; [constructor|trivial]|]. rewrite IH. split; intros H.
  - constructor; tauto.
  - inversion H; subst; tauto.
Qed.

Lemma exists_list : forall l, Forall (fun e => exists v, means rnd w e v) l -> exists vs, Forall2 (means rnd w) l vs.
Proof.
  clear. induction l as [|e l IH]; intros F; [exists []; constructor|]. inversion F as [|? ? (v & V) F2]; subst. destruct (IH F2) as (vs & W). exists (v :: vs). constructor; assumption.
Qed.

Lemma const_exists : forall e, arity_ok e -> mods_pos e -> is_const_val e = true -> forall q, get_num_val rnd e = Ok q -> exists v, means rnd w e v.
Proof.
  clear Hi Hd Hs. induction e as [l ops IH] using expr_ind2. intros Ar Mp C q G.
  cbn [arity_ok] in Ar. destruct Ar as (A0 & Ar). apply fold_and_Forall in Ar. rewrite Forall_forall in IH, Ar.
  destruct l as [c|s|s|d t| |o|o|f]; try discriminate.
  - subst ops. eexists. constructor.
  - destruct ops as [|a [|? ?]]; try discriminate. cbn in C, G, Mp. destruct (get_num_val rnd a) as [r| | |] eqn:G1; try discriminate.
    destruct (IH a (or_introl eq_refl) (Ar a (or_introl eq_refl)) (proj1 Mp) C r G1) as (v & V). eexists. apply m_neg. exact V.
  - destruct ops as [|a [|b [|? ?]]]; try discriminate. cbn [is_const_val] in C. apply andb_true_iff in C. destruct C as (C1 & C2).
    assert (Ia : In a [a; b]) by (left; reflexivity). assert (Ib : In b [a; b]) by (right; left; reflexivity).
    destruct o; cbn [get_num_val] in G.
    + destruct Mp as (Mp1 & Mp2 & _). destruct (get_num_val rnd a) as [r1| | |] eqn:G1; try discriminate. cbn [rbind] in G.
      destruct (get_num_val rnd b) as [r2| | |] eqn:G2; try discriminate.
      destruct (IH a Ia (Ar a Ia) Mp1 C1 r1 G1) as (x & X). destruct (IH b Ib (Ar b Ib) Mp2 C2 r2 G2) as (y & Y).
      eexists. apply m_sub; eassumption.
    + destruct Mp as (Mp1 & Mp2 & _). destruct (get_num_val rnd a) as [r1| | |] eqn:G1; try discriminate. cbn [rbind] in G.
      destruct (get_num_val rnd b) as [r2| | |] eqn:G2; try discriminate. cbn [rbind] in G. destruct (Qeq_bool r2 0) eqn:Z0; [discriminate|].
      destruct (IH a Ia (Ar a Ia) Mp1 C1 r1 G1) as (x & X). destruct (IH b Ib (Ar b Ib) Mp2 C2 r2 G2) as (y & Y).
      eexists. apply m_div; try eassumption. intros Y0. apply Qeq_bool_neq in Z0. apply Z0. rewrite <- (const_means b C2 r2 y G2 Y). exact Y0.
    + destruct Mp as (Mp1 & Mp2). destruct b as [[c|s|s|d t| |o|o|f] [|? ?]]; try contradiction.
      destruct (get_num_val rnd a) as [r1| | |] eqn:G1; try discriminate. cbn [rbind get_num_val] in G.
      destruct (IH a Ia (Ar a Ia) Mp1 C1 r1 G1) as (x & X).
      eexists. eapply m_mod; [exact X|constructor|apply quot_truncates|apply quot_truncates|].
      destruct (quot_truncates c) as (T & _). assert (c0 : (0 <= c)%Q) by lra. destruct (T c0) as (_ & T2).
      assert (U : (inject_Z 1 < inject_Z (Z.quot (Qnum c) (Zpos (Qden c)) + 1))%Q) by (change (inject_Z 1) with 1%Q; lra). rewrite <- Zlt_Qlt in U. lia.
  - assert (F : forall x, In x ops -> (exists r, get_num_val rnd x = Ok r) -> exists v, means rnd w x v).
    { intros x Ix (r & Gr). assert (Mx : Forall mods_pos ops) by (apply fold_and_Forall; exact Mp). rewrite Forall_forall in Mx.
      cbn [is_const_val] in C. rewrite forallb_forall in C. exact (IH x Ix (Ar x Ix) (Mx x Ix) (C x Ix) r Gr). }
    destruct o; cbn [get_num_val] in G.
    + assert (FF : exists vs, Forall2 (means rnd w) ops vs).
      { apply exists_list. clear - F G. revert F G. generalize 0%Q. induction ops as [|x ops IHo]; intros acc F G; [constructor|].
        destruct (get_num_val rnd x) as [r| | |] eqn:Gx; try discriminate. cbn [rbind] in G.
        constructor; [apply F; [left; reflexivity|exists r; exact Gx]|]. apply (IHo (rnd (acc + r)%Q)); [|exact G]. intros y Iy. apply F. right. exact Iy. }
      destruct FF as (vs & FF). eexists. apply means_add. exists vs. split; [exact FF|reflexivity].
    + assert (FF : exists vs, Forall2 (means rnd w) ops vs).
      { apply exists_list. clear - F G. revert F G. generalize 1%Q. induction ops as [|x ops IHo]; intros acc F G; [constructor|].
        destruct (get_num_val rnd x) as [r| | |] eqn:Gx; try discriminate. cbn [rbind] in G.
        constructor; [apply F; [left; reflexivity|exists r; exact Gx]|]. apply (IHo (rnd (acc * r)%Q)); [|exact G]. intros y Iy. apply F. right. exact Iy. }
      destruct FF as (vs & FF). eexists. apply means_mul. exists vs. split; [exact FF|reflexivity].
Qed.

Lemma int_val_num : forall e c, get_int_val rnd e = Ok c -> exists q, get_num_val rnd e = Ok q.
Proof. clear. intros e c H. unfold get_int_val in H. destruct (get_num_val rnd e) as [q| | |]; try discriminate. exists q. reflexivity. Qed.

Lemma off_exists : forall e, arity_ok e -> mods_pos e -> forall k, is_offset_from rnd dim e = Ok (Some k) -> exists v, means rnd w e v.
Proof.
  clear Hi Hd Hs. induction e as [l ops IH] using expr_ind2. intros Ar Mp k G.
  cbn [arity_ok] in Ar. destruct Ar as (A0 & Ar). apply fold_and_Forall in Ar. rewrite Forall_forall in IH, Ar.
  destruct l as [c|s|s|d t| |o|o|f]; cbn [is_offset_from] in G; try discriminate.
  - subst ops. eexists. constructor.
  - destruct o; try discriminate. destruct ops as [|a [|b [|? ?]]]; try discriminate.
    assert (Ia : In a [a; b]) by (left; reflexivity). assert (Ib : In b [a; b]) by (right; left; reflexivity). destruct Mp as (Mp1 & Mp2 & _).
    destruct (is_offset_from rnd dim a) as [[t|]| | |] eqn:O; try discriminate; cbn [rbind] in G.
    destruct (is_const_val b) eqn:C; [|discriminate]. destruct (get_int_val rnd b) as [c| | |] eqn:Gc; try discriminate.
    destruct (int_val_num b c Gc) as (q & Gq).
    destruct (IH a Ia (Ar a Ia) Mp1 t O) as (x & X). destruct (const_exists b (Ar b Ib) Mp2 C q Gq) as (y & Y). eexists. apply m_sub; eassumption.
  - destruct o; [|discriminate].
    assert (FF : exists vs, Forall2 (means rnd w) ops vs).
    { assert (Mx : Forall mods_pos ops) by (apply fold_and_Forall; exact Mp). rewrite Forall_forall in Mx.
      apply exists_list. clear Mp A0. revert IH Ar Mx G. generalize 0 at 1 as sum. generalize 0 at 1 as nd. generalize 0 at 1 as tmp.
      induction ops as [|x ops IHo]; intros tmp nd sum IH Ar Mx G; [constructor|].
      assert (Ix : In x (x :: ops)) by (left; reflexivity).
      destruct (is_offset_from rnd dim x) as [[t|]| | |] eqn:O; try discriminate; cbn [rbind] in G.
      - constructor; [exact (IH x Ix (Ar x Ix) (Mx x Ix) t O)|]. apply (IHo t (nd + 1) sum); [| | |exact G]; intros y Iy; [apply IH|apply Ar|apply Mx]; right; exact Iy.
      - destruct (is_const_val x) eqn:C; [|discriminate]. destruct (get_int_val rnd x) as [c| | |] eqn:Gc; try discriminate. cbn [rbind] in G.
        destruct (chk_int (sum + c)) as [z| | |]; try discriminate. cbn [rbind] in G. destruct (int_val_num x c Gc) as (q & Gq).
        constructor; [exact (const_exists x (Ar x Ix) (Mx x Ix) C q Gq)|]. apply (IHo tmp nd z); [| | |exact G]; intros y Iy; [apply IH|apply Ar|apply Mx]; right; exact Iy. }
    destruct FF as (vs & FF). eexists. apply means_add. exists vs. split; [exact FF|reflexivity].
Qed.
End C39.

Lemma offset_expr_means : forall rnd w B dim ty k e, rounding rnd B -> Z.abs (v_idx w dim ty) + Z.abs k <= B ->
  offset_expr dim ty k = Ok e -> exists v, means rnd w e v /\ (v == inject_Z (v_idx w dim ty + k))%Q.
Proof.
  intros rnd w B dim ty k e (R1 & R2) Hb H. unfold offset_expr in H. set (i := v_idx w dim ty) in *.
  assert (HB : 0 <= B) by lia.
  destruct (0 <? k) eqn:C1; [|destruct (k <? 0) eqn:C2].
  - injection H as <-. eexists. split.
    + change [E (LIndex dim ty) []; E (LConst (inject_Z k)) []] with (([] ++ [E (LIndex dim ty) []]) ++ [E (LConst (inject_Z k)) []]). apply m_add; [apply m_add; constructor|constructor].
    + fold i. rewrite <- (R2 (i + k)) by lia. apply R1. rewrite inject_Z_plus. apply Qplus_comp; [|reflexivity].
      rewrite <- (R2 i) at 2 by lia. apply R1. apply Qplus_0_l.
  - destruct (chk_int (- k)) as [n| | |] eqn:K; try discriminate. cbn [rbind] in H. injection H as <-. apply chk_spec in K. destruct K as (-> & _).
    eexists. split; [apply m_sub; constructor|]. fold i. rewrite <- (R2 (i + k)) by lia. apply R1. unfold Qminus. rewrite <- inject_Z_opp, <- inject_Z_plus.
    replace (- - k) with k by lia. reflexivity.
  - injection H as <-. eexists. split; [constructor|]. fold i. replace (i + k) with i by lia. reflexivity.
Qed.

Lemma offset_expr_round : forall rnd dim ty k e, ty = DomainI \/ ty = StepI -> - 2 ^ 31 <= k < 2 ^ 31 ->
  offset_expr dim ty k = Ok e -> is_offset_from rnd dim e = Ok (Some k).
Proof.
  intros rnd dim ty k e T K H. unfold offset_expr in H.
  assert (X : is_offset_from rnd dim (E (LIndex dim ty) []) = Ok (Some 0)) by (cbn; rewrite String.eqb_refl; destruct T as [-> | ->]; reflexivity).
  assert (G : forall z, - 2 ^ 31 <= z < 2 ^ 31 -> get_int_val rnd (E (LConst (inject_Z z)) []) = Ok z).
  { intros z Hz. unfold get_int_val, to_int. cbn [get_num_val rbind inject_Z Qnum Qden]. rewrite Z.quot_1_r.
    change (32 - 1) with 31. replace ((- 2 ^ 31 <=? z) && (z <? 2 ^ 31)) with true by lia. cbn [rbind].
    match goal with |- context [Qeq_bool ?a ?b] => assert (Q : Qeq_bool a b = true) by (apply Qeq_bool_iff; reflexivity); rewrite Q end. reflexivity. }
  assert (Cn : forall z, chk_int z = if (- 2 ^ 31 <=? z) && (z <? 2 ^ 31) then Ok z else UB) by reflexivity.
  destruct (0 <? k) eqn:C1; [|destruct (k <? 0) eqn:C2].
  - injection H as <-. cbn [is_offset_from] in *. injection X as ->. cbn [rbind is_const_val].
    rewrite (G k K). cbn [rbind]. rewrite !Cn. replace ((- 2 ^ 31 <=? 0 + k) && (0 + k <? 2 ^ 31)) with true by lia. cbn [rbind]. change (0 + 1 =? 1) with true. cbn iota.
    rewrite Cn. replace ((- 2 ^ 31 <=? 0 + (0 + k)) && (0 + (0 + k) <? 2 ^ 31)) with true by lia. cbn [rbind]. do 2 f_equal.
  - destruct (chk_int (- k)) as [n| | |] eqn:Kn; try discriminate. cbn [rbind] in H. injection H as <-. apply chk_spec in Kn. destruct Kn as (-> & Kn).
    cbn [is_offset_from] in *. injection X as ->. cbn [rbind is_const_val]. rewrite (G _ Kn). cbn [rbind]. rewrite Cn.
    replace ((- 2 ^ 31 <=? 0 - - k) && (0 - - k <? 2 ^ 31)) with true by lia. cbn [rbind]. do 2 f_equal. lia.
  - injection H as <-. rewrite X. do 2 f_equal. lia.
Qed.

Lemma off_all : forall rnd w B dim i e k,
  rounding rnd B -> Z.abs i + 2 ^ 33 <= B -> v_idx w dim DomainI = i -> v_idx w dim StepI = i ->
  is_offset_from rnd dim e = Ok (Some k) ->
  (forall v, means rnd w e v -> (v == inject_Z (i + k))%Q) /\ (arity_ok e -> mods_pos e -> exists v, means rnd w e v).
Proof. intros rnd w B dim i e k R Hi Hd Hs H. exact (conj (proj2 (off_means rnd w B R dim i Hi Hd Hs e k H)) (fun A M => off_exists rnd w B R dim e A M k H)). Qed.
