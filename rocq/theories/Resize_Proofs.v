From Verif Require Import Base Idiv_Model Idiv_Proofs Var_Model Var_Spec Resize_Model Resize_Spec.

(* kept by every call, also by failing ones *)
Definition aligned (d : rdim) : Prop :=
  r_domain d = true -> (exists k, r_lpad d = k * r_svl d) /\ (exists k, r_alloc d = k * r_svl d).

Lemma round_up_mult : forall n m, exists k, ROUND_UP n m = k * m.
Proof. intros. unfold ROUND_UP. eauto. Qed.

Lemma quot_mult : forall k m, m <> 0 -> Z.quot (k * m) m = k.
Proof. intros. apply Z.quot_mul. assumption. Qed.

Definition base_l (g : bool) (d : rdim) : Z := ROUND_UP (Z.max (r_lh d + r_lwf d + r_rle d) (r_rlp d)) (r_svl d) + (if g then r_svl d else 0).
Definition base_r (g : bool) (d : rdim) : Z :=
  ROUND_UP (r_dom d + Z.max (r_rh d + r_rwf d + r_rre d) (r_rrp d)) (r_svl d) - r_dom d + (if g then r_svl d else 0).

Lemma base_spec : forall g d, 1 <= r_svl d -> any_neg d = false -> 0 <= r_dom d ->
  r_lh d + r_lwf d + r_rle d <= base_l g d /\ r_rlp d <= base_l g d /\
  r_rh d + r_rwf d + r_rre d <= base_r g d /\ r_rrp d <= base_r g d /\
  (exists k, base_l g d = k * r_svl d) /\ (exists k, r_dom d + base_r g d = k * r_svl d).
Proof.
  intros g d Hs Hn Hd. unfold any_neg in Hn.
  assert (0 <= r_lh d /\ 0 <= r_rh d /\ 0 <= r_lwf d /\ 0 <= r_rwf d /\ 0 <= r_rlp d /\ 0 <= r_rrp d /\ 0 <= r_rle d /\ 0 <= r_rre d) as H by lia.
  clear Hn. unfold base_l, base_r.
  set (L := Z.max (r_lh d + r_lwf d + r_rle d) (r_rlp d)). set (R := Z.max (r_rh d + r_rwf d + r_rre d) (r_rrp d)).
  assert (0 <= L /\ 0 <= R) by (unfold L, R; lia).
  pose proof (ROUND_UP_bounds L (r_svl d) ltac:(lia) ltac:(lia)) as (BL & _).
  pose proof (ROUND_UP_bounds (r_dom d + R) (r_svl d) ltac:(lia) ltac:(lia)) as (BR & _).
  destruct (round_up_mult L (r_svl d)) as (kl & EL). destruct (round_up_mult (r_dom d + R) (r_svl d)) as (kr & ER).
  assert (0 <= (if g then r_svl d else 0)) by (destruct g; lia).
  split; [unfold L in *; lia|]. split; [unfold L in *; lia|]. split; [unfold R in *; lia|]. split; [unfold R in *; lia|].
  split.
  - exists (kl + (if g then 1 else 0)). rewrite EL. destruct g; lia.
  - exists (kr + (if g then 1 else 0)). rewrite ER. destruct g; lia.
Qed.

Lemma new_pads_domain : forall st ad g d, r_domain d = true ->
  exists x : bool, (st = true -> x = false) /\ new_pads st ad g d =
    (if st then Z.max (base_l g d) (r_lpad d) else base_l g d,
     if st then Z.max (base_r g d) (r_rpad d) else base_r g d + (if x then r_svl d else 0)).
Proof.
  intros st ad g d Hd. unfold new_pads. rewrite Hd. cbv zeta.
  assert (forall a, (if g then a + r_svl d else a) = a + (if g then r_svl d else 0)) as E by (intros; destruct g; lia).
  rewrite !E. fold (base_l g d). fold (base_r g d).
  destruct st; cbn [negb andb].
  - exists false. split; [reflexivity|]. reflexivity.
  - set (c := ad && r_inner d && _). exists c. split; [discriminate|]. clearbody c. f_equal. destruct c; lia.
Qed.

(* the result of resize for one dim *)
Lemma dim_ok : forall st ad g d, dim_kind d -> any_neg d = false -> 0 <= r_dom d -> (st = true -> aligned d) ->
  let d' := set_pads d (new_pads st ad g d) in
  (st = true -> r_alloc d = r_alloc d') -> pads_ok d' /\ aligned d'.
Proof.
  intros st ad g d (Hs & Hv & Hnd & Hst) Hn Hd Hal d' Heq.
  destruct (r_domain d) eqn:Hdom.
  2:{ unfold pads_ok, aligned, d', set_pads, new_alloc. cbn. rewrite Hdom. rewrite (Hnd eq_refl). rewrite Z.quot_1_r. split; [split; reflexivity|discriminate]. }
  destruct (new_pads_domain st ad g d Hdom) as (x & Hx & E).
  destruct (base_spec g d Hs Hn Hd) as (B1 & B2 & B3 & B4 & (kl & Bl) & (kr & Br)).
  assert (exists k, r_lpad d' = k * r_svl d) as (k1 & K1).
  { unfold d', set_pads; cbn [r_lpad]. rewrite E. cbn [fst]. destruct st; [|eauto].
    destruct (Hal eq_refl Hdom) as ((k0 & K0) & _). destruct (Z.max_spec (base_l g d) (r_lpad d)) as [(_ & ->)|(_ & ->)]; eauto. }
  assert (exists k, r_alloc d' = k * r_svl d) as (k2 & K2).
  { destruct st.
    - rewrite <- (Heq eq_refl). exact (proj2 (Hal eq_refl Hdom)).
    - unfold d', set_pads, new_alloc; cbn [r_alloc]. rewrite Hdom, E. cbn [fst snd]. exists (kl + kr + (if x then 1 else 0)). destruct x; lia. }
  assert (r_lpad d' = fst (new_pads st ad g d) /\ r_rpad d' = snd (new_pads st ad g d)) as (EL & ER) by (split; reflexivity).
  assert (base_l g d <= r_lpad d' /\ base_r g d <= r_rpad d') as (PL & PR).
  { rewrite EL, ER, E. cbn [fst snd]. destruct st; [lia|]. destruct x; lia. }
  split.
  - unfold pads_ok. change (r_domain d') with (r_domain d). rewrite Hdom.
    change (r_lh d') with (r_lh d). change (r_rh d') with (r_rh d). change (r_lwf d') with (r_lwf d). change (r_rwf d') with (r_rwf d).
    change (r_rlp d') with (r_rlp d). change (r_rrp d') with (r_rrp d). change (r_rle d') with (r_rle d). change (r_rre d') with (r_rre d).
    change (r_svl d') with (r_svl d). change (r_vvl d') with (r_vvl d). change (r_dom d') with (r_dom d).
    assert (r_alloc d' = r_lpad d' + r_dom d + r_rpad d') as EA.
    { unfold d', set_pads, new_alloc; cbn [r_alloc r_lpad r_rpad]. rewrite Hdom. lia. }
    split; [lia|]. split; [lia|]. split; [lia|]. split; [lia|]. split; [exact EA|]. split; [eauto|]. split; [eauto|].
    change (r_vlpad d') with (Z.quot (r_lpad d') (r_vvl d)). change (r_valloc d') with (Z.quot (r_alloc d') (r_vvl d)).
    rewrite K1, K2. destruct Hv as [-> | ->].
    + rewrite !Z.quot_1_r. lia.
    + rewrite !quot_mult by lia. split; reflexivity.
  - intros _. change (r_svl d') with (r_svl d). split; eauto.
Qed.

Definition kind_eq (d d' : rdim) : Prop :=
  r_step d = r_step d' /\ r_domain d = r_domain d' /\ r_svl d = r_svl d' /\ r_vvl d = r_vvl d'.

Lemma kind_eq_kind : forall d d', kind_eq d d' -> dim_kind d -> dim_kind d'.
Proof. intros d d' (A & B & C & D). unfold dim_kind. rewrite <- A, <- B, <- C, <- D. auto. Qed.

Lemma new_dirty_spec : forall ds n,
  (Forall (fun d => r_step d = false) ds /\ fold_left (fun n d => if r_step d then r_alloc d else n) ds n = n) \/
  exists d, In d ds /\ r_step d = true /\ fold_left (fun n d => if r_step d then r_alloc d else n) ds n = r_alloc d.
Proof.
  induction ds as [|d ds IH]; intros n; cbn [fold_left].
  - left. split; constructor.
  - destruct (IH (if r_step d then r_alloc d else n)) as [(A & B)|(x & A & B & C)].
    + destruct (r_step d) eqn:E; [right; exists d | left]; cbn [In]; auto.
    + right. exists x. cbn [In]. auto.
Qed.

(* resize on a var *)
Lemma resize_ok : forall v v', Forall dim_kind (rv_dims v) -> Forall (fun d => 0 <= r_dom d) (rv_dims v) ->
  (rv_storage v = true -> Forall aligned (rv_dims v)) -> resize v = Ok v' ->
  Forall pads_ok (rv_dims v') /\ Forall aligned (rv_dims v') /\ Forall2 kind_eq (rv_dims v) (rv_dims v') /\
  rv_storage v' = rv_storage v /\ rv_addl v' = rv_addl v /\ rv_vlen_gt1 v' = rv_vlen_gt1 v /\
  (rv_storage v = true -> map r_alloc (rv_dims v') = map r_alloc (rv_dims v)) /\
  Forall2 (fun d d' => r_dom d' = r_dom d /\ r_lh d' = r_lh d /\ r_rh d' = r_rh d /\ r_lwf d' = r_lwf d /\ r_rwf d' = r_rwf d /\
    r_rlp d' = r_rlp d /\ r_rrp d' = r_rrp d /\ r_rle d' = r_rle d /\ r_rre d' = r_rre d) (rv_dims v) (rv_dims v') /\
  Forall (fun d => any_neg d = false) (rv_dims v) /\
  ((forall d, In d (rv_dims v') -> r_step d = false) /\ rv_dirty v' = 1 \/ exists d, In d (rv_dims v') /\ r_step d = true /\ rv_dirty v' = r_alloc d).
Proof.
  intros [ds st ad g nd] v' Hk Hd Hal H. cbn [rv_dims rv_storage rv_addl rv_vlen_gt1] in *.
  unfold resize in H. cbn [rv_dims rv_storage rv_addl rv_vlen_gt1] in H.
  destruct (existsb any_neg ds) eqn:En; [discriminate|].
  destruct (st && _) eqn:Es in H; [discriminate|]. injection H as <-. cbn [rv_dims rv_storage rv_addl rv_vlen_gt1 rv_dirty].
  assert (Forall (fun d => any_neg d = false) ds) as Hn.
  { apply Forall_forall. intros d Id. destruct (any_neg d) eqn:E; [|reflexivity].
    assert (existsb any_neg ds = true) by (apply existsb_exists; eauto). congruence. }
  set (f := fun d => set_pads d (new_pads st ad g d)) in *.
  assert (forall d, In d ds -> st = true -> r_alloc d = r_alloc (f d)) as Heq.
  { intros d Id ->. cbn [andb] in Es. apply Bool.negb_false_iff in Es.
    pose proof (proj1 (forallb_forall _ _) Es (d, f d)) as X. cbn [fst snd] in X. apply Z.eqb_eq. apply X.
    clear - Id. induction ds as [|a l IH]; [destruct Id|]. cbn [map combine]. destruct Id as [->|I]; [left|right]; auto. }
  assert (forall d, In d ds -> pads_ok (f d) /\ aligned (f d)) as Hok.
  { intros d Id. apply dim_ok.
    - exact (proj1 (Forall_forall _ _) Hk d Id).
    - exact (proj1 (Forall_forall _ _) Hn d Id).
    - exact (proj1 (Forall_forall _ _) Hd d Id).
    - intros E. exact (proj1 (Forall_forall _ _) (Hal E) d Id).
    - intros E. apply Heq; auto. }
  split; [|split; [|split; [|split; [|split; [|split; [|split; [|split; [|split]]]]]]]]; try reflexivity.
  - apply Forall_forall. intros d' I. apply in_map_iff in I. destruct I as (d & <- & I). apply Hok. exact I.
  - apply Forall_forall. intros d' I. apply in_map_iff in I. destruct I as (d & <- & I). apply Hok. exact I.
  - clear. induction ds; cbn [map]; constructor; auto. split; [reflexivity|]. split; [reflexivity|]. split; reflexivity.
  - intros E. rewrite map_map. apply map_ext_in. intros d I. symmetry. apply Heq; auto.
  - clear. induction ds; cbn [map]; constructor; auto. cbn. auto 10.
  - exact Hn.
  - destruct (new_dirty_spec (map f ds) 1) as [(A & B)|A]; [left|right; exact A].
    split; [exact (proj1 (Forall_forall _ _) A) | exact B].
Qed.

(* ---- sequences of calls ---- *)

(* domain sizes handed to the setters are not negative *)
Definition op_ok (o : rop) : Prop := match o with RSet _ (SDomain n) => 0 <= n | _ => True end.

Definition vinv (v : rvar) : Prop :=
  Forall dim_kind (rv_dims v) /\ Forall (fun d => 0 <= r_dom d) (rv_dims v) /\ Forall aligned (rv_dims v).

Lemma Forall_upd_nth : forall A (P : A -> Prop) f n l, Forall P l -> (forall x, P x -> P (f x)) -> Forall P (upd_nth n f l).
Proof. intros A P f n l H Hf. revert n. induction H; intros [|n]; cbn [upd_nth]; constructor; auto. Qed.

Lemma edit_kind : forall s d, dim_kind d -> dim_kind (edit_dim s d).
Proof. intros [] d H; exact H. Qed.
Lemma edit_aligned : forall s d, aligned d -> aligned (edit_dim s d).
Proof. intros [] d H; exact H. Qed.
Lemma edit_dom : forall p s d, op_ok (RSet p s) -> 0 <= r_dom d -> 0 <= r_dom (edit_dim s d).
Proof. intros p [] d Ho H; try exact H. exact Ho. Qed.

Lemma resize_cases : forall v, (exists v', resize v = Ok v') \/ resize v = Throw.
Proof. intros v. unfold resize. destruct (existsb _ _); [auto|]. cbv zeta. destruct (_ && _); eauto. Qed.

Lemma Forall2_In_r : forall A B (R : A -> B -> Prop) l1 l2 b, Forall2 R l1 l2 -> In b l2 -> exists a, In a l1 /\ R a b.
Proof. induction 1; intros []; subst; cbn [In]; [eauto|]. destruct (IHForall2 H1) as (x0 & A1 & A2). eauto. Qed.

Lemma resize_vinv : forall v v', vinv v -> resize v = Ok v' -> vinv v' /\ Forall pads_ok (rv_dims v').
Proof.
  intros v v' (Hk & Hd & Ha) H. destruct (resize_ok v v' Hk Hd (fun _ => Ha) H) as (P & A & K & _ & _ & _ & _ & S & _).
  split; [|exact P]. split; [|split; [|exact A]].
  - apply Forall_forall. intros d I. destruct (Forall2_In_r _ _ _ _ _ _ K I) as (x & Ix & Ex). apply (kind_eq_kind x); [exact Ex|].
    exact (proj1 (Forall_forall _ _) Hk x Ix).
  - apply Forall_forall. intros d I. destruct (Forall2_In_r _ _ _ _ _ _ S I) as (x & Ix & -> & _). exact (proj1 (Forall_forall _ _) Hd x Ix).
Qed.

Lemma run_rop_inv : forall v o, vinv v -> op_ok o -> vinv (snd (run_rop v o)) /\ (forall p s, o = RSet p s -> fst (run_rop v o) = Ok tt -> Forall pads_ok (rv_dims (snd (run_rop v o)))).
Proof.
  intros v o Hv Ho. destruct o as [p s| |]; cbn [run_rop].
  - set (v1 := mkRV _ _ _ _ _).
    assert (vinv v1) as H1.
    { destruct Hv as (A & B & C). split; [|split]; apply Forall_upd_nth; auto using edit_kind, edit_aligned. intros d. exact (edit_dom p s d Ho). }
    destruct (resize_cases v1) as [(v2 & E)|E]; rewrite E; cbn [fst snd].
    + destruct (resize_vinv v1 v2 H1 E). auto.
    + split; [exact H1|]. discriminate.
  - split; [exact Hv|discriminate].
  - split; [exact Hv|discriminate].
Qed.

Lemma run_rops_inv : forall l v r, vinv v -> Forall op_ok l -> vinv (snd (run_rops v l r)).
Proof.
  induction l as [|o l IH]; intros v r Hv Ho; cbn [run_rops]; [exact Hv|].
  inversion Ho; subst. destruct (run_rop v o) as [x v'] eqn:E. apply IH; [|assumption].
  pose proof (proj1 (run_rop_inv v o Hv H1)) as K. rewrite E in K. exact K.
Qed.

Lemma run_rops_app : forall l1 l2 v r, run_rops v (l1 ++ l2) r = let '(x, v') := run_rops v l1 r in run_rops v' l2 x.
Proof. induction l1 as [|o l1 IH]; intros l2 v r; cbn [app run_rops]; [reflexivity|]. destruct (run_rop v o). apply IH. Qed.

Definition fresh_kinds (ds : list rdim) : Prop := Forall (fun d => exists st dm inn svl vvl, d = fresh_dim st dm inn svl vvl /\ dim_kind d) ds.

Lemma fresh_inv : forall ds ad g v, fresh_kinds ds -> fresh_var ds ad g = Ok v -> vinv v.
Proof.
  intros ds ad g v Hf H. apply (resize_vinv (mkRV ds false ad g 0)); [|exact H].
  unfold vinv. cbn [rv_dims]. split; [|split]; (apply Forall_forall; intros d I; destruct (proj1 (Forall_forall _ _) Hf d I) as (st & dm & inn & svl & vvl & E & K)).
  - exact K.
  - rewrite E. cbn. lia.
  - rewrite E. intros _. cbn. split; exists 0; lia.
Qed.

(* After any calls, whenever the last one is a setter that succeeds, the padding is sufficient and vectors are whole. *)
Lemma calls_ok : forall ds ad g v ops p s, fresh_kinds ds -> fresh_var ds ad g = Ok v -> Forall op_ok (ops ++ [RSet p s]) ->
  fst (run_rops v (ops ++ [RSet p s]) (Ok tt)) = Ok tt -> Forall pads_ok (rv_dims (snd (run_rops v (ops ++ [RSet p s]) (Ok tt)))).
Proof.
  intros ds ad g v ops p s Hf Hv Ho. rewrite run_rops_app.
  pose proof (fresh_inv _ _ _ _ Hf Hv) as Hi. apply Forall_app in Ho. destruct Ho as (Ho & Hs). pose proof (Forall_inv Hs) as Hs1.
  pose proof (run_rops_inv ops v (Ok tt) Hi Ho) as H1. destruct (run_rops v ops (Ok tt)) as [x v'] eqn:E. cbn [snd] in H1.
  cbn [run_rops]. destruct (run_rop v' (RSet p s)) as [y v''] eqn:E2. cbn [fst snd].
  destruct (run_rop_inv v' (RSet p s) H1 Hs1) as (_ & K). specialize (K p s eq_refl). rewrite E2 in K. cbn [fst snd] in K. exact K.
Qed.

Lemma fresh_ok : forall ds ad g, fresh_kinds ds -> exists v, fresh_var ds ad g = Ok v /\ Forall pads_ok (rv_dims v).
Proof.
  intros ds ad g Hf.
  assert (Forall dim_kind ds /\ Forall (fun d => 0 <= r_dom d) ds /\ Forall aligned ds) as Hi.
  { split; [|split]; (apply Forall_forall; intros d I; destruct (proj1 (Forall_forall _ _) Hf d I) as (st & dm & inn & svl & vvl & E & K)).
    - exact K.
    - rewrite E. cbn. lia.
    - rewrite E. intros _. cbn. split; exists 0; lia. }
  assert (exists v, fresh_var ds ad g = Ok v) as (v & E).
  { unfold fresh_var, resize. cbn [rv_dims rv_storage andb].
    replace (existsb any_neg ds) with false. { eauto. }
    symmetry. apply Bool.not_true_is_false. intros E. apply existsb_exists in E. destruct E as (d & I & E).
    destruct (proj1 (Forall_forall _ _) Hf d I) as (st & dm & inn & svl & vvl & -> & K). discriminate E. }
  exists v. split; [exact E|]. exact (proj2 (resize_vinv (mkRV ds false ad g 0) v Hi E)).
Qed.

(* ---- link to the element accesses: after a successful resize each dim is well formed ---- *)
Lemma pads_wf_dim : forall d rofs lofs, dim_kind d -> pads_ok d -> any_neg d = false -> 0 <= r_dom d ->
  (r_domain d = false -> r_lpad d = 0 /\ r_rpad d = 0) -> (r_step d = true -> 1 <= r_dom d /\ rofs = 0) ->
  wf_dim (to_vdim rofs lofs d) /\ d_alloc (to_vdim rofs lofs d) = r_alloc d.
Proof.
  intros d rofs lofs (Hs & Hv & Hnd & Hst) Hp Hn Hd Hz Hone. unfold any_neg in Hn.
  unfold wf_dim, to_vdim, d_alloc. cbn. unfold pads_ok in Hp. destruct (r_domain d) eqn:E.
  - destruct Hp as (P1 & P2 & P3 & P4 & P5 & (k & P6) & _).
    split; [|lia]. split; [lia|]. split; [lia|]. split; [lia|]. split; [lia|]. split; [discriminate|].
    split; [intros Q; specialize (Hst Q); discriminate|].
    replace (r_dom d + r_lpad d + r_rpad d) with (k * r_svl d) by lia. destruct Hv as [-> | ->]; [apply Z.mod_1_r | apply Z.mod_mul; lia].
  - destruct (Hz eq_refl) as (-> & ->). rewrite (Hnd eq_refl). destruct Hp as (Hp & _).
    split; [|symmetry; exact Hp].
    split; [lia|]. split; [lia|]. split; [lia|]. split; [lia|]. split; [auto|]. split; [|apply Z.mod_1_r].
    intros Q. destruct (Hone Q). auto.
Qed.
