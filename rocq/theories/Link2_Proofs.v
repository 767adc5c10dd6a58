(* The stages made by the compiler meet the conditions of C65. *)
From Coq Require Import ZifyBool.
From Verif Require Import Base Cover_Spec Deps_Model Deps_Spec Deps_Proofs Eqs_Model Eqs_Spec Eqs_Proofs Parts_Model Parts_Spec Parts_Proofs Scratch_Proofs Halo_Model Halo_Spec Halo_Proofs Span_Model Span_Spec Span_Proofs Span2_Proofs.
From Verif Require Import Bbox_Model Micro_Model Micro_Spec Ref_Model Sched_Spec Ref_Spec RefWhole_Proofs Link_Spec Link_Model Link_Proofs.

Lemma add_item_in : forall a l x, In x (add_item a l) <-> x = a \/ In x l.
Proof. intros a l x. unfold add_item. destruct (mem a l) eqn:E; [apply mem_In in E; split; [auto|intros [->|H]; assumption]|]. rewrite in_app_iff. cbn. split; [intros [H|[H|[]]]; auto|intros [H|H]; auto]. Qed.
Lemma fold_add_in : forall (f : Z -> Z) l a x, In x (fold_left (fun l i => add_item (f i) l) l a) <-> In x a \/ exists i, In i l /\ x = f i.
Proof.
  intros f. induction l as [|i l IH]; intros a x; cbn; [split; [auto|intros [H|(i & [] & _)]; exact H]|]. rewrite IH, add_item_in. split.
  - intros [[->|H]|(j & H & E)]; [right; exists i; auto|left; exact H|right; exists j; auto].
  - intros [H|(j & [->|H] & E)]; [auto|left; left; exact E|right; exists j; auto].
Qed.
Lemma has_existsb : forall k l, existsb (Z.eqb k) l = true <-> In k l.
Proof. intros k l. rewrite existsb_exists. split; [intros (x & H & E); apply Z.eqb_eq in E; subst; exact H|intros H; exists k; split; [exact H|apply Z.eqb_refl]]. Qed.
Lemma filter_filter_imp : forall (A : Type) (f g : A -> bool) l, (forall x, In x l -> f x = true -> g x = true) -> filter f (filter g l) = filter f l.
Proof. induction l as [|x l IH]; intros H; [reflexivity|]. cbn. destruct (g x) eqn:G; cbn; [destruct (f x); [f_equal|]; apply IH; intros; apply H; auto; right; assumption|]. destruct (f x) eqn:F; [exfalso; pose proof (H x (or_introl eq_refl) F); congruence|]. apply IH. intros y Hy. apply H. right. exact Hy. Qed.
Lemma write_halo_ge : forall vdims eqs h part left k w, In w (lv eqs part) -> In k (vdims w) -> halo_size k left (h w) <= write_halo vdims eqs h part left k.
Proof.
  intros vdims eqs h part left k w Hw Hk. unfold lv in Hw. apply in_map_iff in Hw as (i & <- & Hi). unfold write_halo. set (f := fun m i => _).
  assert (M : forall l m, m <= fold_left f l m) by (induction l as [|j l IH]; intros m; cbn; [lia|]; etransitivity; [|apply IH]; unfold f; destruct (existsb _ _); lia).
  apply in_split in Hi as (A & B & ->). rewrite fold_left_app. cbn. etransitivity; [|apply M]. unfold f at 1. assert (X : existsb (Z.eqb k) (vdims (lhs_var eqs i)) = true) by (apply has_existsb; exact Hk). rewrite X. lia.
Qed.
Lemma write_halo_nn : forall vdims eqs h part left k, 0 <= write_halo vdims eqs h part left k.
Proof.
  intros. unfold write_halo. set (f := fun m i => _). assert (M : forall l m, m <= fold_left f l m) by (induction l as [|j l IH]; intros m; cbn; [lia|]; etransitivity; [|apply IH]; unfold f; destruct (existsb _ _); lia). apply M.
Qed.
(* boxes *)
Lemma extend_read : forall (L R : Z -> Z) (o : Z -> Z) dd b p, in_box b p = true -> (forall k lo hi x, In k dd -> lo <= x < hi -> lo - L k <= x + o k < hi + R k) ->
  in_box (extend (map L dd) (map R dd) b) (map (fun kx => snd kx + o (fst kx)) (combine dd p)) = true.
Proof.
  induction dd as [|k dd IH]; intros b p H C; [reflexivity|]. destruct b as [|c b], p as [|x p]; cbn in H; try discriminate; [reflexivity|]. apply andb_prop in H as (H1 & H2). cbn. rewrite IH by (auto; intros; apply C; auto; right; assumption). unfold in_iv in *. cbn. specialize (C k (fst c) (snd c) x (or_introl eq_refl)). lia.
Qed.
Lemma extend_read2 : forall (L R L' R' : Z -> Z) (o : Z -> Z) dd b p, in_box (extend (map L dd) (map R dd) b) p = true -> (forall k lo hi x, In k dd -> lo - L k <= x < hi + R k -> lo - L' k <= x + o k < hi + R' k) ->
  in_box (extend (map L' dd) (map R' dd) b) (map (fun kx => snd kx + o (fst kx)) (combine dd p)) = true.
Proof.
  induction dd as [|k dd IH]; intros b p H C; [reflexivity|]. destruct b as [|c b], p as [|x p]; cbn in H; try discriminate; [reflexivity|]. apply andb_prop in H as (H1 & H2). cbn. rewrite IH by (auto; intros; apply C; auto; right; assumption). unfold in_iv in *. cbn in *. specialize (C k (fst c) (snd c) x (or_introl eq_refl)). lia.
Qed.
Lemma extend_len : forall L R b n, length L = n -> length R = n -> length b = n -> length (extend L R b) = n.
Proof. induction L as [|l L IH]; intros [|r R] [|c b] [|n] H1 H2 H3; cbn in *; try discriminate; try reflexivity. f_equal. apply IH; congruence. Qed.
Lemma in_box_len : forall b p, in_box b p = true -> length p = length b.
Proof. induction b as [|c b IH]; intros [|x p] H; cbn in *; try discriminate; [reflexivity|]. apply andb_prop in H as (_ & H). f_equal. apply IH. exact H. Qed.
Lemma before_map_filter : forall (A : Type) (f : A -> bool) (l1 l2 : list A) a b, In a l1 -> f a = true -> In b l2 -> f b = true -> before (filter f (l1 ++ l2)) a b.
Proof.
  intros A f l1 l2 a b Ha Fa Hb Fb. rewrite filter_app. assert (H : In a (filter f l1)) by (apply filter_In; auto). apply in_split in H as (u & v & ->). exists u, (v ++ filter f l2). split; [rewrite <- app_assoc; reflexivity|].
  apply in_or_app. right. apply filter_In. auto.
Qed.

Section Link.
  Variable scr : Z -> bool.
  Variables dims_same halo_same : Z -> Z -> bool.
  Variables bundle bundle_scratch : bool.
  Variable regex : Z -> bool.
  Variables (dir d : Z) (eqs : list eqn).
  Hypothesis Hdir : dir = 1 \/ dir = -1.
  Hypothesis Hd : d = 0 \/ d = dir.
  Hypothesis Hleg : Forall (fun e => legal_lhs scr dir e /\ (scr (p_var (e_lhs e)) = false -> dir = 1 -> forall r s, In r (e_rhs e) -> p_step r = Some s -> s <= 1)) eqs.
  Hypothesis Hdis : distinct_lhs eqs.
  Variable vdims : Z -> list Z.
  Hypothesis Hwf : wf_eqs scr vdims eqs.
  Variables (eg : group) (ps : parts) (ss : stages).
  Hypothesis HB : build scr dims_same halo_same bundle bundle_scratch regex d eqs = Ok (eg, ps, ss).
  Hypothesis Hsame : Span_Spec.same_vars scr eqs (part_blocks ps).
  Variable ddims : list Z.
  Variable alloc : Z -> Z.
  Variable dcond : Z -> list Z -> bool.
  Variable scond : Z -> Z -> bool.
  Hypothesis Hsys : system_ok scr alloc vdims ddims eqs dcond scond dir.
  Variable pbs : Z -> part_bbs.
  Context {V : Type} (zero : V) (val : Z -> Z -> list Z -> list V -> V).

  Let items := c_items (ps_clus ps).
  Let sitems := c_items (st_clus ss).
  Let pg := c_grp (ps_clus ps).
  Let sg := c_grp (st_clus ss).
  Let sscr (a : Z) := nth (Z.to_nat a) (st_scr ss) false.
  Let h := calc_halos vdims eqs (h_sdep ss) (h_stages ps ss).
  Let st := k_stencil vdims ddims eqs ps zero val.
  Let KP := k_part vdims ddims eqs ps ss scond pbs.
  Let ORD := k_ord vdims ddims eqs ps ss scond pbs.
  Let REQ := k_reqd vdims ddims eqs ps ss scond pbs.
  Let STG := k_stage vdims ddims eqs ps ss scond pbs.
  Let COND := k_cond ps dcond.
  Let attr_of (p : Z) := part_attr ps p.

  Lemma m_attr : forall p i, In p (g_all pg) -> In i (c_get items p) -> eq_attr scr eqs i = attr_of p.
  Proof. exact (proj1 (build_more scr dims_same halo_same bundle bundle_scratch regex dir d eqs Hdir Hd Hleg Hdis eg ps ss HB)). Qed.
  Lemma m_dep : forall p q, h_pdep ps p q = true -> In p (g_all pg) /\ In q (g_all pg) /\ a_scr (attr_of q) = true.
  Proof. exact (proj1 (proj2 (build_more scr dims_same halo_same bundle bundle_scratch regex dir d eqs Hdir Hd Hleg Hdis eg ps ss HB))). Qed.
  Lemma m_sdep : forall p q, h_pdep ps p q = true -> forall a b, In a (g_all sg) -> In b (g_all sg) -> In p (c_get sitems a) -> In q (c_get sitems b) -> h_sdep ss a b = true.
  Proof. exact (proj1 (proj2 (proj2 (build_more scr dims_same halo_same bundle bundle_scratch regex dir d eqs Hdir Hd Hleg Hdis eg ps ss HB)))). Qed.
  Lemma m_sbefore : forall a b, h_sdep ss a b = true -> forall S1 S2, g_all sg = S1 ++ a :: S2 -> In b S1.
  Proof. exact (proj1 (proj2 (proj2 (proj2 (build_more scr dims_same halo_same bundle bundle_scratch regex dir d eqs Hdir Hd Hleg Hdis eg ps ss HB))))). Qed.
  Lemma m_stage : forall p, In p (g_all pg) <-> exists a, In a (g_all sg) /\ In p (c_get sitems a).
  Proof. exact (proj1 (proj2 (proj2 (proj2 (proj2 (build_more scr dims_same halo_same bundle bundle_scratch regex dir d eqs Hdir Hd Hleg Hdis eg ps ss HB)))))). Qed.
  Lemma m_part1 : forall i p q, In p (g_all pg) -> In q (g_all pg) -> In i (c_get items p) -> In i (c_get items q) -> p = q.
  Proof. exact (proj1 (proj2 (proj2 (proj2 (proj2 (proj2 (proj2 (build_more scr dims_same halo_same bundle bundle_scratch regex dir d eqs Hdir Hd Hleg Hdis eg ps ss HB)))))))). Qed.
  Lemma m_nodup : forall a, In a (g_all sg) -> NoDup (c_get sitems a).
  Proof. exact (proj2 (proj2 (proj2 (proj2 (proj2 (proj2 (proj2 (build_more scr dims_same halo_same bundle bundle_scratch regex dir d eqs Hdir Hd Hleg Hdis eg ps ss HB)))))))). Qed.
  Lemma m_stage1 : forall p a b, In a (g_all sg) -> In b (g_all sg) -> In p (c_get sitems a) -> In p (c_get sitems b) -> a = b.
  Proof. exact (proj1 (proj2 (proj2 (proj2 (proj2 (proj2 (build_more scr dims_same halo_same bundle bundle_scratch regex dir d eqs Hdir Hd Hleg Hdis eg ps ss HB))))))). Qed.
  Lemma s_scr : forall a p, In a (g_all sg) -> In p (c_get sitems a) -> a_scr (attr_of p) = sscr a.
  Proof. destruct (build_scr scr dims_same halo_same bundle bundle_scratch regex dir d eqs Hdir Hd Hleg Hdis eg ps ss HB) as (_ & _ & _ & _ & _ & _ & S7 & _). exact S7. Qed.
  Lemma s_need : forall p q i j, In p (g_all pg) -> In q (g_all pg) -> In i (c_get items p) -> In j (c_get items q) -> needs scr eqs i j -> scr_at scr eqs j = true -> h_pdep ps p q = true.
  Proof. destruct (build_scr scr dims_same halo_same bundle bundle_scratch regex dir d eqs Hdir Hd Hleg Hdis eg ps ss HB) as (_ & _ & S3 & _). exact S3. Qed.
  Lemma s_trans : forall p q r, h_pdep ps p q = true -> h_pdep ps q r = true -> h_pdep ps p r = true.
  Proof. destruct (build_scr scr dims_same halo_same bundle bundle_scratch regex dir d eqs Hdir Hd Hleg Hdis eg ps ss HB) as (_ & _ & _ & S4 & _). exact S4. Qed.
  Lemma nd_parts : NoDup (g_all pg).
  Proof. destruct (build_scr scr dims_same halo_same bundle bundle_scratch regex dir d eqs Hdir Hd Hleg Hdis eg ps ss HB) as (S1 & _). exact S1. Qed.
  Lemma nd_stages : NoDup (g_all sg).
  Proof. destruct (build_scr scr dims_same halo_same bundle bundle_scratch regex dir d eqs Hdir Hd Hleg Hdis eg ps ss HB) as (_ & S1 & _). exact S1. Qed.

  (* equations of parts *)
  Lemma p_eq : forall p i, In p (g_all pg) -> In i (c_get items p) -> exists e, 0 <= i /\ nth_error eqs (Z.to_nat i) = Some e /\ eq_at eqs i = e /\ In e eqs.
  Proof.
    intros p i Hp Hi. destruct (part_isin scr dims_same halo_same bundle bundle_scratch regex dir d eqs Hdir Hd Hleg Hdis vdims Hwf eg ps ss HB (c_get items p) i) as (e & He); [apply in_map; exact Hp|exact Hi|].
    destruct (isin_at eqs i e He) as (Ea & _ & Hin). destruct He as (P & He). exists e. auto.
  Qed.
  Lemma p_scr : forall p i, In p (g_all pg) -> In i (c_get items p) -> scr (eq_var eqs i) = a_scr (attr_of p).
  Proof. intros p i Hp Hi. rewrite <- (m_attr p i Hp Hi). reflexivity. Qed.
  Lemma p_on : forall p i e t x, In p (g_all pg) -> In i (c_get items p) -> eq_at eqs i = e -> on COND (KP t p) x = eq_on dcond scond t x e.
  Proof. intros p i e t x Hp Hi He. unfold on, COND, k_cond, KP, k_part. cbn. unfold in_valid_step, in_valid_domain, eq_on. fold (attr_of p). rewrite <- (m_attr p i Hp Hi). cbn. rewrite He. apply andb_comm. Qed.
  Lemma in_outs : forall t p v, In v (mp_outs (KP t p)) <-> a_scr (attr_of p) = true /\ exists i, In i (c_get items p) /\ v = eq_var eqs i.
  Proof. intros t p v. unfold KP, k_part. cbn. fold (attr_of p). destruct (a_scr (attr_of p)); [rewrite fold_add_in; split; [intros [[]|H]; auto|intros (_ & H); right; exact H]|split; [intros []|intros (X & _); discriminate]]. Qed.
  Lemma in_rds : forall t q p c, In c (rds alloc st t q p) <-> exists i r, In i (c_get items (mp_id q)) /\ In r (e_rhs (eq_at eqs i)) /\ c = cell_of alloc (rd_elem vdims ddims t p r).
  Proof.
    intros t q p c. unfold rds, rd_cells, at_pt, st. cbn. rewrite in_map_iff. split.
    - intros (x & <- & Hx). apply in_flat_map in Hx as (i & Hi & Hx). apply in_map_iff in Hx as (r & <- & Hr). exists i, r. auto.
    - intros (i & r & Hi & Hr & ->). exists (rd_elem vdims ddims t p r). split; [reflexivity|]. apply in_flat_map. exists i. split; [exact Hi|]. apply in_map. exact Hr.
  Qed.
  Lemma in_wrs : forall t q p c, In c (wrs alloc st t q p) <-> exists i, In i (c_get items (mp_id q)) /\ c = cell_of alloc (wr_elem t p (e_lhs (eq_at eqs i))).
  Proof. intros t q p c. unfold wrs, wr_cells, at_pt, st. cbn. rewrite map_map, in_map_iff. split; intros (i & H1 & H2); exists i; auto. Qed.
  Lemma lhs_scr_cell : forall p i t x, In p (g_all pg) -> In i (c_get items p) -> a_scr (attr_of p) = true -> cell_of alloc (wr_elem t x (e_lhs (eq_at eqs i))) = (eq_var eqs i, 0, x).
  Proof.
    intros p i t x Hp Hi Sp. destruct (p_eq p i Hp Hi) as (e & _ & _ & Ea & Hin). pose proof Hleg as G. rewrite Forall_forall in G. destruct (G e Hin) as ((_ & Hs) & _). unfold eq_var. rewrite Ea. pose proof (p_scr p i Hp Hi) as S. unfold eq_var in S. rewrite Ea in S. rewrite S, Sp in Hs.
    unfold wr_elem, cell_of. rewrite Hs. cbn. reflexivity.
  Qed.
  Lemma lhs_cell : forall p i t x, In p (g_all pg) -> In i (c_get items p) -> a_scr (attr_of p) = false -> cell_of alloc (wr_elem t x (e_lhs (eq_at eqs i))) = (eq_var eqs i, (t + dir) mod alloc (eq_var eqs i), x).
  Proof.
    intros p i t x Hp Hi Sp. destruct (p_eq p i Hp Hi) as (e & _ & _ & Ea & Hin). pose proof Hleg as G. rewrite Forall_forall in G. destruct (G e Hin) as ((_ & Hs) & _). unfold eq_var. rewrite Ea. pose proof (p_scr p i Hp Hi) as S. unfold eq_var in S. rewrite Ea in S. rewrite S, Sp in Hs.
    unfold wr_elem, cell_of. rewrite Hs. reflexivity.
  Qed.
  Lemma rd_scr : forall e r t p, In e eqs -> In r (e_rhs e) -> scr (p_var r) = true -> cell_of alloc (rd_elem vdims ddims t p r) = (p_var r, 0, map (fun kx => snd kx + dim_ofs (vdims (p_var r)) (p_dom r) (fst kx)) (combine ddims p)).
  Proof.
    intros e r t p He Hr Sr. destruct (proj2 Hwf e r He (or_intror Hr)) as (_ & Hs). unfold rd_elem, cell_of. rewrite (Hs Sr). cbn. f_equal.
    apply map_ext_in. intros (k & x) Hk. apply in_combine_l in Hk. destruct (sy_written _ _ _ _ _ _ _ _ Hsys e r He Hr Sr) as (e' & He' & L). pose proof (sy_lhs_dims _ _ _ _ _ _ _ _ Hsys e' He' k Hk) as X. rewrite L in X. apply has_existsb in X. cbn [fst snd]. rewrite X. reflexivity.
  Qed.

  (* the lists of parts *)
  Lemma in_sstages : forall t q, In q (concat (k_sstages vdims ddims eqs ps ss scond pbs t)) <-> exists b p, In b (g_all sg) /\ sscr b = true /\ In p (c_get sitems b) /\ q = KP t p.
  Proof.
    intros t q. unfold k_sstages. rewrite in_concat. split.
    - intros (l & Hl & Hq). apply in_map_iff in Hl as (b & <- & Hb). apply filter_In in Hb as (Hb & Sb). apply in_map_iff in Hq as (p & <- & Hp). apply filter_In in Hp as (_ & Hp). apply mem_In in Hp. exists b, p. auto.
    - intros (b & p & Hb & Sb & Hp & ->). eexists. split; [apply in_map; apply filter_In; split; [exact Hb|exact Sb]|]. apply in_map. apply filter_In. split; [apply m_stage; exists b; auto|apply mem_In; exact Hp].
  Qed.
  Definition isord (p : Z) : Prop := exists sp, a_scr (attr_of sp) = false /\ h_pdep ps sp p = true.
  Lemma in_ord : forall t q, In q (ORD t) <-> exists p, isord p /\ q = KP t p.
  Proof.
    intros t q. unfold ORD, k_ord. rewrite filter_In, in_sstages, existsb_exists. split.
    - intros ((b & p & Hb & Sb & Hp & ->) & (sp & Hsp & H)). apply andb_prop in H as (H1 & H2). exists p. split; [|reflexivity]. exists sp. split; [fold (attr_of sp) in H1; destruct (a_scr (attr_of sp)); [discriminate|reflexivity]|exact H2].
    - intros (p & (sp & H1 & H2) & ->). destruct (m_dep sp p H2) as (Hs & Hp & Sc). split; [|exists sp; split; [exact Hs|]; cbn; fold (attr_of sp); rewrite H1; exact H2].
      apply m_stage in Hp as (b & Hb & Hp). exists b, p. split; [exact Hb|]. split; [rewrite <- (s_scr b p Hb Hp); exact Sc|auto].
  Qed.
  Lemma ord_part : forall p, isord p -> In p (g_all pg) /\ a_scr (attr_of p) = true.
  Proof. intros p (sp & _ & D). apply m_dep in D. tauto. Qed.
  Lemma in_stg : forall t a q, In a (g_all sg) -> sscr a = false -> (In q (STG t a) <-> exists p, In p (c_get sitems a) /\ q = KP t p).
  Proof.
    intros t a q Ha Sa. unfold STG, k_stage. rewrite in_map_iff. split.
    - intros (p & <- & Hp). apply filter_In in Hp as (Hp & _). exists p. auto.
    - intros (p & Hp & ->). exists p. split; [reflexivity|]. apply filter_In. split; [exact Hp|]. fold (attr_of p). rewrite (s_scr a p Ha Hp), Sa. reflexivity.
  Qed.
  Lemma stg_part : forall a p, In a (g_all sg) -> sscr a = false -> In p (c_get sitems a) -> In p (g_all pg) /\ a_scr (attr_of p) = false.
  Proof. intros a p Ha Sa Hp. split; [apply m_stage; exists a; auto|rewrite (s_scr a p Ha Hp); exact Sa]. Qed.
  Lemma req_ord : forall t sp, a_scr (attr_of sp) = false -> REQ t (KP t sp) = filter (fun q => h_pdep ps sp (mp_id q)) (ORD t) ++ [KP t sp].
  Proof.
    intros t sp Ns. unfold REQ, k_reqd. rewrite reqd_filter. f_equal. unfold ORD, k_ord. rewrite filter_filter_imp; [reflexivity|]. intros q _ D. cbn in D. apply existsb_exists. exists sp. split; [apply (m_dep sp _ D)|]. fold (attr_of sp). rewrite Ns. exact D.
  Qed.
  Lemma in_req : forall t sp q, a_scr (attr_of sp) = false -> (In q (REQ t (KP t sp)) <-> q = KP t sp \/ exists p, h_pdep ps sp p = true /\ q = KP t p).
  Proof.
    intros t sp q Ns. rewrite req_ord by exact Ns. rewrite in_app_iff, filter_In, in_ord. cbn [In]. split.
    - intros [((p & Hp & ->) & D)|[<-|[]]]; [right; exists p; split; [exact D|reflexivity]|left; reflexivity].
    - intros [->|(p & D & ->)]; [right; left; reflexivity|left]. split; [exists p; split; [exists sp; auto|reflexivity]|exact D].
  Qed.

  (* a scratch var that is read *)
  Lemma feeder : forall p i r q j, In p (g_all pg) -> In q (g_all pg) -> In i (c_get items p) -> In r (e_rhs (eq_at eqs i)) -> In j (c_get items q) -> eq_var eqs j = p_var r -> scr (p_var r) = true -> h_pdep ps p q = true /\ needs scr eqs i j.
  Proof.
    intros p i r q j Hp Hq Hi Hr Hj Ev Sr. destruct (p_eq p i Hp Hi) as (e & P1 & E1 & A1 & I1). destruct (p_eq q j Hq Hj) as (e' & P2 & E2 & A2 & I2). rewrite A1 in Hr. unfold eq_var in Ev. rewrite A2 in Ev.
    assert (N : needs scr eqs i j).
    { exists e, e', r. repeat (split; [assumption|]). split; [congruence|]. split; [|intros X; congruence]. destruct (proj2 Hwf e r I1 (or_intror Hr)) as (_ & Hs). rewrite (Hs Sr).
      pose proof Hleg as G. rewrite Forall_forall in G. destruct (G e' I2) as ((_ & Hl) & _). rewrite Hl, Ev, Sr. reflexivity. }
    split; [|exact N]. apply (s_need p q i j); try assumption. unfold scr_at. rewrite E2, Ev. exact Sr.
  Qed.
  Lemma writer : forall e r, In e eqs -> In r (e_rhs e) -> scr (p_var r) = true -> exists q j, In q (g_all pg) /\ In j (c_get items q) /\ eq_var eqs j = p_var r /\ a_scr (attr_of q) = true.
  Proof.
    intros e r He Hr Sr. destruct (sy_written _ _ _ _ _ _ _ _ Hsys e r He Hr Sr) as (e' & He' & L). apply In_nth_error in He' as (n & Hn).
    destruct (facts scr dims_same halo_same bundle bundle_scratch regex dir d eqs Hdir Hd Hleg Hdis vdims Hwf eg ps ss HB) as (F1 & _).
    assert (II : isin eqs (Z.of_nat n) e') by (split; [lia|rewrite Nat2Z.id; exact Hn]).
    destruct (F1 _ _ II) as (b & Hb & Hj); [rewrite L; exact Sr|]. apply in_block in Hj as (q & Hq & Hj). assert (Hqp : In q (g_all pg)) by (apply m_stage; exists b; auto). exists q, (Z.of_nat n). split; [exact Hqp|]. split; [exact Hj|].
    assert (EV : eq_var eqs (Z.of_nat n) = p_var r) by (unfold eq_var; destruct (isin_at eqs _ _ II) as (Ea & _ & _); rewrite Ea; exact L).
    split; [exact EV|]. rewrite <- (p_scr q (Z.of_nat n) Hqp Hj), EV. exact Sr.
  Qed.
  (* the stage order *)
  Lemma stage_order : forall a b i j, In a (g_all sg) -> In b (g_all sg) -> In i (block ps ss b) -> In j (block ps ss a) -> needs scr eqs i j -> forall S1 S2, g_all sg = S1 ++ b :: S2 -> In a S1.
  Proof.
    intros a b i j Ha Hb Hi Hj N S1 S2 Eg. pose proof (build_ok scr dims_same halo_same bundle bundle_scratch regex dir d eqs Hdir Hd Hleg Hdis) as B. rewrite HB in B. destruct B as (_ & _ & BO & _).
    rewrite Eg in Ha. apply in_app_or in Ha as [Ha|Ha]; [exact Ha|exfalso]. refine (BO (map (block ps ss) S1) (block ps ss b) (map (block ps ss) S2) i j _ Hi _ _).
    - unfold stage_blocks. fold sg. rewrite Eg, map_app. reflexivity.
    - apply in_or_app. destruct Ha as [->|Ha]; [left; exact Hj|right; apply in_concat; exists (block ps ss a); split; [apply in_map; exact Ha|exact Hj]].
    - destruct N as (e & e' & r & N1 & N2 & N3 & N4 & N5 & N6). exists i, e, e. split; [exact N3|]. split; [exact N1|]. split; [exact N3|]. split; [repeat split|]. apply path_one. exists e, e', r. auto 10.
  Qed.
  Lemma blk_part : forall a p i, In p (c_get sitems a) -> In i (c_get items p) -> In i (block ps ss a).
  Proof. intros a p i Hp Hi. apply in_block. exists p. auto. Qed.

  Lemma excl_eq : forall p q i j t x, In p (g_all pg) -> In q (g_all pg) -> In i (c_get items p) -> In j (c_get items q) -> eq_var eqs i = eq_var eqs j -> on COND (KP t p) x = true -> on COND (KP t q) x = true -> i = j /\ p = q.
  Proof.
    intros p q i j t x Hp Hq Hi Hj Ev O1 O2. destruct (p_eq p i Hp Hi) as (e & P1 & E1 & A1 & I1). destruct (p_eq q j Hq Hj) as (e' & P2 & E2 & A2 & I2).
    rewrite (p_on p i e t x Hp Hi A1) in O1. rewrite (p_on q j e' t x Hq Hj A2) in O2. unfold eq_var in Ev. rewrite A1, A2 in Ev.
    pose proof (sy_excl _ _ _ _ _ _ _ _ Hsys _ _ e e' t x E1 E2 Ev O1 O2) as N. assert (i = j) by lia. subst j. split; [reflexivity|]. exact (m_part1 i p q Hp Hq Hi Hj).
  Qed.
  Lemma ord_stage : forall p, isord p -> exists a b, In a (g_all sg) /\ sscr a = false /\ In b (g_all sg) /\ In p (c_get sitems b) /\ h_sdep ss a b = true.
  Proof.
    intros p (sp & Ns & D). destruct (m_dep sp p D) as (H1 & H2 & _). apply m_stage in H1 as (a & Ha & H1). apply m_stage in H2 as (b & Hb & H2). exists a, b. split; [exact Ha|]. split; [rewrite <- (s_scr a sp Ha H1); exact Ns|]. split; [exact Hb|]. split; [exact H2|]. exact (m_sdep sp p D a b Ha Hb H1 H2).
  Qed.
  Lemma span_ok : forall t a q p c q' b, In a (g_all sg) -> sscr a = false -> In q (ORD t ++ STG t a) -> In c (rds alloc st t q p) -> In q' (ORD t) -> In (fst (fst c)) (mp_outs q') ->
    in_box (span q b) p = true -> in_box (span q' b) (snd c) = true.
  Proof.
    intros t a q p c q' b Ha Sa Hq Hc Hq' Ho Hb. apply in_rds in Hc as (i & r & Hi & Hr & ->). apply in_ord in Hq' as (p1 & O1 & ->). destruct (ord_part p1 O1) as (Hp1 & S1).
    apply in_outs in Ho as (_ & j & Hj & Ev). assert (Ev' : p_var r = eq_var eqs j) by (rewrite <- Ev; reflexivity). clear Ev.
    assert (Sr : scr (p_var r) = true) by (rewrite Ev'; rewrite (p_scr p1 j Hp1 Hj); exact S1).
    assert (Hpq : exists p0, q = KP t p0 /\ In p0 (g_all pg)).
    { apply in_app_or in Hq as [Hq|Hq]; [apply in_ord in Hq as (p0 & O0 & ->); exists p0; split; [reflexivity|apply ord_part; exact O0]|]. apply (in_stg t a q Ha Sa) in Hq as (p0 & H0 & ->). exists p0. split; [reflexivity|]. apply (stg_part a p0 Ha Sa H0). }
    destruct Hpq as (p0 & -> & Hp0). cbn [mp_id KP k_part] in Hi. change (mp_id (KP t p0)) with p0 in Hi. destruct (p_eq p0 i Hp0 Hi) as (e & P1 & E1 & A1 & I1). rewrite A1 in Hr. rewrite (rd_scr e r t p I1 Hr Sr). cbn [snd].
    assert (SP : span (KP t p1) b = extend (map (write_halo vdims eqs h (c_get items p1) true) ddims) (map (write_halo vdims eqs h (c_get items p1) false) ddims) b) by (unfold span, KP, k_part; cbn; fold (attr_of p1); rewrite S1; reflexivity).
    rewrite SP. assert (KV : forall k, In k ddims -> In k (vdims (p_var r))).
    { intros k Hk. destruct (p_eq p1 j Hp1 Hj) as (e' & _ & _ & A2 & I2). rewrite Ev'. unfold eq_var. rewrite A2. exact (sy_lhs_dims _ _ _ _ _ _ _ _ Hsys e' I2 k Hk). }
    assert (GE : forall k l, In k ddims -> halo_size k l (h (p_var r)) <= write_halo vdims eqs h (c_get items p1) l k) by (intros k l Hk; apply write_halo_ge; [unfold lv; apply in_map_iff; exists j; split; [symmetry; exact Ev'|exact Hj]|apply KV; exact Hk]).
    apply in_app_or in Hq as [Hq|Hq].
    - assert (O0 : isord p0) by (apply in_ord in Hq as (p0' & O0 & E0); apply (f_equal mp_id) in E0; cbn in E0; subst; exact O0). destruct (ord_part p0 O0) as (_ & S0).
      assert (SQ : span (KP t p0) b = extend (map (write_halo vdims eqs h (c_get items p0) true) ddims) (map (write_halo vdims eqs h (c_get items p0) false) ddims) b) by (unfold span, KP, k_part; cbn; fold (attr_of p0); rewrite S0; reflexivity).
      rewrite SQ in Hb. refine (extend_read2 _ _ _ _ (fun k => dim_ofs (vdims (p_var r)) (p_dom r) k) ddims b p Hb _). intros k lo hi x Hk Hx.
      destruct (ord_stage p0 O0) as (a' & b' & Ha' & Sa' & Hb' & Hpb & D).
      destruct (span_reads_ps scr dims_same halo_same bundle bundle_scratch regex dir d eqs Hdir Hd Hleg Hdis vdims Hwf eg ps ss HB Hsame a' (c_get items p0) Ha' Sa') with (i := i) (e := e) (r := r) (k := k) as (X1 & X2); [|exact Hi|exact E1|exact Hr|apply KV; exact Hk|].
      + apply (ps_in ps ss). exists b'. split; [exact Hb'|]. split; [exact D|]. cbn. apply in_map. exact Hpb.
      + fold h in X1, X2. pose proof (GE k true Hk). pose proof (GE k false Hk). lia.
    - assert (H0 : In p0 (c_get sitems a)) by (apply (in_stg t a _ Ha Sa) in Hq as (p0' & H0 & E0); apply (f_equal mp_id) in E0; cbn in E0; subst; exact H0). destruct (stg_part a p0 Ha Sa H0) as (_ & S0).
      assert (SQ : span (KP t p0) b = b) by (unfold span, KP, k_part; cbn; fold (attr_of p0); rewrite S0; reflexivity). rewrite SQ in Hb.
      refine (extend_read _ _ (fun k => dim_ofs (vdims (p_var r)) (p_dom r) k) ddims b p Hb _). intros k lo hi x Hk Hx.
      pose proof (halos_cover scr dims_same halo_same bundle bundle_scratch regex dir d eqs Hdir Hd Hleg Hdis vdims Hwf eg ps ss HB a (p_var r) (p_step r) (dim_ofs (vdims (p_var r)) (p_dom r)) Ha Sa) as X.
      specialize (X (reads_eq scr vdims eqs (fun i => In i (block ps ss a)) i e r (blk_part a p0 i H0 Hi) E1 Hr) k (KV k Hk)). cbv zeta in X. fold h in X. pose proof (GE k true Hk). pose proof (GE k false Hk). lia.
  Qed.
  Lemma dim_ofs0 : forall dims o k, Forall (eq 0) o -> dim_ofs dims o k = 0.
  Proof. induction dims as [|x dims IH]; intros o k F; [reflexivity|]. destruct o as [|v o]; [reflexivity|]. inversion F; subst. cbn. destruct (k =? x); [reflexivity|apply IH; assumption]. Qed.
  Lemma rd_same : forall e r t p, In e eqs -> p_var r = p_var (e_lhs e) -> Forall (eq 0) (p_dom r) -> length p = length ddims -> snd (rd_elem vdims ddims t p r) = p.
  Proof.
    intros e r t p He Ev F L. unfold rd_elem. cbn [snd]. assert (X : forall dd p, length p = length dd -> incl dd ddims -> map (fun kx => if existsb (Z.eqb (fst kx)) (vdims (p_var r)) then snd kx + dim_ofs (vdims (p_var r)) (p_dom r) (fst kx) else 0) (combine dd p) = p).
    { induction dd as [|k dd IH]; intros [|x q] Lq Hi; try discriminate; [reflexivity|]. cbn [combine map fst snd]. rewrite IH; [|cbn in Lq; congruence|intros y Hy; apply Hi; right; exact Hy].
      assert (Hk : existsb (Z.eqb k) (vdims (p_var r)) = true) by (apply has_existsb; rewrite Ev; apply (sy_lhs_dims _ _ _ _ _ _ _ _ Hsys e He); apply Hi; left; reflexivity). rewrite Hk, dim_ofs0 by exact F. f_equal. lia. }
    apply X; [exact L|apply incl_refl].
  Qed.
  Lemma indep_ok : forall t a rank, In a (g_all sg) -> sscr a = false -> length rank = length ddims ->
    forall sp q p sp' p' c, In sp (STG t a) -> In q (REQ t sp) -> in_box (span q rank) p = true -> In sp' (STG t a) -> In c (rds alloc st t q p) -> In c (wrs alloc st t sp' p') -> q = sp' /\ p = p'.
  Proof.
    intros t a rank Ha Sa Lr sp q p sp' p' c Hsp Hq Hb Hsp' Hc Hw. apply (in_stg t a _ Ha Sa) in Hsp as (n0 & H0 & ->). apply (in_stg t a _ Ha Sa) in Hsp' as (n1 & H1 & ->).
    destruct (stg_part a n0 Ha Sa H0) as (Hn0 & S0). destruct (stg_part a n1 Ha Sa H1) as (Hn1 & S1).
    assert (Hq' : exists n2, q = KP t n2 /\ In n2 (g_all pg) /\ (n2 = n0 \/ h_pdep ps n0 n2 = true)).
    { apply (in_req t n0 q S0) in Hq as [->|(n2 & D & ->)]; [exists n0; auto|exists n2; split; [reflexivity|]; split; [apply (m_dep n0 n2 D)|right; exact D]]. }
    destruct Hq' as (n2 & -> & Hn2 & D2). apply in_rds in Hc as (i & r & Hi & Hr & ->). apply in_wrs in Hw as (j & Hj & Ec). change (mp_id (KP t n2)) with n2 in Hi. change (mp_id (KP t n1)) with n1 in Hj.
    rewrite (lhs_cell n1 j t p' Hn1 Hj S1) in Ec. destruct (p_eq n2 i Hn2 Hi) as (e & P1 & E1 & A1 & I1). destruct (p_eq n1 j Hn1 Hj) as (e' & P2 & E2 & A2 & I2). rewrite A1 in Hr.
    assert (Ev : p_var r = eq_var eqs j) by (apply (f_equal (fun c => fst (fst c))) in Ec; exact Ec).
    assert (Es : at_step t (p_step r) mod alloc (p_var r) = (t + dir) mod alloc (eq_var eqs j)) by (apply (f_equal (fun c => snd (fst c))) in Ec; exact Ec).
    assert (Ep : snd (rd_elem vdims ddims t p r) = p') by (apply (f_equal (fun c => snd c)) in Ec; exact Ec). clear Ec.
    assert (Sv : scr (p_var r) = false) by (rewrite Ev, (p_scr n1 j Hn1 Hj); exact S1).
    assert (Ev' : p_var r = p_var (e_lhs e')) by (rewrite Ev; unfold eq_var; rewrite A2; reflexivity).
    destruct (sy_room _ _ _ _ _ _ _ _ Hsys _ _ e e' r E1 E2 Hr Ev' Sv) as (s & Hs & Hroom). rewrite Hs in Es. cbn in Es.
    destruct Hroom as [->|[NZ|(IJ & F)]].
    - exfalso. assert (N : needs scr eqs i j).
      { exists e, e', r. repeat (split; [assumption|]). split; [|intros _; rewrite (sy_misc _ _ _ _ _ _ _ _ Hsys e r I1 (or_intror Hr)), (sy_misc _ _ _ _ _ _ _ _ Hsys e' _ I2 (or_introl eq_refl)); reflexivity].
        pose proof Hleg as G. rewrite Forall_forall in G. destruct (G e' I2) as ((_ & Hl) & _). rewrite Hs, Hl, <- Ev', Sv. reflexivity. }
      apply m_stage in Hn2 as (b & Hbs & Hn2). pose proof (in_split _ _ Hbs) as (T1 & T2 & Eg).
      pose proof (stage_order a b i j Ha Hbs (blk_part b n2 i Hn2 Hi) (blk_part a n1 j H1 Hj) N T1 T2 Eg) as HaT.
      assert (ND : ~ In a (b :: T2)) by (pose proof nd_stages as X; rewrite Eg in X; exact (nodup_app_disj _ _ _ a X HaT)).
      destruct D2 as [->|D2]; [apply ND; left; symmetry; exact (m_stage1 n0 a b Ha Hbs H0 Hn2)|].
      pose proof (m_sdep n0 n2 D2 a b Ha Hbs H0 Hn2) as SD. apply in_split in HaT as (U1 & U2 & ->). rewrite <- app_assoc in Eg. pose proof (m_sbefore a b SD U1 (U2 ++ b :: T2) Eg) as HbU.
      pose proof nd_stages as X. rewrite Eg in X. refine (nodup_app_disj _ _ _ b X HbU _). right. apply in_elt.
    - exfalso. apply NZ. replace (s - dir) with ((t + s) - (t + dir)) by lia. rewrite Zminus_mod, Es, Ev, Z.sub_diag. apply Zmod_0_l.
    - assert (i = j) by lia. subst j. assert (n2 = n1) by exact (m_part1 i n2 n1 Hn2 Hn1 Hi Hj). subst n2. split; [reflexivity|].
      assert (Lp : length p = length ddims). { rewrite (in_box_len _ _ Hb). unfold span. assert (MS : mp_scratch (KP t n1) = false) by exact S1. rewrite MS. exact Lr. }
      rewrite <- Ep. symmetry. apply (rd_same e' r t p I2 Ev' F Lp).
  Qed.
  Lemma nodup_map_kp : forall t l, NoDup l -> NoDup (map (KP t) l).
  Proof. intros t l. induction l as [|x l IH]; intros N; cbn; [constructor|]. inversion N; subst. constructor; [|apply IH; assumption]. intros H. apply in_map_iff in H as (y & E & Hy). apply (f_equal mp_id) in E. cbn in E. subst. contradiction. Qed.
  Lemma nodup_ord : forall t, NoDup (ORD t).
  Proof.
    intros t. unfold ORD, k_ord. apply NoDup_filter. unfold k_sstages. fold KP.
    assert (F : forall S, NoDup S -> incl S (g_all sg) -> NoDup (concat (map (fun a => map (KP t) (filter (fun p => mem p (c_get sitems a)) (g_all pg))) S))).
    { induction S as [|a S IH]; intros N Hi; cbn; [constructor|]. inversion N; subst. apply nodup_app_mk; [apply nodup_map_kp, NoDup_filter, nd_parts|apply IH; [assumption|intros x Hx; apply Hi; right; exact Hx]|].
      intros q HA HC. apply in_map_iff in HA as (p & <- & Hp). apply filter_In in Hp as (_ & Hp). apply mem_In in Hp. apply in_concat in HC as (l & Hl & HC'). apply in_map_iff in Hl as (b & <- & Hb). apply in_map_iff in HC' as (p' & E & Hp'). apply filter_In in Hp' as (_ & Hp'). apply mem_In in Hp'. apply (f_equal mp_id) in E. cbn in E. subst p'.
      assert (a = b) by (apply (m_stage1 p a b); try assumption; apply Hi; [left; reflexivity|right; exact Hb]). subst. contradiction. }
    apply F; [apply NoDup_filter, nd_stages|]. intros x Hx. apply filter_In in Hx. tauto.
  Qed.
  Lemma before_ok : forall t q p c q', In q (ORD t) -> In c (rds alloc st t q p) -> In q' (ORD t) -> In (fst (fst c)) (mp_outs q') -> before (ORD t) q' q.
  Proof.
    intros t q p c q' Hq Hc Hq' Ho. pose proof Hq as Hq0. pose proof Hq' as Hq0'. apply in_ord in Hq as (n0 & O0 & ->). apply in_ord in Hq' as (n1 & O1 & ->). destruct (ord_part n0 O0) as (Hn0 & S0). destruct (ord_part n1 O1) as (Hn1 & S1).
    apply in_rds in Hc as (i & r & Hi & Hr & ->). change (mp_id (KP t n0)) with n0 in Hi. apply in_outs in Ho as (_ & j & Hj & Ev). assert (Ev' : eq_var eqs j = p_var r) by (rewrite <- Ev; reflexivity).
    destruct (feeder n0 i r n1 j Hn0 Hn1 Hi Hr Hj Ev') as (_ & N); [rewrite <- Ev', (p_scr n1 j Hn1 Hj); exact S1|].
    apply m_stage in Hn0 as (b & Hb & Hn0). apply m_stage in Hn1 as (x & Hx & Hn1). pose proof (in_split _ _ Hb) as (T1 & T2 & Eg). pose proof (stage_order x b i j Hx Hb (blk_part b n0 i Hn0 Hi) (blk_part x n1 j Hn1 Hj) N T1 T2 Eg) as HxT.
    unfold ORD, k_ord in *. set (f := fun q : mpart => _) in *. apply filter_In in Hq0 as (_ & G0). apply filter_In in Hq0' as (_ & G1). unfold k_sstages. fold sg KP. rewrite Eg, filter_app, map_app, concat_app. apply before_map_filter; [|exact G1| |exact G0].
    - apply in_concat. eexists. split; [apply in_map; apply filter_In; split; [exact HxT|]; rewrite <- S1; symmetry; exact (s_scr x n1 Hx Hn1)|]. apply in_map. apply filter_In. split; [apply m_stage; exists x; auto|apply mem_In; exact Hn1].
    - apply in_concat. eexists. split; [apply in_map; apply filter_In; split; [left; reflexivity|]; rewrite <- S0; symmetry; exact (s_scr b n0 Hb Hn0)|]. apply in_map. apply filter_In. split; [apply m_stage; exists b; auto|apply mem_In; exact Hn0].
  Qed.

  Theorem link_stage_ok : forall t a rank, In a (g_all sg) -> sscr a = false -> length rank = length ddims ->
    stage_ok alloc st scr COND t rank (ORD t) (REQ t) (STG t a).
  Proof.
    intros t a rank Ha Sa Lr.
    assert (KQ : forall q, In q (ORD t ++ STG t a) -> exists p, q = KP t p /\ In p (g_all pg) /\ (isord p \/ In p (c_get sitems a))).
    { intros q Hq. apply in_app_or in Hq as [Hq|Hq]; [apply in_ord in Hq as (p & O & ->); exists p; split; [reflexivity|]; split; [apply ord_part; exact O|left; exact O]|]. apply (in_stg t a q Ha Sa) in Hq as (p & H & ->). exists p. split; [reflexivity|]. split; [apply (stg_part a p Ha Sa H)|right; exact H]. }
    constructor.
    - intros q q' Hq Hq' E. destruct (KQ q Hq) as (p & -> & _). destruct (KQ q' Hq') as (p' & -> & _). cbn in E. subst. reflexivity.
    - split; [apply nodup_ord|]. unfold STG, k_stage. apply nodup_map_kp, NoDup_filter, m_nodup. exact Ha.
    - split; apply Forall_forall; intros q Hq; [apply in_ord in Hq as (p & O & ->); apply (ord_part p O)|]. apply (in_stg t a q Ha Sa) in Hq as (p & H & ->). destruct (stg_part a p Ha Sa H) as (_ & S0). split; [exact S0|]. unfold KP, k_part. cbn. fold (attr_of p). rewrite S0. reflexivity.
    - intros q p c Hq. apply in_ord in Hq as (n & O & ->). destruct (ord_part n O) as (Hn & Sn). rewrite in_wrs. change (mp_id (KP t n)) with n. split.
      + intros (i & Hi & ->). exists (eq_var eqs i). split; [apply in_outs; split; [exact Sn|exists i; auto]|apply (lhs_scr_cell n i t p Hn Hi Sn)].
      + intros (v & Hv & ->). apply in_outs in Hv as (_ & i & Hi & ->). exists i. split; [exact Hi|symmetry; apply (lhs_scr_cell n i t p Hn Hi Sn)].
    - intros q v Hq Hv. apply in_ord in Hq as (n & O & ->). destruct (ord_part n O) as (Hn & Sn). apply in_outs in Hv as (_ & i & Hi & ->). rewrite (p_scr n i Hn Hi). exact Sn.
    - intros sp p c Hsp Hc. apply (in_stg t a sp Ha Sa) in Hsp as (n & H & ->). destruct (stg_part a n Ha Sa H) as (Hn & Sn). apply in_wrs in Hc as (i & Hi & ->). change (mp_id (KP t n)) with n in Hi. rewrite (lhs_cell n i t p Hn Hi Sn). cbn [fst snd]. split; [rewrite (p_scr n i Hn Hi); exact Sn|reflexivity].
    - intros q p c Hq Hc Sc. destruct (KQ q Hq) as (n & -> & Hn & _). apply in_rds in Hc as (i & r & Hi & Hr & ->). change (mp_id (KP t n)) with n in Hi. destruct (p_eq n i Hn Hi) as (e & _ & _ & A1 & I1). rewrite A1 in Hr. rewrite (rd_scr e r t p I1 Hr Sc). reflexivity.
    - intros sp Hsp. apply (in_stg t a sp Ha Sa) in Hsp as (n & H & ->). destruct (stg_part a n Ha Sa H) as (Hn & Sn). exists (fun q => h_pdep ps n (mp_id q)). apply req_ord. exact Sn.
    - intros q p c Hq Hc Sc. destruct (KQ q Hq) as (n & -> & Hn & W). apply in_rds in Hc as (i & r & Hi & Hr & ->). change (mp_id (KP t n)) with n in Hi. destruct (p_eq n i Hn Hi) as (e & _ & _ & A1 & I1). pose proof Hr as Hr'. rewrite A1 in Hr'.
      destruct (writer e r I1 Hr' Sc) as (n' & j & Hn' & Hj & Ev & Sn'). exists (KP t n'). destruct (feeder n i r n' j Hn Hn' Hi Hr Hj Ev Sc) as (D & _). split.
      + apply in_ord. exists n'. split; [|reflexivity]. destruct W as [(sp & Ns & D')|W]; [exists sp; split; [exact Ns|exact (s_trans sp n n' D' D)]|exists n; split; [apply (stg_part a n Ha Sa W)|exact D]].
      + apply in_outs. split; [exact Sn'|]. exists j. split; [exact Hj|]. symmetry. exact Ev.
    - intros q p c q'. apply before_ok.
    - intros sp q p c q' Hsp Hq Hc Hq' Ho. apply (in_stg t a sp Ha Sa) in Hsp as (n & H & ->). destruct (stg_part a n Ha Sa H) as (Hn & Sn). apply in_ord in Hq' as (n' & O' & ->). destruct (ord_part n' O') as (Hn' & Sn').
      apply (in_req t n q Sn) in Hq. apply (in_req t n _ Sn). right. exists n'. split; [|reflexivity]. apply in_outs in Ho as (_ & j & Hj & Ev).
      destruct Hq as [->|(n2 & D & ->)]; apply in_rds in Hc as (i & r & Hi & Hr & ->); change (mp_id (KP t ?x)) with x in Hi; assert (Ev' : eq_var eqs j = p_var r) by (rewrite <- Ev; reflexivity); assert (Sr : scr (p_var r) = true) by (rewrite <- Ev', (p_scr n' j Hn' Hj); exact Sn').
      + apply (feeder n i r n' j Hn Hn' Hi Hr Hj Ev' Sr).
      + apply (s_trans n n2 n' D). destruct (m_dep n n2 D) as (_ & Hn2 & _). apply (feeder n2 i r n' j Hn2 Hn' Hi Hr Hj Ev' Sr).
    - intros q p c q' b Hq Hc Hq' Ho Hb. exact (span_ok t a q p c q' b Ha Sa Hq Hc Hq' Ho Hb).
    - intros q q' v p Hq Hq' Hv Hv' O1 O2. apply in_ord in Hq as (n & O & ->). apply in_ord in Hq' as (n' & O' & ->). destruct (ord_part n O) as (Hn & Sn). destruct (ord_part n' O') as (Hn' & Sn'). apply in_outs in Hv as (_ & i & Hi & ->). apply in_outs in Hv' as (_ & j & Hj & Ev).
      destruct (excl_eq n n' i j t p Hn Hn' Hi Hj Ev O1 O2) as (_ & ->). reflexivity.
    - intros q p Hq Hs. apply in_ord in Hq as (n & O & ->). unfold COND, k_cond, in_valid_domain. change (mp_id (KP t n)) with n. unfold KP, k_part in Hs. cbn in Hs. destruct (a_dc (part_attr ps n)); [discriminate|reflexivity].
    - intros sp q p sp' p' c H1 H2 H3 _ H4 _ _ H5 H6. exact (indep_ok t a rank Ha Sa Lr sp q p sp' p' c H1 H2 H3 H4 H5 H6).
    - intros sp sp' p c Hsp Hsp' _ O1 O2 Hc Hc'. apply (in_stg t a sp Ha Sa) in Hsp as (n & H & ->). apply (in_stg t a sp' Ha Sa) in Hsp' as (n' & H' & ->). destruct (stg_part a n Ha Sa H) as (Hn & Sn). destruct (stg_part a n' Ha Sa H') as (Hn' & Sn').
      apply in_wrs in Hc as (i & Hi & ->). apply in_wrs in Hc' as (j & Hj & Ec). change (mp_id (KP t n)) with n in Hi. change (mp_id (KP t n')) with n' in Hj. rewrite (lhs_cell n i t p Hn Hi Sn), (lhs_cell n' j t p Hn' Hj Sn') in Ec.
      assert (Ev : eq_var eqs i = eq_var eqs j) by (apply (f_equal (fun c => fst (fst c))) in Ec; exact Ec). destruct (excl_eq n n' i j t p Hn Hn' Hi Hj Ev O1 O2) as (_ & ->). reflexivity.
  Qed.

  (* the values of one part *)
  Lemma part_val_eq : forall t p (f : pt -> V) i is, In i is -> (forall j, In j is -> eq_var eqs j = eq_var eqs i -> j = i) ->
    part_val eqs zero val t p is (flat_map (fun j => map f (e_rhs (eq_at eqs j))) is) (eq_var eqs i) = val i t p (map f (e_rhs (eq_at eqs i))).
  Proof.
    intros t p f i. induction is as [|j is IH]; intros Hi U; [contradiction|]. cbn [part_val flat_map]. cbv zeta. rewrite <- (map_length f (e_rhs (eq_at eqs j))). destruct (eq_var eqs j =? eq_var eqs i) eqn:E.
    - apply Z.eqb_eq in E. rewrite (U j (or_introl eq_refl) E). rewrite firstn_app, firstn_all, Nat.sub_diag, firstn_O, app_nil_r. reflexivity.
    - rewrite skipn_app, skipn_all, Nat.sub_diag. cbn [app skipn]. apply IH; [destruct Hi as [->|Hi]; [rewrite Z.eqb_refl in E; discriminate|exact Hi]|intros k Hk; apply U; right; exact Hk].
  Qed.
  Lemma result_eq : forall t p n i x M c, In n (g_all pg) -> In i (c_get items n) -> on COND (KP t n) x = true -> fst (fst c) = eq_var eqs i -> p = x ->
    result alloc st t M (KP t n) p c = val i t p (map (fun r => M (cell_of alloc (rd_elem vdims ddims t p r))) (e_rhs (eq_at eqs i))).
  Proof.
    intros t p n i x M c Hn Hi On Ec ->. unfold result, rds, rd_cells, at_pt, st, k_stencil. cbn [s_val s_rd i_t i_s i_p]. change (mp_id (KP t n)) with n. rewrite Ec. unfold part_eqs. fold items.
    rewrite map_map. rewrite <- (part_val_eq t x (fun r => M (cell_of alloc (rd_elem vdims ddims t x r))) i (c_get items n) Hi).
    - f_equal. generalize (c_get items n). induction l as [|j l IH]; [reflexivity|]. cbn [flat_map]. rewrite map_app, IH, map_map. reflexivity.
    - intros j Hj Ev. exact (proj1 (excl_eq n n j i t x Hn Hn Hj Hi Ev On On)).
  Qed.
  Let MAIN := main scr regex.
  Lemma eq_part : forall i e, nth_error eqs i = Some e -> scr (p_var (e_lhs e)) = true \/ MAIN e = true ->
    exists n, In n (g_all pg) /\ In (Z.of_nat i) (c_get items n) /\ eq_at eqs (Z.of_nat i) = e /\ In e eqs /\ a_scr (attr_of n) = scr (p_var (e_lhs e)).
  Proof.
    intros i e Hi Hk.
    assert (II : isin eqs (Z.of_nat i) e) by (split; [lia|rewrite Nat2Z.id; exact Hi]). destruct (isin_at eqs _ _ II) as (Ea & _ & Hin).
    assert (C : exists b, In b (g_all sg) /\ In (Z.of_nat i) (block ps ss b)).
    { pose proof (build_ok scr dims_same halo_same bundle bundle_scratch regex dir d eqs Hdir Hd Hleg Hdis) as B. rewrite HB in B. destruct B as (_ & BC & _).
      assert (X : In (Z.of_nat i) (concat (stage_blocks ps ss))).
      { apply (Permutation_in _ (Permutation_sym BC)). apply filter_In. split; [apply zseq_In; split; [lia|]; apply Nat2Z.inj_lt, nth_error_Some; congruence|]. unfold kept. rewrite Nat2Z.id, Hi. destruct Hk as [->|Hk]; [reflexivity|]. unfold MAIN, main in Hk. apply andb_prop in Hk as (_ & ->). apply orb_true_r. }
      apply in_concat in X as (l & Hl & X). unfold stage_blocks in Hl. apply in_map_iff in Hl as (b & <- & Hb). exists b. auto. }
    destruct C as (b & Hb & Hj). apply in_block in Hj as (q & Hq & Hj). assert (Hqp : In q (g_all pg)) by (apply m_stage; exists b; auto). exists q. split; [exact Hqp|]. split; [exact Hj|]. split; [exact Ea|]. split; [exact Hin|].
    rewrite <- (p_scr q _ Hqp Hj). unfold eq_var. rewrite Ea. reflexivity.
  Qed.
  Lemma part_main : forall n i e, In n (g_all pg) -> In i (c_get items n) -> a_scr (attr_of n) = false -> eq_at eqs i = e -> MAIN e = true.
  Proof.
    intros n i e Hn Hi Sn Ea. pose proof (p_scr n i Hn Hi) as S1. unfold eq_var in S1. rewrite Ea, Sn in S1. unfold MAIN, main. rewrite S1. cbn.
    pose proof (build_ok scr dims_same halo_same bundle bundle_scratch regex dir d eqs Hdir Hd Hleg Hdis) as B. rewrite HB in B. destruct B as (_ & BC & _). apply m_stage in Hn as (b & Hb & Hn).
    assert (X : In i (concat (stage_blocks ps ss))) by (apply in_concat; exists (block ps ss b); split; [unfold stage_blocks; apply in_map; exact Hb|exact (blk_part b n i Hn Hi)]).
    apply (Permutation_in _ BC) in X. apply filter_In in X as (X1 & X). unfold kept in X. destruct (p_eq n i (proj2 (m_stage n) (ex_intro _ b (conj Hb Hn))) Hi) as (e' & _ & E1 & A1 & _). rewrite E1 in X. assert (e' = e) by congruence. subst e'. cbv iota beta in X. rewrite Ea, S1 in X. exact X.
  Qed.

  (* one step: the stages one after the other *)
  Let A := filter (fun a => negb (sscr a)) (g_all sg).
  Variable t : Z.
  Variable rank : list (Z * Z).
  Hypothesis Hrank : length rank = length ddims.
  Let SR := stage_result zero alloc st scr COND t rank (ORD t).
  Fixpoint chain (l : list Z) (m m' : cell -> V) : Prop :=
    match l with [] => Ref_Spec.same_vars scr m m' | a :: r => exists m1, SR (STG t a) m m1 /\ chain r m1 m' end.
  Definition writes (l : list Z) (c : cell) : Prop :=
    exists a n j p, In a l /\ In n (c_get sitems a) /\ In j (c_get items n) /\ in_box rank p = true /\ on COND (KP t n) p = true /\ c = (eq_var eqs j, (t + dir) mod alloc (eq_var eqs j), p).
  Lemma inA : forall a, In a A <-> In a (g_all sg) /\ sscr a = false.
  Proof. intros a. unfold A. rewrite filter_In. destruct (sscr a); cbn; intuition congruence. Qed.
  Lemma stage_frame : forall a m m', In a A -> SR (STG t a) m m' -> forall c, scr (fst (fst c)) = false -> ~ writes [a] c -> m' c = m c.
  Proof.
    intros a m m' Ha (X & _ & _ & F) c Sc N. apply inA in Ha as (Ha & Sa). apply F; [exact Sc|]. intros sp p Hsp Hp On Hc. apply N. apply (in_stg t a sp Ha Sa) in Hsp as (n & Hn & ->). apply in_wrs in Hc as (j & Hj & ->). change (mp_id (KP t n)) with n in Hj.
    destruct (stg_part a n Ha Sa Hn) as (Hnp & Sn). exists a, n, j, p. split; [left; reflexivity|]. repeat (split; [assumption|]). apply (lhs_cell n j t p Hnp Hj Sn).
  Qed.
  Lemma chain_frame : forall l m m', incl l A -> chain l m m' -> forall c, scr (fst (fst c)) = false -> ~ writes l c -> m' c = m c.
  Proof.
    induction l as [|a l IH]; intros m m' Hi Hc c Sc N; [apply Hc; exact Sc|]. destruct Hc as (m1 & H1 & H2). rewrite (IH m1 m'); [|intros x Hx; apply Hi; right; exact Hx|exact H2|exact Sc|].
    - apply (stage_frame a m m1); [apply Hi; left; reflexivity|exact H1|exact Sc|]. intros (b & n & j & p & [<-|[]] & W). apply N. exists a, n, j, p. split; [left; reflexivity|exact W].
    - intros (b & n & j & p & Hb & W). apply N. exists b, n, j, p. split; [right; exact Hb|exact W].
  Qed.
  Lemma chain_split : forall l1 a l2 m m', chain (l1 ++ a :: l2) m m' -> exists m1 m2, chain l1 m m1 /\ SR (STG t a) m1 m2 /\ chain l2 m2 m'.
  Proof.
    induction l1 as [|b l1 IH]; intros a l2 m m' H.
    - destruct H as (m2 & H1 & H2). exists m, m2. split; [intros c _; reflexivity|]. split; assumption.
    - destruct H as (m0 & H1 & H2). apply IH in H2 as (m1 & m2 & H3 & H4 & H5). exists m1, m2. split; [exists m0; split; assumption|split; assumption].
  Qed.
  Lemma A_split : forall l1 a l2, A = l1 ++ a :: l2 -> In a (g_all sg) /\ sscr a = false /\ incl l1 A /\ incl l2 A /\ ~ In a l1 /\ ~ In a l2.
  Proof.
    intros l1 a l2 E. assert (Ha : In a A) by (rewrite E; apply in_elt). apply inA in Ha as (Ha & Sa). split; [exact Ha|]. split; [exact Sa|].
    split; [intros x Hx; rewrite E; apply in_or_app; left; exact Hx|]. split; [intros x Hx; rewrite E; apply in_or_app; right; right; exact Hx|].
    assert (ND : NoDup A) by apply NoDup_filter, nd_stages. rewrite E in ND. apply NoDup_remove_2 in ND. rewrite in_app_iff in ND. tauto.
  Qed.
  (* a stage before another in the list of all stages is before it in A *)
  Lemma A_order : forall l1 a l2 x, A = l1 ++ a :: l2 -> In x A -> (forall S1 S2, g_all sg = S1 ++ a :: S2 -> In x S1) -> In x l1.
  Proof.
    intros l1 a l2 x E Hx Hb. destruct (A_split l1 a l2 E) as (Ha & Sa & _ & _ & N1 & N2). apply in_split in Ha as (S1 & S2 & Eg). pose proof (Hb S1 S2 Eg) as H1. pose proof nd_stages as ND. rewrite Eg in ND.
    assert (EA : l1 ++ a :: l2 = filter (fun a => negb (sscr a)) S1 ++ a :: filter (fun a => negb (sscr a)) S2) by (rewrite <- E; unfold A; rewrite Eg, filter_app; cbn; rewrite Sa; reflexivity).
    apply inA in Hx as (_ & Sx). assert (Hx : In x (filter (fun a => negb (sscr a)) S1)) by (apply filter_In; split; [exact H1|rewrite Sx; reflexivity]).
    assert (NS : ~ In a (filter (fun a => negb (sscr a)) S1)) by (intros H; apply filter_In in H as (H & _); refine (nodup_app_disj _ _ _ a ND H _); left; reflexivity).
    clear - EA Hx N1 NS. revert EA Hx N1 NS. generalize (filter (fun a0 => negb (sscr a0)) S1), (filter (fun a0 => negb (sscr a0)) S2). revert l2. induction l1 as [|y l1 IH]; intros l2 [|z f] g EA Hx N1 NS; cbn in EA.
    - exact Hx.
    - injection EA as -> _. exfalso. apply NS. left. reflexivity.
    - contradiction.
    - injection EA as -> EA. destruct Hx as [->|Hx]; [left; reflexivity|right]. apply (IH l2 f g EA Hx); [intros H; apply N1; right; exact H|intros H; apply NS; right; exact H].
  Qed.

  (* what an equation of the stage a, or of a scratch part it requires, reads from vars that are not scratch vars *)
  Definition under (a n : Z) : Prop := In n (c_get sitems a) \/ exists sp, In sp (c_get sitems a) /\ h_pdep ps sp n = true.
  Lemma rd_later : forall l1 a l2 n i e r p c, A = l1 ++ a :: l2 -> under a n -> In n (g_all pg) -> In i (c_get items n) -> eq_at eqs i = e -> In r (e_rhs e) -> scr (p_var r) = false ->
    c = cell_of alloc (rd_elem vdims ddims t p r) -> p_step r = Some dir -> ~ writes (a :: l2) c.
  Proof.
    intros l1 a l2 n i e r p c EA U Hn Hi Ea Hr Sr -> Hs (x & n' & j & p' & Hx & Hn' & Hj & _ & _ & Ec). destruct (A_split _ _ _ EA) as (Ha & Sa & _ & I2 & N1 & N2).
    assert (HxA : In x A) by (destruct Hx as [<-|Hx]; [apply inA; auto|apply I2; exact Hx]). pose proof HxA as HxA'. apply inA in HxA' as (Hxs & Sx). destruct (stg_part x n' Hxs Sx Hn') as (Hnp' & Sn').
    destruct (p_eq n i Hn Hi) as (e0 & P1 & E1 & A1 & I1). rewrite Ea in A1; subst e0. destruct (p_eq n' j Hnp' Hj) as (e' & P2 & E2 & A2 & I2').
    assert (Ev : p_var r = p_var (e_lhs e')) by (apply (f_equal (fun c => fst (fst c))) in Ec; cbn in Ec; rewrite Ec; unfold eq_var; rewrite A2; reflexivity).
    assert (N : needs scr eqs i j).
    { exists e, e', r. repeat (split; [assumption|]). split; [|intros _; rewrite (sy_misc _ _ _ _ _ _ _ _ Hsys e r I1 (or_intror Hr)), (sy_misc _ _ _ _ _ _ _ _ Hsys e' _ I2' (or_introl eq_refl)); reflexivity].
      pose proof Hleg as G. rewrite Forall_forall in G. destruct (G e' I2') as ((_ & Hl) & _). rewrite Hs, Hl, <- Ev, Sr. reflexivity. }
    assert (L : In x l1).
    { apply (A_order l1 a l2 x EA HxA). intros S1 S2 Eg. destruct U as [U|(sp & Hsp & D)].
      - exact (stage_order x a i j Hxs Ha (blk_part a n i U Hi) (blk_part x n' j Hn' Hj) N S1 S2 Eg).
      - apply m_stage in Hn as (b & Hb & Hn). pose proof (m_sdep sp n D a b Ha Hb Hsp Hn) as SD. pose proof (m_sbefore a b SD S1 S2 Eg) as HbS. apply in_split in HbS as (U1 & U2 & ->). rewrite <- app_assoc in Eg. apply in_or_app. left.
        exact (stage_order x b i j Hxs Hb (blk_part b n i Hn Hi) (blk_part x n' j Hn' Hj) N U1 (U2 ++ a :: S2) Eg). }
    destruct Hx as [<-|Hx]; [exact (N1 L)|]. assert (ND : NoDup A) by apply NoDup_filter, nd_stages. rewrite EA in ND. refine (nodup_app_disj _ _ _ x ND L _). right. exact Hx.
  Qed.
  Lemma rd_old : forall l n i e r p c, incl l A -> In n (g_all pg) -> In i (c_get items n) -> eq_at eqs i = e -> In r (e_rhs e) -> scr (p_var r) = false ->
    c = cell_of alloc (rd_elem vdims ddims t p r) -> p_step r <> Some dir -> writes l c -> exists x, In x l /\ In n (c_get sitems x).
  Proof.
    intros l n i e r p c Hl Hn Hi Ea Hr Sr -> Hs (x & n' & j & p' & Hx & Hn' & Hj & _ & _ & Ec). pose proof (Hl x Hx) as HxA. apply inA in HxA as (Hxs & Sx). destruct (stg_part x n' Hxs Sx Hn') as (Hnp' & Sn').
    destruct (p_eq n i Hn Hi) as (e0 & P1 & E1 & A1 & I1). rewrite Ea in A1; subst e0. destruct (p_eq n' j Hnp' Hj) as (e' & P2 & E2 & A2 & I2').
    assert (Ev : p_var r = p_var (e_lhs e')) by (apply (f_equal (fun c => fst (fst c))) in Ec; cbn in Ec; rewrite Ec; unfold eq_var; rewrite A2; reflexivity).
    destruct (sy_room _ _ _ _ _ _ _ _ Hsys _ _ e e' r E1 E2 Hr Ev Sr) as (s & Es & Hroom). destruct Hroom as [->|[NZ|(IJ & _)]]; [contradiction| |].
    - exfalso. apply NZ. apply (f_equal (fun c => snd (fst c))) in Ec. cbn in Ec. rewrite Es in Ec. cbn in Ec. unfold eq_var in Ec. rewrite A2, <- Ev in Ec. replace (s - dir) with ((t + s) - (t + dir)) by lia. rewrite Zminus_mod, Ec, Z.sub_diag. apply Zmod_0_l.
    - assert (i = j) by lia. subst j. assert (n = n') by exact (m_part1 i n n' Hn Hnp' Hi Hj). subst n'. exists x. auto.
  Qed.
  Lemma scr_writes : forall l c, incl l A -> writes l c -> scr (fst (fst c)) = false.
  Proof. intros l c Hl (x & n & j & p & Hx & Hn & Hj & _ & _ & ->). pose proof (Hl x Hx) as HxA. apply inA in HxA as (Hxs & Sx). destruct (stg_part x n Hxs Sx Hn) as (Hnp & Sn). cbn. rewrite (p_scr n j Hnp Hj). exact Sn. Qed.

  (* the scratch values of the stage a are those of the memory after the step *)
  Lemma scr_agree : forall l1 a l2 m1 m2 m' X Y, A = l1 ++ a :: l2 -> SR (STG t a) m1 m2 -> chain l2 m2 m' ->
    scratch_values zero alloc st scr COND t (ORD t) m1 X -> scratch_values zero alloc st scr COND t (ORD t) m' Y ->
    forall k n c, nth_error (ORD t) k = Some (KP t n) -> under a n -> on COND (KP t n) (snd c) = true -> In c (wrs alloc st t (KP t n) (snd c)) -> X c = Y c.
  Proof.
    intros l1 a l2 m1 m2 m' X Y EA HS HC (X1 & X2 & X3) (Y1 & Y2 & Y3). destruct (A_split _ _ _ EA) as (Ha & Sa & I1 & I2 & N1 & N2). pose proof (link_stage_ok t a rank Ha Sa Hrank) as SO.
    induction k as [k IH] using lt_wf_ind. intros n c Hk U On Hc. pose proof (nth_error_In _ _ Hk) as Hq. assert (O : isord n) by (apply in_ord in Hq as (n' & O & E); apply (f_equal mp_id) in E; cbn in E; subst; exact O). destruct (ord_part n O) as (Hn & Sn).
    rewrite (X2 _ _ c Hq On Hc), (Y2 _ _ c Hq On Hc). unfold result. f_equal. apply map_ext_in. intros cr Hcr. destruct (scr (fst (fst cr))) eqn:Sc.
    - pose proof (so_slot _ _ _ _ _ _ _ _ _ SO _ _ _ (in_or_app _ _ _ (or_introl Hq)) Hcr Sc) as Ecr.
      destruct (existsb (fun q => on COND q (snd cr) && existsb (Z.eqb (fst (fst cr))) (mp_outs q)) (ORD t)) eqn:Ex.
      + apply existsb_exists in Ex as (q' & Hq' & Ex). apply andb_prop in Ex as (On' & Ov). apply has_existsb in Ov. pose proof (so_before _ _ _ _ _ _ _ _ _ SO _ _ _ _ Hq Hcr Hq' Ov) as (B1 & B2 & EB & HB2).
        pose proof Hq' as Hq0. apply in_ord in Hq0 as (n' & O' & ->). destruct (ord_part n' O') as (Hn' & Sn').
        apply (IH (length B1)) with (n := n'); [| | |exact On'|].
        * assert (NDO : NoDup (ORD t)) by apply nodup_ord. apply In_nth_error in HB2 as (k2 & Hk2). assert (Ek : nth_error (ORD t) (length B1 + S k2) = Some (KP t n)) by (rewrite EB, nth_error_app2 by lia; replace (length B1 + S k2 - length B1)%nat with (S k2) by lia; exact Hk2).
          assert (k = (length B1 + S k2)%nat); [|lia]. apply (proj1 (NoDup_nth_error (ORD t)) NDO); [apply nth_error_Some; congruence|congruence].
        * rewrite EB, nth_error_app2, Nat.sub_diag by lia. reflexivity.
        * apply in_outs in Ov as (_ & j & Hj & Ev). apply in_rds in Hcr as (i & r & Hi & Hr & ->). change (mp_id (KP t n)) with n in Hi. assert (Ev' : eq_var eqs j = p_var r) by (rewrite <- Ev; reflexivity). assert (Sr : scr (p_var r) = true) by exact Sc.
          destruct (feeder n i r n' j Hn Hn' Hi Hr Hj Ev' Sr) as (D & _). right. destruct U as [U|(sp & Hsp & D0)]; [exists n; auto|exists sp; split; [exact Hsp|exact (s_trans sp n n' D0 D)]].
        * apply (so_scr_wr _ _ _ _ _ _ _ _ _ SO _ _ _ Hq'). exists (fst (fst cr)). auto.
      + assert (Z0 : forall q, In q (ORD t) -> on COND q (snd cr) = true -> ~ In cr (wrs alloc st t q (snd cr))).
        { intros q Hq1 On1 Hw. apply (so_scr_wr _ _ _ _ _ _ _ _ _ SO _ _ _ Hq1) in Hw as (v & Hv & Ev). assert (T : existsb (fun q => on COND q (snd cr) && existsb (Z.eqb (fst (fst cr))) (mp_outs q)) (ORD t) = true); [|congruence].
          apply existsb_exists. exists q. split; [exact Hq1|]. rewrite On1. apply has_existsb. rewrite Ev. exact Hv. }
        rewrite (X3 cr Sc Z0), (Y3 cr Sc Z0). reflexivity.
    - rewrite (X1 cr Sc), (Y1 cr Sc). symmetry. apply in_rds in Hcr as (i & r & Hi & Hr & Ecr). change (mp_id (KP t n)) with n in Hi. assert (Sr : scr (p_var r) = false) by (rewrite Ecr in Sc; exact Sc).
      assert (NW : ~ writes (a :: l2) cr).
      { assert (Q : p_step r = Some dir \/ p_step r <> Some dir) by (destruct (p_step r) as [s|]; [destruct (Z.eq_dec s dir) as [->|Ns]; [left; reflexivity|right; congruence]|right; discriminate]). destruct Q as [Es|Es].
        - exact (rd_later l1 a l2 n i _ r _ cr EA U Hn Hi eq_refl Hr Sr Ecr Es).
        - intros W. assert (IA : incl (a :: l2) A) by (intros y [<-|Hy]; [apply inA; auto|apply I2; exact Hy]). destruct (rd_old (a :: l2) n i _ r _ cr IA Hn Hi eq_refl Hr Sr Ecr Es W) as (x & Hx & Hnx).
          pose proof (IA x Hx) as HxA. apply inA in HxA as (Hxs & Sx). rewrite <- (s_scr x n Hxs Hnx) in Sx. congruence. }
      rewrite (chain_frame l2 m2 m' I2 HC cr Sc); [apply (stage_frame a m1 m2); [apply inA; auto|exact HS|exact Sc|]|]; intros (x & n' & j & p' & Hx & W); apply NW; exists x, n', j, p'; (split; [|exact W]); [destruct Hx as [<-|[]]; left; reflexivity|right; exact Hx].
  Qed.

  Lemma wanted_ord : forall v, wanted scr eqs regex v -> forall n j, In n (g_all pg) -> In j (c_get items n) -> eq_var eqs j = v -> isord n.
  Proof.
    intros v W. induction W as [e r He Hm Hr Sr|e r He Hm W IH Hr Sr]; intros n j Hn Hj Ev; apply In_nth_error in He as (i & Hi).
    - destruct (eq_part i e Hi (or_intror Hm)) as (n0 & Hn0 & Hi0 & Ea & He & S0). assert (Hr' : In r (e_rhs (eq_at eqs (Z.of_nat i)))) by (rewrite Ea; exact Hr).
      destruct (feeder n0 _ r n j Hn0 Hn Hi0 Hr' Hj Ev Sr) as (D & _). exists n0. split; [|exact D]. rewrite S0. unfold main in Hm. destruct (scr (p_var (e_lhs e))); [discriminate|reflexivity].
    - destruct (eq_part i e Hi (or_introl Hm)) as (n0 & Hn0 & Hi0 & Ea & He & S0). assert (Hr' : In r (e_rhs (eq_at eqs (Z.of_nat i)))) by (rewrite Ea; exact Hr).
      destruct (feeder n0 _ r n j Hn0 Hn Hi0 Hr' Hj Ev Sr) as (D & _). assert (Ev0 : eq_var eqs (Z.of_nat i) = p_var (e_lhs e)) by (unfold eq_var; rewrite Ea; reflexivity). destruct (IH n0 _ Hn0 Hi0 Ev0) as (sp & Ns & D0). exists sp. split; [exact Ns|exact (s_trans sp n0 n D0 D)].
  Qed.
  Lemma dir_dec : forall r, p_step r = Some dir \/ p_step r <> Some dir.
  Proof. intros r. destruct (p_step r) as [s|]; [destruct (Z.eq_dec s dir) as [->|Ns]; [left; reflexivity|right; congruence]|right; discriminate]. Qed.
  Lemma read_dir : forall (m m' : cell -> V) (sv : Z -> list Z -> V) p r, scr (p_var r) = false -> p_step r = Some dir -> read scr alloc vdims ddims dir t m m' sv p r = m' (cell_of alloc (rd_elem vdims ddims t p r)).
  Proof. intros m m' sv p r Sr E. unfold read. rewrite Sr, E, Z.eqb_refl. reflexivity. Qed.
  Lemma read_old : forall (m m' : cell -> V) (sv : Z -> list Z -> V) p r, scr (p_var r) = false -> p_step r <> Some dir -> read scr alloc vdims ddims dir t m m' sv p r = m (cell_of alloc (rd_elem vdims ddims t p r)).
  Proof. intros m m' sv p r Sr E. unfold read. rewrite Sr. destruct (p_step r) as [s|]; [|reflexivity]. replace (s =? dir) with false; [reflexivity|]. symmetry. apply Z.eqb_neq. congruence. Qed.

  Theorem step_ok : forall m m', chain A m m' -> step_applied zero scr alloc vdims ddims eqs dcond scond val regex dir t rank m m'.
  Proof.
    intros m m' HC.
    assert (FR : forall c, scr (fst (fst c)) = false ->
       (forall i e p, nth_error eqs i = Some e -> MAIN e = true -> in_box rank p = true -> eq_on dcond scond t p e = true -> c <> cell_of alloc (wr_elem t p (e_lhs e))) -> m' c = m c).
    { intros c Sc N. apply (chain_frame A m m' (incl_refl _) HC c Sc). intros (a & n & j & p & Ha & Hn & Hj & Hp & On & Ec). apply inA in Ha as (Ha & Sa). destruct (stg_part a n Ha Sa Hn) as (Hnp & Sn). destruct (p_eq n j Hnp Hj) as (e & P1 & E1 & A1 & I1).
      refine (N (Z.to_nat j) e p E1 (part_main n j e Hnp Hj Sn A1) Hp _ _); [rewrite <- (p_on n j e t p Hnp Hj A1); exact On|]. rewrite Ec, <- A1. symmetry. apply (lhs_cell n j t p Hnp Hj Sn). }
    destruct (list_eq_dec Z.eq_dec A []) as [E0|E0].
    - exists (fun _ _ => zero). split; [|split; [exact FR|split]].
      + intros i e p Hi Hm. exfalso. destruct (eq_part i e Hi (or_intror Hm)) as (n & Hn & _ & _ & _ & S0). apply m_stage in Hn as (a & Ha & Hn). assert (X : In a A); [|rewrite E0 in X; exact X]. apply inA. split; [exact Ha|]. rewrite <- (s_scr a n Ha Hn), S0. unfold MAIN, main in Hm. destruct (scr (p_var (e_lhs e))); [discriminate|reflexivity].
      + intros i e p Hi Hs W. exfalso. destruct (eq_part i e Hi (or_introl Hs)) as (n & Hn & Hj & Ea & _). assert (O : isord n) by (apply (wanted_ord _ W n _ Hn Hj); unfold eq_var; rewrite Ea; reflexivity). destruct (ord_stage n O) as (a & b & Ha & Sa & _). assert (X : In a A) by (apply inA; auto). rewrite E0 in X. exact X.
      + reflexivity.
    - assert (EX : exists Y, scratch_values zero alloc st scr COND t (ORD t) m' Y).
      { assert (Ha : exists a, In a A) by (destruct A as [|a l]; [contradiction|exists a; left; reflexivity]). destruct Ha as (a & Ha). apply inA in Ha as (Ha & Sa). destruct (scratch_exist zero alloc st scr COND t rank (ORD t) (REQ t) (STG t a) (link_stage_ok t a rank Ha Sa Hrank) m') as (Y & HY & _). exists Y. exact HY. }
      destruct EX as (Y & HY). pose proof HY as (Y1 & Y2 & Y3). exists (fun v p => Y (v, 0, p)).
      assert (RS : forall e r p, In e eqs -> In r (e_rhs e) -> scr (p_var r) = true -> cell_of alloc (rd_elem vdims ddims t p r) = (p_var r, 0, snd (rd_elem vdims ddims t p r))).
      { intros e r p He Hr Sr. pose proof (rd_scr e r t p He Hr Sr) as X. rewrite X. f_equal. apply (f_equal (fun c => snd c)) in X. symmetry. exact X. }
      split; [|split; [exact FR|split]].
      + intros i e p Hi Hm Hp On. destruct (eq_part i e Hi (or_intror Hm)) as (n & Hn & Hj & Ea & He & S0). assert (Sn : a_scr (attr_of n) = false) by (rewrite S0; unfold MAIN, main in Hm; destruct (scr (p_var (e_lhs e))); [discriminate|reflexivity]).
        pose proof Hn as Hn'. apply m_stage in Hn' as (a & Ha & Hna). assert (HaA : In a A) by (apply inA; split; [exact Ha|rewrite <- (s_scr a n Ha Hna); exact Sn]). pose proof HaA as HaA'. apply in_split in HaA' as (l1 & l2 & EA).
        destruct (A_split _ _ _ EA) as (_ & Sa & I1 & I2 & N1 & N2). pose proof HC as HC'. rewrite EA in HC'. apply chain_split in HC' as (m1 & m2 & C1 & CS & C2).
        assert (OnK : on COND (KP t n) p = true) by (rewrite (p_on n _ e t p Hn Hj Ea); exact On).
        assert (Ew : cell_of alloc (wr_elem t p (e_lhs e)) = (eq_var eqs (Z.of_nat i), (t + dir) mod alloc (eq_var eqs (Z.of_nat i)), p)) by (rewrite <- Ea; apply (lhs_cell n _ t p Hn Hj Sn)).
        assert (Sw : scr (eq_var eqs (Z.of_nat i)) = false) by (rewrite (p_scr n _ Hn Hj); exact Sn).
        rewrite (chain_frame l2 m2 m' I2 C2).
        2: { rewrite Ew. exact Sw. }
        2: { rewrite Ew. intros (x & n' & j & p' & Hx & Hn' & Hj' & Hp' & On' & Ec). pose proof (I2 x Hx) as HxA. apply inA in HxA as (Hxs & Sx). destruct (stg_part x n' Hxs Sx Hn') as (Hnp' & _).
             assert (Ev : eq_var eqs (Z.of_nat i) = eq_var eqs j) by (apply (f_equal (fun c => fst (fst c))) in Ec; exact Ec). assert (p = p') by (apply (f_equal (fun c => snd c)) in Ec; exact Ec). subst p'.
             destruct (excl_eq n n' _ j t p Hn Hnp' Hj Hj' Ev OnK On') as (_ & <-). apply N2. rewrite (m_stage1 n a x Ha Hxs Hna Hn'). exact Hx. }
        pose proof CS as (X & HX & W2 & _). pose proof HX as (X1 & X2 & X3).
        rewrite (W2 (KP t n) p); [|apply (in_stg t a _ Ha Sa); exists n; auto|exact Hp|exact OnK|apply in_wrs; exists (Z.of_nat i); split; [exact Hj|rewrite Ea; reflexivity]].
        rewrite (result_eq t p n (Z.of_nat i) p X _ Hn Hj OnK); [|rewrite Ew; reflexivity|reflexivity]. unfold rhs_value. f_equal. rewrite Ea. apply map_ext_in. intros r Hr. destruct (scr (p_var r)) eqn:Sr.
        * unfold read. rewrite Sr, (RS e r p He Hr Sr). set (c := (p_var r, 0, _)).
          pose proof (link_stage_ok t a rank Ha Sa Hrank) as SO.
          destruct (existsb (fun q => on COND q (snd c) && existsb (Z.eqb (p_var r)) (mp_outs q)) (ORD t)) eqn:Ex.
          { apply existsb_exists in Ex as (q' & Hq' & Ex). apply andb_prop in Ex as (On' & Ov). apply has_existsb in Ov. pose proof Hq' as Hq0. apply in_ord in Hq0 as (n' & O' & ->). destruct (ord_part n' O') as (Hn' & Sn'). apply In_nth_error in Hq' as (k & Hk).
            refine (scr_agree l1 a l2 m1 m2 m' X Y EA CS C2 HX HY k n' c Hk _ On' _).
            - pose proof Ov as Ov'. apply in_outs in Ov' as (_ & j & Hj' & Ev). assert (Hr' : In r (e_rhs (eq_at eqs (Z.of_nat i)))) by (rewrite Ea; exact Hr). destruct (feeder n _ r n' j Hn Hn' Hj Hr' Hj' (eq_sym Ev) Sr) as (D & _). right. exists n. auto.
            - apply (so_scr_wr _ _ _ _ _ _ _ _ _ SO); [exact (nth_error_In _ _ Hk)|]. exists (p_var r). auto. }
          assert (Z0 : forall q, In q (ORD t) -> on COND q (snd c) = true -> ~ In c (wrs alloc st t q (snd c))).
          { intros q Hq1 On1 Hw. apply (so_scr_wr _ _ _ _ _ _ _ _ _ SO _ _ _ Hq1) in Hw as (v & Hv & Ev). assert (T : existsb (fun q => on COND q (snd c) && existsb (Z.eqb (p_var r)) (mp_outs q)) (ORD t) = true); [|congruence].
            apply existsb_exists. exists q. split; [exact Hq1|]. rewrite On1. apply has_existsb. injection Ev as ->. exact Hv. }
          rewrite (X3 c Sr Z0), (Y3 c Sr Z0). reflexivity.
        * set (c := cell_of alloc (rd_elem vdims ddims t p r)). assert (Sc : scr (fst (fst c)) = false) by exact Sr. rewrite (X1 c Sc). destruct (dir_dec r) as [Es|Es].
          { rewrite (read_dir _ _ _ p r Sr Es). fold c. symmetry. pose proof (rd_later l1 a l2 n _ e r p c EA (or_introl Hna) Hn Hj Ea Hr Sr eq_refl Es) as NW.
            rewrite (chain_frame l2 m2 m' I2 C2 c Sc); [apply (stage_frame a m1 m2 HaA CS c Sc)|]; intros (x & n' & j & p' & Hx & W); apply NW; exists x, n', j, p'; (split; [|exact W]); [destruct Hx as [<-|[]]; left; reflexivity|right; exact Hx]. }
          { rewrite (read_old _ _ _ p r Sr Es). fold c. apply (chain_frame l1 m m1 I1 C1 c Sc). intros W. destruct (rd_old l1 n _ e r p c I1 Hn Hj Ea Hr Sr eq_refl Es W) as (x & Hx & Hnx). apply N1. pose proof (I1 x Hx) as HxA. apply inA in HxA as (Hxs & _). rewrite (m_stage1 n a x Ha Hxs Hna Hnx). exact Hx. }
      + intros i e p Hi Hs W On. destruct (eq_part i e Hi (or_introl Hs)) as (n & Hn & Hj & Ea & He & S0). rewrite Hs in S0. assert (O : isord n) by (apply (wanted_ord _ W n _ Hn Hj); unfold eq_var; rewrite Ea; reflexivity).
        assert (OnK : on COND (KP t n) p = true) by (rewrite (p_on n _ e t p Hn Hj Ea); exact On).
        assert (Ew : cell_of alloc (wr_elem t p (e_lhs e)) = (p_var (e_lhs e), 0, p)) by (rewrite <- Ea; rewrite (lhs_scr_cell n _ t p Hn Hj S0); unfold eq_var; reflexivity).
        rewrite (Y2 (KP t n) p); [|apply in_ord; exists n; auto|exact OnK|apply in_wrs; exists (Z.of_nat i); split; [exact Hj|rewrite Ea; symmetry; exact Ew]].
        rewrite (result_eq t p n (Z.of_nat i) p Y _ Hn Hj OnK); [|unfold eq_var; rewrite Ea; reflexivity|reflexivity]. unfold rhs_value. f_equal. rewrite Ea. apply map_ext_in. intros r Hr. destruct (scr (p_var r)) eqn:Sr.
        * unfold read. rewrite Sr, (RS e r p He Hr Sr). reflexivity.
        * set (c := cell_of alloc (rd_elem vdims ddims t p r)). assert (Sc : scr (fst (fst c)) = false) by exact Sr. rewrite (Y1 c Sc). destruct (dir_dec r) as [Es|Es]; [rewrite (read_dir _ _ _ p r Sr Es); reflexivity|]. rewrite (read_old _ _ _ p r Sr Es). fold c.
          apply (chain_frame A m m' (incl_refl _) HC c Sc). intros Wr. destruct (rd_old A n _ e r p c (incl_refl _) Hn Hj Ea Hr Sr eq_refl Es Wr) as (x & Hx & Hnx). apply inA in Hx as (Hxs & Sx). rewrite <- (s_scr x n Hxs Hnx) in Sx. congruence.
      + intros v p Sv W Hno. apply Y3; [exact Sv|]. cbn [fst snd]. intros q Hq On Hw. apply in_ord in Hq as (n & O & ->). destruct (ord_part n O) as (Hn & Sn). apply in_wrs in Hw as (j & Hj & Ec). change (mp_id (KP t n)) with n in Hj. destruct (p_eq n j Hn Hj) as (e & P1 & E1 & A1 & I1).
        rewrite (p_on n j e t p Hn Hj A1) in On. assert (Ev : p_var (e_lhs e) = v) by (apply (f_equal (fun c => fst (fst c))) in Ec; rewrite A1 in Ec; symmetry; exact Ec). rewrite (Hno e I1 Ev) in On. discriminate.
  Qed.

  (* the equations leave no choice *)
  Lemma on_dec : forall v p, (exists i e, nth_error eqs i = Some e /\ p_var (e_lhs e) = v /\ eq_on dcond scond t p e = true) \/ (forall e, In e eqs -> p_var (e_lhs e) = v -> eq_on dcond scond t p e = false).
  Proof.
    intros v p. destruct (existsb (fun e => (p_var (e_lhs e) =? v) && eq_on dcond scond t p e) eqs) eqn:E.
    - left. apply existsb_exists in E as (e & He & E). apply andb_prop in E as (E1 & E2). apply Z.eqb_eq in E1. apply In_nth_error in He as (i & Hi). exists i, e. auto.
    - right. intros e He Hv. destruct (eq_on dcond scond t p e) eqn:O; [|reflexivity]. assert (X : existsb (fun e => (p_var (e_lhs e) =? v) && eq_on dcond scond t p e) eqs = true); [|congruence]. apply existsb_exists. exists e. split; [exact He|]. rewrite Hv, Z.eqb_refl, O. reflexivity.
  Qed.
  Lemma main_writes : forall i e p, nth_error eqs i = Some e -> MAIN e = true -> in_box rank p = true -> eq_on dcond scond t p e = true -> writes A (cell_of alloc (wr_elem t p (e_lhs e))).
  Proof.
    intros i e p Hi Hm Hp On. destruct (eq_part i e Hi (or_intror Hm)) as (n & Hn & Hj & Ea & He & S0). assert (Sn : a_scr (attr_of n) = false) by (rewrite S0; unfold MAIN, main in Hm; destruct (scr (p_var (e_lhs e))); [discriminate|reflexivity]).
    pose proof Hn as Hn'. apply m_stage in Hn' as (a & Ha & Hna). exists a, n, (Z.of_nat i), p. split; [apply inA; split; [exact Ha|rewrite <- (s_scr a n Ha Hna); exact Sn]|]. split; [exact Hna|]. split; [exact Hj|]. split; [exact Hp|].
    split; [rewrite (p_on n _ e t p Hn Hj Ea); exact On|]. rewrite <- Ea. apply (lhs_cell n _ t p Hn Hj Sn).
  Qed.
  Lemma writes_main : forall l c, incl l A -> writes l c -> exists i e p, nth_error eqs i = Some e /\ MAIN e = true /\ in_box rank p = true /\ eq_on dcond scond t p e = true /\ c = cell_of alloc (wr_elem t p (e_lhs e)) /\
    exists a n, In a l /\ In n (c_get sitems a) /\ In (Z.of_nat i) (c_get items n) /\ eq_at eqs (Z.of_nat i) = e /\ In n (g_all pg) /\ In e eqs.
  Proof.
    intros l c Hl (a & n & j & p & Ha & Hn & Hj & Hp & On & ->). pose proof (Hl a Ha) as HA. apply inA in HA as (Hs & Sa). destruct (stg_part a n Hs Sa Hn) as (Hnp & Sn). destruct (p_eq n j Hnp Hj) as (e & P1 & E1 & A1 & I1).
    exists (Z.to_nat j), e, p. split; [exact E1|]. split; [exact (part_main n j e Hnp Hj Sn A1)|]. split; [exact Hp|]. split; [rewrite <- (p_on n j e t p Hnp Hj A1); exact On|]. split; [rewrite <- A1; symmetry; apply (lhs_cell n j t p Hnp Hj Sn)|].
    exists a, n. rewrite Z2Nat.id by exact P1. auto 10.
  Qed.
  Lemma writes_dec : forall c, writes A c \/ ~ writes A c.
  Proof.
    intros c. assert (CD : forall x y : cell, {x = y} + {x <> y}) by (repeat decide equality).
    destruct (existsb (fun e => MAIN e && in_box rank (snd c) && eq_on dcond scond t (snd c) e && (if CD c (cell_of alloc (wr_elem t (snd c) (e_lhs e))) then true else false)) eqs) eqn:E.
    - left. apply existsb_exists in E as (e & He & E). apply andb_prop in E as (E & E4). apply andb_prop in E as (E & E3). apply andb_prop in E as (E1 & E2). destruct (CD _ _) as [->|]; [|discriminate]. apply In_nth_error in He as (i & Hi). exact (main_writes i e _ Hi E1 E2 E3).
    - right. intros W. destruct (writes_main A c (incl_refl _) W) as (i & e & p & Hi & Hm & Hp & On & Ec & _). assert (Sp : snd c = p) by (rewrite Ec; reflexivity).
      assert (X : existsb (fun e => MAIN e && in_box rank (snd c) && eq_on dcond scond t (snd c) e && (if CD c (cell_of alloc (wr_elem t (snd c) (e_lhs e))) then true else false)) eqs = true); [|congruence].
      apply existsb_exists. exists e. split; [exact (nth_error_In _ _ Hi)|]. rewrite Sp, Hm, Hp, On. destruct (CD _ _) as [|N]; [reflexivity|]. contradiction.
  Qed.
  Let RV := rhs_value scr alloc vdims ddims val dir t.
  Definition new_ok (m m' : cell -> V) (sv : Z -> list Z -> V) : Prop :=
    forall i e p, nth_error eqs i = Some e -> MAIN e = true -> in_box rank p = true -> eq_on dcond scond t p e = true -> m' (cell_of alloc (wr_elem t p (e_lhs e))) = RV m m' sv p i e.
  Definition old_ok (m m' : cell -> V) : Prop := forall c, scr (fst (fst c)) = false -> ~ writes A c -> m' c = m c.
  Definition scr_ok (m m' : cell -> V) (sv : Z -> list Z -> V) : Prop :=
    (forall i e p, nth_error eqs i = Some e -> scr (p_var (e_lhs e)) = true -> wanted scr eqs regex (p_var (e_lhs e)) -> eq_on dcond scond t p e = true -> sv (p_var (e_lhs e)) p = RV m m' sv p i e) /\
    (forall v p, scr v = true -> wanted scr eqs regex v -> (forall e, In e eqs -> p_var (e_lhs e) = v -> eq_on dcond scond t p e = false) -> sv v p = zero).
  Section Two.
    Variables (m M1 M2 : cell -> V) (v1 v2 : Z -> list Z -> V).
    Hypothesis N1 : new_ok m M1 v1.
    Hypothesis N2 : new_ok m M2 v2.
    Hypothesis F1 : old_ok m M1.
    Hypothesis F2 : old_ok m M2.
    Hypothesis S1 : scr_ok m M1 v1.
    Hypothesis S2 : scr_ok m M2 v2.
    Lemma two_read : forall l1 a l2 n i e r p, A = l1 ++ a :: l2 -> (forall c, writes l1 c -> M1 c = M2 c) -> under a n -> In n (g_all pg) -> In i (c_get items n) -> eq_at eqs i = e -> In r (e_rhs e) -> scr (p_var r) = false ->
      read scr alloc vdims ddims dir t m M1 v1 p r = read scr alloc vdims ddims dir t m M2 v2 p r.
    Proof using All.
      intros l1 a l2 n i e r p EA IH U Hn Hi Ea Hr Sr. destruct (dir_dec r) as [Es|Es]; [|rewrite !read_old by assumption; reflexivity]. rewrite !read_dir by assumption. set (c := cell_of alloc (rd_elem vdims ddims t p r)).
      pose proof (rd_later l1 a l2 n i e r p c EA U Hn Hi Ea Hr Sr eq_refl Es) as NW. assert (Sc : scr (fst (fst c)) = false) by exact Sr. destruct (writes_dec c) as [W|W].
      - apply IH. destruct W as (x & n' & j & p' & Hx & W). rewrite EA in Hx. apply in_app_or in Hx as [Hx|Hx]; [exists x, n', j, p'; auto|]. exfalso. apply NW. exists x, n', j, p'. auto.
      - rewrite (F1 c Sc W), (F2 c Sc W). reflexivity.
    Qed.
    Lemma two_scr : forall l1 a l2, A = l1 ++ a :: l2 -> (forall c, writes l1 c -> M1 c = M2 c) ->
      forall k n j p, nth_error (ORD t) k = Some (KP t n) -> under a n -> In j (c_get items n) -> wanted scr eqs regex (eq_var eqs j) -> on COND (KP t n) p = true -> v1 (eq_var eqs j) p = v2 (eq_var eqs j) p.
    Proof using All.
      intros l1 a l2 EA IHw. induction k as [k IH] using lt_wf_ind. intros n j p Hk U Hj W On. pose proof (nth_error_In _ _ Hk) as Hq. assert (O : isord n) by (apply in_ord in Hq as (n' & O & E); apply (f_equal mp_id) in E; cbn in E; subst; exact O). destruct (ord_part n O) as (Hn & Sn).
      destruct (p_eq n j Hn Hj) as (e & P1 & E1 & A1 & I1). assert (Ev : eq_var eqs j = p_var (e_lhs e)) by (unfold eq_var; rewrite A1; reflexivity). assert (Sv : scr (p_var (e_lhs e)) = true) by (rewrite <- Ev, (p_scr n j Hn Hj); exact Sn).
      rewrite (p_on n j e t p Hn Hj A1) in On. rewrite Ev in *. rewrite (proj1 S1 _ e p E1 Sv W On), (proj1 S2 _ e p E1 Sv W On). unfold RV, rhs_value. f_equal. apply map_ext_in. intros r Hr. destruct (scr (p_var r)) eqn:Sr; [|exact (two_read l1 a l2 n j e r p EA IHw U Hn Hj A1 Hr Sr)].
      unfold read. rewrite Sr. assert (Wr : wanted scr eqs regex (p_var r)) by exact (wa_scr scr eqs regex e r I1 Sv W Hr Sr). set (x := snd (rd_elem vdims ddims t p r)).
      destruct (on_dec (p_var r) x) as [(i' & e' & Hi' & Hv' & On')|No]; [|rewrite (proj2 S1 _ x Sr Wr No), (proj2 S2 _ x Sr Wr No); reflexivity].
      assert (Sv' : scr (p_var (e_lhs e')) = true) by (rewrite Hv'; exact Sr). destruct (eq_part i' e' Hi' (or_introl Sv')) as (n' & Hn' & Hj' & Ea' & He' & S0').
      assert (Ev' : eq_var eqs (Z.of_nat i') = p_var r) by (unfold eq_var; rewrite Ea'; exact Hv'). assert (O' : isord n') by exact (wanted_ord _ Wr n' _ Hn' Hj' Ev').
      assert (Hr' : In r (e_rhs (eq_at eqs j))) by (rewrite A1; exact Hr). destruct (feeder n j r n' _ Hn Hn' Hj Hr' Hj' Ev' Sr) as (D & _).
      assert (Hq' : In (KP t n') (ORD t)) by (apply in_ord; exists n'; auto).
      assert (B : before (ORD t) (KP t n') (KP t n)).
      { apply (before_ok t (KP t n) p (cell_of alloc (rd_elem vdims ddims t p r)) (KP t n') Hq); [apply in_rds; exists j, r; auto|exact Hq'|]. apply in_outs. split; [rewrite S0'; exact Sv'|]. exists (Z.of_nat i'). split; [exact Hj'|]. rewrite Ev'. reflexivity. }
      destruct B as (B1 & B2 & EB & HB2). rewrite <- Ev'. apply (IH (length B1)) with (n := n').
      - assert (NDO : NoDup (ORD t)) by apply nodup_ord. apply In_nth_error in HB2 as (k2 & Hk2). assert (Ek : nth_error (ORD t) (length B1 + S k2) = Some (KP t n)) by (rewrite EB, nth_error_app2 by lia; replace (length B1 + S k2 - length B1)%nat with (S k2) by lia; exact Hk2).
        assert (k = (length B1 + S k2)%nat); [|lia]. apply (proj1 (NoDup_nth_error (ORD t)) NDO); [apply nth_error_Some; congruence|congruence].
      - rewrite EB, nth_error_app2, Nat.sub_diag by lia. reflexivity.
      - right. destruct U as [U|(sp & Hsp & D0)]; [exists n; auto|exists sp; split; [exact Hsp|exact (s_trans sp n n' D0 D)]].
      - exact Hj'.
      - rewrite Ev'. exact Wr.
      - rewrite (p_on n' _ e' t x Hn' Hj' Ea'). exact On'.
    Qed.
    Lemma two_stage : forall l1 a l2, A = l1 ++ a :: l2 -> (forall c, writes l1 c -> M1 c = M2 c) -> forall c, writes [a] c -> M1 c = M2 c.
    Proof using All.
      intros l1 a l2 EA IH c W. destruct (A_split _ _ _ EA) as (Ha & Sa & _). assert (IA : incl [a] A) by (intros y [<-|[]]; apply inA; auto).
      destruct (writes_main [a] c IA W) as (i & e & p & Hi & Hm & Hp & On & -> & (a' & n & [<-|[]] & Hna & Hj & Ea & Hn & He)). rewrite (N1 i e p Hi Hm Hp On), (N2 i e p Hi Hm Hp On). unfold RV, rhs_value. f_equal. apply map_ext_in. intros r Hr.
      destruct (scr (p_var r)) eqn:Sr; [|exact (two_read l1 a l2 n _ e r p EA IH (or_introl Hna) Hn Hj Ea Hr Sr)].
      unfold read. rewrite Sr. assert (Wr : wanted scr eqs regex (p_var r)) by exact (wa_main scr eqs regex e r He Hm Hr Sr). set (x := snd (rd_elem vdims ddims t p r)).
      destruct (on_dec (p_var r) x) as [(i' & e' & Hi' & Hv' & On')|No]; [|rewrite (proj2 S1 _ x Sr Wr No), (proj2 S2 _ x Sr Wr No); reflexivity].
      assert (Sv' : scr (p_var (e_lhs e')) = true) by (rewrite Hv'; exact Sr). destruct (eq_part i' e' Hi' (or_introl Sv')) as (n' & Hn' & Hj' & Ea' & He' & S0').
      assert (Ev' : eq_var eqs (Z.of_nat i') = p_var r) by (unfold eq_var; rewrite Ea'; exact Hv'). assert (O' : isord n') by exact (wanted_ord _ Wr n' _ Hn' Hj' Ev').
      assert (Hr' : In r (e_rhs (eq_at eqs (Z.of_nat i)))) by (rewrite Ea; exact Hr). destruct (feeder n _ r n' _ Hn Hn' Hj Hr' Hj' Ev' Sr) as (D & _).
      assert (Hq' : In (KP t n') (ORD t)) by (apply in_ord; exists n'; auto). apply In_nth_error in Hq' as (k & Hk). rewrite <- Ev'. apply (two_scr l1 a l2 EA IH k n' _ x Hk); [right; exists n; auto|exact Hj'|rewrite Ev'; exact Wr|rewrite (p_on n' _ e' t x Hn' Hj' Ea'); exact On'].
    Qed.
    Lemma two_all : forall c, writes A c -> M1 c = M2 c.
    Proof using All.
      assert (G : forall l1 l2, A = l1 ++ l2 -> forall c, writes l1 c -> M1 c = M2 c).
      { induction l1 as [|a l1 IH] using rev_ind; intros l2 EA c W; [destruct W as (x & _ & _ & _ & [] & _)|]. rewrite <- app_assoc in EA. pose proof (IH _ EA) as IH'. destruct W as (x & n & j & p & Hx & W). apply in_app_or in Hx as [Hx|[<-|[]]]; [apply IH'; exists x, n, j, p; auto|].
        apply (two_stage l1 a l2 EA IH'). exists a, n, j, p. split; [left; reflexivity|exact W]. }
      apply (G A []). rewrite app_nil_r. reflexivity.
    Qed.
  End Two.
  Theorem step_unique : forall m M1 M2, step_applied zero scr alloc vdims ddims eqs dcond scond val regex dir t rank m M1 -> step_applied zero scr alloc vdims ddims eqs dcond scond val regex dir t rank m M2 ->
    forall c, scr (fst (fst c)) = false -> M1 c = M2 c.
  Proof.
    intros m M1 M2 (v1 & A1 & B1 & C1) (v2 & A2 & B2 & C2) c Sc.
    assert (OK : forall M, (forall c, scr (fst (fst c)) = false -> (forall i e p, nth_error eqs i = Some e -> main scr regex e = true -> in_box rank p = true -> eq_on dcond scond t p e = true -> c <> cell_of alloc (wr_elem t p (e_lhs e))) -> M c = m c) -> old_ok m M).
    { intros M B c' Sc' NW. apply B; [exact Sc'|]. intros i e p Hi Hm Hp On ->. apply NW. exact (main_writes i e p Hi Hm Hp On). }
    destruct (writes_dec c) as [W|W]; [exact (two_all m M1 M2 v1 v2 A1 A2 (OK M1 B1) (OK M2 B2) C1 C2 c W)|]. rewrite (OK M1 B1 c Sc W), (OK M2 B2 c Sc W). reflexivity.
  Qed.
End Link.
