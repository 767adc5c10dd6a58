(* Whole runs: the micro-blocks of all stages of all steps, and the reference run, apply the equations step by step. *)
From Coq Require Import ZifyBool.
From Verif Require Import Base Cover_Spec Loops_Model Deps_Model Eqs_Model Eqs_Spec Parts_Model Parts_Proofs Halo_Spec Span_Spec.
From Verif Require Import Bbox_Model Bbox_Spec Micro_Model Micro_Spec Ref_Model Sched_Spec Ref_Spec RefRun_Proofs Ref_Proofs RefStage_Proofs RefWhole_Proofs Link_Spec Link_Model LinkRun_Spec Link2_Proofs.

Section Gen.
  Context {V : Type} (zero : V) (alloc : Z -> Z) (st : stencil V) (scr : Z -> bool).
  Variable cond : mpart -> list Z -> bool.
  Variables (s : mset) (n : nat) (aofs : list Z) (rank : list (Z * Z)).
  Variables (ord : Z -> list mpart) (reqd : Z -> mpart -> list mpart) (stages : Z -> list (list mpart)) (reg : Z -> mpart -> list Z -> bool).
  Let hit := expands (ms_fi s) (ms_rofs s) (ms_folds s).
  Let GOOD := good alloc st scr cond s n rank ord reqd reg.
  Hypothesis Ha : length aofs = n.
  Notation body t := (fun log ap => if negb (mp_valid ap) then Ok log else rbind (rfold (ref_part cond aofs rank) (reqd t ap) ([], log)) (fun st => Ok (snd st))).
  Fixpoint chainp (t : Z) (pl : list (list mpart)) (m m' : cell -> V) : Prop :=
    match pl with [] => Ref_Spec.same_vars scr m m' | p :: r => exists m1, stage_result zero alloc st scr cond t rank (ord t) p m m1 /\ chainp t r m1 m' end.

  Lemma ref_chain t : forall pl, (forall parts, In parts pl -> GOOD t parts) -> forall log0, exists log, rfold (body t) (concat pl) log0 = Ok (log0 ++ log) /\
    (forall m, exists m', plays zero alloc st hit t log m m') /\ forall m m', plays zero alloc st hit t log m m' -> chainp t pl m m'.
  Proof using Ha.
    induction pl as [|parts pl IH]; intros Hg log0.
    - exists []. cbn. rewrite app_nil_r. split; [reflexivity|]. split; [intros m; exists m; constructor|]. intros m m' P. inversion P; subst. intros c _. reflexivity.
    - pose proof (Hg parts (or_introl eq_refl)) as G1. cbn [concat]. destruct (ref_stage zero alloc st scr cond s n aofs rank ord reqd reg Ha t parts (fun _ => zero) G1 log0) as (log1 & E1 & _).
      destruct (IH (fun p I => Hg p (or_intror I)) (log0 ++ log1)) as (log2 & E2 & X2 & K2). exists (log1 ++ log2). rewrite rfold_app, E1. cbn [rbind]. rewrite E2, app_assoc. split; [reflexivity|].
      assert (K1 : forall m0, (exists m', plays zero alloc st hit t log1 m0 m') /\ forall m', plays zero alloc st hit t log1 m0 m' -> stage_result zero alloc st scr cond t rank (ord t) parts m0 m').
      { intros m0. destruct (ref_stage zero alloc st scr cond s n aofs rank ord reqd reg Ha t parts m0 G1 log0) as (log1' & E1' & K). rewrite E1 in E1'. injection E1' as E1'. apply app_inv_head in E1'. subst log1'. exact K. }
      split.
      + intros m0. destruct (K1 m0) as ((m1 & P1) & _). destruct (X2 m1) as (m2 & P2). exists m2. apply (plays_join _ _ _ _ _ _ _ _ _ _ _ P1 P2).
      + intros m m' P. apply plays_app in P as (mid & Pa & Pb). exists mid. split; [apply (K1 m); exact Pa|apply K2; exact Pb].
  Qed.
  Lemma blk_chain t : forall pl ml, (forall parts, In parts pl -> GOOD t parts) -> run_logs s n rank reqd (map (pair t) pl) ml ->
    forall ml' m mm, plays_stages zero alloc st hit scr (ml ++ ml') m mm -> exists m1, chainp t pl m m1 /\ plays_stages zero alloc st hit scr ml' m1 mm.
  Proof using.
    clear Ha. induction pl as [|parts pl IH]; intros ml Hg R ml' m mm Q.
    - inversion R; subst. exists m. split; [intros c _; reflexivity|exact Q].
    - inversion R as [|? (t' & logs) ? ml2 (Et & dss & B1 & B2) R2]; subst. cbn [fst snd] in *. subst t'. cbn [app] in Q. inversion Q as [|? ? ? ? m2 ? Q1 Q2]; subst.
      destruct (Hg parts (or_introl eq_refl)) as (H & HS). destruct (micro_stage zero alloc st scr cond t rank (ord t) (reqd t) parts s n (reg t) dss H HS B1) as (logs' & B2' & KB).
      assert (logs' = logs).
      { clear -B2 B2'. unfold block_logs in *. revert logs' B2'. induction B2 as [|d l ds ls (a & b & E) B IH]; intros logs' B2'; inversion B2' as [|? l' ? ls' (a' & b' & E') B']; subst; [reflexivity|]. rewrite E in E'. injection E' as _ _ ->. f_equal. apply IH. exact B'. }
      subst logs'. destruct (KB m) as (_ & KB1). destruct (IH ml2 (fun p I => Hg p (or_intror I)) R2 ml' m2 mm Q2) as (m1 & C & Q3). exists m1. split; [|exact Q3]. exists m2. split; [apply KB1; exact Q1|exact C].
  Qed.

  Variable P : Z -> (cell -> V) -> (cell -> V) -> Prop.
  Fixpoint runp (ts : list Z) (m m' : cell -> V) : Prop :=
    match ts with [] => forall c, scr (fst (fst c)) = false -> m' c = m c | t :: r => exists m1, P t m m1 /\ runp r m1 m' end.
  Lemma ref_runp : forall first last, (forall t parts, In t (steps_between first last) -> In parts (stages t) -> GOOD t parts) ->
    (forall t m m', In t (steps_between first last) -> chainp t (stages t) m m' -> P t m m') ->
    exists rl, run_ref cond aofs rank reqd (fun t => concat (stages t)) first last = Ok rl /\ (forall m, exists mr, plays_steps zero alloc st hit rl m mr) /\
      forall m mr, plays_steps zero alloc st hit rl m mr -> runp (steps_between first last) m mr.
  Proof using Ha.
    intros first last. unfold run_ref. rewrite ref_steps_between. generalize (steps_between first last) as ts. intros ts Hg HP.
    assert (G : forall ts acc, (forall t parts, In t ts -> In parts (stages t) -> GOOD t parts) -> (forall t m m', In t ts -> chainp t (stages t) m m' -> P t m m') -> exists rl,
      rfold (fun acc t => rbind (ref_step cond aofs rank (reqd t) (concat (stages t))) (fun log => Ok (acc ++ [(t, log)]))) ts acc = Ok (acc ++ rl) /\
      (forall m, exists mr, plays_steps zero alloc st hit rl m mr) /\ forall m mr, plays_steps zero alloc st hit rl m mr -> runp ts m mr).
    { clear Hg HP ts. induction ts as [|t ts IH]; intros acc Hg HP.
      - exists []. cbn. rewrite app_nil_r. split; [reflexivity|]. split; [intros m; exists m; constructor|]. intros m mr Q. inversion Q; subst. reflexivity.
      - destruct (ref_chain t (stages t) (fun p I => Hg t p (or_introl eq_refl) I) []) as (log & E & X1 & K). cbn [rfold]. unfold ref_step at 1. rewrite E. cbn [app rbind].
        destruct (IH (acc ++ [(t, log)]) (fun t' p I => Hg t' p (or_intror I)) (fun t' m m' I => HP t' m m' (or_intror I))) as (rl & E2 & X2 & K2). exists ((t, log) :: rl). rewrite E2, <- app_assoc. split; [reflexivity|]. split.
        + intros m0. destruct (X1 m0) as (m1 & P1). destruct (X2 m1) as (m2 & P2). exists m2. econstructor; eassumption.
        + intros m mr Q. inversion Q as [|? ? ? ? mid ? P1 P2]; subst. exists mid. split; [apply HP; [left; reflexivity|apply K; exact P1]|apply K2; exact P2]. }
    destruct (G ts [] Hg HP) as (rl & E & K). exists rl. split; [exact E|exact K].
  Qed.
  Lemma blk_runp : forall first last, (forall t parts, In t (steps_between first last) -> In parts (stages t) -> GOOD t parts) ->
    (forall t m m', In t (steps_between first last) -> chainp t (stages t) m m' -> P t m m') ->
    forall ml m mm, run_logs s n rank reqd (stage_seq stages first last) ml -> plays_stages zero alloc st hit scr ml m mm -> runp (steps_between first last) m mm.
  Proof using.
    clear Ha. intros first last. unfold stage_seq. generalize (steps_between first last) as ts. induction ts as [|t ts IH]; intros Hg HP ml m mm R Q.
    - inversion R; subst. inversion Q; subst. cbn. reflexivity.
    - cbn [flat_map] in R. apply Forall2_app_inv_l in R as (l1 & l2 & R1 & R2 & ->). destruct (blk_chain t (stages t) l1 (fun p I => Hg t p (or_introl eq_refl) I) R1 l2 m mm Q) as (m1 & C & Q2). exists m1. split; [apply HP; [left; reflexivity|exact C]|].
      apply (IH (fun t' p I => Hg t' p (or_intror I)) (fun t' m m' I => HP t' m m' (or_intror I)) l2 m1 mm R2 Q2).
  Qed.
End Gen.

Section Run.
  Context {V : Type} (zero : V) (val : Z -> Z -> list Z -> list V -> V).
  Variable scr : Z -> bool.
  Variables dims_same halo_same : Z -> Z -> bool.
  Variables bundle bundle_scratch : bool.
  Variable regex : Z -> bool.
  Variables (dir d : Z) (eqs : list eqn) (vdims : Z -> list Z) (eg : group) (ps : parts) (ss : stages).
  Variables (ddims : list Z) (alloc : Z -> Z) (dcond : Z -> list Z -> bool) (scond : Z -> Z -> bool) (pbs : Z -> part_bbs).
  Hypothesis Hok : compiled scr dims_same halo_same bundle bundle_scratch regex dir d eqs vdims ddims alloc dcond scond eg ps ss.
  Let ORD := k_ord vdims ddims eqs ps ss scond pbs.
  Let REQ := k_reqd vdims ddims eqs ps ss scond pbs.
  Let STG := k_stage vdims ddims eqs ps ss scond pbs.
  Let COND := k_cond ps dcond.
  Let st := k_stencil vdims ddims eqs ps zero val.
  Let sscr (a : Z) := nth (Z.to_nat a) (st_scr ss) false.

  Lemma run_stage_ok : forall t a rank, In a (g_all (c_grp (st_clus ss))) -> sscr a = false -> length rank = length ddims -> stage_ok alloc st scr COND t rank (ORD t) (REQ t) (STG t a).
  Proof.
    destruct Hok as [H1 H2 H3 H4 H5 H6 H7 H8]. exact (link_stage_ok scr dims_same halo_same bundle bundle_scratch regex dir d eqs H1 H2 H3 H4 vdims H5 eg ps ss H7 H8 ddims alloc dcond scond H6 pbs zero val).
  Qed.
  Lemma step_cong : forall t rank m m2 M, (forall c, scr (fst (fst c)) = false -> m2 c = m c) -> step_applied zero scr alloc vdims ddims eqs dcond scond val regex dir t rank m M -> step_applied zero scr alloc vdims ddims eqs dcond scond val regex dir t rank m2 M.
  Proof using.
    intros t rank m m2 M Hm (sv & A & B & C & D).
    assert (R : forall p i e, rhs_value scr alloc vdims ddims val dir t m2 M sv p i e = rhs_value scr alloc vdims ddims val dir t m M sv p i e).
    { intros p i e. unfold rhs_value. f_equal. apply map_ext. intros r. unfold read. destruct (scr (p_var r)) eqn:Sr; [reflexivity|]. assert (Sc : scr (fst (fst (cell_of alloc (rd_elem vdims ddims t p r)))) = false) by exact Sr. destruct (p_step r) as [s'|]; [destruct (s' =? dir); [reflexivity|]|]; apply Hm; exact Sc. }
    exists sv. split; [|split; [|split]].
    - intros i e p Hi Hm' Hp On. rewrite R. apply A; assumption.
    - intros c Sc N. rewrite (Hm c Sc). apply B; assumption.
    - intros i e p Hi Hs W On. rewrite R. apply C; assumption.
    - exact D.
  Qed.
  Theorem run_unique : forall rank, length rank = length ddims -> forall ts m m2 M1 M2, (forall c, scr (fst (fst c)) = false -> m2 c = m c) ->
    run_applied zero scr alloc vdims ddims eqs dcond scond val regex dir rank ts m M1 -> run_applied zero scr alloc vdims ddims eqs dcond scond val regex dir rank ts m2 M2 ->
    forall c, scr (fst (fst c)) = false -> M2 c = M1 c.
  Proof using Hok.
    intros rank L. induction ts as [|t ts IH]; intros m m2 M1 M2 Hm H1 H2 c Sc; [cbn in H1, H2; rewrite (H1 c Sc), (H2 c Sc); apply Hm; exact Sc|].
    destruct H1 as (a1 & A1 & B1), H2 as (a2 & A2 & B2). apply (step_cong t rank m2 m a2) in A2; [|intros c' Sc'; symmetry; apply Hm; exact Sc'].
    refine (IH a1 a2 M1 M2 _ B1 B2 c Sc). intros c' Sc'. destruct Hok as [K1 K2 K3 K4 K5 K6 K7 K8].
    exact (step_unique scr dims_same halo_same bundle bundle_scratch regex dir d eqs K1 K2 K3 K4 vdims K5 eg ps ss K7 K8 ddims alloc dcond scond K6 (fun _ => mkPB [] 0 []) zero val t rank L m a2 a1 A2 A1 c' Sc').
  Qed.
  Variables (s : mset) (aofs : list Z) (rank dom : list (Z * Z)) (first last : Z).
  Hypothesis Ha : length aofs = length ddims.
  Hypothesis Hke : kernel_ok vdims ddims eqs ps ss dcond scond pbs s rank dom.
  Let reg (t : Z) (q : mpart) := region dom (domain_cond ps dcond (mp_id q)).
  Lemma stage_parts : forall t a q, In a (g_all (c_grp (st_clus ss))) -> sscr a = false -> required (REQ t) (STG t a) q -> exists id, q = k_part vdims ddims eqs ps ss scond pbs t id /\ In id (g_all (c_grp (ps_clus ps))).
  Proof.
    intros t a q Ia Sa (sp & Isp & Iq). destruct Hok as [H1 H2 H3 H4 H5 H6 H7 H8].
    apply (in_stg scr dims_same halo_same bundle bundle_scratch regex dir d eqs H1 H2 H3 H4 vdims eg ps ss H7 ddims scond pbs t a sp Ia Sa) in Isp as (id & Hid & ->).
    destruct (stg_part scr dims_same halo_same bundle bundle_scratch regex dir d eqs H1 H2 H3 H4 eg ps ss H7 a id Ia Sa Hid) as (Hp & Sp).
    apply (in_req scr dims_same halo_same bundle bundle_scratch regex dir d eqs H1 H2 H3 H4 vdims eg ps ss H7 ddims scond pbs t id q Sp) in Iq as [->|(id' & D & ->)]; [exists id; auto|]. exists id'. split; [reflexivity|].
    apply (m_dep scr dims_same halo_same bundle bundle_scratch regex dir d eqs H1 H2 H3 H4 eg ps ss H7 id id' D).
  Qed.
  Lemma Hset : forall t parts, In t (steps_between first last) -> In parts (k_stages vdims ddims eqs ps ss scond pbs t) -> setup_ok s (length ddims) rank (ORD t) (REQ t) parts COND (reg t).
  Proof using Hok Hke.
    intros t parts _ Hp. unfold k_stages in Hp. apply in_map_iff in Hp as (a & <- & Ia). apply filter_In in Ia as (Ia & Sa). assert (Sa' : sscr a = false) by (unfold sscr; destruct (nth _ _ _); [discriminate|reflexivity]).
    destruct Hke as [K1 K2 K3 K4 K5 K6 K7]. split; [exact K1|]. split; [exact K2|]. split; [split|].
    - intros q Rq. destruct (stage_parts t a q Ia Sa' Rq) as (id & -> & Hid). split; [|split].
      + intros _. cbn. rewrite !map_length. split; [reflexivity|]. split; [reflexivity|]. split; apply Forall_forall; intros x Hx; apply in_map_iff in Hx as (k & <- & _); apply write_halo_nn.
      + cbn. unfold in_valid_step. destruct (a_sc (part_attr ps id)); [discriminate|reflexivity].
      + destruct (K6 id Hid) as (c & C1 & C2). exists c, (domain_cond ps dcond id), dom. split; [exact C1|]. split; [apply K4|]. split; [apply K4|]. split; [exact C2|]. reflexivity.
    - intros q q' Rq Rq' E. destruct (stage_parts t a q Ia Sa' Rq) as (id & -> & _). destruct (stage_parts t a q' Ia Sa' Rq') as (id' & -> & _). cbn in E. subst. reflexivity.
    - split; [|split; [exact K3|]].
      + intros q p Rq B. destruct (stage_parts t a q Ia Sa' Rq) as (id & -> & Hid). pose proof (K5 t id p Hid B) as D. unfold reg, region, COND, k_cond, in_valid_domain, domain_cond. cbn [mp_id k_part]. rewrite D. destruct (a_dc (part_attr ps id)); reflexivity.
      + destruct K7 as [K7|K7]; [left; exact K7|right]. intros q Iq. destruct Hok as [H1 H2 H3 H4 H5 H6 H7 H8]. apply (in_ord scr dims_same halo_same bundle bundle_scratch regex dir d eqs H1 H2 H3 H4 vdims eg ps ss H7 ddims scond pbs t q) in Iq as (id & O & ->).
        destruct (ord_part scr dims_same halo_same bundle bundle_scratch regex dir d eqs H1 H2 H3 H4 vdims eg ps ss H7 ddims dcond scond pbs id O) as (Hid & Sid). cbn. destruct (K7 id Hid Sid) as (-> & ->). split; reflexivity.
  Qed.
  Let STGS := k_stages vdims ddims eqs ps ss scond pbs.
  Let hit := expands (ms_fi s) (ms_rofs s) (ms_folds s).
  Let APP := run_applied zero scr alloc vdims ddims eqs dcond scond val regex dir rank (steps_between first last).

  Lemma run_good : forall t parts, In t (steps_between first last) -> In parts (STGS t) -> good alloc st scr COND s (length ddims) rank ORD REQ reg t parts.
  Proof.
    intros t parts Ht Hp. pose proof (Hset t parts Ht Hp) as HS. split; [|exact HS]. unfold STGS, k_stages in Hp. apply in_map_iff in Hp as (a & <- & Ha'). apply filter_In in Ha' as (Ha' & Sa). apply run_stage_ok; [exact Ha'|unfold sscr; destruct (nth _ _ _); [discriminate|reflexivity]|]. destruct HS as (_ & _ & _ & _ & (L & _) & _). exact L.
  Qed.
  Lemma run_step : forall t m m', In t (steps_between first last) -> chainp zero alloc st scr COND rank ORD t (STGS t) m m' -> length rank = length ddims -> step_applied zero scr alloc vdims ddims eqs dcond scond val regex dir t rank m m'.
  Proof.
    intros t m m' Ht HC L. destruct Hok as [H1 H2 H3 H4 H5 H6 H7 H8]. apply (step_ok scr dims_same halo_same bundle bundle_scratch regex dir d eqs H1 H2 H3 H4 vdims H5 eg ps ss H7 H8 ddims alloc dcond scond H6 pbs zero val t rank L).
    revert m HC. unfold STGS, k_stages. induction (filter _ _) as [|a l IH]; intros m HC; [exact HC|]. destruct HC as (m1 & C1 & C2). exists m1. split; [exact C1|apply IH; exact C2].
  Qed.
  Theorem run_ok :
    exists rl, run_ref COND aofs rank REQ (fun t => concat (STGS t)) first last = Ok rl /\
      (forall m, exists mr, plays_steps zero alloc st hit rl m mr) /\
      (forall m mr, plays_steps zero alloc st hit rl m mr -> APP m mr) /\
      (forall dsf, (forall (t : Z) (parts : list mpart), blocks_ok (length ddims) rank (dsf t parts)) ->
         exists ml, run_logs s (length ddims) rank REQ (stage_seq STGS first last) ml /\ forall m, exists mm, plays_stages zero alloc st hit scr ml m mm) /\
      (forall ml m mm, run_logs s (length ddims) rank REQ (stage_seq STGS first last) ml -> plays_stages zero alloc st hit scr ml m mm -> APP m mm).
  Proof.
    assert (L : length rank = length ddims) by apply Hke. assert (RS : forall t m m', In t (steps_between first last) -> chainp zero alloc st scr COND rank ORD t (STGS t) m m' -> step_applied zero scr alloc vdims ddims eqs dcond scond val regex dir t rank m m') by (intros; apply run_step; assumption).
    destruct (ref_runp zero alloc st scr COND s (length ddims) aofs rank ORD REQ STGS reg Ha (fun t => step_applied zero scr alloc vdims ddims eqs dcond scond val regex dir t rank) first last run_good RS) as (rl & E & X & K).
    assert (AP : forall ts m m', runp scr (fun t => step_applied zero scr alloc vdims ddims eqs dcond scond val regex dir t rank) ts m m' -> run_applied zero scr alloc vdims ddims eqs dcond scond val regex dir rank ts m m').
    { induction ts as [|t ts IH]; intros m m' H; [exact H|]. destruct H as (m1 & H1 & H2). exists m1. split; [exact H1|apply IH; exact H2]. }
    exists rl. split; [exact E|]. split; [exact X|]. split; [intros m mr Q; apply AP, K; exact Q|]. split.
    - intros dsf B. apply (stages_run zero alloc st scr COND s (length ddims) rank ORD REQ STGS reg first last dsf). intros t parts I1 I2. split; [apply run_good; assumption|apply B].
    - intros ml m mm R Q. apply AP. exact (blk_runp zero alloc st scr COND s (length ddims) rank ORD REQ STGS reg _ first last run_good RS ml m mm R Q).
  Qed.
End Run.
