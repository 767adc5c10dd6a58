(* s10(x) = v1(t,x+1) + 0 IF x < 3;  s10(x) = v1(t,x-1) + 1 IF x > 3;  s12(x) = s10(x-2) + s10(x) + 2;  v1(t+1,x) = s12(x+1) + v1(t,x) + 3;
   v2(t+1,x) = v1(t+1,x-1) + v2(t,x) + 4 in even steps.  Two steps of v1 and one step of v2 are kept.  Rank [0, 8). *)
From Coq Require Import ZifyBool.
From Verif Require Import Base Cover_Spec ParFor_Model Deps_Model Eqs_Model Eqs_Spec Parts_Model Halo_Model Halo_Spec Span_Spec Sched_Spec Bbox_Model Loops_Model Micro_Model Micro_Spec.
From Verif Require Import Ref_Model Ref_Spec Ref_Examples Link_Spec Link_Model LinkRun_Spec.

Definition lx_eqs : list eqn :=
  [mkEqn (mkPt 10 None [0] []) [mkPt 1 (Some 0) [1] []] (Some 1) None [];
   mkEqn (mkPt 10 None [0] []) [mkPt 1 (Some 0) [-1] []] (Some 2) None [];
   mkEqn (mkPt 12 None [0] []) [mkPt 10 None [-2] []; mkPt 10 None [0] []] None None [];
   mkEqn (mkPt 1 (Some 1) [0] []) [mkPt 12 None [1] []; mkPt 1 (Some 0) [0] []] None None [];
   mkEqn (mkPt 2 (Some 1) [0] []) [mkPt 1 (Some 1) [-1] []; mkPt 2 (Some 0) [0] []] None (Some 5) []].
Definition lx_scr (v : Z) : bool := 8 <? v.
Definition lx_alloc (v : Z) : Z := if v =? 1 then 2 else 1.
Definition lx_vdims (v : Z) : list Z := [10].
Definition lx_dcond (c : Z) (p : list Z) : bool := if c =? 1 then hd 0 p <? 3 else 3 <? hd 0 p.
Definition lx_scond (c t : Z) : bool := Z.even t.
Definition lx_val (i t : Z) (p : list Z) (vs : list Z) : Z := zsum vs + i.
Definition lx_build := build lx_scr (fun _ _ => true) (fun _ _ => true) true true (fun _ => true) 1 lx_eqs.
Definition lx_eg := match lx_build with Ok (eg, _, _) => eg | _ => mkGroup [] deps0 deps0 end.
Definition lx_ps := match lx_build with Ok (_, ps, _) => ps | _ => parts0 end.
Definition lx_ss := match lx_build with Ok (_, _, ss) => ss | _ => stages0 end.

Definition lx_dom : list (Z * Z) := [(-5, 12)].
Definition lx_pbs (id : Z) : part_bbs := match part_find_bbs rx_cfg (domain_cond lx_ps lx_dcond id) lx_dom with Ok b => b | _ => mkPB [] 0 [] end.
Definition lx_part (t : Z) : Z -> mpart := k_part lx_vdims [10] lx_eqs lx_ps lx_ss lx_scond lx_pbs t.

Ltac lx_one H := repeat (destruct H as [<-|H]); try contradiction.
Ltac lx_nth i H := destruct i as [|[|[|[|[|i]]]]]; cbn in H; [| | | | |destruct i; discriminate H]; injection H as <-.
Lemma lx_same : Span_Spec.same_vars lx_scr lx_eqs (map (c_get (c_items (ps_clus lx_ps))) (g_all (c_grp (ps_clus lx_ps)))).
Proof.
  assert (F : map (c_get (c_items (ps_clus lx_ps))) (g_all (c_grp (ps_clus lx_ps))) = [[0]; [1]; [2]; [3]; [4]]) by (vm_compute; reflexivity). rewrite F.
  assert (WV : forall i v, writes_var lx_eqs [i] v -> option_map (fun e => p_var (e_lhs e)) (nth_error lx_eqs (Z.to_nat i)) = Some v).
  { intros i v (j & e & [<-|[]] & H2 & H3). rewrite H2. cbn. congruence. }
  assert (VW : forall i v, option_map (fun e => p_var (e_lhs e)) (nth_error lx_eqs (Z.to_nat i)) = Some v -> writes_var lx_eqs [i] v).
  { intros i v H. destruct (nth_error lx_eqs (Z.to_nat i)) as [e|] eqn:E; [|discriminate]. injection H as H. exists i, e. cbn. auto. }
  intros p q v w Hp Hq Sv H1 H2 H3. cbn in Hp, Hq. lx_one Hp; lx_one Hq; try exact H3; apply VW; apply WV in H1, H2, H3; vm_compute in H1, H2, H3 |- *; congruence.
Qed.
Lemma lx_system : system_ok lx_scr lx_alloc lx_vdims [10] lx_eqs lx_dcond lx_scond 1.
Proof.
  constructor.
  - intros e _ k Hk. exact Hk.
  - intros e p He Hp. cbn in He. lx_one He; cbn in Hp; lx_one Hp; reflexivity.
  - intros e r He Hr Sr. cbn in He. lx_one He; cbn in Hr; lx_one Hr; try discriminate Sr; [exists (nth 0 lx_eqs eqn0)|exists (nth 0 lx_eqs eqn0)|exists (nth 2 lx_eqs eqn0)]; cbn; auto 10.
  - intros i j e e' t p Hi Hj. lx_nth i Hi; lx_nth j Hj; cbn; intros E O1 O2; try discriminate E; try reflexivity; unfold eq_on, lx_dcond in *; cbn in *; lia.
  - intros i j e e' r Hi Hj Hr E Sr. lx_nth i Hi; cbn in Hr; lx_one Hr; try discriminate Sr; lx_nth j Hj; cbn in E; try discriminate E; cbn;
      first [exists 1; split; [reflexivity|left; reflexivity]|exists 0; split; [reflexivity|right; left; vm_compute; discriminate]|exists 0; split; [reflexivity|right; right; split; [reflexivity|repeat constructor]]].
Qed.
Lemma lx_compiled : compiled lx_scr (fun _ _ => true) (fun _ _ => true) true true (fun _ => true) 1 1 lx_eqs lx_vdims [10] lx_alloc lx_dcond lx_scond lx_eg lx_ps lx_ss.
Proof.
  constructor.
  - left. reflexivity.
  - right. reflexivity.
  - unfold lx_eqs. repeat apply Forall_cons; try apply Forall_nil; (split; [split; [repeat constructor|reflexivity]|]); intros _ _ r s Hr Hs; cbn in Hr; repeat (destruct Hr as [<-|Hr]; [cbn in Hs; try discriminate; injection Hs as <-; lia|]); contradiction.
  - intros i j e e' Hi Hj N L. lx_nth i Hi; lx_nth j Hj; try congruence; cbn in L; try discriminate; cbn; (split; [intros (X & _); discriminate|split; intros (X & _); discriminate]).
  - split; [intros v; repeat constructor; cbn; tauto|]. intros e p He Hp. cbn in He. lx_one He; cbn in Hp; repeat (destruct Hp as [<-|Hp]; [split; [reflexivity|cbn; congruence || reflexivity]|]); contradiction.
  - exact lx_system.
  - change (build _ _ _ _ _ _ _ _) with lx_build. unfold lx_eg, lx_ps, lx_ss. assert (F : match lx_build with Ok _ => True | _ => False end) by (vm_compute; exact I). destruct lx_build as [((eg & ps) & ss)| | |]; try contradiction. reflexivity.
  - exact lx_same.
Qed.
Definition lx_rank : list (Z * Z) := [(0, 8)].
Lemma lx_kernel : kernel_ok lx_vdims [10] lx_eqs lx_ps lx_ss lx_dcond lx_scond lx_pbs (rx_set false true) lx_rank lx_dom.
Proof.
  assert (G : g_all (c_grp (ps_clus lx_ps)) = [2; 3; 4; 0; 1]) by (vm_compute; reflexivity).
  constructor.
  - apply rx_mset.
  - repeat split.
  - split; [reflexivity|repeat constructor].
  - split; [reflexivity|repeat constructor; cbn; lia].
  - intros t id p Hid. rewrite G in Hid. clear G.
    assert (SP : forall b, in_box b p = true -> (exists l h, b = [(l, h)] /\ -5 <= l /\ h <= 12) -> in_box lx_dom p = true).
    { intros b Hb (l & h & -> & H1 & H2). destruct p as [|x [|y p]]; cbn in Hb |- *; rewrite ?andb_false_r in Hb; try discriminate. unfold in_iv in *. cbn in Hb |- *. clear - Hb H1 H2. lia. }
    assert (E : span (lx_part t id) lx_rank = span (lx_part 0 id) lx_rank) by reflexivity. unfold lx_part in E. rewrite E. intros Hb. apply (SP _ Hb). lx_one Hid; vm_compute; do 2 eexists; split; try reflexivity; split; discriminate.
  - intros id Hid. rewrite G in Hid. exists rx_cfg. split; [cbn; lia|]. lx_one Hid; vm_compute; reflexivity.
  - left. reflexivity.
Qed.

(* the reference run of steps 0 and 1, played on a memory with v1(0, x) = x * x and v2(x) = 100 *)
Definition lx_log : res (list (Z * list event)) :=
  run_ref (k_cond lx_ps lx_dcond) [0] lx_rank (k_reqd lx_vdims [10] lx_eqs lx_ps lx_ss lx_scond lx_pbs) (fun t => concat (k_stages lx_vdims [10] lx_eqs lx_ps lx_ss lx_scond lx_pbs t)) 0 1.
Definition lx_mem (c : cell) : Z := if fst (fst c) =? 1 then hd 0 (snd c) * hd 0 (snd c) else 100.
Definition lx_st : stencil Z := k_stencil lx_vdims [10] lx_eqs lx_ps 0 lx_val.
Definition lx_pt (w : wr) : list (list Z) := match w with WPt p => [p] | WVec _ _ => [] end.
Definition lx_ev (t : Z) (m : cell -> Z) (e : event) : cell -> Z :=
  match e with EvInit v => zeroed 0 v m | EvPart id ws => exec lx_alloc lx_st (map (mkInst t id) (flat_map lx_pt ws)) m end.
Definition lx_do (l : list (Z * list event)) : cell -> Z := fold_left (fun m tl => fold_left (lx_ev (fst tl)) (snd tl) m) l lx_mem.
(* what the equations say *)
Definition lx_s10 (u : Z -> Z) (x : Z) : Z := if x <? 3 then u (x + 1) else if 3 <? x then u (x - 1) + 1 else 0.
Definition lx_s12 (u : Z -> Z) (x : Z) : Z := lx_s10 u (x - 2) + lx_s10 u x + 2.
Definition lx_u1 (u : Z -> Z) (x : Z) : Z := if (0 <=? x) && (x <? 8) then lx_s12 u (x + 1) + u x + 3 else x * x.
