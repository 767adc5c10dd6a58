(* C34: Diagonal halo data is exchanged whenever it is read.
   Full statement, for every read through chains of scratch vars: as C34_dist_partial with [reads] for [plain_reads].
   This is false, see C34_refuted: offsets of the chain that cancel in one dim in the largest and smallest combination need
   not cancel in another combination.  (src/kernel/lib/alloc.cpp skips neighbors at a larger distance than v_l1.) *)
From Verif Require Import Base Deps_Model Deps_Spec Deps_Proofs Eqs_Model Eqs_Spec Parts_Model Parts_Spec Parts_Proofs Halo_Model Halo_Spec Halo_Proofs.

(* An element read at a point x of the box [lo, hi) is outside of the box in at most v_l1 dims, if no offsets cancel in the
   chain that leads to the read; in particular if it is read directly. *)
Theorem C34_dist_partial : forall scr dims_same halo_same bundle bundle_scratch regex dir d eqs,
  dir = 1 \/ dir = -1 -> d = 0 \/ d = dir ->
  Forall (fun e => legal_lhs scr dir e /\ (scr (p_var (e_lhs e)) = false -> dir = 1 -> forall r s, In r (e_rhs e) -> p_step r = Some s -> s <= 1)) eqs ->
  distinct_lhs eqs -> forall vdims, wf_eqs scr vdims eqs ->
  forall eg ps ss, build scr dims_same halo_same bundle bundle_scratch regex d eqs = Ok (eg, ps, ss) ->
  forall a v s o lo hi x, In a (g_all (c_grp (st_clus ss))) -> nth (Z.to_nat a) (st_scr ss) false = false ->
    plain_reads scr vdims eqs (fun i => In i (block ps ss a)) v s o -> (forall k, In k (vdims v) -> lo k <= x k < hi k) ->
    outside (vdims v) lo hi (fun k => x k + o k) <= v_l1 (calc_halos vdims eqs (h_sdep ss) (h_stages ps ss) v).
Proof. exact l1_cover. Qed.
Print Assumptions C34_dist_partial.

(* With one domain dim the full statement holds. *)
Theorem C34_one_dim_partial : forall scr dims_same halo_same bundle bundle_scratch regex dir d eqs,
  dir = 1 \/ dir = -1 -> d = 0 \/ d = dir ->
  Forall (fun e => legal_lhs scr dir e /\ (scr (p_var (e_lhs e)) = false -> dir = 1 -> forall r s, In r (e_rhs e) -> p_step r = Some s -> s <= 1)) eqs ->
  distinct_lhs eqs -> forall vdims, wf_eqs scr vdims eqs ->
  forall eg ps ss, build scr dims_same halo_same bundle bundle_scratch regex d eqs = Ok (eg, ps, ss) ->
  (forall v, (length (vdims v) <= 1)%nat) ->
  forall a v s o lo hi x, In a (g_all (c_grp (st_clus ss))) -> nth (Z.to_nat a) (st_scr ss) false = false ->
    reads scr vdims eqs (fun i => In i (block ps ss a)) v s o -> (forall k, In k (vdims v) -> lo k <= x k < hi k) ->
    outside (vdims v) lo hi (fun k => x k + o k) <= v_l1 (calc_halos vdims eqs (h_sdep ss) (h_stages ps ss) v).
Proof. exact l1_cover_1d. Qed.
Print Assumptions C34_one_dim_partial.

(* s(x,y) = u(t,x+1,y);  u(t+1,x,y) = s(x-1,y) + s(x,y-1): u is read at x+1, y-1 but v_l1 is 1 *)
Definition C34_scr (v : Z) : bool := 8 <? v.
Definition C34_dims (v : Z) : list Z := [10; 11].
Definition C34_eqs : list eqn :=
  [mkEqn (mkPt 1 (Some 1) [0; 0] []) [mkPt 9 None [-1; 0] []; mkPt 9 None [0; -1] []] None None [];
   mkEqn (mkPt 9 None [0; 0] []) [mkPt 1 (Some 0) [1; 0] []] None None []].
Theorem C34_refuted : exists scr dims_same halo_same bundle bundle_scratch regex eqs vdims eg ps ss a v s o lo hi x,
  Forall (fun e => legal_lhs scr 1 e /\ reads_no_future 1 e) eqs /\ distinct_lhs eqs /\ wf_eqs scr vdims eqs /\
  build scr dims_same halo_same bundle bundle_scratch regex 1 eqs = Ok (eg, ps, ss) /\
  In a (g_all (c_grp (st_clus ss))) /\ nth (Z.to_nat a) (st_scr ss) false = false /\
  reads scr vdims eqs (fun i => In i (block ps ss a)) v s o /\ (forall k, In k (vdims v) -> lo k <= x k < hi k) /\
  v_l1 (calc_halos vdims eqs (h_sdep ss) (h_stages ps ss) v) < outside (vdims v) lo hi (fun k => x k + o k).
Proof.
  assert (A1 : Forall (fun e => legal_lhs C34_scr 1 e /\ reads_no_future 1 e) C34_eqs).
  { apply Forall_cons; [|apply Forall_cons; [|apply Forall_nil]]; (split; [split; [repeat constructor|reflexivity]|]); intros r s Hr Hs; cbn in Hr; repeat (destruct Hr as [<-|Hr]; [cbn in Hs; try discriminate; injection Hs as <-; lia|]); contradiction. }
  assert (A2 : distinct_lhs C34_eqs).
  { intros i j e e' Hi Hj N L. destruct i as [|[|[|i]]], j as [|[|[|j]]]; cbn in Hi, Hj; try discriminate; try congruence; injection Hi as <-; injection Hj as <-; discriminate. }
  assert (A3 : wf_eqs C34_scr C34_dims C34_eqs).
  { split; [intros v; repeat constructor; cbn; intuition lia|]. intros e p He Hp. destruct He as [<-|[<-|[]]]; cbn in Hp; repeat (destruct Hp as [<-|Hp]; [split; [reflexivity|cbn; congruence || reflexivity]|]); contradiction. }
  exists C34_scr, (fun _ _ => true), (fun _ _ => true), true, true, (fun _ => true), C34_eqs, C34_dims.
  assert (F : match build C34_scr (fun _ _ => true) (fun _ _ => true) true true (fun _ => true) 1 C34_eqs with Ok (_, ps, ss) =>
     In 0 (g_all (c_grp (st_clus ss))) /\ nth 0 (st_scr ss) false = false /\ block ps ss 0 = [0] /\ v_l1 (calc_halos C34_dims C34_eqs (h_sdep ss) (h_stages ps ss) 1) = 1 | _ => False end) by (vm_compute; auto).
  destruct (build C34_scr (fun _ _ => true) (fun _ _ => true) true true (fun _ => true) 1 C34_eqs) as [((eg & ps) & ss)| | |]; try contradiction. destruct F as (F1 & F2 & F3 & F4).
  exists eg, ps, ss, 0, 1, (Some 0). eexists. exists (fun _ => 0), (fun _ => 4), (fun k => if k =? 10 then 3 else 0).
  split; [exact A1|]. split; [exact A2|]. split; [exact A3|]. split; [reflexivity|]. split; [exact F1|]. split; [exact F2|]. split; [|split].
  - eapply (reads_scratch C34_scr C34_dims C34_eqs _ 9 None _ 1 _ (mkPt 1 (Some 0) [1; 0] [])); [|reflexivity|lia|reflexivity|reflexivity|left; reflexivity].
    eapply (reads_eq C34_scr C34_dims C34_eqs _ 0 _ (mkPt 9 None [0; -1] [])); [rewrite F3; left; reflexivity|reflexivity|right; left; reflexivity].
  - intros k [<-|[<-|[]]]; cbn; lia.
  - rewrite F4. vm_compute. reflexivity.
Qed.
Print Assumptions C34_refuted.
(* the same equations without s(x,y-1) meet the conditions of C34_dist_partial *)
Example C34_plain_ex : exists o, plain_reads C34_scr (fun _ => [10; 11]) C34_eqs (fun i => i = 1) 1 (Some 0) o /\ o 10 = 1.
Proof. eexists. split; [eapply (plain_eq _ _ C34_eqs _ 1 _ (mkPt 1 (Some 0) [1; 0] [])); [reflexivity|reflexivity|left; reflexivity]|reflexivity]. Qed.
