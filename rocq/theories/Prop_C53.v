(* C53: Evaluating a scratch part over its whole span reads only inside of the halos.
   Full statement: for every scratch part of an accepted solution that some stage needs, every equation i of the part, every read
   r of i and every dim k of its var,
     - halo_size k true (h (p_var r)) <= dim_ofs ... r k - write_halo ... true k   and
     dim_ofs ... r k + write_halo ... false k <= halo_size k false (h (p_var r)).
   This is what C53_spans_partial says with the additional hypothesis [same_vars]: parts that have a scratch var in common write
   the same vars.  C53_one_writer_partial replaces it by: no scratch var is written by two equations.
   Without it the statement is false: calc_halos handles the parts of a scratch stage in list order ("Order doesn't matter because parts within a stage are
   independent"), but two parts that write the same scratch var under different conditions share its halo. *)
From Verif Require Import Base Deps_Model Deps_Spec Deps_Proofs Eqs_Model Eqs_Spec Parts_Model Parts_Spec Parts_Proofs Halo_Model Halo_Spec Halo_Proofs Span_Model Span_Spec Span2_Proofs.

Theorem C53_spans_partial : forall scr dims_same halo_same bundle bundle_scratch regex dir d eqs,
  dir = 1 \/ dir = -1 -> d = 0 \/ d = dir ->
  Forall (fun e => legal_lhs scr dir e /\ (scr (p_var (e_lhs e)) = false -> dir = 1 -> forall r s, In r (e_rhs e) -> p_step r = Some s -> s <= 1)) eqs ->
  distinct_lhs eqs -> forall vdims, wf_eqs scr vdims eqs ->
  forall eg ps ss, build scr dims_same halo_same bundle bundle_scratch regex d eqs = Ok (eg, ps, ss) ->
  same_vars scr eqs (part_blocks ps) ->
  forall a part v s o, In a (g_all (c_grp (st_clus ss))) -> nth (Z.to_nat a) (st_scr ss) false = false ->
    In part (part_blocks ps) -> writes_var eqs part v -> scr v = true -> reads scr vdims eqs (fun i => In i (block ps ss a)) v s o ->
  forall i e r k lo hi x, In i part -> nth_error eqs (Z.to_nat i) = Some e -> In r (e_rhs e) -> In k (vdims (p_var r)) ->
    let h := calc_halos vdims eqs (h_sdep ss) (h_stages ps ss) in
    lo - write_halo vdims eqs h part true k <= x < hi + write_halo vdims eqs h part false k ->
    lo - halo_size k true (h (p_var r)) <= x + dim_ofs (vdims (p_var r)) (p_dom r) k < hi + halo_size k false (h (p_var r)).
Proof. exact span_reads_box. Qed.
Print Assumptions C53_spans_partial.

Theorem C53_one_writer_partial : forall scr dims_same halo_same bundle bundle_scratch regex dir d eqs,
  dir = 1 \/ dir = -1 -> d = 0 \/ d = dir ->
  Forall (fun e => legal_lhs scr dir e /\ (scr (p_var (e_lhs e)) = false -> dir = 1 -> forall r s, In r (e_rhs e) -> p_step r = Some s -> s <= 1)) eqs ->
  distinct_lhs eqs -> forall vdims, wf_eqs scr vdims eqs ->
  forall eg ps ss, build scr dims_same halo_same bundle bundle_scratch regex d eqs = Ok (eg, ps, ss) ->
  (forall i j e e', nth_error eqs i = Some e -> nth_error eqs j = Some e' -> p_var (e_lhs e) = p_var (e_lhs e') -> scr (p_var (e_lhs e)) = true -> i = j) ->
  forall a part v s o, In a (g_all (c_grp (st_clus ss))) -> nth (Z.to_nat a) (st_scr ss) false = false ->
    In part (part_blocks ps) -> writes_var eqs part v -> scr v = true -> reads scr vdims eqs (fun i => In i (block ps ss a)) v s o ->
  forall i e r k lo hi x, In i part -> nth_error eqs (Z.to_nat i) = Some e -> In r (e_rhs e) -> In k (vdims (p_var r)) ->
    let h := calc_halos vdims eqs (h_sdep ss) (h_stages ps ss) in
    lo - write_halo vdims eqs h part true k <= x < hi + write_halo vdims eqs h part false k ->
    lo - halo_size k true (h (p_var r)) <= x + dim_ofs (vdims (p_var r)) (p_dom r) k < hi + halo_size k false (h (p_var r)).
Proof. exact span_reads_one. Qed.
Print Assumptions C53_one_writer_partial.

(* s(x) = v(t,x+1), q(x) = v(t,x-3) IF c1;  s(x) = v(t,x+2), q(x) = v(t,x-2) IF c2;  w(x) = s(x-2) + q(x);
   u(t+1,x) = w(x+4) + s(x-1).  The parts of s and q are evaluated over a halo of 2 and 4; v has halos 5 and 6. *)
Definition C53_ok_eqs : list eqn :=
  [mkEqn (mkPt 10 None [0] []) [mkPt 1 (Some 0) [1] []] (Some 1) None [];
   mkEqn (mkPt 11 None [0] []) [mkPt 1 (Some 0) [-3] []] (Some 1) None [];
   mkEqn (mkPt 10 None [0] []) [mkPt 1 (Some 0) [2] []] (Some 2) None [];
   mkEqn (mkPt 11 None [0] []) [mkPt 1 (Some 0) [-2] []] (Some 2) None [];
   mkEqn (mkPt 12 None [0] []) [mkPt 10 None [-2] []; mkPt 11 None [0] []] None None [];
   mkEqn (mkPt 2 (Some 1) [0] []) [mkPt 12 None [4] []; mkPt 10 None [-1] []] None None []].
Example C53_ok_legal : Forall (fun e => legal_lhs (fun v => 8 <? v) 1 e /\ (8 <? p_var (e_lhs e) = false -> 1 = 1 -> forall r s, In r (e_rhs e) -> p_step r = Some s -> s <= 1)) C53_ok_eqs.
Proof. unfold C53_ok_eqs. repeat apply Forall_cons; try apply Forall_nil; (split; [split; [repeat constructor|reflexivity]|]); intros _ _ r s Hr Hs; cbn in Hr; repeat (destruct Hr as [<-|Hr]; [cbn in Hs; try discriminate; injection Hs as <-; lia|]); contradiction. Qed.
Example C53_ok_distinct : distinct_lhs C53_ok_eqs.
Proof. intros i j e e' Hi Hj N L. destruct i as [|[|[|[|[|[|i]]]]]], j as [|[|[|[|[|[|j]]]]]]; cbn in Hi, Hj; try discriminate; try congruence; try (destruct i; discriminate); try (destruct j; discriminate); injection Hi as <-; injection Hj as <-; cbn in L; try discriminate; cbn; (split; [intros (X & _); discriminate|split; intros (X & _); discriminate]). Qed.
Example C53_ok_wf : wf_eqs (fun v => 8 <? v) (fun _ => [10]) C53_ok_eqs.
Proof. split; [intros v; repeat constructor; cbn; intuition lia|]. intros e p He Hp. destruct He as [<-|[<-|[<-|[<-|[<-|[<-|[]]]]]]]; cbn in Hp; repeat (destruct Hp as [<-|Hp]; [split; [reflexivity|cbn; congruence || reflexivity]|]); contradiction. Qed.
Example C53_ok_build : exists eg ps ss, build (fun v => 8 <? v) (fun _ _ => true) (fun _ _ => true) true true (fun _ => true) 1 C53_ok_eqs = Ok (eg, ps, ss) /\
  part_blocks ps = [[0; 1]; [2; 3]; [4]; [5]] /\ same_vars (fun v => 8 <? v) C53_ok_eqs (part_blocks ps) /\
  In 0 (g_all (c_grp (st_clus ss))) /\ nth (Z.to_nat 0) (st_scr ss) false = false /\ writes_var C53_ok_eqs [2; 3] 10 /\
  reads (fun v => 8 <? v) (fun _ => [10]) C53_ok_eqs (fun i => In i (block ps ss 0)) 10 None (dim_ofs [10] [-1]) /\
  let h := calc_halos (fun _ => [10]) C53_ok_eqs (h_sdep ss) (h_stages ps ss) in
  write_halo (fun _ => [10]) C53_ok_eqs h [2; 3] true 10 = 2 /\ write_halo (fun _ => [10]) C53_ok_eqs h [2; 3] false 10 = 4 /\
  halo_size 10 true (h 1) = 5 /\ halo_size 10 false (h 1) = 6.
Proof.
  assert (F : match build (fun v => 8 <? v) (fun _ _ => true) (fun _ _ => true) true true (fun _ => true) 1 C53_ok_eqs with Ok (_, ps, ss) =>
     let h := calc_halos (fun _ => [10]) C53_ok_eqs (h_sdep ss) (h_stages ps ss) in
     part_blocks ps = [[0; 1]; [2; 3]; [4]; [5]] /\ g_all (c_grp (st_clus ss)) = [1; 2; 0] /\ nth (Z.to_nat 0) (st_scr ss) false = false /\ block ps ss 0 = [5] /\
     write_halo (fun _ => [10]) C53_ok_eqs h [2; 3] true 10 = 2 /\ write_halo (fun _ => [10]) C53_ok_eqs h [2; 3] false 10 = 4 /\ halo_size 10 true (h 1) = 5 /\ halo_size 10 false (h 1) = 6 | _ => False end) by (vm_compute; auto 10).
  destruct (build _ _ _ _ _ _ _ _) as [((eg & ps) & ss)| | |]; try contradiction. cbv zeta in F. destruct F as (F1 & F2 & F3 & F4 & F5). exists eg, ps, ss.
  split; [reflexivity|]. split; [exact F1|]. split.
  - rewrite F1. assert (WV : forall p v, writes_var C53_ok_eqs p v <-> exists i, In i p /\ option_map (fun e => p_var (e_lhs e)) (nth_error C53_ok_eqs (Z.to_nat i)) = Some v).
    { intros p v. split; [intros (i & e & H1 & H2 & H3); exists i; split; [exact H1|rewrite H2; cbn; congruence]|]. intros (i & H1 & H2). destruct (nth_error C53_ok_eqs (Z.to_nat i)) as [e|] eqn:E; [|discriminate]. injection H2 as H2. exists i, e. auto. }
    intros p q v w Hp Hq _ H1 H2 H3. rewrite WV in *. cbn in Hp, Hq. destruct Hp as [<-|[<-|[<-|[<-|[]]]]], Hq as [<-|[<-|[<-|[<-|[]]]]]; try exact H3; destruct H1 as (i & Hi & H1), H2 as (j & Hj & H2), H3 as (m & Hm & H3); cbn in Hi, Hj, Hm;
      repeat match goal with H : _ \/ _ |- _ => destruct H as [<-|H] | H : False |- _ => destruct H end; vm_compute in H1, H2, H3; try congruence;
      injection H3 as <-; ((exists 0; split; [cbn; tauto|reflexivity]) || (exists 1; split; [cbn; tauto|reflexivity]) || (exists 2; split; [cbn; tauto|reflexivity]) || (exists 3; split; [cbn; tauto|reflexivity])).
  - split; [rewrite F2; cbn; auto|]. split; [exact F3|]. split; [exists 2, (nth 2 C53_ok_eqs eqn0); repeat split; cbn; auto|]. split; [|exact F5].
    apply (reads_eq (fun v => 8 <? v) (fun _ => [10]) C53_ok_eqs (fun i => In i (block ps ss 0)) 5 (nth 5 C53_ok_eqs eqn0) (mkPt 10 None [-1] [])); [rewrite F4; left; reflexivity|reflexivity|cbn; auto].
Qed.

(* s(x) = v(t,x+1) IF c2;  s(x) = v(t,x) IF c1;  r(x) = v(t,x) IF c1;  u(t+1,x) = s(x) + r(x+4).
   s and r in c1 are written together, hence both over a halo of 4 on the right; s in c2 has been handled before, with halo 0,
   so v gets halo 4, but s in c2 is evaluated up to x+4 and reads v at x+5. *)
Definition C53_eqs : list eqn :=
  [mkEqn (mkPt 10 None [0] []) [mkPt 1 (Some 0) [1] []] (Some 2) None [];
   mkEqn (mkPt 10 None [0] []) [mkPt 1 (Some 0) [0] []] (Some 1) None [];
   mkEqn (mkPt 11 None [0] []) [mkPt 1 (Some 0) [0] []] (Some 1) None [];
   mkEqn (mkPt 2 (Some 1) [0] []) [mkPt 10 None [0] []; mkPt 11 None [4] []] None None []].
Theorem C53_refuted : exists scr eqs vdims eg ps ss part i e r k,
  Forall (fun e => legal_lhs scr 1 e /\ reads_no_future 1 e) eqs /\ distinct_lhs eqs /\ wf_eqs scr vdims eqs /\
  build scr (fun _ _ => true) (fun _ _ => true) true true (fun _ => true) 1 eqs = Ok (eg, ps, ss) /\
  In part (part_blocks ps) /\ In i part /\ nth_error eqs (Z.to_nat i) = Some e /\ In r (e_rhs e) /\ In k (vdims (p_var r)) /\
  let h := calc_halos vdims eqs (h_sdep ss) (h_stages ps ss) in
  halo_size k false (h (p_var r)) < dim_ofs (vdims (p_var r)) (p_dom r) k + write_halo vdims eqs h part false k.
Proof.
  exists (fun v => 8 <? v), C53_eqs, (fun _ => [10]).
  assert (A1 : Forall (fun e => legal_lhs (fun v => 8 <? v) 1 e /\ reads_no_future 1 e) C53_eqs).
  { unfold C53_eqs. repeat apply Forall_cons; try apply Forall_nil; (split; [split; [repeat constructor|reflexivity]|]); intros r s Hr Hs; cbn in Hr; repeat (destruct Hr as [<-|Hr]; [cbn in Hs; try discriminate; injection Hs as <-; lia|]); contradiction. }
  assert (A2 : distinct_lhs C53_eqs).
  { intros i j e e' Hi Hj N L. destruct i as [|[|[|[|[|i]]]]], j as [|[|[|[|[|j]]]]]; cbn in Hi, Hj; try discriminate; try congruence; injection Hi as <-; injection Hj as <-; cbn in L; try discriminate; cbn; (split; [intros (X & _); discriminate|split; intros (X & _); discriminate]). }
  assert (A3 : wf_eqs (fun v => 8 <? v) (fun _ => [10]) C53_eqs).
  { split; [intros v; repeat constructor; cbn; intuition lia|]. intros e p He Hp. destruct He as [<-|[<-|[<-|[<-|[]]]]]; cbn in Hp; repeat (destruct Hp as [<-|Hp]; [split; [reflexivity|cbn; congruence || reflexivity]|]); contradiction. }
  assert (F : match build (fun v => 8 <? v) (fun _ _ => true) (fun _ _ => true) true true (fun _ => true) 1 C53_eqs with Ok (_, ps, ss) =>
     part_blocks ps = [[0]; [1; 2]; [3]] /\ halo_size 10 false (calc_halos (fun _ => [10]) C53_eqs (h_sdep ss) (h_stages ps ss) 1) = 4 /\
     write_halo (fun _ => [10]) C53_eqs (calc_halos (fun _ => [10]) C53_eqs (h_sdep ss) (h_stages ps ss)) [0] false 10 = 4 | _ => False end) by (vm_compute; auto).
  destruct (build (fun v => 8 <? v) (fun _ _ => true) (fun _ _ => true) true true (fun _ => true) 1 C53_eqs) as [((eg & ps) & ss)| | |]; try contradiction. destruct F as (F1 & F2 & F3).
  exists eg, ps, ss, [0], 0, (nth 0 C53_eqs eqn0), (mkPt 1 (Some 0) [1] []), 10.
  split; [exact A1|]. split; [exact A2|]. split; [exact A3|]. split; [reflexivity|]. split; [rewrite F1; left; reflexivity|]. split; [left; reflexivity|]. split; [reflexivity|]. split; [left; reflexivity|]. split; [left; reflexivity|].
  cbn [p_var]. rewrite F2, F3. reflexivity.
Qed.
Print Assumptions C53_refuted.
