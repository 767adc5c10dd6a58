(* C35: Step allocation keeps every value until its last read.
   Full statement: in every legal evaluation of the equations no read is lost, i.e. C35_kept_partial without [safe_read] and for
   vars without domain dims.  This is false, see the theorems _refuted.  Temporal tiling is not part of [legal]. *)
From Verif Require Import Base Deps_Model Deps_Spec Deps_Proofs Eqs_Model Eqs_Spec Parts_Model Parts_Spec Parts_Proofs Halo_Model Halo_Spec Halo_Proofs Step_Spec Step_Proofs.

(* [tr] evaluates the equations in any order that follows the steps and stages.  A read that meets the conditions of
   [safe_read] never finds its value replaced, if the var keeps the number of steps computed by the compiler. *)
Theorem C35_kept_partial : forall scr dims_same halo_same bundle bundle_scratch regex dir d eqs,
  dir = 1 \/ dir = -1 -> d = 0 \/ d = dir -> Forall (fun e => legal_lhs scr dir e /\ reads_no_future dir e) eqs -> distinct_lhs eqs ->
  forall vdims, wf_eqs scr vdims eqs ->
  forall eg ps ss, build scr dims_same halo_same bundle bundle_scratch regex d eqs = Ok (eg, ps, ss) ->
  forall tr j r api cmd b e s, legal scr vdims eqs dir (g_all (c_grp (st_clus ss))) (block ps ss) tr ->
    (forall a, In a tr -> nth (Z.to_nat (ev_k a)) (st_scr ss) false = false) ->
    nth_error tr j = Some b -> nth_error eqs (Z.to_nat (ev_i b)) = Some e -> In r (e_rhs e) -> p_step r = Some s -> vdims (p_var r) <> [] ->
    safe_read scr vdims eqs dir (g_all (c_grp (st_clus ss))) (block ps ss) (ev_k b) e r s ->
    ~ lost vdims eqs dir (step_dim_size true api cmd (calc_halos vdims eqs (h_sdep ss) (h_stages ps ss) (p_var r))) tr j r.
Proof. exact kept_until_read. Qed.
Print Assumptions C35_kept_partial.

(* A(t+1,x) = A(t,x) + A(t-1,x+1): keeps 3 steps; both reads meet the conditions *)
Definition C35_eqs : list eqn := [mkEqn (mkPt 1 (Some 1) [0] []) [mkPt 1 (Some 0) [0] []; mkPt 1 (Some (-1)) [1] []] None None []].
Example C35_ex : match build (fun _ => false) (fun _ _ => true) (fun _ _ => true) true true (fun _ => true) 1 C35_eqs with
  | Ok (eg, ps, ss) => step_dim_size true 0 0 (calc_halos (fun _ => [10]) C35_eqs (h_sdep ss) (h_stages ps ss) 1) = 3 /\
      g_all (c_grp (st_clus ss)) = [0] /\ block ps ss 0 = [0] | _ => False end.
Proof. vm_compute. repeat split. Qed.
Example C35_safe_ex : safe_read (fun _ => false) (fun _ => [10]) C35_eqs 1 [0] (fun _ => [0]) 0 (nth 0 C35_eqs eqn0) (mkPt 1 (Some (-1)) [1] []) (-1).
Proof.
  right. right. exists (mkPt 1 (Some 1) [0] []). split; [exists 0, (nth 0 C35_eqs eqn0); split; [apply runs_own; left; reflexivity|split; [reflexivity|left; reflexivity]]|].
  split; [reflexivity|]. split; [reflexivity|]. right. right. right. split; reflexivity.
Qed.

(* A(t+1,x) = B(t,x); E(t+1,x) = B(t,x) in stage 0 and C(t+1,x) = E(t+1,x) + A(t,x) in stage 1: A keeps one step, so A(t+1)
   replaces A(t) before C reads A(t). *)
Definition C35_two_stages : list eqn :=
  [mkEqn (mkPt 1 (Some 1) [0] []) [mkPt 2 (Some 0) [0] []] None None [];
   mkEqn (mkPt 3 (Some 1) [0] []) [mkPt 2 (Some 0) [0] []] None None [];
   mkEqn (mkPt 4 (Some 1) [0] []) [mkPt 3 (Some 1) [0] []; mkPt 1 (Some 0) [0] []] None None []].
Theorem C35_two_stages_refuted : exists eqs vdims eg ps ss tr j r,
  Forall (fun e => legal_lhs (fun _ => false) 1 e /\ reads_no_future 1 e) eqs /\ distinct_lhs eqs /\ wf_eqs (fun _ => false) vdims eqs /\ vdims (p_var r) <> [] /\
  build (fun _ => false) (fun _ _ => true) (fun _ _ => true) true true (fun _ => true) 1 eqs = Ok (eg, ps, ss) /\
  legal (fun _ => false) vdims eqs 1 (g_all (c_grp (st_clus ss))) (block ps ss) tr /\
  lost vdims eqs 1 (step_dim_size true 0 0 (calc_halos vdims eqs (h_sdep ss) (h_stages ps ss) (p_var r))) tr j r.
Proof.
  assert (A1 : Forall (fun e => legal_lhs (fun _ => false) 1 e /\ reads_no_future 1 e) C35_two_stages).
  { unfold C35_two_stages. repeat apply Forall_cons; try apply Forall_nil; (split; [split; [repeat constructor|reflexivity]|]); intros r s Hr Hs; cbn in Hr; repeat (destruct Hr as [<-|Hr]; [cbn in Hs; injection Hs as <-; lia|]); contradiction. }
  assert (A2 : distinct_lhs C35_two_stages).
  { intros i j e e' Hi Hj N L. destruct i as [|[|[|[|i]]]], j as [|[|[|[|j]]]]; cbn in Hi, Hj; try discriminate; try congruence; injection Hi as <-; injection Hj as <-; discriminate. }
  assert (A3 : wf_eqs (fun _ => false) (fun _ => [10]) C35_two_stages).
  { split; [intros v; repeat constructor; cbn; intuition lia|]. intros e p He Hp. destruct He as [<-|[<-|[<-|[]]]]; cbn in Hp; repeat (destruct Hp as [<-|Hp]; [split; [reflexivity|discriminate]|]); contradiction. }
  exists C35_two_stages, (fun _ => [10]).
  assert (F : match build (fun _ => false) (fun _ _ => true) (fun _ _ => true) true true (fun _ => true) 1 C35_two_stages with Ok (_, ps, ss) =>
     g_all (c_grp (st_clus ss)) = [0; 1] /\ block ps ss 0 = [0; 1] /\ block ps ss 1 = [2] /\ step_dim_size true 0 0 (calc_halos (fun _ => [10]) C35_two_stages (h_sdep ss) (h_stages ps ss) 1) = 1 | _ => False end) by (vm_compute; auto).
  destruct (build (fun _ => false) (fun _ _ => true) (fun _ _ => true) true true (fun _ => true) 1 C35_two_stages) as [((eg & ps) & ss)| | |]; try contradiction. destruct F as (F1 & F2 & F3 & F4).
  exists eg, ps, ss, [mkEv 0 0 0 (fun _ => 5); mkEv 0 0 1 (fun _ => 5); mkEv 0 1 2 (fun _ => 5)], 2%nat, (mkPt 1 (Some 0) [0] []).
  split; [exact A1|]. split; [exact A2|]. split; [exact A3|]. split; [discriminate|]. split; [reflexivity|]. rewrite F1. split.
  - split; [|split].
    + intros i j a b L Ha Hb. right. destruct i as [|[|[|[|i]]]], j as [|[|[|[|j]]]]; cbn in Ha, Hb; try discriminate; try lia; injection Ha as <-; injection Hb as <-; (split; [reflexivity|]); cbn.
      * exists [], [1]. cbn. auto.
      * exists [], [1]. cbn. auto.
      * exists [], [1]. cbn. auto.
    + intros a Ha. cbn in Ha. destruct Ha as [<-|[<-|[<-|[]]]]; cbn; (split; [auto|apply runs_own]); rewrite ?F2, ?F3; cbn; auto.
    + intros i j a b v m x u Ha Hb (e & s & He & V & _) (e' & s' & He' & V' & _). destruct i as [|[|[|[|i]]]], j as [|[|[|[|j]]]]; cbn in Ha, Hb; try discriminate; try reflexivity; injection Ha as <-; injection Hb as <-; cbn in He, He'; injection He as <-; injection He' as <-; cbn in V, V'; congruence.
  - cbn [p_var]. rewrite F4. exists (mkEv 0 1 2 (fun _ => 5)), (nth 2 C35_two_stages eqn0), 0, 0%nat, (mkEv 0 0 0 (fun _ => 5)), (fun _ => 5), 1.
    split; [reflexivity|]. split; [reflexivity|]. split; [right; left; reflexivity|]. split; [reflexivity|]. split; [lia|]. split; [reflexivity|]. split; [|split; [|split; [reflexivity|exists 1; reflexivity]]].
    + exists (nth 0 C35_two_stages eqn0), 1. repeat split.
    + intros q [<-|[]]. reflexivity.
Qed.
Print Assumptions C35_two_stages_refuted.

(* A(t+1,x) = A(t,x) in part 0 and B(t+1,x) = A(t,x) IF c in part 1 of the same stage: A keeps one step because it is written
   back, but B also reads it. *)
Definition C35_written_back : list eqn :=
  [mkEqn (mkPt 1 (Some 1) [0] []) [mkPt 1 (Some 0) [0] []] None None [];
   mkEqn (mkPt 2 (Some 1) [0] []) [mkPt 1 (Some 0) [0] []] (Some 7) None []].
Theorem C35_written_back_refuted : exists eqs vdims eg ps ss tr j r,
  Forall (fun e => legal_lhs (fun _ => false) 1 e /\ reads_no_future 1 e) eqs /\ distinct_lhs eqs /\ wf_eqs (fun _ => false) vdims eqs /\ vdims (p_var r) <> [] /\
  build (fun _ => false) (fun _ _ => true) (fun _ _ => true) true true (fun _ => true) 1 eqs = Ok (eg, ps, ss) /\
  (* the order of the trace is the order of the parts *)
  legal (fun _ => false) vdims eqs 1 (g_all (c_grp (st_clus ss))) (block ps ss) tr /\ map ev_i tr = concat (part_blocks ps) /\
  lost vdims eqs 1 (step_dim_size true 0 0 (calc_halos vdims eqs (h_sdep ss) (h_stages ps ss) (p_var r))) tr j r.
Proof.
  assert (A1 : Forall (fun e => legal_lhs (fun _ => false) 1 e /\ reads_no_future 1 e) C35_written_back).
  { unfold C35_written_back. repeat apply Forall_cons; try apply Forall_nil; (split; [split; [repeat constructor|reflexivity]|]); intros r s Hr Hs; cbn in Hr; repeat (destruct Hr as [<-|Hr]; [cbn in Hs; injection Hs as <-; lia|]); contradiction. }
  assert (A2 : distinct_lhs C35_written_back).
  { intros i j e e' Hi Hj N L. destruct i as [|[|[|i]]], j as [|[|[|j]]]; cbn in Hi, Hj; try discriminate; try congruence; injection Hi as <-; injection Hj as <-; discriminate. }
  assert (A3 : wf_eqs (fun _ => false) (fun _ => [10]) C35_written_back).
  { split; [intros v; repeat constructor; cbn; intuition lia|]. intros e p He Hp. destruct He as [<-|[<-|[]]]; cbn in Hp; repeat (destruct Hp as [<-|Hp]; [split; [reflexivity|discriminate]|]); contradiction. }
  exists C35_written_back, (fun _ => [10]).
  assert (F : match build (fun _ => false) (fun _ _ => true) (fun _ _ => true) true true (fun _ => true) 1 C35_written_back with Ok (_, ps, ss) =>
     g_all (c_grp (st_clus ss)) = [0] /\ block ps ss 0 = [0; 1] /\ part_blocks ps = [[0]; [1]] /\ step_dim_size true 0 0 (calc_halos (fun _ => [10]) C35_written_back (h_sdep ss) (h_stages ps ss) 1) = 1 | _ => False end) by (vm_compute; auto).
  destruct (build (fun _ => false) (fun _ _ => true) (fun _ _ => true) true true (fun _ => true) 1 C35_written_back) as [((eg & ps) & ss)| | |]; try contradiction. destruct F as (F1 & F2 & F3 & F4).
  exists eg, ps, ss, [mkEv 0 0 0 (fun _ => 5); mkEv 0 0 1 (fun _ => 5)], 1%nat, (mkPt 1 (Some 0) [0] []).
  split; [exact A1|]. split; [exact A2|]. split; [exact A3|]. split; [discriminate|]. split; [reflexivity|]. rewrite F1, F3. split; [|split; [reflexivity|]].
  - split; [|split].
    + intros i j a b L Ha Hb. right. destruct i as [|[|[|i]]], j as [|[|[|j]]]; cbn in Ha, Hb; try discriminate; try lia; injection Ha as <-; injection Hb as <-; (split; [reflexivity|]); cbn. exists [], []. cbn. auto.
    + intros a Ha. cbn in Ha. destruct Ha as [<-|[<-|[]]]; cbn; (split; [auto|apply runs_own]); rewrite ?F2; cbn; auto.
    + intros i j a b v m x u Ha Hb (e & s & He & V & _) (e' & s' & He' & V' & _). destruct i as [|[|[|i]]], j as [|[|[|j]]]; cbn in Ha, Hb; try discriminate; try reflexivity; injection Ha as <-; injection Hb as <-; cbn in He, He'; injection He as <-; injection He' as <-; cbn in V, V'; congruence.
  - cbn [p_var]. rewrite F4. exists (mkEv 0 0 1 (fun _ => 5)), (nth 1 C35_written_back eqn0), 0, 0%nat, (mkEv 0 0 0 (fun _ => 5)), (fun _ => 5), 1.
    split; [reflexivity|]. split; [reflexivity|]. split; [left; reflexivity|]. split; [reflexivity|]. split; [lia|]. split; [reflexivity|]. split; [|split; [|split; [reflexivity|exists 1; reflexivity]]].
    + exists (nth 0 C35_written_back eqn0), 1. repeat split.
    + intros q [<-|[]]. reflexivity.
Qed.
Print Assumptions C35_written_back_refuted.
