(* C30: Cyclic equation dependencies are detected exactly. *)
From Verif Require Import Base Deps_Model Deps_Spec Deps_Proofs Eqs_Model Eqs_Spec Eqs_Proofs Parts_Model.

(* Any sequence of set_imm_dep_on() and find_all_deps() calls on a group, ending with find_all_deps(). *)
Theorem C30_closure : forall scr all ops, NoDup all ->
  match run_ops scr all (ops ++ [DFind]) with
  | Ok g => ~ cyclic (direct ops) /\ forall a b, exists x y,
      is_dep_on (g_deps g) a b = Ok x /\ (x = true <-> path (direct ops) a b) /\
      is_dep_on (g_scr g) a b = Ok y /\ (y = true <-> path (direct_scr scr ops) a b)
  | Throw => cyclic (direct ops)
  | _ => False
  end.
Proof. exact ops_spec. Qed.
Print Assumptions C30_closure.
Example C30_closure_ex :
  match run_ops (fun x => x =? 3) [1; 2; 3; 4] [DSet 1 2; DFind; DSet 2 3; DSet 4 3; DFind] with
  | Ok g => is_dep_on (g_deps g) 1 3 = Ok true /\ is_dep_on (g_scr g) 1 3 = Ok false /\ is_dep_on (g_scr g) 4 3 = Ok true /\ is_dep_on (g_deps g) 3 1 = Ok false
  | _ => False end /\
  run_ops (fun x => x =? 3) [1; 2; 3] [DSet 1 2; DSet 2 3; DSet 3 1; DFind] = Throw.
Proof. vm_compute. repeat split. Qed.

(* Equations whose left and right sides are legal one by one.  Equations that write the same var (under different
   conditions) share their dependencies, so i depends on j if some equation writing the same value as i needs j.
   Full statement: also for equations with conditions that read vars; false, see C30_cond_refuted; and no circular
   dependency is reported later on, false, see C30_stages_refuted. *)
Theorem C30_equations_partial : forall scr dir eqs d, dir = 1 \/ dir = -1 -> d = 0 \/ d = dir ->
  Forall (fun e => legal_lhs scr dir e /\ (scr (p_var (e_lhs e)) = false -> dir = 1 -> forall r s, In r (e_rhs e) -> p_step r = Some s -> s <= 1)) eqs ->
  distinct_lhs eqs ->
  match analyze_eqs scr true d eqs with
  | Ok (d', g) => ~ cyclic (needs scr eqs) /\ g_all g = zseq (Z.of_nat (length eqs)) /\
      (forall i j, In i (g_all g) -> In j (g_all g) ->
         exists b, is_dep_on (g_deps g) i j = Ok b /\
           (b = true <-> exists i' e e', nth_error eqs (Z.to_nat i) = Some e /\ 0 <= i' /\ nth_error eqs (Z.to_nat i') = Some e' /\ same_value scr (e_lhs e) (e_lhs e') /\ path (needs scr eqs) i' j))
  | Throw => cyclic (needs scr eqs)
  | _ => False
  end.
Proof. exact analyze_spec'. Qed.
Print Assumptions C30_equations_partial.
(* vars 1, 2; scratch var 9: 1 reads the scratch, the scratch reads 2 at t+1, 2 reads 1 at t *)
Definition C30_eqs (s : Z) : list eqn :=
  [mkEqn (mkPt 1 (Some 1) [0] []) [mkPt 9 None [-1] []; mkPt 9 None [1] []] None None [];
   mkEqn (mkPt 9 None [0] []) [mkPt 2 (Some 1) [2] []] None None [];
   mkEqn (mkPt 2 (Some 1) [0] []) [mkPt 1 (Some s) [0] []] None None []].
Example C30_equations_ex :
  match analyze_eqs (fun v => v =? 9) true 0 (C30_eqs 0) with
  | Ok (d, g) => d = 1 /\ is_dep_on (g_deps g) 0 2 = Ok true /\ is_dep_on (g_deps g) 2 0 = Ok false /\ is_dep_on (g_scr g) 0 1 = Ok true
  | _ => False end /\
  analyze_eqs (fun v => v =? 9) true 0 (C30_eqs 1) = Throw.
Proof. vm_compute. repeat split. Qed.

(* Each equation is guarded by a step condition that reads what the other one writes: accepted. *)
Theorem C30_cond_refuted : exists scr eqs d g, Forall (legal_lhs scr 1) eqs /\ Forall (reads_no_future 1) eqs /\ distinct_lhs eqs /\
  cyclic (needs_cond scr eqs) /\ analyze_eqs scr true 0 eqs = Ok (d, g) /\ is_dep_on (g_deps g) 0 1 = Ok false.
Proof.
  exists (fun _ => false), [mkEqn (mkPt 1 (Some 1) [0] []) [] None (Some 1) [mkPt 2 (Some 1) [0] []]; mkEqn (mkPt 2 (Some 1) [0] []) [] None (Some 2) [mkPt 1 (Some 1) [0] []]].
  eexists. eexists. split; [|split; [|split; [|split; [|split; [vm_compute; reflexivity|reflexivity]]]]].
  - repeat apply Forall_cons; try apply Forall_nil; (split; [repeat apply Forall_cons; try apply Forall_nil; reflexivity|reflexivity]).
  - repeat apply Forall_cons; try apply Forall_nil; intros r s [].
  - intros i j e e' Hi Hj NE L. destruct i as [|[|i]], j as [|[|j]]; cbn in Hi, Hj; try congruence; try (destruct i; discriminate); try (destruct j; discriminate);
      injection Hi as <-; injection Hj as <-; discriminate.
  - exists 0. apply path_step with 1; [|apply path_one]; unfold needs_cond; eexists; eexists; eexists; (split; [lia|]); (split; [lia|]); (split; [reflexivity|]); (split; [reflexivity|]); (split; [left; reflexivity|]); repeat split.
Qed.
Print Assumptions C30_cond_refuted.

(* Eight equations without any cycle; make_stages() merges the parts into two stages that depend on each other and reports a
   circular dependency.  1 = Y (with a misc dim), 2 = X, 3 = P, 4 = Q, 5 = N; Q needs Y(1), N needs P. *)
Theorem C30_stages_refuted : exists scr eqs, Forall (legal_lhs scr 1) eqs /\ Forall (reads_no_future 1) eqs /\ distinct_lhs eqs /\
  ~ cyclic (needs scr eqs) /\ build scr (fun _ _ => true) (fun _ _ => true) true true (fun _ => true) 0 eqs = Throw.
Proof.
  pose (w := fun v m => mkPt v (Some 1) [0] m).
  pose (l := [mkEqn (w 1 [1]) [] (Some 3) None []; mkEqn (w 1 [0]) [] (Some 5) None []; mkEqn (w 2 []) [] (Some 1) None []; mkEqn (w 3 []) [] (Some 1) None [];
    mkEqn (w 2 []) [] (Some 2) None []; mkEqn (w 4 []) [w 1 [1]] (Some 2) None []; mkEqn (w 1 [0]) [] (Some 6) None []; mkEqn (w 5 []) [w 3 []] (Some 6) None []]).
  assert (A : Forall (legal_lhs (fun _ => false) 1) l).
  { unfold l. repeat apply Forall_cons; try apply Forall_nil; (split; [repeat apply Forall_cons; try apply Forall_nil; reflexivity|reflexivity]). }
  assert (B : Forall (reads_no_future 1) l).
  { unfold l. repeat apply Forall_cons; try apply Forall_nil; intros r s Hr; cbn in Hr; try contradiction; destruct Hr as [<-|[]]; cbn; intros H; injection H as <-; split; lia. }
  assert (C : distinct_lhs l).
  { intros i j e e' Hi Hj NE L. assert (Li : (i < 8)%nat) by (change 8%nat with (length l); apply nth_error_Some; congruence). assert (Lj : (j < 8)%nat) by (change 8%nat with (length l); apply nth_error_Some; congruence).
    destruct i as [|[|[|[|[|[|[|[|i]]]]]]]]; try lia; destruct j as [|[|[|[|[|[|[|[|j]]]]]]]]; try lia; try congruence; cbn in Hi, Hj; injection Hi as <-; injection Hj as <-; cbn in L |- *; try discriminate; repeat split; intros (X & Y); discriminate. }
  exists (fun _ => false), l. split; [exact A|]. split; [exact B|]. split; [exact C|]. split; [|vm_compute; reflexivity].
  pose proof (analyze_spec (fun _ => false) 1 l 0 (or_introl eq_refl) (or_introl eq_refl)) as S.
  assert (F : Forall (legal (fun _ => false) 1) l).
  { apply Forall_forall. intros e He. split; [exact (proj1 (Forall_forall _ _) A e He)|]. intros _ _ r s Hr Hs.
    exact (proj1 (proj1 (Forall_forall _ _) B e He r s Hr Hs) eq_refl). }
  specialize (S F C). destruct (analyze_eqs (fun _ => false) true 0 l) as [(d & g)| | |] eqn:E; try (vm_compute in E; discriminate E). apply S.
Qed.
Print Assumptions C30_stages_refuted.
