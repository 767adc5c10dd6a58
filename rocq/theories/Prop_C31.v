(* C31: Equations are ordered after their dependencies. *)
From Verif Require Import Base Deps_Model Deps_Spec Deps_Proofs Eqs_Model Eqs_Spec Eqs_Proofs Parts_Model Parts_Spec Parts_Proofs.

(* A group with initial order [all] and any sequence of dependencies, then topo_sort(). *)
Theorem C31_topo_sort : forall scr all ops, NoDup all ->
  match rbind (run_ops scr all ops) topo_sort with
  | Ok g => ~ cyclic (direct ops) /\ NoDup (g_all g) /\ (forall x, In x (g_all g) <-> In x all \/ exists y, direct ops x y \/ direct ops y x) /\
      after_deps (path (direct ops)) (g_all g)
  | Throw => cyclic (direct ops)
  | _ => False
  end.
Proof. exact topo_ops_spec. Qed.
Print Assumptions C31_topo_sort.
Example C31_topo_ex : match rbind (run_ops (fun _ => false) [1; 2; 3; 4] [DSet 1 2; DSet 2 4; DSet 3 4; DSet 2 3]) topo_sort with Ok g => g_all g | _ => [] end = [4; 3; 2; 1].
Proof. reflexivity. Qed.

(* Dividing legal equations into parts always succeeds; every selected equation is in one part, and no equation of a part
   depends on an equation of the same or a later part. *)
Theorem C31_parts : forall scr dims_same halo_same bundle bundle_scratch regex dir d eqs,
  dir = 1 \/ dir = -1 -> d = 0 \/ d = dir ->
  Forall (fun e => legal_lhs scr dir e /\ (scr (p_var (e_lhs e)) = false -> dir = 1 -> forall r s, In r (e_rhs e) -> p_step r = Some s -> s <= 1)) eqs ->
  distinct_lhs eqs -> forall d' eg, analyze_eqs scr true d eqs = Ok (d', eg) ->
  exists ps, make_parts scr eqs eg dims_same halo_same bundle bundle_scratch regex = Ok ps /\
    Permutation (concat (part_blocks ps)) (filter (kept scr regex eqs) (zseq (Z.of_nat (length eqs)))) /\
    blocks_ordered (depends scr eqs) (part_blocks ps).
Proof. exact parts_always. Qed.
Print Assumptions C31_parts.

(* The whole order: stages, parts and equations.  All equations of a part have the same conditions, scratch-ness and step.
   Full statement: an acyclic input is never rejected (case Throw); false, see C30_stages_refuted. *)
Theorem C31_stages_partial : forall scr dims_same halo_same bundle bundle_scratch regex dir d eqs,
  dir = 1 \/ dir = -1 -> d = 0 \/ d = dir ->
  Forall (fun e => legal_lhs scr dir e /\ (scr (p_var (e_lhs e)) = false -> dir = 1 -> forall r s, In r (e_rhs e) -> p_step r = Some s -> s <= 1)) eqs ->
  distinct_lhs eqs ->
  match build scr dims_same halo_same bundle bundle_scratch regex d eqs with
  | Ok (eg, ps, ss) => ~ cyclic (needs scr eqs) /\
      Permutation (concat (stage_blocks ps ss)) (filter (kept scr regex eqs) (zseq (Z.of_nat (length eqs)))) /\
      blocks_ordered (depends scr eqs) (stage_blocks ps ss) /\
      Permutation (concat (part_blocks ps)) (filter (kept scr regex eqs) (zseq (Z.of_nat (length eqs)))) /\
      blocks_ordered (depends scr eqs) (part_blocks ps) /\
      Permutation (concat (map (c_get (c_items (st_clus ss))) (g_all (c_grp (st_clus ss))))) (g_all (c_grp (ps_clus ps))) /\
      (forall b x y, In b (part_blocks ps) -> In x b -> In y b -> eq_attr scr eqs x = eq_attr scr eqs y) /\
      (forall b x y, In b (stage_blocks ps ss) -> In x b -> In y b -> eq_scr scr eqs x = eq_scr scr eqs y)
  | Throw => True
  | _ => False
  end.
Proof. exact build_ok. Qed.
Print Assumptions C31_stages_partial.
(* vars 1, 2 and scratch 9: 1 needs the scratch, the scratch needs 2 at t+1; 3 has a condition *)
Definition C31_eqs : list eqn :=
  [mkEqn (mkPt 1 (Some 1) [0] []) [mkPt 9 None [-1] []] None None [];
   mkEqn (mkPt 9 None [0] []) [mkPt 2 (Some 1) [2] []] None None [];
   mkEqn (mkPt 2 (Some 1) [0] []) [mkPt 1 (Some 0) [0] []] None None [];
   mkEqn (mkPt 3 (Some 1) [0] []) [mkPt 1 (Some 0) [0] []] (Some 7) None [];
   mkEqn (mkPt 4 (Some 1) [0] []) [mkPt 3 (Some 0) [0] []] None None []].
Example C31_build_ex : match build (fun v => v =? 9) (fun _ _ => true) (fun _ _ => true) true true (fun _ => true) 0 C31_eqs with
  | Ok (eg, ps, ss) => part_blocks ps = [[2]; [1]; [3]; [0; 4]] /\ stage_blocks ps ss = [[2; 3]; [1]; [0; 4]] | _ => False end.
Proof. vm_compute. split; reflexivity. Qed.
