(* C37: Scratch vars that share storage never clobber each other. *)
From Verif Require Import Base Deps_Model Eqs_Model Parts_Model Lifespan_Model Lifespan_Spec Lifespan_Proofs.

(* Slots: every scratch var that is accessed gets one; two vars with the same slot have the same misc size and are not in
   use at the same time in the order of the stages.  [order] is the order of the map keyed by address: any order. *)
Theorem C37_slots : forall msz order acc, NoDup order -> (forall v, In v order <-> exists i, accessed acc v i) ->
  exists slot, calc_lifespans msz order acc = Ok slot /\
    (forall v, In v order -> exists n, slot v = Some n /\ 0 <= n) /\
    (forall u v, In u order -> In v order -> u <> v -> slot u = slot v -> msz u = msz v /\ ~ overlap acc u v).
Proof. exact slots_ok. Qed.
Print Assumptions C37_slots.

Definition C37_acc : list (list Z) := [[1; 2]; [3; 1; 9]; [4; 3; 9]; [2; 4]].
Example C37_slots_ex : match calc_lifespans (fun v => if v =? 9 then 5 else 1) [9; 2; 1; 3; 4] C37_acc with
  | Ok slot => map slot [1; 2; 3; 4; 9; 7] = [Some 1; Some 0; Some 2; Some 1; Some 3; None] | _ => False end.
Proof. vm_compute. reflexivity. Qed.
Example C37_slots_hyp : NoDup [9; 2; 1; 3; 4] /\ (forall v, In v [9; 2; 1; 3; 4] <-> exists i, accessed C37_acc v i) /\ ~ overlap C37_acc 1 4.
Proof.
  split; [repeat constructor; cbn; lia|].
  assert (forall v i, accessed C37_acc v i -> (i = 0 /\ (v = 1 \/ v = 2)) \/ (i = 1 /\ (v = 3 \/ v = 1 \/ v = 9)) \/ (i = 2 /\ (v = 4 \/ v = 3 \/ v = 9)) \/ (i = 3 /\ (v = 2 \/ v = 4))) as H.
  { intros v i (H0 & vs & E & I). destruct (Z.to_nat i) as [|[|[|[|n]]]] eqn:Ei; cbn in E; try (destruct n; discriminate); injection E as <-; cbn in I; lia. }
  split.
  - intros v. split.
    + intros I. assert (v = 9 \/ v = 2 \/ v = 1 \/ v = 3 \/ v = 4) as K by (cbn in I; lia).
      destruct K as [->|[->|[->|[->| ->]]]]; [exists 1|exists 0|exists 0|exists 1|exists 2]; (split; [lia|]); eexists; (split; [reflexivity|]); cbn; lia.
    + intros (i & A). apply H in A. cbn. lia.
  - intros (i & j & k & L & [(A1 & A2 & A3)|(A1 & A2 & A3)]); apply H in A1, A2, A3; lia.
Qed.

(* Evaluating a stage: when no scratch part is required by two parts of the stage, then with any initial contents of the
   memory all reads give the same values as if every scratch var had its own storage.
   Full statement: for all stages, without the NoDup hypothesis; false, see below. *)
Theorem C37_stage_partial : forall V rd wr (f : Z -> Z * Z -> list V -> V) msz order sts ps sdeps sl addr i parts,
  NoDup order -> (forall v, In v order <-> exists k, accessed (stage_acc rd wr sts) v k) ->
  calc_lifespans msz order (stage_acc rd wr sts) = Ok sl ->
  (forall v e e', addr (v, e) = addr (v, e') -> e = e') ->
  0 <= i /\ nth_error sts (Z.to_nat i) = Some (false, parts) ->
  (forall p j st p2, In p parts -> 0 <= j -> nth_error sts (Z.to_nat j) = Some st -> fst st = true -> sdeps p p2 = true -> In p2 (snd st) -> j < i) ->
  (forall p l1 q l2 x, In p parts -> reqd_parts sts ps sdeps p = l1 ++ q :: l2 -> In x (rd q) -> exists b, In b l1 /\ In x (wr b)) ->
  NoDup (concat (map (reqd_parts sts ps sdeps) parts)) ->
  forall m1 m2, x_log (run_stage rd wr f (skey (fun v => match sl v with Some n => n | None => -1 end) addr) (reqd_parts sts ps sdeps) parts m1) =
                x_log (run_stage rd wr f pkey (reqd_parts sts ps sdeps) parts m2).
Proof. exact shared_slots_ok. Qed.
Print Assumptions C37_stage_partial.

(* part 1 writes var 1, part 2 reads it and writes var 2, part 3 reads 2 and writes 3, part 4 reads 3; vars 1 and 3 share *)
Definition C37_rd (p : Z) : list (Z * Z) := if p =? 2 then [(1, 0); (1, 1)] else if p =? 3 then [(2, 0)] else if p =? 4 then [(3, 0)] else [].
Definition C37_wr (p : Z) : list (Z * Z) := if p =? 1 then [(1, 0); (1, 1)] else if p =? 2 then [(2, 0)] else if p =? 3 then [(3, 0)] else [].
Definition C37_sts := [(true, [1]); (true, [2]); (true, [3]); (false, [4])].
Definition C37_sdeps (p q : Z) : bool := (p =? 4) && (q <? 4).
Example C37_stage_ex : exists sl, calc_lifespans (fun _ => 1) [1; 2; 3] (stage_acc C37_rd C37_wr C37_sts) = Ok sl /\ map sl [1; 2; 3] = [Some 0; Some 1; Some 0] /\
  reqd_parts C37_sts [1; 2; 3; 4] C37_sdeps 4 = [1; 2; 3; 4] /\
  x_log (run_stage C37_rd C37_wr (fun p w ins => p * 100 + snd w + fold_left Z.add ins 0) (skey (fun v => match sl v with Some n => n | None => -1 end) snd)
           (reqd_parts C37_sts [1; 2; 3; 4] C37_sdeps) [4] (fun _ => -7)) = [(1, []); (2, [100; 101]); (3, [401]); (4, [701])].
Proof. eexists. split; [reflexivity|]. vm_compute. auto. Qed.
Example C37_stage_hyp : (forall p l1 q l2 x, In p [4] -> reqd_parts C37_sts [1; 2; 3; 4] C37_sdeps p = l1 ++ q :: l2 -> In x (C37_rd q) -> exists b, In b l1 /\ In x (C37_wr b)).
Proof.
  intros p l1 q l2 x [<-|[]] E Ix. change (reqd_parts C37_sts [1; 2; 3; 4] C37_sdeps 4) with [1; 2; 3; 4] in E.
  destruct l1 as [|a [|b [|c [|d l1]]]]; cbn in E; try discriminate; injection E; intros; subst; cbn in Ix.
  - destruct Ix.
  - exists 1. split; [left; reflexivity|exact Ix].
  - exists 2. split; [right; left; reflexivity|exact Ix].
  - exists 3. split; [right; right; left; reflexivity|exact Ix].
  - destruct l1; discriminate.
Qed.

(* Finding.  E, A scratch; F = E, C = F; B = A in a sub-domain; var 2 = C; var 1 = B in the same sub-domain.  The stages are
   {E, A}, {B, F}, {C}, {2, 1}: A is last used in stage 1, so C gets its slot in stage 2.  But the kernel evaluates, in the last
   stage, first 2 with its scratch parts E+A, F, C and then 1 with B: E+A is not evaluated again and B reads what C wrote. *)
Definition C37_pt v s := mkPt v s [0] [].
Definition C37_eqs : list eqn :=
  [mkEqn (C37_pt 11 None) [C37_pt 1 (Some 0)] None None [];       (* E *)
   mkEqn (C37_pt 12 None) [C37_pt 2 (Some 0)] None None [];       (* A *)
   mkEqn (C37_pt 15 None) [C37_pt 11 None] None None [];          (* F *)
   mkEqn (C37_pt 16 None) [C37_pt 15 None] None None [];          (* C *)
   mkEqn (C37_pt 2 (Some 1)) [C37_pt 16 None] None None [];
   mkEqn (C37_pt 13 None) [C37_pt 12 None] (Some 1) None [];      (* B *)
   mkEqn (C37_pt 1 (Some 1)) [C37_pt 13 None] (Some 1) None []].
Definition C37_scr (v : Z) : bool := 10 <? v.

Theorem C37_shared_part_refuted : exists eqs eg ps ss sl parts q ins,
  build C37_scr (fun _ _ => true) (fun _ _ => true) true true (fun _ => true) 0 eqs = Ok (eg, ps, ss) /\
  calc_lifespans (fun _ => 1) [11; 12; 13; 15; 16] (stage_acc (b_rd C37_scr eqs ps) (b_wr C37_scr eqs ps) (b_stages ss)) = Ok sl /\
  In (false, parts) (b_stages ss) /\
  (* every part writes the number of the var as its value *)
  let log := x_log (run_stage (b_rd C37_scr eqs ps) (b_wr C37_scr eqs ps) (fun _ w _ => fst w)
                      (skey (fun v => match sl v with Some n => n | None => -1 end) snd) (reqd_parts (b_stages ss) (g_all (c_grp (ps_clus ps))) (b_sdeps ps)) parts (fun _ => 0)) in
  In (q, ins) log /\ ins <> map fst (b_rd C37_scr eqs ps q).
Proof.
  exists C37_eqs. do 4 eexists. exists [0; 1], 5, [16].
  split; [vm_compute; reflexivity|]. split; [vm_compute; reflexivity|]. split; [vm_compute; auto|].
  cbv zeta. split; [vm_compute; auto 10|vm_compute; discriminate].
Qed.
Print Assumptions C37_shared_part_refuted.
