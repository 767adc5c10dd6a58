(* Vars for the examples on merging. *)
From Coq Require Import Lia.
From Verif Require Import Base Cover_Spec Loops_Model Tile_Model Sched_Spec Tile_Spec TileCfg_Spec Tile5_Proofs Tile_Examples
  Rank_Model Resize_Model Exchange_Model Fuse_Model Fuse_Spec.
Open Scope Z_scope.

(* dims t (name 0, two steps) and x (name 1) of size [dom], halos [h], pads [pad], folded by [vl] *)
Definition fx_var (vl dom h pad : Z) : rvar :=
  mkRV [mkR true false false 1 1 2 0 0 0 0 0 0 0 0 0 0 2 0 2;
        mkR false true true vl vl dom h h 0 0 0 0 0 0 pad pad (dom + 2 * pad) (pad / vl) ((dom + 2 * pad) / vl)] false false (1 <? vl) 2.
Example fx_made : map (fun vl =>
    match fresh_var [fresh_dim true false false 1 1; fresh_dim false true true vl vl] false (1 <? vl) with
    | Ok v => snd (run_rops v [RSet 0 (SDomain 2); RSet 1 (SDomain 8); RSet 1 (SHalo (Some 1) (Some 1))] (Ok tt))
    | _ => mkRV [] false false false 0
    end) [1; 4] = [fx_var 1 8 1 1; fx_var 4 8 1 8].
Proof. vm_compute. reflexivity. Qed.
(* a var of the solution, and vars that the user made with the size 8, with halo 1 *)
Definition fx_sol : base := mkB 10 [0; 1] (fx_var 1 0 1 1) [0; 0] [0; 0] false false 1 (fun _ => 0).
Definition fx_fix (name vl dom : Z) : base := mkB name [0; 1] (fx_var vl dom 1 (if vl =? 1 then 1 else 8)) [0; 0] [0; 0] true true 0 (fun _ => 7).
Definition fx_mem (b c : base) : mem := mkM [fx_sol; b; c] [0; 1; 2]%nat.
Definition fx_ctx : ctx := mkX [(10, 0%nat); (20, 1%nat); (30, 2%nat)] [0%nat].
Definition fx_opts (n : Z) : list ropt := [mkO 1 n 0 0 0].

Ltac shape := split; [reflexivity|split; [repeat constructor; cbn; intuition discriminate|split; reflexivity]].
Lemma fx_shaped : shaped fx_sol /\ shaped (fx_fix 20 1 8) /\ shaped (fx_fix 30 1 8) /\ shaped (fx_fix 30 4 8) /\ shaped (fx_fix 30 1 4).
Proof. repeat (split; [shape|]). shape. Qed.

Lemma fx_alloc : forall n dom, dom = 8 \/ dom = 4 -> allocated (fx_fix n 1 dom).
Proof.
  intros n dom H. unfold allocated. destruct H as [-> | ->]; (apply Forall_cons; [|apply Forall_cons; [|apply Forall_nil]]); vm_compute; split; try reflexivity; try discriminate; auto.
Qed.

(* the memory after an evaluation *)
Definition fx_regs (d : sdim) (mg_t : Z) : list region :=
  match setup [d] [[(0, 8)]] mg_t 0 false false f_nest f_omp f_nest 1 with
  | Ok c => match run_solution c 0 1 with Ok r => r | _ => [] end
  | _ => []
  end.
(* 8 points in mega-blocks of 4; the largest halo is [h] *)
Definition fx_dim (h : Z) : sdim := mkSdim 1 h 0 8 1 true true 0 8 4 4 4 4 4 4.

(* two ranks of 8 points *)
Definition fx_set (v : xvar) : xset := mkXs (mkJob 1 [16] [2] [1] true false) [v] 0 1 false true 0.
Definition fx_rank (i : Z) : xrank := mkXr (mkRo [i] [8] [16] [8 * i]) [8] [0] [0].

Lemma fx_solution : forall b c, shaped b -> shaped c -> solution_ok fx_ctx (fx_mem b c).
Proof.
  intros b c Wb Wc. split; [|split; [|split]].
  - intros h H. cbn in *. destruct H as [<-|[]]. auto.
  - intros h H. cbn in H. destruct H as [<-|[<-|[<-|[]]]]; eexists; reflexivity.
  - apply Forall_cons; [apply fx_shaped|]. apply Forall_cons; [exact Wb|]. apply Forall_cons; [exact Wc|]. apply Forall_nil.
  - intros h d H E. cbn in H. destruct H as [<-|[]]. injection E as <-. reflexivity.
Qed.
