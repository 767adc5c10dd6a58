(* C27: Allocated padding covers the halo and keeps vectors aligned. *)
From Verif Require Import Base Idiv_Model Var_Model Var_Spec Resize_Model Resize_Spec Resize_Proofs.

(* One resize() of a var whose existing storage, if any, is aligned. *)
Theorem C27_resize : forall v v', Forall dim_kind (rv_dims v) -> Forall (fun d => 0 <= r_dom d) (rv_dims v) ->
  (rv_storage v = true -> Forall aligned (rv_dims v)) -> resize v = Ok v' ->
  Forall pads_ok (rv_dims v') /\ Forall aligned (rv_dims v') /\ Forall2 kind_eq (rv_dims v) (rv_dims v') /\
  rv_storage v' = rv_storage v /\ rv_addl v' = rv_addl v /\ rv_vlen_gt1 v' = rv_vlen_gt1 v /\
  (rv_storage v = true -> map r_alloc (rv_dims v') = map r_alloc (rv_dims v)) /\
  Forall2 (fun d d' => r_dom d' = r_dom d /\ r_lh d' = r_lh d /\ r_rh d' = r_rh d /\ r_lwf d' = r_lwf d /\ r_rwf d' = r_rwf d /\
    r_rlp d' = r_rlp d /\ r_rrp d' = r_rrp d /\ r_rle d' = r_rle d /\ r_rre d' = r_rre d) (rv_dims v) (rv_dims v') /\
  Forall (fun d => any_neg d = false) (rv_dims v) /\
  ((forall d, In d (rv_dims v') -> r_step d = false) /\ rv_dirty v' = 1 \/ exists d, In d (rv_dims v') /\ r_step d = true /\ rv_dirty v' = r_alloc d).
Proof. exact resize_ok. Qed.
Print Assumptions C27_resize.

(* A new var is allocated correctly. *)
Theorem C27_new_var : forall ds ad g, fresh_kinds ds -> exists v, fresh_var ds ad g = Ok v /\ Forall pads_ok (rv_dims v).
Proof. exact fresh_ok. Qed.
Print Assumptions C27_new_var.

(* Any sequence of setters (failing or not), allocations and releases: after each setter that returns normally. *)
Theorem C27_any_calls : forall ds ad g v ops p s, fresh_kinds ds -> fresh_var ds ad g = Ok v -> Forall op_ok (ops ++ [RSet p s]) ->
  fst (run_rops v (ops ++ [RSet p s]) (Ok tt)) = Ok tt -> Forall pads_ok (rv_dims (snd (run_rops v (ops ++ [RSet p s]) (Ok tt)))).
Proof. exact calls_ok. Qed.
Print Assumptions C27_any_calls.

(* The result satisfies the well-formedness that the element accesses (C18, C19, C23) assume. *)
Theorem C27_well_formed : forall d rofs lofs, dim_kind d -> pads_ok d -> any_neg d = false -> 0 <= r_dom d ->
  (r_domain d = false -> r_lpad d = 0 /\ r_rpad d = 0) -> (r_step d = true -> 1 <= r_dom d /\ rofs = 0) ->
  wf_dim (to_vdim rofs lofs d) /\ d_alloc (to_vdim rofs lofs d) = r_alloc d.
Proof. exact pads_wf_dim. Qed.
Print Assumptions C27_well_formed.

(* t with 2 slots; x folded by 4 and inner: domain 13, halos 3 and 5, minimal right pad 7; VLEN > 1 *)
Definition C27_dims := [fresh_dim true false false 1 1; fresh_dim false true true 4 4].
Definition C27_ops := [RSet 0 (SDomain 2); RSet 1 (SDomain 13); RSet 1 (SHalo (Some 3) (Some 5)); RSet 1 (SHalo (Some (-1)) None);
                       RSet 1 (SHalo (Some 3) None); RSet 1 (SMinPad None (Some 7)); RAlloc; RSet 1 (SMinPadUp (Some 1) None)].
Example C27_any_calls_ex : exists v, fresh_kinds C27_dims /\ fresh_var C27_dims true true = Ok v /\ Forall op_ok C27_ops /\
  fst (run_rops v C27_ops (Ok tt)) = Ok tt /\
  map (fun d => (r_lpad d, r_dom d, r_rpad d, r_alloc d)) (rv_dims (snd (run_rops v C27_ops (Ok tt)))) = [(0, 2, 0, 2); (8, 13, 15, 36)] /\
  rv_dirty (snd (run_rops v C27_ops (Ok tt))) = 2.
Proof.
  eexists. split; [|split; [reflexivity|]].
  - unfold fresh_kinds, C27_dims. repeat constructor.
    + exists true, false, false, 1, 1. split; [reflexivity|]. unfold dim_kind; cbn. lia.
    + exists false, true, true, 4, 4. split; [reflexivity|]. unfold dim_kind; cbn. split; [lia|]. split; [lia|]. split; discriminate.
  - split; [repeat constructor; cbn; lia|]. vm_compute. auto.
Qed.

(* Finding: a setter that throws because storage exists keeps its assignment.  After set_alloc_size of a fixed-size var
   throws, element indices beyond the allocation pass the index check (yk_var_apis.cpp:262, yk_var.cpp:327-333). *)
Theorem C27_failed_setter_refuted : exists ds v ops, fresh_kinds ds /\ fresh_var ds true false = Ok v /\ Forall op_ok ops /\
  let '(r, v') := run_rops v ops (Ok tt) in
  r = Throw /\ rv_storage v' = true /\
  exists d i, In d (rv_dims v') /\ check_index false true (to_vdim 0 0 d) i = (true, i) /\
    r_alloc d <= elem_adj_idx (to_vdim 0 0 d) i.
Proof.
  exists [fresh_dim false true false 1 1]. eexists. exists [RSet 0 (SDomain 10); RAlloc; RSet 0 (SDomain 1000)].
  split; [|split; [reflexivity|]].
  - constructor; [|constructor]. exists false, true, false, 1, 1. split; [reflexivity|]. unfold dim_kind; cbn. split; [lia|]. split; [lia|]. split; discriminate.
  - split; [repeat constructor; cbn; lia|].
    set (r := run_rops _ _ _). vm_compute in r. subst r. cbv beta iota. split; [reflexivity|]. split; [reflexivity|].
    eexists. exists 900. split; [left; reflexivity|]. split; vm_compute; [reflexivity|discriminate].
Qed.
Print Assumptions C27_failed_setter_refuted.
