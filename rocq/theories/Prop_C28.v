(* C28: Storage of different vars never overlaps. *)
From Verif Require Import Base Idiv_Model Resize_Model Lifespan_Model Alloc_Model Alloc_Spec Alloc_Proofs.

(* The vars to place: every var once, the output vars first, then the other original vars. *)
Theorem C28_order : forall outs origs alls, NoDup outs ->
  NoDup (sorted_vars outs origs alls) /\ (forall v, In v (sorted_vars outs origs alls) <-> In v outs \/ In v origs \/ In v alls) /\
  exists a b, sorted_vars outs origs alls = outs ++ a ++ b /\ forall v, In v a -> In v origs.
Proof. exact sorted_vars_ok. Qed.
Print Assumptions C28_order.
Example C28_order_ex : sorted_vars [3; 5] [1; 3; 2; 5] [1; 2; 3; 5; 9; 9] = [3; 5; 1; 2; 9].
Proof. reflexivity. Qed.

(* Vars: each var without storage gets exactly one range, of its NUMA preference; all ranges are inside their chunks,
   cache-line aligned and pairwise disjoint. *)
Theorem C28_vars : forall bundle vars, NoDup (map v_id vars) -> (forall v, In v vars -> 0 <= v_bytes v) ->
  exists chunks at_, alloc_var_data bundle vars = Ok (chunks, at_) /\
    map fst at_ = filter (fun v => negb (v_has v)) vars /\
    Forall (fun e => fst (fst (snd e)) = v_numa (fst e)) at_ /\
    Forall (fun e => inside chunks (vrange e) /\ line_aligned (vrange e)) at_ /\
    ForallOrdPairs (fun a b => disjoint (vrange a) (vrange b)) at_.
Proof. exact alloc_vars_ok. Qed.
Print Assumptions C28_vars.
Definition C28_vs := [mkV 1 false 0 100; mkV 2 true 0 70; mkV 3 false 1 64; mkV 4 false 0 0; mkV 5 false 0 4096].
Example C28_vars_ex : NoDup (map v_id C28_vs) /\ Forall (fun v => 0 <= v_bytes v) C28_vs /\
  match alloc_var_data true C28_vs with
  | Ok (ch, l) => map (fun e => (v_id (fst e), snd e)) l = [(1, ((0, 0), 0)); (3, ((1, 0), 0)); (4, ((0, 0), 320)); (5, ((0, 0), 512))] /\
                  ch (0, 0) = 4800 /\ ch (1, 0) = 256
  | _ => False end.
Proof. split; [repeat constructor; cbn; lia|]. split; [repeat constructor; cbn; lia|]. vm_compute. auto. Qed.

(* Message buffers, each with the lock that follows its data; [in_own]: not empty and not received through shared memory. *)
Theorem C28_buffers : forall numa bufs, (forall b, In b bufs -> 0 <= b_bytes b) ->
  exists chunks at_ tab, alloc_mpi_own numa bufs = Ok (chunks, at_, tab) /\
    map fst at_ = filter in_own bufs /\
    Forall (fun e => fst (snd e) = b_key numa (fst e)) at_ /\
    Forall (fun e => inside chunks (brange e) /\ line_aligned (brange e)) at_ /\
    ForallOrdPairs (fun a b => disjoint (brange a) (brange b)) at_.
Proof. exact alloc_mpi_ok. Qed.
Print Assumptions C28_buffers.

(* A receive buffer in shared memory is the send buffer that rank [from] made for this rank and var.  [bufs], [at_], [tab]:
   buffers of rank [from]; [r]: receive buffer of rank [me]. *)
Theorem C28_shared_buffer : forall numa bufs chunks at_ tabs tab from me r s, (forall b, In b bufs -> 0 <= b_bytes b) ->
  NoDup (map (fun b => (b_var b, b_shm b)) (filter to_group bufs)) ->
  alloc_mpi_own numa bufs = Ok (chunks, at_, tab) -> tabs from = tab ->
  b_send r = false -> b_shm r = Some from ->
  In s bufs -> b_send s = true -> b_shm s = Some me -> b_var s = b_var r -> b_bytes s = b_bytes r -> b_bytes s <> 0 ->
  exists o, shm_recv_ofs tabs me r = Some (from, o) /\ In (s, ((shmem_key, 0), o)) at_.
Proof. exact shm_recv_ok. Qed.
Print Assumptions C28_shared_buffer.
Definition C28_bufs := [mkB 1 (Some 0) true 80; mkB 1 (Some 0) false 80; mkB 1 None true 40; mkB 1 None false 40; mkB 1 (Some 2) true 24;
                        mkB 2 (Some 0) true 8; mkB 2 (Some 2) true 0].
Example C28_buffers_ex : NoDup (map (fun b => (b_var b, b_shm b)) (filter to_group C28_bufs)) /\ Forall (fun b => 0 <= b_bytes b) C28_bufs /\
  match alloc_mpi_own 7 C28_bufs with
  | Ok (ch, l, tab) => map snd l = [((1000, 0), 0); ((7, 0), 0); ((7, 0), 256); ((1000, 0), 320); ((1000, 0), 576)] /\ ch (1000, 0) = 832 /\
                       shm_recv_ofs (fun _ => tab) 0 (mkB 2 (Some 1) false 8) = Some (1, 576)
  | _ => False end.
Proof. split; [repeat constructor; cbn; intuition congruence|]. split; [repeat constructor; cbn; lia|]. vm_compute. auto. Qed.

(* Scratch vars: when all vars of a slot have the same size, then each thread and slot has its own range.
   Full statement: without the hypothesis on the sizes; false, see below. *)
Theorem C28_scratch_partial : forall bundle nthreads vars, (forall v, In v vars -> 0 <= s_bytes v) ->
  (forall u v, In u vars -> In v vars -> s_slot u = s_slot v -> s_bytes u = s_bytes v) ->
  exists chunks at_, alloc_scratch_data bundle nthreads vars = Ok (chunks, at_) /\
    map fst at_ = flat_map (fun v => map (fun t => (v, t)) (zseq nthreads)) vars /\
    Forall (fun e => inside chunks (srange e) /\ line_aligned (srange e)) at_ /\
    forall a b, In a at_ -> In b at_ -> if akey_eqb (sslot a) (sslot b) then snd a = snd b else disjoint (srange a) (srange b).
Proof. exact alloc_scratch_ok. Qed.
Print Assumptions C28_scratch_partial.
Definition C28_ss := [mkS 1 0 0 1000; mkS 2 1 0 40; mkS 3 0 0 1000].
Example C28_scratch_ex : (forall u v, In u C28_ss -> In v C28_ss -> s_slot u = s_slot v -> s_bytes u = s_bytes v) /\
  match alloc_scratch_data false 2 C28_ss with
  | Ok (ch, l) => map (fun e => (s_id (fst (fst e)), snd (fst e), snd e)) l =
      [(1, 0, ((0, 1), 0)); (1, 1, ((0, 2), 0)); (2, 0, ((0, 3), 0)); (2, 1, ((0, 4), 0)); (3, 0, ((0, 1), 0)); (3, 1, ((0, 2), 0))]
  | _ => False end.
Proof. split; [|vm_compute; reflexivity]. intros u v Iu Iv. cbn in Iu, Iv. intuition (subst; cbn in *; lia). Qed.

(* Finding: the room of a slot is that of the first var put into it (alloc.cpp:1157-1163), but vars of one slot differ in size
   when their halos differ and there are temporal shifts (the slots of calc_lifespans depend on the misc dims only).
   Two 3-D scratch vars with halos 0 and 2 in all dims, used one after the other; micro-block 8x8x8, shift_pts 4, write halos
   2, reals of 4 bytes, no folding. *)
Definition C28_cfg := repeat (Some (mkD 8 4 2 2)) 3.
Definition C28_new (halo : Z) : res rvar :=
  rbind (fresh_var (repeat (fresh_dim false true false 1 1) 3) true false) (fun v =>
  rbind (run_setters v [RSet 0 (SHalo (Some halo) (Some halo)); RSet 1 (SHalo (Some halo) (Some halo)); RSet 2 (SHalo (Some halo) (Some halo))]) (fun v =>
  run_setters v (all_dim_ops 0 C28_cfg))).
Theorem C28_scratch_slot_refuted : exists va vb slot chunks at_ a b chunks1 at1 c,
  C28_new 0 = Ok va /\ C28_new 2 = Ok vb /\
  calc_lifespans (fun _ => 1) [1; 2] [[1]; [1]; [2]; [2]] = Ok slot /\ slot 1 = Some 0 /\ slot 2 = Some 0 /\
  let vars := [mkS 1 0 0 (storage_bytes 4 va); mkS 2 0 0 (storage_bytes 4 vb)] in
  (* one chunk for all: var 2 of thread 0 overlaps var 2 of thread 1 *)
  alloc_scratch_data true 2 vars = Ok (chunks, at_) /\ In a at_ /\ In b at_ /\ sslot a <> sslot b /\ ~ disjoint (srange a) (srange b) /\
  (* one chunk each: var 2 is larger than its chunk *)
  alloc_scratch_data false 2 vars = Ok (chunks1, at1) /\ In c at1 /\ ~ inside chunks1 (srange c).
Proof.
  do 5 eexists. exists (mkS 2 0 0 32000, 0, ((0, 0), 0)), (mkS 2 0 0 32000, 1, ((0, 0), 16576)). do 2 eexists. exists (mkS 2 0 0 32000, 0, ((0, 1), 0)).
  split; [vm_compute; reflexivity|]. split; [vm_compute; reflexivity|]. split; [vm_compute; reflexivity|].
  split; [vm_compute; reflexivity|]. split; [vm_compute; reflexivity|]. cbv zeta.
  split; [vm_compute; reflexivity|]. split; [vm_compute; auto|]. split; [vm_compute; auto|]. split; [vm_compute; congruence|].
  split; [cbn; intros [H|[H|H]]; [congruence|lia..]|].
  split; [vm_compute; reflexivity|]. split; [vm_compute; auto|]. vm_compute. intuition congruence.
Qed.
Print Assumptions C28_scratch_slot_refuted.
