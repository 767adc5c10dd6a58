(* src/kernel/lib/alloc.cpp: placing vars (alloc_var_data, 343-452), halo-message buffers (second half of alloc_mpi_data,
   855-1029) and scratch vars (alloc_scratch_data, 1038-1187) in chunks of memory.
   A chunk is named by its AllocKey; an address is (chunk, byte offset).  Sizes are unbounded integers.  The allocators
   themselves (_alloc_data and numa_alloc etc., 47-341) are taken to return a fresh chunk of the requested size;
   a request for 0 bytes makes no chunk (281-282), and using that null pointer is UB. *)
From Verif Require Import Base Idiv_Model Resize_Model.

(* yask.hpp:170-172, context.hpp:242 *)
Definition CACHELINE_BYTES : Z := 64.
Definition data_buf_pad : Z := CACHELINE_BYTES * 3.
(* alloc.cpp:401, :998, :1160 *)
Definition resv (nbytes : Z) : Z := ROUND_UP (nbytes + data_buf_pad) CACHELINE_BYTES.

(* AllocKey, alloc.hpp:187; the nbytes field of AllocMap, alloc.hpp:190-197 *)
Definition akey : Type := Z * Z.
Definition akey_eqb (a b : akey) : bool := (fst a =? fst b) && (snd a =? snd b).
Definition kmap := akey -> Z.
Definition k0 : kmap := fun _ => 0.
Definition kadd (m : kmap) (k : akey) (n : Z) : kmap := fun k' => if akey_eqb k' k then m k' + n else m k'.
Definition inb (x : Z) (l : list Z) : bool := existsb (Z.eqb x) l.

(* ---- alloc_var_data ---- *)

(* 348-366: output vars, then the other original vars, then the others *)
Definition sort_step (st : list Z * list Z) (v : Z) : list Z * list Z :=
  let '(out, done) := st in if inb v done then st else (out ++ [v], v :: done).
Definition sorted_vars (outs origs alls : list Z) : list Z :=
  fst (fold_left sort_step alls (fold_left sort_step origs (outs, outs))).

(* a var: get_name(), is_storage_allocated(), get_numa_preferred(), get_num_storage_bytes() *)
Record vrq := mkV { v_id : Z; v_has : bool; v_numa : Z; v_bytes : Z }.
Record vst := mkVs { vs_seq : Z; vs_bytes : kmap; vs_at : list (vrq * (akey * Z)) }.
(* 388-440, one var; [chunks] is None in pass 0, Some in pass 1 *)
Definition var_step (bundle : bool) (chunks : option kmap) (st : vst) (v : vrq) : res vst :=
  if v_has v || existsb (fun e => v_id (fst e) =? v_id v) (vs_at st) then Ok st
  else
    let seq := if bundle then vs_seq st else vs_seq st + 1 in
    let k := (v_numa v, seq) in
    let bytes := kadd (vs_bytes st) k (resv (v_bytes v)) in
    match chunks with
    | None => Ok (mkVs seq bytes (vs_at st))
    | Some c => if c k =? 0 then UB else Ok (mkVs seq bytes (vs_at st ++ [(v, (k, vs_bytes st k))]))
    end.
(* 371-451: sizes of the chunks, and the address given to each var *)
Definition alloc_var_data (bundle : bool) (vars : list vrq) : res (kmap * list (vrq * (akey * Z))) :=
  rbind (rfold (var_step bundle None) vars (mkVs 0 k0 [])) (fun s0 =>
  rbind (rfold (var_step bundle (Some (vs_bytes s0))) vars (mkVs 0 k0 [])) (fun s1 =>
  Ok (vs_bytes s0, vs_at s1))).

(* ---- alloc_mpi_data ---- *)

(* 265 *)
Definition shmem_key : Z := 1000.
(* a configured buffer in the order of the visits: var, rank of the neighbor in the shared-memory group if it is in it
   (shm_ranks), send or receive, get_bytes() *)
Record brq := mkB { b_var : Z; b_shm : option Z; b_send : bool; b_bytes : Z }.
(* 919-930 *)
Definition b_key (numa : Z) (b : brq) : akey := (match b_shm b with Some _ => shmem_key | None => numa end, 0).
(* 953 *)
Definition use_mine (b : brq) : bool := negb (negb (b_send b) && match b_shm b with Some _ => true | None => false end).
Record mst := mkMs { ms_bytes : kmap; ms_at : list (brq * (akey * Z)); ms_ofs : list (Z * Z * Z) (* sb_ofs[var][me][to] *) }.
(* 933-1003, one buffer in pass 0 or 1 *)
Definition buf_step (numa : Z) (chunks : option kmap) (st : mst) (b : brq) : res mst :=
  if b_bytes b =? 0 then Ok st
  else if negb (use_mine b) then Ok st
  else
    let k := b_key numa b in
    let bytes := kadd (ms_bytes st) k (resv (b_bytes b)) in
    match chunks with
    | None => Ok (mkMs bytes (ms_at st) (ms_ofs st))
    | Some c =>
        if c k =? 0 then UB
        else
          let ofs := ms_bytes st k in
          Ok (mkMs bytes (ms_at st ++ [(b, (k, ofs))])
                (match b_shm b with Some to => (b_var b, to, ofs) :: ms_ofs st | None => ms_ofs st end))
    end.
(* passes 0 and 1, 888-1025: sizes of the chunks, addresses of the buffers in own memory, table of offsets *)
Definition alloc_mpi_own (numa : Z) (bufs : list brq) : res (kmap * list (brq * (akey * Z)) * list (Z * Z * Z)) :=
  rbind (rfold (buf_step numa None) bufs (mkMs k0 [] [])) (fun s0 =>
  rbind (rfold (buf_step numa (Some (ms_bytes s0))) bufs (mkMs k0 [] [])) (fun s1 =>
  Ok (ms_bytes s0, ms_at s1, ms_ofs s1))).
(* the last value assigned to sb_ofs[v][from][to]; 0 from resize() at 909-911 *)
Definition ofs_get (t : list (Z * Z * Z)) (v to : Z) : Z :=
  match find (fun e : Z * Z * Z => let '(v', to', _) := e in (v' =? v) && (to' =? to)) t with Some (_, _, o) => o | None => 0 end.
(* pass 2, 975-992, after the broadcasts of 1008-1021: on rank [me] of the group, the receive buffer [b] of rank [from] is
   placed in the shared chunk of [from]; [tabs from] is the table of that rank *)
Definition shm_recv_ofs (tabs : Z -> list (Z * Z * Z)) (me : Z) (b : brq) : option (Z * Z) :=
  if (b_bytes b =? 0) || use_mine b then None
  else match b_shm b with Some from => Some (from, ofs_get (tabs from) (b_var b) me) | None => None end.

(* ---- alloc_scratch_data ---- *)

(* settings of one domain dim of a scratch var: micro-block size, shift_pts (1117), max_write_halo_left and _right *)
Record dcfg := mkD { c_mblk : Z; c_shift : Z; c_ml : Z; c_mr : Z }.
(* 1104-1126, setters of one dim *)
Definition dim_ops (posn : nat) (c : option dcfg) : list rop :=
  match c with
  | None => []
  | Some c => [RSet posn (SDomain (c_mblk c)); RSet posn (SWf (Some (c_shift c)) None); RSet posn (SWf None (Some (c_shift c)));
               RSet posn (SExtraUp (Some 0) (Some 0)); RSet posn (SMinPadUp (Some (c_ml c)) None); RSet posn (SMinPadUp None (Some (c_mr c)))]
  end.
Fixpoint all_dim_ops (posn : nat) (l : list (option dcfg)) : list rop :=
  match l with [] => [] | c :: r => dim_ops posn c ++ all_dim_ops (S posn) r end.
(* an exception of any setter stops the allocation *)
Definition run_setters (v : rvar) (l : list rop) : res rvar :=
  rfold (fun v o => match run_rop v o with (Ok _, v') => Ok v' | (Throw, _) => Throw | (UB, _) => UB | (OutOfFuel, _) => OutOfFuel end) l v.
(* get_num_storage_bytes, generic_var.hpp:270; [esz] = sizeof(real_t) *)
Definition storage_bytes (esz : Z) (v : rvar) : Z := esz * zprod (map r_alloc (rv_dims v)).

(* a scratch var (one object per thread, all equal): slot from the compiler, NUMA preference, size *)
Record srq := mkS { s_id : Z; s_slot : Z; s_numa : Z; s_bytes : Z }.
Definition tns : Type := Z * Z.
Record sst := mkSs { ss_seq : Z; ss_bytes : kmap; ss_seen : list tns; ss_slot : tns -> akey * Z; ss_at : list (srq * Z * (akey * Z)) }.
(* 1083-1179, one scratch var of one thread *)
Definition scr_step (bundle : bool) (chunks : option kmap) (st : sst) (vt : srq * Z) : res sst :=
  let '(v, thr) := vt in
  let t := (thr, s_slot v) in
  let new_slot := negb (existsb (akey_eqb t) (ss_seen st)) in
  let seq := if new_slot && negb bundle then ss_seq st + 1 else ss_seq st in
  let k := (s_numa v, seq) in
  let here := if new_slot then (k, ss_bytes st k) else ss_slot st t in
  let slots := if new_slot then fun t' => if akey_eqb t' t then here else ss_slot st t' else ss_slot st in
  let bytes := if new_slot then kadd (ss_bytes st) k (resv (s_bytes v)) else ss_bytes st in
  let seen := if new_slot then t :: ss_seen st else ss_seen st in
  match chunks with
  | None => Ok (mkSs seq bytes seen slots (ss_at st))
  | Some c => if c (fst here) =? 0 then UB else Ok (mkSs seq bytes seen slots (ss_at st ++ [(v, thr, here)]))
  end.
(* 1067-1186, the sizes being set before (1104-1126); the map mem_slot_data is kept between the passes but every entry that is
   used is written in the same pass *)
Definition ss0 : sst := mkSs 0 k0 [] (fun _ => ((0, 0), 0)) [].
Definition alloc_scratch_data (bundle : bool) (nthreads : Z) (vars : list srq) : res (kmap * list (srq * Z * (akey * Z))) :=
  let vts := flat_map (fun v => map (fun t => (v, t)) (zseq nthreads)) vars in
  rbind (rfold (scr_step bundle None) vts ss0) (fun s0 =>
  rbind (rfold (scr_step bundle (Some (ss_bytes s0))) vts ss0) (fun s1 =>
  Ok (ss_bytes s0, ss_at s1))).
