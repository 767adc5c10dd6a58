(* Halo exchange between ranks: src/kernel/lib/setup.cpp:668-800 StencilContext::update_var_info (wave-front shifts and the
   minimal rank size), src/kernel/lib/alloc.cpp:454-855 StencilContext::alloc_mpi_data (which part of a var is sent to and
   received from each neighbor), src/kernel/lib/settings.cpp:99-114 MPIInfo::visit_neighbors, and one call of
   src/kernel/lib/halo.cpp:80-491 StencilContext::exchange_halos for one var (all halo_steps done in the call).
   Simplifications: idx_t and byte counts are unbounded; the storage of the buffers is in Alloc_Model; MPI and the shared-memory
   locks deliver the packed values (locks: Shm_Model); asserts do nothing.
   The points of a slice are visited in an order that depends on the slice and on whether whole vectors are copied; that order is
   a parameter (the order itself: Slice_Model). *)
From Verif Require Import Base Idiv_Model Tuple_Model Rank_Model Resize_Model.

(* A dim of a var, in the order of the var's dims.  XDom: index of the domain dim, vector length of the var in it, halos. *)
Inductive xd := XStep (alloc : Z) | XMisc (first size : Z) | XDom (j : nat) (vlen lh rh : Z).
(* get_halo_exchange_l1_norm() *)
Record xvar := mkXv { v_dims : list xd; v_l1 : Z }.
(* Settings that are the same on all ranks: the job, the vars of the solution, wf_steps, number of stages, force_scalar_exchange,
   _allow_addl_pad, the inner layout dim. *)
Record xset := mkXs { s_job : job; s_vars : list xvar; s_wf : Z; s_nstages : Z; s_force : bool; s_addl : bool; s_inner : nat }.
(* One rank: result of setup_rank(), mega-block sizes, min and extra pad sizes. *)
Record xrank := mkXr { xr_o : rank_out; xr_mb : list Z; xr_mp : list Z; xr_ep : list Z }.

Definition xr_c (r : xrank) (j : nat) : Z := pos j (o_coords (xr_o r)).
Definition xr_size (r : xrank) (j : nat) : Z := pos j (o_sizes (xr_o r)).
Definition xr_ofs (r : xrank) (j : nat) : Z := pos j (o_ofs (xr_o r)).

Section Exchange.
  Variable S : xset.
  Notation J := (s_job S).
  Notation nd := (j_nd J).
  Let fold_of (j : nat) : Z := pos j (j_fold J).
  Let nranks (j : nat) : Z := pos j (j_nranks J).

  (* settings.hpp:321-326 *)
  Definition is_first (r : xrank) (j : nat) : bool := xr_c r j =? 0.
  Definition is_last (r : xrank) (j : nat) : bool := xr_c r j =? nranks j - 1.

  (* setup.cpp:710-715: largest halo of all vars in dim j *)
  Definition max_halo (j : nat) : Z :=
    fold_left (fun m v => fold_left (fun m d => match d with XDom i _ lh rh => if (i =? j)%nat then Z.max (Z.max m lh) rh else m | _ => m end) (v_dims v) m) (s_vars S) 0.
  (* setup.cpp:726-736 *)
  Definition num_wf_shifts : Z := if 0 <? s_wf S then (if 0 <? s_nstages S * s_wf S then s_nstages S * s_wf S - 1 else s_nstages S * s_wf S) else 0.
  (* setup.cpp:741-762: wf_shift_pts *)
  Definition shift_pts (r : xrank) (j : nat) : Z :=
    (if (pos j (xr_mb r) <? xr_size r j) || (1 <? nranks j) then ROUND_UP (max_halo j) (fold_of j) else 0) * num_wf_shifts.
  (* setup.cpp:765-773: otherwise an exception *)
  Definition size_ok (r : xrank) : bool :=
    forallb (fun j => negb ((1 <? nranks j) && (xr_size r j <? max_halo j + shift_pts r j))) (seq 0 nd).

  (* pads of var dim (j, vlen, lh, rh) on a rank: yk_var.cpp:206-384 with the settings of setup.cpp:697-701 and :775-799 *)
  Definition vlen_gt1 : bool := 1 <? zprod (j_fold J).
  Definition var_pads (r : xrank) (j : nat) (vlen lh rh : Z) : Z * Z :=
    new_pads false (s_addl S) vlen_gt1
      (mkR false true (j =? s_inner S)%nat (fold_of j) vlen (xr_size r j) lh rh
           (if is_first r j then 0 else shift_pts r j) (if is_last r j then 0 else shift_pts r j)
           (pos j (xr_mp r)) (pos j (xr_mp r)) (pos j (xr_ep r)) (pos j (xr_ep r)) 0 0 0 0 0).

  (* alloc.cpp:481-483; setup.cpp:437-452 has_all_vlen_mults *)
  Definition all_mults (r : xrank) : bool := forallb (fun j => Z.rem (xr_size r j) (fold_of j) =? 0) (seq 0 nd).
  Definition vec_ok (a b : xrank) : bool := negb (s_force S) && all_mults a && all_mults b.

  (* position of b relative to a: -1, 0, 1 for rank_prev, rank_self, rank_next *)
  Definition dlt (a b : xrank) (j : nat) : Z := xr_c b j - xr_c a j.
  (* setup.cpp:312-316, :433 *)
  Definition man_dist (a b : xrank) : Z := zsum (map (fun j => Z.abs (dlt a b j)) (seq 0 nd)).

  (* alloc.cpp:535-548: outer indices (first, last) *)
  Definition outer_idx (r : xrank) (j : nat) (lh rh : Z) : Z * Z :=
    (xr_ofs r j - (if is_first r j then lh else 0), xr_ofs r j + xr_size r j - 1 + (if is_last r j then rh else 0)).
  (* alloc.cpp:557-562: can they be rounded? *)
  Definition can_round (r : xrank) (j : nat) (vlen lh rh : Z) : bool :=
    let (l, rr) := var_pads r j vlen lh rh in
    let (f, e) := outer_idx r j lh rh in
    negb (round_down_flr f vlen <? xr_ofs r j - l) && negb (xr_ofs r j + xr_size r j - 1 + rr <? round_up_flr (e + 1) vlen - 1).
  Definition var_vec_ok (a b : xrank) (v : xvar) : bool :=
    vec_ok a b && forallb (fun d => match d with XDom j vlen lh rh => can_round a j vlen lh rh | _ => true end) (v_dims v).
  (* alloc.cpp:575-612 and :631-652: (my_halo_sizes, neigh_halo_sizes) *)
  Definition halo_sizes (a b : xrank) (vec : bool) (j : nat) (vlen lh rh : Z) : Z * Z :=
    let ext := shift_pts a j in
    let p := if dlt a b j =? -1 then (lh + ext, rh + ext) else if dlt a b j =? 1 then (rh + ext, lh + ext) else (0, 0) in
    if vec then (ROUND_UP (fst p) vlen, ROUND_UP (snd p) vlen) else p.
  (* alloc.cpp:664-752: begin and end of the part of a var dim, on rank a for neighbor b *)
  Definition copy_range (send : bool) (a b : xrank) (vec : bool) (d : xd) : Z * Z :=
    match d with
    | XStep alloc => (0, alloc)
    | XMisc first size => (first, first + size)
    | XDom j vlen lh rh =>
        let (f, e) := outer_idx a j lh rh in
        let (f, e) := if vec then (round_down_flr f vlen, round_up_flr (e + 1) vlen - 1) else (f, e) in
        let (mine, neigh) := halo_sizes a b vec j vlen lh rh in
        let first := xr_ofs a j in
        let last := xr_ofs a j + xr_size a j - 1 in
        if dlt a b j =? -1 then if send then (first, first + neigh) else (first - mine, first)
        else if dlt a b j =? 1 then if send then (last + 1 - neigh, last + 1) else (last + 1, last + 1 + mine)
        else (f, e + 1)
    end.
  (* alloc.cpp:762-768 *)
  Definition range_vec_ok (d : xd) (r : Z * Z) : bool :=
    match d with XDom _ vlen _ _ => (Z.rem (snd r - fst r) vlen =? 0) && (imod_flr (fst r) vlen =? 0) | _ => true end.
  (* One buffer: vec_copy_ok, begin and end in all dims of the var. *)
  Record mbuf := mkMb { mb_vec : bool; mb_box : list (Z * Z) }.
  (* alloc.cpp:501-520, :618-624, :806-810: None when there is no buffer *)
  Definition mpi_buf (send : bool) (a b : xrank) (v : xvar) : option mbuf :=
    let maxdist := if 0 <? s_wf S then Z.of_nat nd else v_l1 v in
    let vec := var_vec_ok a b v in
    let box := map (copy_range send a b vec) (v_dims v) in
    if maxdist <? man_dist a b then None
    else if negb (existsb (fun d => match d with XDom j _ _ _ => (dlt a b j =? -1) || (dlt a b j =? 1) | _ => false end) (v_dims v)) then None
    else if (length box =? 0)%nat || (zprod (map (fun r => snd r - fst r) box) =? 0) then None
    else Some (mkMb (vec && forallb (fun e => range_vec_ok (fst e) (snd e)) (combine (v_dims v) box)) box).

  (* setup.cpp:387-408, settings.cpp:99-114: the neighbors of rank a in the order they are visited *)
  Definition find_rank (ranks : list xrank) (c : list Z) : option xrank :=
    find (fun r => forallb (fun j => xr_c r j =? pos j c) (seq 0 nd)) ranks.
  Definition neighbor_at (ranks : list xrank) (a : xrank) (o : list Z) : option xrank :=
    if forallb (fun j => pos j o =? 1) (seq 0 nd) then None
    else find_rank ranks (map (fun j => xr_c a j + pos j o - 1) (seq 0 nd)).
  Definition nb_offsets : list (list Z) :=
    flat_map (fun i => match unlayout_vals (j_fi J) (repeat 3 nd) i with Ok o => [o] | _ => [] end) (zseq (zprod (repeat 3 nd))).
  Definition neighbors (ranks : list xrank) (a : xrank) : list xrank :=
    flat_map (fun o => match neighbor_at ranks a o with Some b => [b] | None => [] end) nb_offsets.

  (* halo.cpp:83-84 and alloc.cpp:811: does the rank have an entry for the var in mpi_data? *)
  Definition has_data (ranks : list xrank) (a : xrank) (v : xvar) : bool :=
    existsb (fun b => match mpi_buf true a b v, mpi_buf false a b v with None, None => false | _, _ => true end) (neighbors ranks a).

  (* alloc.cpp:464-465, :696-722: begin and end of the MPI interior in dim j; it starts as ext_bb (the rank and its wave-front
     extension, setup.cpp:1095-1096, :1164) and leaves out what is sent.  [min_ext] = option _min_exterior. *)
  Definition int_step (left : bool) (min_ext : Z) (a b : xrank) (j : nat) (v : xvar) (m : Z) : Z :=
    if (if 0 <? s_wf S then Z.of_nat nd else v_l1 v) <? man_dist a b then m
    else fold_left (fun m d => match d with
      | XDom i vlen lh rh =>
          if negb (i =? j)%nat then m
          else let neigh := snd (halo_sizes a b (var_vec_ok a b v) j vlen lh rh) in
            if left then if dlt a b j =? -1 then Z.max m (ROUND_UP (xr_ofs a j + Z.max min_ext neigh) (fold_of j)) else m
            else if dlt a b j =? 1 then Z.min m (ROUND_DOWN (xr_ofs a j + xr_size a j - 1 + 1 - Z.max min_ext neigh) (fold_of j)) else m
      | _ => m end) (v_dims v) m.
  Definition int_limit (left : bool) (ranks : list xrank) (min_ext : Z) (a : xrank) (j : nat) : Z :=
    fold_left (fun m b => fold_left (fun m v => int_step left min_ext a b j v m) (s_vars S) m) (neighbors ranks a)
      (if left then xr_ofs a j - (if is_first a j then 0 else shift_pts a j)
       else xr_ofs a j + xr_size a j + (if is_last a j then 0 else shift_pts a j)).

  (* ---- one exchange of one var ---- *)
  Variable Val : Type.
  (* order of the points of a slice *)
  Variable ord : bool -> list (Z * Z) -> list (list Z).
  (* halo.cpp:260-264, :409-412: the slice of step t *)
  Definition step_box (v : xvar) (t : Z) (box : list (Z * Z)) : list (Z * Z) :=
    map (fun e : xd * (Z * Z) => match fst e with XStep _ => (t, t + 1) | _ => snd e end) (combine (v_dims v) box).
  (* halo.cpp:259-282 *)
  Definition pack (v : xvar) (steps : list Z) (b : mbuf) (vals : list Z -> Val) : list Val :=
    flat_map (fun t => map vals (ord (mb_vec b) (step_box v t (mb_box b)))) steps.
  (* halo.cpp:403-430: [data] longer or shorter than the slices is out-of-bounds access or wrong data *)
  Fixpoint put (pts : list (list Z)) (data : list Val) (vals : list Z -> Val) : option (list Val * (list Z -> Val)) :=
    match pts, data with
    | [], _ => Some (data, vals)
    | p :: pts, x :: data => put pts data (fun q => if list_eq_dec Z.eq_dec q p then x else vals q)
    | _ :: _, [] => None
    end.
  Fixpoint unpack (v : xvar) (steps : list Z) (b : mbuf) (data : list Val) (vals : list Z -> Val) : option (list Z -> Val) :=
    match steps with
    | [] => match data with [] => Some vals | _ => None end
    | t :: r => match put (ord (mb_vec b) (step_box v t (mb_box b))) data vals with None => None | Some (data, vals) => unpack v r b data vals end
    end.
  (* Rank a takes the message of b.  [dirty b]: is var b dirty in one of the steps (halo.cpp:240-246)?  If not, the message is
     empty and nothing is unpacked (:363-365).  A message without buffer on the other side hangs (Throw). *)
  Definition recv_from (v : xvar) (steps : list Z) (dirty : xrank -> bool) (st : xrank -> list Z -> Val) (a b : xrank) (vals : list Z -> Val) : res (list Z -> Val) :=
    match mpi_buf false a b v, mpi_buf true b a v with
    | None, None => Ok vals
    | Some rb, Some sb =>
        if dirty b then match unpack v steps rb (pack v steps sb (st b)) vals with Some vals => Ok vals | None => UB end
        else Ok vals
    | _, _ => Throw
    end.
  (* the values of rank a after the exchange; all ranks pack before they unpack: [st] = values of each rank when it packs,
     [vals] = values of rank a when it unpacks (with overlapped communication it has evaluated its interior in between) *)
  Definition exchange_rank (ranks : list xrank) (v : xvar) (steps : list Z) (dirty : xrank -> bool) (st : xrank -> list Z -> Val) (vals : list Z -> Val) (a : xrank) : res (list Z -> Val) :=
    fold_left (fun acc b => rbind acc (recv_from v steps dirty st a b)) (neighbors ranks a) (Ok vals).
End Exchange.
