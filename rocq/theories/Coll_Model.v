(* The collective calls that a rank makes on the communicator of its node while message buffers are allocated:
   src/kernel/lib/alloc.cpp:474-858 (which buffers there are), 872-1028 (the three passes), 273-297 (_alloc_data),
   :214-246 (shm_alloc), settings.cpp:99-113, 153-165 (visit_neighbors), setup.cpp:391-426 (neighbors and their ranks on the node).
   Simplified: sizes are in elements; step and misc dims (at least one element) are left out; the outer halos and the
   rounding to whole vectors, which make positive sizes larger, are part of the oracle [g_dom] and of the halos; allocations that are not in the memory
   shared on the node are local and left out. *)
From Verif Require Import Base.

(* What is exchanged of a var: for each domain dim that it has the left and right halo with the wave-front shift
   (alloc.cpp:578-609), and the greatest distance of neighbors (501-508). *)
Record xvar := mkX { x_halo : list (option (Z * Z)); x_max : Z }.

(* The job: ranks per dim, size of the domain of the rank at some coordinates, shared-memory rank of the rank at some coordinates
   if it is on the node looked at, and number of ranks on the node; orig_var_ptrs. *)
Record job := mkJob {
  g_num : list Z; g_dom : list Z -> nat -> Z; g_node : list Z -> option Z; g_nshm : nat; g_vars : list xvar }.

Definition ndims (g : job) : nat := length (g_num g).
Definition at_ (l : list Z) (i : nat) : Z := nth i l 0.
Definition halo_at (v : xvar) (i : nat) : option (Z * Z) := nth i (x_halo v) None.

(* All offsets of a neighborhood: visit_all_points of neighborhood_sizes, settings.cpp:104-105, with -1 for rank_prev and 1 for rank_next. *)
Fixpoint offsets (k : nat) : list (list Z) :=
  match k with
  | O => [[]]
  | S k' => flat_map (fun o => [(-1) :: o; 0 :: o; 1 :: o]) (offsets k')
  end.
Definition plus (g : job) (c o : list Z) : list Z := map (fun i => at_ c i + at_ o i) (seq 0 (ndims g)).
Definition inside (g : job) (c : list Z) : bool := forallb (fun i => (0 <=? at_ c i) && (at_ c i <? at_ (g_num g) i)) (seq 0 (ndims g)).
(* settings.cpp:109, 162; setup.cpp:391-405: the offsets of the neighbors that exist. *)
Definition neighbors (g : job) (c : list Z) : list (list Z) :=
  filter (fun o => existsb (fun i => negb (at_ o i =? 0)) (seq 0 (ndims g)) && inside g (plus g c o)) (offsets (ndims g)).

(* setup.cpp:306-313 *)
Definition man_dist (g : job) (o : list Z) : Z := zsum (map (fun i => Z.abs (at_ o i)) (seq 0 (ndims g))).
(* alloc.cpp:676-741: extent of a buffer in one dim. *)
Definition extent (g : job) (v : xvar) (c o : list Z) (send : bool) (i : nat) : Z :=
  match halo_at v i with
  | None => 1
  | Some (l, r) =>
    if at_ o i =? -1 then (if send then r else l)
    else if at_ o i =? 1 then (if send then l else r)
    else g_dom g c i
  end.
(* alloc.cpp:510-520, 587, 605, 625-631, 810: size of the buffer, 0 if there is none. *)
Definition buf_size (g : job) (v : xvar) (c o : list Z) (send : bool) : Z :=
  if x_max v <? man_dist g o then 0
  else if existsb (fun i => match halo_at v i with Some _ => negb (at_ o i =? 0) | None => false end) (seq 0 (ndims g))
  then zprod (map (extent g v c o send) (seq 0 (ndims g)))
  else 0.

(* alloc.cpp:820, 903: is there an entry in mpi_data for the var? *)
Definition has_data (g : job) (c : list Z) (v : xvar) : bool :=
  existsb (fun o => negb (buf_size g v c o true =? 0) || negb (buf_size g v c o false =? 0)) (neighbors g c).
(* setup.cpp:405-424: is the neighbor on the node? *)
Definition on_node (g : job) (c o : list Z) : bool := match g_node g (plus g c o) with Some _ => true | None => false end.
(* alloc.cpp:926-930, pass 0 *)
Definition do_shm (g : job) (c : list Z) : bool :=
  existsb (fun v => has_data g c v && existsb (on_node g c) (neighbors g c)) (g_vars g).
(* alloc.cpp:936-1003, pass 0: elements asked for in shared memory; a receive buffer is not in own memory. *)
Definition shm_size (g : job) (c : list Z) : Z :=
  zsum (flat_map (fun v => if has_data g c v
                           then map (fun o => if on_node g c o then buf_size g v c o true else 0) (neighbors g c) else [])
                 (g_vars g)).

(* Collective calls on shm_comm. *)
Inductive call := CWin | CBcast (var root : nat) | CBarrier.

(* alloc.cpp:872-1028; _alloc_data: 286-297 *)
Definition calls (g : job) (c : list Z) : list call :=
  (if shm_size g c =? 0 then [] else [CWin]) ++ [CBarrier] ++
  (if do_shm g c
   then flat_map (fun iv => if has_data g c (snd iv) then map (CBcast (fst iv)) (seq 0 (g_nshm g)) else [])
                 (combine (seq 0 (length (g_vars g))) (g_vars g))
   else []) ++ [CBarrier] ++ [CBarrier].
