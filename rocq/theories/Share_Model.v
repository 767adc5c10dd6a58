(* Placement of message buffers in the memory shared on a node, and where a rank looks for the buffers of its neighbors:
   src/kernel/lib/alloc.cpp:872-1028 (passes 0, 1 and 2), src/common/common_utils.hpp:88-90 (ROUND_UP), yask.hpp:170-172, context.hpp:242.
   Which buffers there are is modelled in Coll_Model.  Simplified: bytes are not bounded; the broadcasts give every rank of the node the row
   of each other one (when the ranks make them: C72); the test values and locks in the buffers are left out;
   neighbors are visited in the order of Coll_Model. *)
From Verif Require Import Base Coll_Model.

(* A send buffer: var, offset of the neighbor, bytes. *)
Record sbuf := mkSB { b_var : nat; b_nbr : list Z; b_bytes : Z }.

(* settings.hpp: MPIBufs::get_bytes, elements of [esz] bytes. *)
Definition bytes (esz : Z) (g : job) (v : xvar) (c o : list Z) (send : bool) : Z := buf_size g v c o send * esz.

(* alloc.cpp:898-953: send buffers of a rank for neighbors on the node, in the order visited. *)
Definition sends (esz : Z) (g : job) (c : list Z) : list sbuf :=
  flat_map (fun iv =>
      if has_data g c (snd iv)
      then map (fun o => mkSB (fst iv) o (bytes esz g (snd iv) c o true))
               (filter (fun o => on_node g c o && negb (buf_size g (snd iv) c o true =? 0)) (neighbors g c))
      else [])
    (combine (seq 0 (length (g_vars g))) (g_vars g)).

(* common_utils.hpp:88-90 with CACHELINE_BYTES; alloc.cpp:996-997 *)
Definition room (pad n : Z) : Z := (n + pad + 63) / 64 * 64.

(* alloc.cpp:936-1003, pass 1: each buffer at the bytes used so far. *)
Fixpoint place (pad ofs : Z) (l : list sbuf) : list (sbuf * Z) :=
  match l with
  | [] => []
  | b :: l' => (b, ofs) :: place pad (ofs + room pad (b_bytes b)) l'
  end.
Definition placed (esz pad : Z) (g : job) (c : list Z) : list (sbuf * Z) := place pad 0 (sends esz g c).
(* Pass 0 and alloc.cpp:297: size of the memory of the rank. *)
Definition window (esz pad : Z) (g : job) (c : list Z) : Z := zsum (map (fun b => room pad (b_bytes b)) (sends esz g c)).

(* alloc.cpp:907-913, 970-971: the row of the rank in the table of a var, as a function of the rank on the node; 0 where nothing is written. *)
Definition row (esz pad : Z) (g : job) (c : list Z) (var : nat) : Z -> Z :=
  fold_left (fun t e => if (b_var (fst e) =? var)%nat
                        then match g_node g (plus g c (b_nbr (fst e))) with
                             | Some m => fun x => if x =? m then snd e else t x
                             | None => t
                             end
                        else t)
            (placed esz pad g c) (fun _ => 0).

(* alloc.cpp:975-981, pass 2: offset of a receive buffer in the memory of the neighbor; [me] is the own rank on the node. *)
Definition recv_ofs (esz pad : Z) (g : job) (c o : list Z) (var : nat) (me : Z) : Z := row esz pad g (plus g c o) var me.
