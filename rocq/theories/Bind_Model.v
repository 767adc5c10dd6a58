(* src/kernel/lib/stencil_calc.cpp:165-232, the branch of StencilPartBase::calc_micro_block that binds inner threads to
   slabs of the binding dim.  calc_nano_block() itself is left out: the result is the list of calls made.
   The micro-block loop inside the parallel region must not be generated in the 'manual' style (the default is 'omp'
   with an empty pragma): that style would give each thread only a share of the nano-blocks. *)
From Verif Require Import Base Idiv_Model Loops_Model.

(* 171-190: strides and alignment of dim number i; [k] = bind_posn as a position among the domain dims *)
Definition bind_dim (slab : Z) (k i : nat) (fold : Z) (d : ldim) : ldim :=
  if Nat.eqb i k then mkLdim (l_begin d) (l_end d) slab slab (l_aofs d) (l_tile d)
  else mkLdim (l_begin d) (l_end d) (ROUND_UP (l_end d - l_begin d) fold * 2) (l_align d) (l_aofs d) (l_tile d).
Fixpoint bind_dims (slab : Z) (k i : nat) (folds : list Z) (ds : list ldim) : list ldim :=
  match folds, ds with
  | fold :: folds', d :: ds' => bind_dim slab k i fold d :: bind_dims slab k (S i) folds' ds'
  | _, _ => []
  end.

(* 222-225 *)
Definition bind_thr (slab nbt start : Z) : Z := imod_flr (idiv_flr (start + 0x1000) slab) nbt.

(* 203-232: each of the nbt threads runs the whole micro-block loop [f] and calls calc_nano_block only for its slabs;
   the result pairs the thread with the nano-block.  The threads are listed one after the other. *)
Definition bound_calls (slab nbt : Z) (k : nat) (f : feats) (folds : list Z) (ds : list ldim) : res (list (Z * list (Z * Z))) :=
  rconcat (map (fun t =>
    rbind (run_loops true nbt None [(f, bind_dims slab k 0 folds ds)]) (fun blocks =>
    Ok (map (fun b => (t, b)) (filter (fun b => bind_thr slab nbt (fst (nth k b (0, 0))) =? t) blocks))))
    (zseq nbt)).
