(* The flags that decide what is exchanged, for one var on all ranks: src/kernel/lib/yk_var.cpp:121-152 (is_dirty, set_dirty,
   set_dirty_all), 559-575 (update_valid_step), src/kernel/lib/halo.cpp:80-491 (exchange_halos),
   src/kernel/lib/context.cpp:220-624 (run_solution), 1552-1578 (update_var_info), src/kernel/lib/stencil_calc.cpp:284-330.
   Simplifications: other vars of the solution are left out (the message tag is the position of the var in the list of vars to
   swap); the calculation of a stage is given by the values it writes; the copies of a rank's data on host and device are one. *)
From Verif Require Import Base Idiv_Model Tuple_Model Rank_Model Exchange_Model.

Section Dirty.
  Variable S : xset.
  Variable ranks : list xrank.
  Variable v : xvar.
  Variable Val : Type.
  Variable ord : bool -> list (Z * Z) -> list (list Z).

  (* _has_step_dim and the allocation in it *)
  Definition step_alloc : option Z :=
    match flat_map (fun d => match d with XStep n => [n] | _ => [] end) (v_dims v) with n :: _ => Some n | [] => None end.
  (* One rank's copy of the var: first valid step (_local_offsets of the step dim), the two lists of flags, and the values.
     Values are stored by point with the step index replaced by its slot. *)
  Record rst := mkRst { r_first : Z; r_self : Z -> bool; r_oth : Z -> bool; r_vals : list Z -> Val }.
  (* _wrap_step; 0 without step dim *)
  Definition slot (t : Z) : Z := match step_alloc with Some n => imod_flr t n | None => 0 end.
  Definition at_slot (q : list Z) : list Z :=
    map (fun e : xd * Z => match fst e with XStep n => imod_flr (snd e) n | _ => snd e end) (combine (v_dims v) q).
  Definition get (s : rst) (q : list Z) : Val := r_vals s (at_slot q).
  (* step index of a point *)
  Fixpoint step_at (ds : list xd) (q : list Z) : Z :=
    match ds, q with
    | XStep _ :: _, t :: _ => t
    | _ :: ds, _ :: q => step_at ds q
    | _, _ => 0
    end.
  (* get_first_valid_step_index ... get_last_valid_step_index; halo.cpp:113-117 *)
  Definition valid_steps (s : rst) : list Z := match step_alloc with Some n => zrange (r_first s) (r_first s + n) | None => [0] end.
  (* yk_var.cpp:559-575 *)
  Definition upd_first (n w t : Z) : Z := if t <? w then t else if w + n - 1 <? t then t - n + 1 else w.
  Definition update_valid (t : Z) (s : rst) : rst :=
    match step_alloc with Some n => mkRst (upd_first n (r_first s) t) (r_self s) (r_oth s) (r_vals s) | None => s end.
  Definition fset (f : Z -> bool) (k : Z) : Z -> bool := fun i => if i =? k then true else f i.
  (* yk_var.cpp:131-146 with dirty = true; [others]: which list *)
  Definition set_dirty (others : bool) (t : Z) (s : rst) : rst :=
    let s := update_valid t s in
    if others then mkRst (r_first s) (r_self s) (fset (r_oth s) (slot t)) (r_vals s)
    else mkRst (r_first s) (fset (r_self s) (slot t)) (r_oth s) (r_vals s).
  Definition write (q : list Z) (x : Val) (s : rst) : rst :=
    mkRst (r_first s) (r_self s) (r_oth s) (fun p => if list_eq_dec Z.eq_dec p (at_slot q) then x else r_vals s p).
  (* APIs that write: one element (set_element, add_to_element: yk_var_apis.cpp:395-456; the flag of the slot is set, the valid
     steps are not updated), or a slice from step t1 to step t2 (set_dirty_in_slice, yk_var.cpp:579-587) *)
  Inductive api := AElem (q : list Z) (x : Val) | ASlice (w : list (list Z * Val)) (t1 t2 : Z).
  Definition writes (w : list (list Z * Val)) (s : rst) : rst := fold_left (fun s e => write (fst e) (snd e) s) w s.
  Definition do_api (s : rst) (c : api) : rst :=
    match c with
    | AElem q x => let s := write q x s in mkRst (r_first s) (fset (r_self s) (slot (step_at (v_dims v) q))) (r_oth s) (r_vals s)
    | ASlice w t1 t2 => fold_left (fun s t => set_dirty false t s) (match step_alloc with Some _ => zrange t1 (t2 + 1) | None => [0] end) (writes w s)
    end.
  (* stencil_calc.cpp:284-287: one call of calc_micro_block with output step t; [mark]: do_mpi_left || do_mpi_right *)
  Definition calls (mark : bool) (l : list (Z * list (list Z * Val))) (s : rst) : rst :=
    fold_left (fun s c => let s := writes (snd c) s in if mark then set_dirty false (fst c) s else s) l s.
  (* context.cpp:1552-1578, for all output steps of the stages and parts that write the var, in the order they are visited *)
  Definition update_var_info (mark : bool) (outs : list Z) (s : rst) : rst :=
    fold_left (fun s t => update_valid t (if mark then set_dirty true t s else s)) outs s.

  (* halo.cpp:101-143: the steps to swap *)
  Definition swap_steps (s : rst) : list Z := filter (fun t => r_oth s (slot t)) (valid_steps s).
  Definition swaps (a : xrank) (s : rst) : bool := has_data S ranks a v && negb (length (swap_steps s) =? 0)%nat.
  (* halo.cpp:223-338, halo_pack_isend on rank b for neighbor a *)
  Definition points (m : mbuf) (steps : list Z) : list (list Z) := flat_map (fun t => map at_slot (ord (mb_vec m) (step_box v t (mb_box m)))) steps.
  Definition message (st : xrank -> rst) (b a : xrank) : option (list Val) :=
    if swaps b (st b) then
      match mpi_buf S true b a v with
      | Some m => Some (if existsb (fun t => r_self (st b) (slot t)) (swap_steps (st b)) then map (r_vals (st b)) (points m (swap_steps (st b))) else [])
      | None => None
      end
    else None.
  (* halo.cpp:342-436, halo_unpack on rank a for neighbor b; a wait for a message that is not sent, or a message that nobody
     waits for: Throw *)
  Definition receive (msgs : xrank -> xrank -> option (list Val)) (a b : xrank) (s : rst) : res rst :=
    match (if swaps a s then mpi_buf S false a b v else None), msgs b a with
    | None, None => Ok s
    | Some _, Some [] => Ok s
    | Some m, Some data =>
        match put Val (points m (swap_steps s)) data (r_vals s) with
        | Some ([], vals) => Ok (mkRst (r_first s) (r_self s) (r_oth s) vals)
        | _ => UB
        end
    | _, _ => Throw
    end.
  (* halo.cpp:468-476 *)
  Definition clean (s : rst) : rst := mkRst (r_first s) (fun _ => false) (fun _ => false) (r_vals s).
  Definition receive_all (msgs : xrank -> xrank -> option (list Val)) (a : xrank) (s : rst) : res rst :=
    rbind (fold_left (fun acc b => rbind acc (receive msgs a b)) (neighbors S ranks a) (Ok s)) (fun s => Ok (if swaps a s then clean s else s)).

  (* all ranks *)
  Definition gst := xrank -> rst.
  Definition on_all (f : xrank -> rst -> rst) (st : gst) : gst := fun a => f a (st a).
  Definition unpack_ranks (msgs : xrank -> xrank -> option (list Val)) (st : gst) : res gst :=
    fold_right (fun a acc => rbind (receive_all msgs a (st a)) (fun _ => acc))
               (Ok (fun a => match receive_all msgs a (st a) with Ok s => s | _ => st a end)) ranks.
  Definition exchange (st : gst) : res gst := unpack_ranks (message st) st.

  (* One stage (or all stages of a wave-front): output steps, calls on each rank in the exterior and in the interior, and
     whether communication is overlapped (mpi_interior.bb_valid); context.cpp:364-471, :482-577 *)
  Record stage := mkStage { sg_outs : list Z; sg_ext : xrank -> list (Z * list (list Z * Val)); sg_int : xrank -> list (Z * list (list Z * Val)); sg_overlap : bool }.
  Definition run_stage (st : gst) (g : stage) : res gst :=
    if sg_overlap g then
      let st1 := on_all (fun a s => update_var_info true (sg_outs g) (calls true (sg_ext g a) s)) st in
      let st2 := on_all (fun a s => update_var_info false (sg_outs g) (calls false (sg_int g a) s)) st1 in
      unpack_ranks (message st1) st2
    else exchange (on_all (fun a s => update_var_info true (sg_outs g) (calls true (sg_ext g a ++ sg_int g a) s)) st).
  (* context.hpp:545-548 *)
  Definition all_others_dirty (s : rst) : rst := mkRst (r_first s) (r_self s) (fun _ => true) (r_vals s).
  (* run_solution: context.cpp:234, :341-342 and the loops over steps and stages *)
  Definition run_solution (st : gst) (sgs : list stage) : res gst :=
    fold_left (fun acc g => rbind acc (fun st => run_stage st g)) sgs (exchange (on_all (fun _ => all_others_dirty) st)).
  (* a history: API writes on the ranks, and runs *)
  Inductive op := OApi (w : xrank -> list api) | ORun (sgs : list stage).
  Definition do_op (st : gst) (o : op) : res gst :=
    match o with OApi w => Ok (on_all (fun a s => fold_left do_api (w a) s) st) | ORun sgs => run_solution st sgs end.
  Definition do_ops (st : gst) (l : list op) : res gst := fold_left (fun acc o => rbind acc (fun st => do_op st o)) l (Ok st).
End Dirty.
