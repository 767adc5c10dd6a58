(* Merging vars (YkVarImpl::fuse_vars, StencilContext::fuse_vars) and the part of
   StencilContext::update_var_info() that sizes the vars and finds the largest halos.
   Simplifications: names of vars and dims are numbers; reference counts are not modelled (a YkVarBase
   that no handle refers to any more stays in the list); an assert() does nothing. *)
From Verif Require Import Base Resize_Model Exchange_Model.
Open Scope Z_scope.

(* A YkVarBase (yk_var.hpp:618-690). *)
Record base := mkB {
  b_name : Z;
  b_dn : list Z;       (* names of the dims *)
  b_var : rvar;        (* sizes, halos, pads, folds and whether there is storage *)
  b_rofs : list Z;     (* _rank_offsets *)
  b_lofs : list Z;     (* _local_offsets *)
  b_user : bool;       (* _is_user_var *)
  b_fixed : bool;      (* _fixed_size *)
  b_l1 : Z;            (* _l1_dist *)
  b_data : Z -> Z      (* contents of the storage *)
}.

Definition with_var (b : base) (v : rvar) : base :=
  mkB (b_name b) (b_dn b) v (b_rofs b) (b_lofs b) (b_user b) (b_fixed b) (b_l1 b) (b_data b).
Definition with_ofs (b : base) (posn : nat) (rofs : Z) : base :=
  mkB (b_name b) (b_dn b) (b_var b) (upd_nth posn (fun _ => rofs) (b_rofs b))
      (upd_nth posn (fun _ => 0) (b_lofs b)) (b_user b) (b_fixed b) (b_l1 b) (b_data b).
Definition with_data (b : base) (d : Z -> Z) : base :=
  mkB (b_name b) (b_dn b) (b_var b) (b_rofs b) (b_lofs b) (b_user b) (b_fixed b) (b_l1 b) d.
Definition with_l1 (b : base) (n : Z) : base :=
  mkB (b_name b) (b_dn b) (b_var b) (b_rofs b) (b_lofs b) (b_user b) (b_fixed b) n (b_data b).
(* set_user_var(false) (yk_var.hpp:878-884) *)
Definition not_user (b : base) : base :=
  mkB (b_name b) (b_dn b) (b_var b) (b_rofs b) (b_lofs b) false (b_fixed b) (b_l1 b) (b_data b).

(* All YkVarBase objects, and for each YkVarImpl the one its _gbp points to (yk_var.hpp:2195-2215). *)
Record mem := mkM { m_bases : list base; m_ref : list nat }.

Definition base_of (m : mem) (h : nat) : option base :=
  match nth_error (m_ref m) h with Some i => nth_error (m_bases m) i | None => None end.

(* Replace the YkVarBase that a handle refers to. *)
Definition put_base (m : mem) (h : nat) (b : base) : mem :=
  match nth_error (m_ref m) h with
  | Some i => mkM (upd_nth i (fun _ => b) (m_bases m)) (m_ref m)
  | None => m
  end.

(* get_num_storage_bytes(), in elements *)
Definition num_elems (b : base) : Z := zprod (map r_alloc (rv_dims (b_var b))).

(* The loop of is_storage_layout_identical() (yk_var_apis.cpp:307-330) over the dims. *)
Fixpoint dims_identical (sizes : bool) (n1 n2 : list Z) (d1 d2 : list rdim) : bool :=
  match n1, n2, d1, d2 with
  | a :: n1, b :: n2, x :: d1, y :: d2 =>
      (a =? b) && (r_vvl x =? r_vvl y) &&
      (negb sizes || ((r_dom x =? r_dom y) && (r_lpad x =? r_lpad y) && (r_rpad x =? r_rpad y))) &&
      dims_identical sizes n1 n2 d1 d2
  | _, _, _, _ => true
  end.

(* YkVarImpl::is_storage_layout_identical() (yk_var_apis.cpp:299-332) *)
Definition layout_identical (sizes : bool) (b o : base) : bool :=
  if sizes && negb (num_elems b =? num_elems o) then false
  else if negb (Nat.eqb (length (b_dn b)) (length (b_dn o))) then false
  else dims_identical sizes (b_dn b) (b_dn o) (rv_dims (b_var b)) (rv_dims (b_var o)).

(* YkVarImpl::fuse_vars() (yk_var_apis.cpp:334-367): the condition that guards the check is
   is_user_var() of the var that is replaced. *)
Definition fuse_vars (m : mem) (this src : nat) : res mem :=
  match base_of m this, base_of m src, nth_error (m_ref m) src with
  | Some b, Some sb, Some j =>
      let m' := mkM (m_bases m) (upd_nth this (fun _ => j) (m_ref m)) in
      if b_user b then
        if layout_identical false b sb then Ok (put_base m' this (not_user sb)) else Throw
      else Ok m'
  | _, _, _ => UB
  end.

(* Vars of a solution (context.hpp:294-299): all_var_ptrs with the keys of all_var_map, and orig_var_ptrs. *)
Record ctx := mkX { x_all : list (Z * nat); x_orig : list nat }.

Definition find_var (x : ctx) (name : Z) : option nat :=
  option_map snd (find (fun p => fst p =? name) (x_all x)).

(* StencilContext::fuse_vars() (soln_apis.cpp:271-283) *)
Definition fuse_soln (m : mem) (x src : ctx) : res mem :=
  rfold (fun m p =>
    match base_of m (snd p) with
    | Some b => match find_var src (b_name b) with
                | Some s => fuse_vars m (snd p) s
                | None => Ok m
                end
    | None => UB
    end) (x_all x) m.

(* get_dim_posn() (yk_var.cpp:156-166) *)
Fixpoint posn_of (name : Z) (l : list Z) : option nat :=
  match l with
  | [] => None
  | a :: l => if a =? name then Some O else option_map S (posn_of name l)
  end.

(* A setter that is called inside the library: an exception ends the whole call. *)
Definition set_dim (posn : nat) (s : setting) (b : base) : res base :=
  let '(r, v) := run_rop (b_var b) (RSet posn s) in rbind r (fun _ => Ok (with_var b v)).

(* Settings of one domain dim: name, _rank_sizes, _extra_pad_sizes, _min_pad_sizes, rank_domain_offsets. *)
Record ropt := mkO { o_name : Z; o_size : Z; o_epad : Z; o_mpad : Z; o_rofs : Z }.

(* setup.cpp:690-707 *)
Definition size_var (force : bool) (o : ropt) (posn : nat) (b : base) : res base :=
  if negb (b_fixed b) || (negb (b_user b) && force) then
    rbind (set_dim posn (SDomain (o_size o)) b) (fun b =>
    rbind (set_dim posn (SExtraUp (Some (o_epad o)) (Some (o_epad o))) b) (fun b =>
    rbind (set_dim posn (SMinPadUp (Some (o_mpad o)) (Some (o_mpad o))) b) (fun b =>
    Ok (with_ofs b posn (o_rofs o)))))
  else Ok b.

(* get_left_halo_size(), get_right_halo_size() (yk_var_apis.cpp:180-185) *)
Definition halos_at (b : base) (posn : nat) : Z * Z :=
  match nth_error (rv_dims (b_var b)) posn with Some d => (r_lh d, r_rh d) | None => (0, 0) end.

(* The body of the loop over the vars (setup.cpp:683-714); the state is the memory and the largest halo. *)
Definition visit_var (force : bool) (o : ropt) (s : mem * Z) (h : nat) : res (mem * Z) :=
  let '(m, mx) := s in
  match base_of m h with
  | None => UB
  | Some b =>
      match posn_of (o_name o) (b_dn b) with
      | None => Ok (m, mx)
      | Some posn =>
          rbind (size_var force o posn b) (fun b =>
          Ok (put_base m h b,
              if b_user b then mx
              else Z.max (Z.max mx (fst (halos_at b posn))) (snd (halos_at b posn))))
      end
  end.

(* The loop over the dims (setup.cpp:675-716): the memory and max_halos. *)
Definition update_info (force : bool) (x : ctx) (os : list ropt) (m : mem) : res (mem * list Z) :=
  rfold (fun s o =>
    rbind (rfold (visit_var force o) (map snd (x_all x)) (fst s, 0)) (fun r =>
    Ok (fst r, snd s ++ [snd r]))) os (m, []).

(* Pushing the extensions back to the vars (setup.cpp:787-800); [exts] = name, left and right extension. *)
Definition push_ext (m : mem) (h : nat) (e : Z * (Z * Z)) : res mem :=
  match base_of m h with
  | None => UB
  | Some b =>
      match posn_of (fst e) (b_dn b) with
      | None => Ok m
      | Some posn =>
          rbind (set_dim posn (SWf (Some (fst (snd e))) None) b) (fun b =>
          rbind (set_dim posn (SWf None (Some (snd (snd e)))) b) (fun b =>
          Ok (put_base m h b)))
      end
  end.
Definition push_exts (x : ctx) (exts : list (Z * (Z * Z))) (m : mem) : res mem :=
  rfold (fun m h => rfold (fun m e => push_ext m h e) exts m) (x_orig x) m.

(* Calls of the API on one var. *)
Inductive call :=
| CSet (posn : nat) (s : setting)   (* set_alloc_size, set_halo_size, set_min_pad_size, ... *)
| CAlloc (init : Z -> Z)            (* alloc_storage(); [init]: what the fresh memory contains *)
| CRelease                          (* release_storage() *)
| CWrite (at_ val : Z)              (* writing an element *)
| CL1 (n : Z)                       (* set_halo_exchange_l1_norm() *)
| CFuse (src : nat).                (* fuse_vars() *)

(* A call that throws leaves what its setter has assigned (Resize_Model.run_rop). *)
Definition run_call (m : mem) (h : nat) (c : call) : res unit * mem :=
  match base_of m h with
  | None => (UB, m)
  | Some b =>
      match c with
      | CSet posn s => let '(r, v) := run_rop (b_var b) (RSet posn s) in (r, put_base m h (with_var b v))
      | CAlloc init => let '(r, v) := run_rop (b_var b) RAlloc in (r, put_base m h (with_data (with_var b v) init))
      | CRelease => let '(r, v) := run_rop (b_var b) RRelease in (r, put_base m h (with_var b v))
      | CWrite a x => (Ok tt, put_base m h (with_data b (fun k => if k =? a then x else b_data b k)))
      | CL1 n => (Ok tt, put_base m h (with_l1 b n))
      | CFuse src => match fuse_vars m h src with
                     | Ok m' => (Ok tt, m')
                     | Throw => (Throw, m)
                     | UB => (UB, m)
                     | OutOfFuel => (OutOfFuel, m)
                     end
      end
  end.
Definition run_calls (m : mem) (l : list (nat * call)) : mem :=
  fold_left (fun m p => snd (run_call m (fst p) (snd p))) l m.

(* A var as alloc_mpi_data() sees it (alloc.cpp:496-503,525-535); [doms] = names of the domain dims. *)
Definition xdim (doms : list Z) (n : Z) (d : rdim) : xd :=
  if r_step d then XStep (r_dom d)
  else match posn_of n doms with
       | Some j => XDom j (r_vvl d) (r_lh d) (r_rh d)
       | None => XMisc 0 (r_dom d)
       end.
Definition xvar_of (doms : list Z) (b : base) : xvar :=
  mkXv (map (fun p => xdim doms (fst p) (snd p)) (combine (b_dn b) (rv_dims (b_var b)))) (b_l1 b).
