(* src/kernel/lib/yk_var.cpp: computing the padding and allocation of a var (YkVarBase::resize), and the
   setters of yk_var_apis.cpp that call it.
   Simplifications: idx_t is unbounded; assert() (compiled out in release builds) does nothing; the offload
   copy (sync_core) and the strides are not modelled here (strides: Layout_Model). *)
From Verif Require Import Base Idiv_Model Var_Model.

(* One dim of YkVarBaseCore, yk_var.hpp:88-118. *)
Record rdim := mkR {
  r_step : bool;     (* _step_dim_mask *)
  r_domain : bool;   (* _domain_dim_mask *)
  r_inner : bool;    (* get_dim_name(i) == inner_layout_dim *)
  r_svl : Z;         (* _soln_vec_lens *)
  r_vvl : Z;         (* _var_vec_lens *)
  r_dom : Z;         (* _domains *)
  r_lh : Z; r_rh : Z;       (* _left_halos, _right_halos *)
  r_lwf : Z; r_rwf : Z;     (* _left_wf_exts, _right_wf_exts *)
  r_rlp : Z; r_rrp : Z;     (* _req_left_pads, _req_right_pads *)
  r_rle : Z; r_rre : Z;     (* _req_left_epads, _req_right_epads *)
  r_lpad : Z; r_rpad : Z;   (* _actl_left_pads, _actl_right_pads *)
  r_alloc : Z;              (* _allocs *)
  r_vlpad : Z; r_valloc : Z (* _vec_left_pads, _vec_allocs *)
}.

Record rvar := mkRV {
  rv_dims : list rdim;
  rv_storage : bool;   (* get_storage() is not null *)
  rv_addl : bool;      (* actl_opts->_allow_addl_pad *)
  rv_vlen_gt1 : bool;  (* VLEN > 1 *)
  rv_dirty : Z         (* _dirty_steps[..].size() *)
}.

(* The checks at yk_var.cpp:221-238: is one of the settings negative? *)
Definition any_neg (d : rdim) : bool :=
  (r_lh d <? 0) || (r_rh d <? 0) || (r_lwf d <? 0) || (r_rwf d <? 0) || (r_rlp d <? 0) || (r_rrp d <? 0) || (r_rle d <? 0) || (r_rre d <? 0).

(* Pads of one dim, yk_var.cpp:245-311: (left, right). *)
Definition new_pads (storage addl vlen_gt1 : bool) (d : rdim) : Z * Z :=
  let l := r_lh d + r_lwf d in
  let r := r_rh d + r_rwf d in
  if r_domain d then
    let svl := r_svl d in
    let l := l + r_rle d in
    let r := r + r_rre d in
    let l := Z.max l (r_rlp d) in
    let r := Z.max r (r_rrp d) in
    let l := ROUND_UP l svl in
    let rdpp := ROUND_UP (r_dom d + r) svl in
    let r := rdpp - r_dom d in
    let l := if vlen_gt1 then l + svl else l in
    let r := if vlen_gt1 then r + svl else r in
    let r := if negb storage && addl && r_inner d && (Z.rem (Z.quot (l + r_dom d + r) svl) 2 =? 0) then r + svl else r in
    let l := if storage then Z.max l (r_lpad d) else l in
    let r := if storage then Z.max r (r_rpad d) else r in
    (l, r)
  else (l, r).

(* yk_var.cpp:255, :314 *)
Definition new_alloc (d : rdim) (p : Z * Z) : Z :=
  if r_domain d then r_dom d + (fst p + snd p) else r_dom d.

(* yk_var.cpp:337-345 for one dim *)
Definition set_pads (d : rdim) (p : Z * Z) : rdim :=
  mkR (r_step d) (r_domain d) (r_inner d) (r_svl d) (r_vvl d) (r_dom d) (r_lh d) (r_rh d) (r_lwf d) (r_rwf d)
      (r_rlp d) (r_rrp d) (r_rle d) (r_rre d) (fst p) (snd p) (new_alloc d p)
      (Z.quot (fst p) (r_vvl d)) (Z.quot (new_alloc d p) (r_vvl d)).

(* yk_var.cpp:340, :351-352: the last step dim found. *)
Definition new_dirty (ds : list rdim) : Z := fold_left (fun n d => if r_step d then r_alloc d else n) ds 1.

(* YkVarBase::resize, yk_var.cpp:206-384 *)
Definition resize (v : rvar) : res rvar :=
  if existsb any_neg (rv_dims v) then Throw
  else
    let ds := map (fun d => set_pads d (new_pads (rv_storage v) (rv_addl v) (rv_vlen_gt1 v) d)) (rv_dims v) in
    if rv_storage v && negb (forallb (fun p => r_alloc (fst p) =? r_alloc (snd p)) (combine (rv_dims v) ds)) then Throw
    else Ok (mkRV ds (rv_storage v) (rv_addl v) (rv_vlen_gt1 v) (new_dirty ds)).

(* What a setter changes, yk_var_apis.cpp:196-301. *)
Inductive setting :=
| SDomain (n : Z)                  (* _set_domain_size, _set_alloc_size, set_alloc_size *)
| SHalo (left right : option Z)    (* set_left_halo_size, set_right_halo_size, set_halo_size *)
| SWf (left right : option Z)      (* _set_left_wf_ext, _set_right_wf_ext *)
| SMinPad (left right : option Z)  (* set_left_min_pad_size, set_right_min_pad_size, set_min_pad_size *)
| SMinPadUp (left right : option Z) (* update_left_min_pad_size etc. *)
| SExtra (left right : option Z)   (* set_left_extra_pad_size etc. *)
| SExtraUp (left right : option Z). (* update_left_extra_pad_size etc. *)

Definition opt (o : option Z) (x : Z) : Z := match o with Some n => n | None => x end.
Definition optmax (o : option Z) (x : Z) : Z := match o with Some n => Z.max n x | None => x end.

Definition edit_dim (s : setting) (d : rdim) : rdim :=
  let c := fun dom lh rh lwf rwf rlp rrp rle rre =>
    mkR (r_step d) (r_domain d) (r_inner d) (r_svl d) (r_vvl d) dom lh rh lwf rwf rlp rrp rle rre (r_lpad d) (r_rpad d) (r_alloc d) (r_vlpad d) (r_valloc d) in
  match s with
  | SDomain n => c n (r_lh d) (r_rh d) (r_lwf d) (r_rwf d) (r_rlp d) (r_rrp d) (r_rle d) (r_rre d)
  | SHalo a b => c (r_dom d) (opt a (r_lh d)) (opt b (r_rh d)) (r_lwf d) (r_rwf d) (r_rlp d) (r_rrp d) (r_rle d) (r_rre d)
  | SWf a b => c (r_dom d) (r_lh d) (r_rh d) (opt a (r_lwf d)) (opt b (r_rwf d)) (r_rlp d) (r_rrp d) (r_rle d) (r_rre d)
  | SMinPad a b => c (r_dom d) (r_lh d) (r_rh d) (r_lwf d) (r_rwf d) (opt a (r_rlp d)) (opt b (r_rrp d)) (r_rle d) (r_rre d)
  | SMinPadUp a b => c (r_dom d) (r_lh d) (r_rh d) (r_lwf d) (r_rwf d) (optmax a (r_rlp d)) (optmax b (r_rrp d)) (r_rle d) (r_rre d)
  | SExtra a b => c (r_dom d) (r_lh d) (r_rh d) (r_lwf d) (r_rwf d) (r_rlp d) (r_rrp d) (opt a (r_rle d)) (opt b (r_rre d))
  | SExtraUp a b => c (r_dom d) (r_lh d) (r_rh d) (r_lwf d) (r_rwf d) (r_rlp d) (r_rrp d) (optmax a (r_rle d)) (optmax b (r_rre d))
  end.

Fixpoint upd_nth {A} (n : nat) (f : A -> A) (l : list A) : list A :=
  match l, n with
  | [], _ => []
  | x :: r, O => f x :: r
  | x :: r, S m => x :: upd_nth m f r
  end.

(* One call on a var: a setter of dim [posn], allocation or release of the storage
   (generic_var.cpp; afterwards get_storage() is not null or null). *)
Inductive rop := RSet (posn : nat) (s : setting) | RAlloc | RRelease.

(* A setter assigns first and then calls resize() (SET_VAR_API, yk_var_apis.cpp:79-99); when resize() throws,
   the assignment stays.  Result: outcome of the call and the state left behind. *)
Definition run_rop (v : rvar) (o : rop) : res unit * rvar :=
  match o with
  | RAlloc => (Ok tt, mkRV (rv_dims v) true (rv_addl v) (rv_vlen_gt1 v) (rv_dirty v))
  | RRelease => (Ok tt, mkRV (rv_dims v) false (rv_addl v) (rv_vlen_gt1 v) (rv_dirty v))
  | RSet posn s =>
      let v1 := mkRV (upd_nth posn (edit_dim s) (rv_dims v)) (rv_storage v) (rv_addl v) (rv_vlen_gt1 v) (rv_dirty v) in
      match resize v1 with
      | Ok v2 => (Ok tt, v2)
      | Throw => (Throw, v1)
      | UB => (UB, v1)
      | OutOfFuel => (OutOfFuel, v1)
      end
  end.

(* A caller that catches the exceptions: final state, and the outcome of the last call. *)
Fixpoint run_rops (v : rvar) (l : list rop) (last : res unit) : res unit * rvar :=
  match l with
  | [] => (last, v)
  | o :: r => let '(x, v') := run_rop v o in run_rops v' r x
  end.

(* A new var: all settings zero (YkVarBaseCore ctor, yk_var.cpp:34-58), then the vector lengths and sizes of the
   YkElemVar/YkVecVar ctors (yk_var.hpp:1504-1520, :1742-1768) and resize(). *)
Definition fresh_dim (step domain inner : bool) (svl vvl : Z) : rdim :=
  mkR step domain inner svl vvl 0 0 0 0 0 0 0 0 0 0 0 0 0 0.
Definition fresh_var (ds : list rdim) (addl vlen_gt1 : bool) : res rvar := resize (mkRV ds false addl vlen_gt1 0).

(* The dim as seen by the element accesses of Var_Model. *)
Definition to_vdim (rofs lofs : Z) (d : rdim) : vdim := mkDim (r_step d) (r_domain d) (r_dom d) (r_lpad d) (r_rpad d) rofs lofs (r_vvl d).
