(* Vars created through the API: src/kernel/lib/new_var.cpp:32-161 (new_var), context.hpp:643-667,
   setup.cpp:1560-1582 (add_var), :679-707 (update_var_info, the new var), yk_var.cpp:61-95 (YkVarBase),
   yk_var.hpp:1494-1522 (YkElemVar), generic_var.cpp:32-39 (GenericVarBase), the code that
   utils/bin/gen_layouts.pl:190-205 and src/compiler/lib/YaskKernel.cpp:917-931, 1083-1090 print.
   Simplified: idx_t is unbounded; update_var_info is followed for the new var only (other vars already have
   the sizes of the solution); local offsets and device copies are left out. *)
From Coq Require Import String.
From Verif Require Import Base Idiv_Model Var_Model Resize_Model.

(* A var of the solution. *)
Record uvar := mkU {
  u_name : string;
  u_dims : list string;   (* names in the dim tuple, generic_var.hpp *)
  u_user : bool;          (* _is_user_var *)
  u_fixed : bool;         (* _fixed_size *)
  u_core : rvar }.

(* The part of StencilContext that is used. *)
Record soln := mkSoln {
  s_step : string; s_domain : list string;
  s_misc : list string;                     (* dims->_misc_dims *)
  s_max : Z;                                (* MAX_DIMS = NUM_STENCIL_AND_VAR_DIMS *)
  s_allow : bool;                           (* ALLOW_NEW_VARS *)
  s_stencil : list (list string * bool);    (* dims of the stencil's vars; folded? *)
  s_fold : string -> Z;                     (* _vec_fold_pts, 1 if not there *)
  s_inner : string;                         (* inner_layout_dim *)
  s_addl : bool; s_vgt1 : bool;             (* _allow_addl_pad, VLEN > 1 *)
  s_rank : string -> Z;                     (* _rank_sizes *)
  s_extra : string -> Z; s_min : string -> Z; (* _extra_pad_sizes, _min_pad_sizes *)
  s_vars : list uvar }.                     (* all_var_ptrs, all_var_map *)

(* The solution after misc_dims.add_dim_back (new_var.cpp:96) and after the push to all_var_ptrs (setup.cpp:1568). *)
Definition with_misc (c : soln) (m : list string) : soln :=
  mkSoln (s_step c) (s_domain c) m (s_max c) (s_allow c) (s_stencil c) (s_fold c) (s_inner c) (s_addl c) (s_vgt1 c)
         (s_rank c) (s_extra c) (s_min c) (s_vars c).
Definition with_vars (c : soln) (vs : list uvar) : soln :=
  mkSoln (s_step c) (s_domain c) (s_misc c) (s_max c) (s_allow c) (s_stencil c) (s_fold c) (s_inner c) (s_addl c) (s_vgt1 c)
         (s_rank c) (s_extra c) (s_min c) vs.

(* Tuple::lookup, set::count (new_var.cpp:70, 87, 91). *)
Definition mem (d : string) (l : list string) : bool := existsb (String.eqb d) l.

(* Equality of vectors of names in new_stencil_var, YaskKernel.cpp:1083-1090. *)
Fixpoint same_names (a b : list string) : bool :=
  match a, b with
  | [], [] => true
  | x :: a', y :: b' => String.eqb x y && same_names a' b'
  | _, _ => false
  end.

(* Tuple::add_dim_back, tuple.cpp: a name that is there only gets a new value. *)
Definition add_dim (l : list string) (d : string) : list string := if mem d l then l else l ++ [d].
(* generic_var.cpp:37-38 *)
Definition tuple_of (ds : list string) : list string := fold_left add_dim ds [].

(* yk_var.cpp:76-91 and yk_var.hpp:1508-1514 (folded vars: 1742-1751) *)
Definition make_dim (c : soln) (vec : bool) (d : string) : rdim :=
  let step := String.eqb d (s_step c) in
  fresh_dim step (negb step && mem d (s_domain c)) (String.eqb d (s_inner c)) (s_fold c d) (if vec then s_fold c d else 1).

(* The ctor of a var.  resize() sets every dim of the core in the tuple (yk_var.cpp:350, tuple.hpp:321-325): a null
   pointer is written through if the tuple has fewer dims. *)
Definition ctor (c : soln) (vec : bool) (ds : list string) : res rvar :=
  if (length (tuple_of ds) <? length ds)%nat then UB
  else fresh_var (map (make_dim c vec) ds) (s_addl c) (s_vgt1 c).

(* new_var.cpp:62-98.  [seen] is seen_dims, to which nothing is ever added.  Result and misc dims afterwards. *)
Fixpoint check_dims (c : soln) (seen : list string) (i : Z) (ds : list string) (misc : list string) : res unit * list string :=
  match ds with
  | [] => (Ok tt, misc)
  | d :: r =>
    if mem d seen then (Throw, misc)
    else if String.eqb d (s_step c) then
      if negb (i =? 0) then (Throw, misc) else check_dims c seen (i + 1) r misc
    else if mem d (s_domain c) then check_dims c seen (i + 1) r misc
    else if mem d misc then check_dims c seen (i + 1) r misc
    else check_dims c seen (i + 1) r (misc ++ [d])
  end.

(* new_var.cpp:48-123: a var like one of the stencil, or a new one.  Result and misc dims afterwards. *)
Definition make_var (c : soln) (ds : list string) : res rvar * list string :=
  match find (fun sd => same_names ds (fst sd)) (s_stencil c) with
  | Some sd => (ctor c (snd sd) ds, s_misc c)
  | None =>
    if s_allow c then
      match check_dims c [] 0 ds (s_misc c) with
      | (Ok _, misc) => (if Z.of_nat (length ds) <=? s_max c then ctor c false ds else Throw, misc)
      | (Throw, misc) => (Throw, misc)
      | (UB, misc) => (UB, misc)
      | (OutOfFuel, misc) => (OutOfFuel, misc)
      end
    else (Throw, s_misc c)
  end.

(* Calls of setters until one throws. *)
Fixpoint run_sets (v : rvar) (ops : list rop) : res unit * rvar :=
  match ops with
  | [] => (Ok tt, v)
  | o :: r => match run_rop v o with (Ok _, v') => run_sets v' r | (e, v') => (e, v') end
  end.

(* Sizes and pads of one dim; new_var.cpp:143-150 and setup.cpp:695-700. *)
Definition dim_sets (c : soln) (p : nat) (d : string) (n : Z) : list rop :=
  RSet p (SDomain n) ::
  (if mem d (s_domain c)
   then [RSet p (SExtraUp (Some (s_extra c d)) (Some (s_extra c d))); RSet p (SMinPadUp (Some (s_min c d)) (Some (s_min c d)))]
   else []).

(* get_dim_posn, setup.cpp:690-695. *)
Fixpoint posn (d : string) (l : list string) : option nat :=
  match l with
  | [] => None
  | x :: r => if String.eqb x d then Some O else option_map S (posn d r)
  end.

(* new_var.cpp:137-157 *)
Definition size_sets (c : soln) (ds : list string) (sizes : option (list Z)) : list rop :=
  match sizes with
  | Some l => flat_map (fun ids => dim_sets c (fst ids) (fst (snd ids)) (snd (snd ids))) (combine (seq 0 (length ds)) (combine ds l))
  | None => flat_map (fun d => match posn d (tuple_of ds) with Some p => dim_sets c p d (s_rank c d) | None => [] end) (s_domain c)
  end.

(* StencilContext::new_var, new_var.cpp:32-161: the result and the solution left behind. *)
Definition new_var (c : soln) (name : string) (ds : list string) (sizes : option (list Z)) : res uvar * soln :=
  let bad := match sizes with Some l => negb (length ds =? length l)%nat | None => false end in
  if bad then (Throw, c)
  else
    let '(made, misc) := make_var c ds in
    let c1 := with_misc c misc in
    match made with
    | Ok core =>
      if existsb (fun v => String.eqb (u_name v) name) (s_vars c1) then (Throw, c1)
      else
        let var core := mkU name (tuple_of ds) true (match sizes with Some _ => true | None => false end) core in
        match run_sets core (size_sets c1 ds sizes) with
        | (Ok _, core') => (Ok (var core'), with_vars c1 (s_vars c1 ++ [var core']))
        | (Throw, core') => (Throw, with_vars c1 (s_vars c1 ++ [var core']))
        | (UB, core') => (UB, with_vars c1 (s_vars c1 ++ [var core']))
        | (OutOfFuel, core') => (OutOfFuel, with_vars c1 (s_vars c1 ++ [var core']))
        end
    | Throw => (Throw, c1)
    | UB => (UB, c1)
    | OutOfFuel => (OutOfFuel, c1)
    end.
