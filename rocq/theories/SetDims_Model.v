(* src/compiler/lib/Settings.cpp:47-323: Dimensions::set_dims(), which finds the dims of a solution, chooses
   the inner-loop dim, the vector fold and the order of the dims in memory; Settings.hpp:98-110: add_step_dim()
   and add_domain_dim(); Var.cpp:136-173: Var::set_dim_counts(), which decides whether a var is folded.
   Simplifications: ints are unbounded; messages are left out; this is the first call on the object, so
   _step_dim is empty before; tuples that only hold zero values (_domain_dims, _stencil_dims, _misc_dims,
   _layout_dims) are lists of names; _scalar, which holds 1 for each domain dim, is left out. *)
From Coq Require Import String.
From Verif Require Import Base Tuple_Model Factors_Model.
Open Scope string_scope.
Open Scope list_scope.
Open Scope Z_scope.

(* IndexExpr types, Expr.hpp: STEP_INDEX, DOMAIN_INDEX, MISC_INDEX; other types throw (Settings.cpp:104) and
   are left out. *)
Inductive ikind := KStep | KDomain | KMisc.

(* A var: its dims (Var.hpp: _vdims) and whether it is scratch. *)
Record dvar := mkDvar { dv_dims : list (string * ikind); dv_scratch : bool }.

(* CompilerSettings::_inner_loop_dim (Settings.hpp:44): empty, a string starting with a digit (the number
   is what atoi() makes of it, Settings.cpp:126-127), or another string. *)
Inductive ilopt := ILnone | ILnum (n : Z) | ILname (s : string).

(* Settings.hpp:38-56: the settings used; the empty string means that no step dim was given. *)
Record csettings := mkCset {
  cs_step : string;
  cs_domain : list string;
  cs_inner : ilopt;
  cs_fold : tuple;
  cs_first_inner : bool;
  cs_unaligned : bool;
  cs_inner_misc : bool;
  cs_outer_domain : bool }.

(* Settings.hpp:79-95: what set_dims() sets *)
Record dimensions := mkDims {
  d_step : string;
  d_domain : list string;
  d_stencil : list string;
  d_misc : list string;
  d_inner : string;          (* settings._inner_loop_dim afterwards *)
  d_inner_num : Z;
  d_fold : tuple;
  d_fold_gt1 : tuple;
  d_layout : list string }.

(* tuple.cpp:77-98 on names only: nothing changes if the name is there *)
Definition name_in (l : list string) (d : string) : bool := existsb (String.eqb d) l.
Definition names_back (l : list string) (d : string) : list string := if name_in l d then l else l ++ [d].
Definition names_at (i : nat) (l : list string) (d : string) : list string :=
  if name_in l d then l else firstn i l ++ d :: skipn i l.

(* tuple.hpp:233-251: lookup_posn() *)
Fixpoint posn_of (l : list string) (d : string) : option nat :=
  match l with
  | [] => None
  | n :: r => if String.eqb n d then Some O else option_map S (posn_of r d)
  end.

(* tuple.hpp:452-456, tuple.cpp:269-280: remove_dim() by name *)
Definition names_remove (l : list string) (d : string) : list string :=
  match posn_of l d with
  | None => l
  | Some p => firstn p l ++ skipn (S p) l
  end.

(* The dims found so far. *)
Record found := mkFound { f_step : string; f_domain : list string; f_stencil : list string; f_misc : list string }.

(* Settings.hpp:98-101 *)
Definition add_step_dim (f : found) (d : string) : found :=
  mkFound d (f_domain f) (names_at 0 (f_stencil f) d) (f_misc f).

(* Settings.hpp:105-110 (_fold gets a 1 for each domain dim: see [ones]) *)
Definition add_domain_dim (f : found) (d : string) : found :=
  mkFound (f_step f) (names_back (f_domain f) d) (names_back (f_stencil f) d) (f_misc f).

(* Settings.cpp:79-107: one dim of a var *)
Definition scan_dim (scratch : bool) (rf : res found) (dim : string * ikind) : res found :=
  rbind rf (fun f =>
  let '(d, k) := dim in
  match k with
  | KStep =>
      if negb (String.eqb (f_step f) "") && negb (String.eqb (f_step f) d) then Throw
      else if scratch then Throw
      else Ok (add_step_dim f d)
  | KDomain => Ok (add_domain_dim f d)
  | KMisc => Ok (mkFound (f_step f) (f_domain f) (f_stencil f) (names_back (f_misc f) d))
  end).

(* Settings.cpp:54-108: dims from the settings, then from the vars in order *)
Definition from_settings (cs : csettings) : found :=
  let f0 := mkFound "" [] [] [] in
  let f1 := if String.eqb (cs_step cs) "" then f0 else add_step_dim f0 (cs_step cs) in
  fold_left add_domain_dim (cs_domain cs) f1.
Definition scan_vars (vars : list dvar) (cs : csettings) : res found :=
  fold_left (fun rf v => fold_left (scan_dim (dv_scratch v)) (dv_dims v) rf) vars (Ok (from_settings cs)).

(* Settings.cpp:120-122: the last domain dim but one, or the first one *)
Definition near_inner_dim (dd : list string) : string :=
  if Nat.leb 2 (List.length dd) then nth (List.length dd - 2) dd "" else nth 0 dd "".

(* Settings.cpp:123-150: name and 1-based position of the inner-loop dim *)
Definition inner_loop_dim (dd : list string) (o : ilopt) : string * Z :=
  let ndd := Z.of_nat (List.length dd) in
  let dflt := (nth (List.length dd - 1) dd "", ndd) in
  let by_name s := match posn_of dd s with Some p => (s, Z.of_nat p + 1) | None => dflt end in
  match o with
  | ILnone => dflt
  | ILnum n =>
      let dn := if n <? 1 then 1 else n in
      let dn := if ndd <? dn then ndd else dn in
      by_name (nth (Z.to_nat (dn - 1)) dd "")
  | ILname s => by_name s
  end.

(* Settings.hpp:109 *)
Definition ones (dd : list string) : tuple := mkTuple (map (fun d => (d, 1)) dd) true.

(* tuple.hpp:327-331 and operator[]: set_val() of a dim that exists *)
Definition set_val (t : tuple) (d : string) (v : Z) : tuple := mkTuple (update_list (dims t) d v) (first_inner t).

(* tuple.hpp:320-322 *)
Definition add_dim_front (t : tuple) (d : string) (v : Z) : tuple :=
  match lookup t d with
  | Some _ => mkTuple (update_list (dims t) d v) (first_inner t)
  | None => mkTuple ((d, v) :: dims t) (first_inner t)
  end.

(* Settings.cpp:154-170: (_fold, fold_opts) after reading the requested sizes *)
Definition requested (dd : list string) (cs : csettings) : tuple * tuple :=
  fold_left (fun acc d =>
    match lookup (cs_fold cs) d with
    | None => acc
    | Some sz => if sz <? 1 then acc else (set_val (fst acc) d sz, add_dim_back (snd acc) d sz)
    end) dd (ones dd, mkTuple [] true).

(* Settings.cpp:193-206 *)
Definition inner_size (vlen : Z) (fold_opts : tuple) (il : string) : Z :=
  if product fold_opts <? vlen then
    match lookup fold_opts il with
    | Some p => if Z.rem vlen p =? 0 then p else 1
    | None => 1
    end
  else 1.

(* Settings.cpp:221-230: hints for the dims other than the inner-loop dim, 0 = not specified *)
Definition inner_hints (dd : list string) (fold_opts : tuple) (il : string) : tuple :=
  fold_left (fun t d =>
    if String.eqb d il then t
    else add_dim_front t d (match lookup fold_opts d with Some p => p | None => 0 end)) dd (mkTuple [] true).

(* Settings.cpp:182-250: the fold when the request does not give vlen *)
Definition adjust_fold (dd : list string) (il : string) (vlen : Z) (efficient : bool) (fold fold_opts : tuple)
  : res tuple :=
  let fold' :=
    if Nat.eqb (List.length dd) 1 then set_val fold (nth (List.length dd - 1) dd "") vlen
    else
      let inner_sz := inner_size vlen fold_opts il in
      let upper_sz := Z.quot vlen inner_sz in
      let inner_folds :=
        if negb efficient then add_dim_back (mkTuple [] true) (near_inner_dim dd) upper_sz
        else get_compact_factors upper_sz (inner_hints dd fold_opts il) in
      fold_left (fun t d =>
        if String.eqb d il then set_val t d inner_sz
        else match lookup inner_folds d with
             | Some v => set_val t d v
             | None => set_val t d 1
             end) dd fold in
  if product fold' =? vlen then Ok fold' else Throw.

(* Settings.cpp:153-250 *)
Definition choose_fold (dd : list string) (il : string) (cs : csettings) (vlen : Z) (efficient : bool) : res tuple :=
  let (fold, fold_opts) := requested dd cs in
  if (1 <? vlen) && negb (product fold =? vlen) then adjust_fold dd il vlen efficient fold fold_opts
  else Ok fold.

(* Settings.cpp:252-258 *)
Definition fold_gt1 (fold : tuple) : tuple :=
  fold_left (fun t i => if 1 <? snd i then add_dim_back t (fst i) (snd i) else t) (dims fold) (mkTuple [] true).

(* Settings.cpp:282-287: insert the misc dims *)
Fixpoint insert_misc (inner : bool) (i : nat) (misc lay : list string) : list string :=
  match misc with
  | [] => lay
  | m :: r => insert_misc inner (S i) r (if inner then names_back lay m else names_at i lay m)
  end.

(* Settings.cpp:267-301 *)
Definition layout_order (dd : list string) (step : string) (misc : list string) (cs : csettings) (fold : tuple)
  : list string :=
  let outer := nth 0 dd "" in
  let inner := nth (List.length dd - 1) dd "" in
  let l := names_at 0 dd step in
  let l := insert_misc (cs_inner_misc cs) 0 misc l in
  let l := if cs_outer_domain cs then names_at 0 (names_remove l outer) outer else l in
  if product fold <=? 1 then names_back (names_remove l inner) inner else l.

(* Settings.cpp:47-323 *)
Definition set_dims (vars : list dvar) (cs : csettings) (vlen : Z) (efficient : bool) : res dimensions :=
  rbind (scan_vars vars cs) (fun f =>
  if String.eqb (f_step f) "" then Throw
  else
    let dd := f_domain f in
    if Nat.eqb (List.length dd) 0 then Throw
    else
      let (il, num) := inner_loop_dim dd (cs_inner cs) in
      rbind (choose_fold dd il cs vlen efficient) (fun fold =>
      let gt1 := fold_gt1 fold in
      if cs_unaligned cs && Nat.ltb 1 (List.length (dims gt1)) then Throw
      else Ok (mkDims (f_step f) dd (f_stencil f) (f_misc f) il num
                 (mkTuple (dims fold) (cs_first_inner cs)) (mkTuple (dims gt1) (cs_first_inner cs))
                 (layout_order dd (f_step f) (f_misc f) cs fold)))).

(* Var.cpp:136-173: set_dim_counts(): the counts of domain dims and of those in _fold_gt1 decide *)
Definition is_foldable (d : dimensions) (v : dvar) : bool :=
  let ndom := List.length (filter (fun i => match snd i with KDomain => true | _ => false end) (dv_dims v)) in
  let nfold := List.length (filter (fun i => match snd i with
                                             | KDomain => match lookup (d_fold_gt1 d) (fst i) with
                                                          | Some _ => true
                                                          | None => false
                                                          end
                                             | _ => false
                                             end) (dv_dims v)) in
  if Nat.eqb ndom 0 then false else Nat.eqb nfold (List.length (dims (d_fold_gt1 d))).
