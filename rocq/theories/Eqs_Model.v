(* src/compiler/lib/Eqs.cpp:364-735 Eqs::analyze_eqs, with Eqs.hpp:515-552 LogicalVars and
   src/compiler/lib/VarPoint.cpp:121-145 make_logical_var_str.
   An equation is reduced to the points it writes and reads.  The args of a point are already in the normal form that the
   VarPoint ctor gives them (VarPoint.cpp:36-83): an offset for step and domain dims, a constant for misc dims; args of
   any other form (rejected at 425-462, 535-582) are not representable.  The vectorisation check of the LHS (526-530) is
   left out.  Conditions are compared by identity (are_exprs_same). *)
From Verif Require Import Base Deps_Model.

Record pt := mkPt { p_var : Z; p_step : option Z; p_dom : list Z; p_misc : list Z }.
Record eqn := mkEqn { e_lhs : pt; e_rhs : list pt; e_dcond : option Z; e_scond : option Z;
                      e_cpts : list pt (* points read by the conditions; not used by the analysis *) }.

Definition oz_eqb (a b : option Z) : bool :=
  match a, b with Some x, Some y => x =? y | None, None => true | _, _ => false end.
Fixpoint lz_eqb (a b : list Z) : bool :=
  match a, b with [] , [] => true | x :: a', y :: b' => (x =? y) && lz_eqb a' b' | _, _ => false end.

(* logical var: name, step arg and consts; only the name for a scratch var *)
Definition lkey := (Z * option Z * list Z)%type.
Section WithVars.
  Variable scr : Z -> bool. (* is_scratch() of a var *)

  Definition key_of (p : pt) : lkey := if scr (p_var p) then (p_var p, p_step p, []) else (p_var p, p_step p, p_misc p).
  Definition key_eqb (a b : lkey) : bool :=
    let '(v, s, m) := a in let '(v', s', m') := b in (v =? v') && oz_eqb s s' && lz_eqb m m'.

  (* LogicalVars: object i is the i-th key *)
  Fixpoint find_key (k : lkey) (l : list lkey) (i : Z) : option Z :=
    match l with [] => None | k' :: r => if key_eqb k k' then Some i else find_key k r (i + 1) end.
  Record lvars := mkLvars { lv_keys : list lkey; lv_grp : group }.
  Definition add_slice (p : pt) (s : lvars) : Z * lvars :=
    match find_key (key_of p) (lv_keys s) 0 with
    | Some i => (i, s)
    | None =>
        let i := Z.of_nat (length (lv_keys s)) in
        (i, mkLvars (lv_keys s ++ [key_of p]) (mkGroup (add_item i (g_all (lv_grp s))) (g_deps (lv_grp s)) (g_scr (lv_grp s))))
    end.
  Definition lv_scratch (keys : list lkey) (i : Z) : bool :=
    match nth_error keys (Z.to_nat i) with Some (v, _, _) => scr v | None => false end.

  (* 464-530: checks of one equation; the step direction, 0 = not set yet.
     513: the code compares with -11 *)
  Definition check_eq (dir : Z) (e : eqn) : res Z :=
    let l := e_lhs e in
    if negb (forallb (Z.eqb 0) (p_dom l)) then Throw
    else if scr (p_var l) then
      match p_step l with Some _ => Throw | None => Ok dir end
    else
      match p_step l with
      | None => Throw
      | Some lofs =>
          if negb (Z.abs lofs =? 1) then Throw
          else
            let dir := if (dir =? 0) && negb (lofs =? 0) then (if 0 <? lofs then 1 else -1) else dir in
            if negb (lofs =? dir) then Throw
            else if existsb (fun r => match p_step r with
                                      | Some rofs => ((dir =? 1) && (lofs <? rofs)) || ((dir =? -11) && (rofs <? lofs))
                                      | None => false end) (e_rhs e) then Throw
            else Ok dir
      end.

  (* 584-599: logical-var dependencies of one equation *)
  Definition eq_lvars (s : lvars) (e : eqn) : res lvars :=
    let '(o, s1) := add_slice (e_lhs e) s in
    rbind (rfold (fun s ip =>
             let '(i, s') := add_slice ip s in
             rbind (g_set_imm (lv_scratch (lv_keys s')) o i (lv_grp s')) (fun g => Ok (mkLvars (lv_keys s') g)))
             (e_rhs e) s1) (fun s2 =>
    rbind (g_find_all (lv_grp s2)) (fun g => Ok (mkLvars (lv_keys s2) g))).

  Definition pass1 (dir : Z) (eqs : list eqn) : res (Z * lvars) :=
    rfold (fun st e =>
      rbind (check_eq (fst st) e) (fun dir => rbind (eq_lvars (snd st) e) (fun s => Ok (dir, s))))
      eqs (dir, mkLvars [] (mkGroup [] deps0 deps0)).

  Definition pt_eqb (a b : pt) : bool :=
    (p_var a =? p_var b) && oz_eqb (p_step a) (p_step b) && lz_eqb (p_dom a) (p_dom b) && lz_eqb (p_misc a) (p_misc b).
  Definition is_null (c : option Z) : bool := match c with None => true | Some _ => false end.

  (* 643-716: one pair; equation i is object i of the group *)
  Definition pair_check (e1 e2 : eqn) : bool :=
    let same_dc := oz_eqb (e_dcond e1) (e_dcond e2) in
    let same_sc := oz_eqb (e_scond e1) (e_scond e2) in
    negb (pt_eqb (e_lhs e1) (e_lhs e2) &&
          ((same_dc && same_sc) ||
           (is_null (e_dcond e1) && is_null (e_scond e1) && (negb (is_null (e_dcond e2)) || negb (is_null (e_scond e2)))))).
  Definition do_pair (find_deps : bool) (lv : lvars) (i1 : Z) (e1 : eqn) (g : group) (ie2 : Z * eqn) (scrs : Z -> bool) : res group :=
    let '(i2, e2) := ie2 in
    if i1 =? i2 then Ok g
    else if negb (pair_check e1 e2) then Throw
    else if negb find_deps then Ok g
    else
      match find_key (key_of (e_lhs e1)) (lv_keys lv) 0, find_key (key_of (e_lhs e2)) (lv_keys lv) 0 with
      | Some o1, Some o2 =>
          rbind (is_dep_on (g_deps (lv_grp lv)) o2 o1) (fun b => if b then g_set_imm scrs i2 i1 g else Ok g)
      | _, _ => UB (* assert *)
      end.
  Definition pass2 (find_deps : bool) (lv : lvars) (eqs : list eqn) : res group :=
    let ies := combine (zseq (Z.of_nat (length eqs))) eqs in
    let scrs i := match nth_error eqs (Z.to_nat i) with Some e => scr (p_var (e_lhs e)) | None => false end in
    rfold (fun g ie1 =>
      rbind (rfold (fun g ie2 => do_pair find_deps lv (fst ie1) (snd ie1) g ie2 scrs) ies g) (fun g => g_find_all g))
      ies (mkGroup (map fst ies) deps0 deps0).

  (* the sort at 605 only affects the order of the print-out *)
  Definition analyze_eqs (find_deps : bool) (dir : Z) (eqs : list eqn) : res (Z * group) :=
    rbind (pass1 dir eqs) (fun p =>
    rbind (topo_sort (lv_grp (snd p))) (fun g =>
    rbind (pass2 find_deps (mkLvars (lv_keys (snd p)) g) eqs) (fun ge =>
    Ok (if fst p =? 0 then 1 else fst p, ge)))).
End WithVars.
