(* src/compiler/lib/Eqs.cpp:904-1221 Parts::add_eq_to_part, make_parts and 1333-1583 Stage::add_part, remove_part,
   Stages::add_parts_to_stage, make_stages.
   A part is a number, its index in creation order, with the list of its equations; a stage likewise with its parts.
   Names, lists of in/out vars and print-outs are left out.  The comparison of dims and halos of two scratch vars, and
   the match of a var name with the regex of the settings, are oracles. *)
From Verif Require Import Base Deps_Model Eqs_Model.

(* a DepGroup whose objects are lists of items *)
Record clus := mkClus { c_items : list (list Z); c_grp : group }.
Definition clus0 : clus := mkClus [] (mkGroup [] deps0 deps0).
Definition c_get (items : list (list Z)) (id : Z) : list Z := nth (Z.to_nat id) items [].
(* EqList::insert / PartList::insert into object [id] *)
Fixpoint upd_nth (n : nat) (f : list Z -> list Z) (l : list (list Z)) : list (list Z) :=
  match l, n with
  | [], _ => []
  | x :: r, O => f x :: r
  | x :: r, S n' => x :: upd_nth n' f r
  end.
Definition c_ins (id x : Z) (items : list (list Z)) : list (list Z) := upd_nth (Z.to_nat id) (add_item x) items.
Definition c_clear (g : group) : group := mkGroup (g_all g) (clear_deps (g_deps g)) (clear_deps (g_scr g)).
(* add_item(make_shared<...>()) *)
Definition c_new (c : clus) : Z * clus :=
  let id := Z.of_nat (length (c_items c)) in
  (id, mkClus (c_items c ++ [[]]) (mkGroup (add_item id (g_all (c_grp c))) (g_deps (c_grp c)) (g_scr (c_grp c)))).
(* try { add; inherit_deps_from } catch: is the addition free of cycles? *)
Definition c_trial (full : group) (id x : Z) (c : clus) : res bool :=
  match inherit_deps_from full (c_get (c_ins id x (c_items c))) (c_grp c) with
  | Ok _ => Ok true
  | Throw => Ok false
  | UB => UB
  | OutOfFuel => OutOfFuel
  end.

(* Eqs.hpp:184-186 *)
Definition is_dep (d : deps) (a b : Z) : res bool := rbind (is_dep_on d a b) (fun x => if x then Ok true else is_dep_on d b a).

(* a loop with a flag that ends when the flag becomes false *)
Fixpoint rall {A} (f : A -> res bool) (l : list A) : res bool :=
  match l with
  | [] => Ok true
  | x :: r => rbind (f x) (fun b => if b then rall f r else Ok false)
  end.

Section Parts.
  Variable scr : Z -> bool.              (* is_scratch() of a var *)
  Variable eqs : list eqn.
  Variable eg : group.                   (* the analysed Eqs *)
  Variables dims_same halo_same : Z -> Z -> bool.
  Variables bundle bundle_scratch : bool. (* settings *)
  Variable regex : Z -> bool.

  Definition eqn0 : eqn := mkEqn (mkPt 0 None [] []) [] None None [].
  Definition eq_at (i : Z) : eqn := nth (Z.to_nat i) eqs eqn0.
  Definition eq_var (i : Z) : Z := p_var (e_lhs (eq_at i)).
  Definition eq_scr (i : Z) : bool := scr (eq_var i).
  Definition same_lv (i j : Z) : bool := key_eqb (key_of scr (e_lhs (eq_at i))) (key_of scr (e_lhs (eq_at j))).

  (* 998-1009 *)
  Definition rel_eqs (i : Z) : list Z :=
    filter (fun j => negb (i =? j) && ((eq_scr i && (eq_var i =? eq_var j)) || (negb (eq_scr i) && same_lv i j))) (g_all eg).

  (* the scratch-ness, conditions and step expr of a part, set from the equation it was made for *)
  Record attr := mkAttr { a_scr : bool; a_dc : option Z; a_sc : option Z; a_step : option Z }.
  Definition eq_attr (i : Z) : attr := mkAttr (eq_scr i) (e_dcond (eq_at i)) (e_scond (eq_at i)) (p_step (e_lhs (eq_at i))).
  (* 1024-1038 *)
  Definition attr_same (a b : attr) : bool :=
    Bool.eqb (a_scr a) (a_scr b) && oz_eqb (a_dc a) (a_dc b) && oz_eqb (a_sc a) (a_sc b) && oz_eqb (a_step a) (a_step b).

  (* 1043-1091: may equation i join equation j? *)
  Definition eq_fits (i j : Z) : res bool :=
    if eq_scr i && (negb (dims_same (eq_var j) (eq_var i)) || (negb bundle_scratch && negb (halo_same (eq_var j) (eq_var i)))) then Ok false
    else
      rbind (is_dep (g_deps eg) i j) (fun b =>
      if b then Ok false
      else rall (fun k => rbind (is_dep (g_deps eg) j k) (fun b => Ok (negb b))) (rel_eqs i)).

  Record parts := mkParts { ps_attr : list attr; ps_clus : clus; ps_added : list Z }.
  Definition parts0 : parts := mkParts [] clus0 [].
  Definition attr0 : attr := mkAttr false None None None.

  (* 1013-1133: the loop over existing parts *)
  Fixpoint find_part (i : Z) (ids : list Z) (at_ : list attr) (c : clus) : res (option Z * clus) :=
    match ids with
    | [] => Ok (None, c)
    | id :: r =>
        rbind (if attr_same (nth (Z.to_nat id) at_ attr0) (eq_attr i) then rall (eq_fits i) (c_get (c_items c) id) else Ok false) (fun ok =>
        if ok then
          rbind (c_trial eg id i c) (fun t =>
          if t then Ok (Some id, mkClus (c_ins id i (c_items c)) (c_clear (c_grp c)))
          else find_part i r at_ (mkClus (c_items c) (c_clear (c_grp c))))
        else find_part i r at_ c)
    end.

  (* 970-1166 *)
  Definition add_eq_to_part (s : parts) (i : Z) : res parts :=
    if mem i (ps_added s) then Ok s
    else
      rbind (if bundle then find_part i (g_all (c_grp (ps_clus s))) (ps_attr s) (ps_clus s) else Ok (None, ps_clus s)) (fun r =>
      match fst r with
      | Some _ => Ok (mkParts (ps_attr s) (snd r) (i :: ps_added s))
      | None =>
          let '(id, c') := c_new (snd r) in
          Ok (mkParts (ps_attr s ++ [eq_attr i]) (mkClus (c_ins id i (c_items c')) (c_grp c')) (i :: ps_added s))
      end).

  (* 1184-1206: the equations that are added, in this order *)
  Definition chosen : list Z :=
    filter (fun i => negb (eq_scr i) && regex (eq_var i)) (g_all eg) ++ filter eq_scr (g_all eg).
  (* 1170-1213 *)
  Definition make_parts : res parts :=
    rbind (rfold add_eq_to_part chosen parts0) (fun s =>
    rbind (inherit_deps_from eg (c_get (c_items (ps_clus s))) (c_grp (ps_clus s))) (fun g =>
    rbind (topo_sort g) (fun g => Ok (mkParts (ps_attr s) (mkClus (c_items (ps_clus s)) g) (ps_added s))))).
End Parts.

Section Stages.
  Variable scr : Z -> bool.
  Variable eqs : list eqn.
  Variable pg : group.                   (* the group of parts *)
  Variable peqs : Z -> list Z.           (* get_eqs() of a part *)
  Variable pscr : Z -> bool.             (* is_scratch() of a part *)

  Record stages := mkStages { st_scr : list bool; st_clus : clus; st_added : list Z }.
  Definition stages0 : stages := mkStages [] clus0 [].

  (* 1397-1435 *)
  Definition var_match (lv : bool) (pps sps : list Z) : bool :=
    existsb (fun p1 => existsb (fun e1 => existsb (fun p2 => existsb (fun e2 =>
      if lv then same_lv scr eqs e1 e2 else eq_var eqs e1 =? eq_var eqs e2) (peqs p2)) sps) (peqs p1)) pps.

  (* 1439-1486: every part is tried on its own and removed again.  After the first trial the deps are cleared. *)
  Fixpoint try_parts (pps : list Z) (id : Z) (c : clus) : res (bool * clus) :=
    match pps with
    | [] => Ok (true, c)
    | p :: r =>
        rbind (rall (fun p2 => rbind (is_dep (g_deps pg) p p2) (fun b => Ok (negb b))) (c_get (c_items c) id)) (fun ok =>
        if ok then
          rbind (c_trial pg id p c) (fun t =>
          let c' := mkClus (c_items c) (c_clear (c_grp c)) in
          if t then try_parts r id c' else Ok (false, c'))
        else Ok (false, c))
    end.

  (* 1384-1497: the loop over existing stages *)
  Fixpoint find_stage (vg lvg : bool) (pps : list Z) (s_scr : bool) (ids : list Z) (sc : list bool) (c : clus) : res (option Z * clus) :=
    match ids with
    | [] => Ok (None, c)
    | id :: r =>
        if negb (Bool.eqb (nth (Z.to_nat id) sc false) s_scr) then find_stage vg lvg pps s_scr r sc c
        else if (lvg || vg) && negb (var_match lvg pps (c_get (c_items c) id)) then find_stage vg lvg pps s_scr r sc c
        else
          rbind (try_parts pps id c) (fun b =>
          if fst b then Ok (Some id, snd b) else find_stage vg lvg pps s_scr r sc (snd b))
    end.

  (* 1355-1520 *)
  Definition add_parts_to_stage (vg lvg : bool) (s : stages) (pps : list Z) : res stages :=
    match pps with
    | [] => Ok s
    | p0 :: _ =>
        if mem p0 (st_added s) then Ok s
        else
          rbind (find_stage vg lvg pps (pscr p0) (g_all (c_grp (st_clus s))) (st_scr s) (st_clus s)) (fun r =>
          let '(id, c', sc) := match fst r with
                               | Some id => (id, snd r, st_scr s)
                               | None => let '(id, c') := c_new (snd r) in (id, c', st_scr s ++ [pscr p0])
                               end in
          Ok (mkStages sc (mkClus (fold_left (fun it p => c_ins id p it) pps (c_items c')) (c_grp c')) (pps ++ st_added s)))
    end.

  (* 1523-1564 *)
  Definition stage_parts (s : stages) : list (list Z) := map (c_get (c_items (st_clus s))) (g_all (c_grp (st_clus s))).
  Definition make_stages : res stages :=
    rbind (rfold (fun s p => add_parts_to_stage true true s [p]) (g_all pg) stages0) (fun s1 =>
    rbind (rfold (add_parts_to_stage true false) (stage_parts s1) stages0) (fun s2 =>
    let by_scr b := filter (fun id => Bool.eqb (nth (Z.to_nat id) (st_scr s2) false) b) (g_all (c_grp (st_clus s2))) in
    rbind (rfold (add_parts_to_stage false false) (map (c_get (c_items (st_clus s2))) (by_scr false ++ by_scr true)) stages0) (fun s3 =>
    rbind (inherit_deps_from pg (c_get (c_items (st_clus s3))) (c_grp (st_clus s3))) (fun g =>
    rbind (topo_sort g) (fun g => Ok (mkStages (st_scr s3) (mkClus (c_items (st_clus s3)) g) (st_added s3))))))).
End Stages.

(* Solution.cpp:142-152 *)
Definition build (scr : Z -> bool) (dims_same halo_same : Z -> Z -> bool) (bundle bundle_scratch : bool) (regex : Z -> bool)
    (dir : Z) (eqs : list eqn) : res (group * parts * stages) :=
  rbind (analyze_eqs scr true dir eqs) (fun a =>
  rbind (make_parts scr eqs (snd a) dims_same halo_same bundle bundle_scratch regex) (fun ps =>
  rbind (make_stages scr eqs (c_grp (ps_clus ps)) (c_get (c_items (ps_clus ps))) (fun p => a_scr (nth (Z.to_nat p) (ps_attr ps) attr0))) (fun ss =>
  Ok (snd a, ps, ss)))).
