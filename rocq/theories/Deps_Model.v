(* src/compiler/lib/Eqs.hpp:48-292 class Deps, 299-511 class DepGroup.
   An object is its identity, a Z.  unordered_set/unordered_map have no defined iteration order: they are lists here, and
   the theorems hold for lists in any order.  The debug printing and visit_dep_paths (138-145, only for debug) are left out. *)
From Verif Require Import Base.

Definition mem (a : Z) (l : list Z) : bool := existsb (Z.eqb a) l.
Definition set_insert (a : Z) (l : list Z) : list Z := if mem a l then l else a :: l.

Definition dmap := list (Z * list Z).
(* map.at(a), or the empty set *)
Fixpoint dm_get (a : Z) (m : dmap) : list Z :=
  match m with
  | [] => []
  | (k, s) :: r => if a =? k then s else dm_get a r
  end.
(* map[a].insert(b) *)
Fixpoint dm_add (a b : Z) (m : dmap) : dmap :=
  match m with
  | [] => [(a, [b])]
  | (k, s) :: r => if a =? k then (k, set_insert b s) :: r else (k, s) :: dm_add a b r
  end.

(* 54-58 *)
Record deps := mkDeps { d_all : list Z; d_imm : dmap; d_full : dmap; d_done : bool }.
Definition deps0 : deps := mkDeps [] [] [] false.

(* 152-157 *)
Definition set_imm (a b : Z) (d : deps) : deps :=
  mkDeps (set_insert b (set_insert a (d_all d))) (dm_add a b (d_imm d)) (d_full d) false.
(* 160-165 *)
Definition clear_deps (d : deps) : deps := mkDeps [] [] [] true.
(* 168-170 *)
Definition is_imm_dep_on (d : deps) (a b : Z) : bool := mem b (dm_get a (d_imm d)).
(* 178-181, assert(_done) *)
Definition is_dep_on (d : deps) (a b : Z) : res bool := if d_done d then Ok (mem b (dm_get a (d_full d))) else UB.

(* 97-135; the visitor only records the nodes it is called with, in reverse order *)
Record dfs_st := mkDfs { visited : list Z; finished : list Z; visits : list Z }.
Fixpoint dfs (fuel : nat) (imm : dmap) (preorder : bool) (st : dfs_st) (a : Z) : res dfs_st :=
  match fuel with
  | O => OutOfFuel
  | S f =>
      if mem a (finished st) then Ok st
      else if mem a (visited st) then Throw
      else
        rbind (rfold (dfs f imm preorder) (dm_get a imm)
                 (mkDfs (a :: visited st) (finished st) (if preorder then a :: visits st else visits st)))
              (fun st' => Ok (mkDfs (visited st') (a :: finished st') (if preorder then visits st' else a :: visits st')))
  end.
(* 206-210 *)
Definition dfs_visit_deps (d : deps) (a : Z) (preorder : bool) : res (list Z) :=
  rbind (dfs (S (length (d_all d))) (d_imm d) preorder (mkDfs [] [] []) a) (fun st => Ok (rev (visits st))).

(* 252-291 *)
Definition find_all_deps (d : deps) : res deps :=
  if d_done d then Ok d
  else
    rbind (rfold (fun full a =>
             rbind (dfs_visit_deps d a true) (fun vs =>
             Ok (fold_left (fun full b => if a =? b then full else dm_add a b full) vs full)))
             (d_all d) (d_full d))
          (fun full => Ok (mkDeps (d_all d) (d_imm d) full true)).

(* DepGroup, 317-328 *)
Record group := mkGroup { g_all : list Z; g_deps : deps; g_scr : deps }.

(* 381-390; add_item is vector_set::insert: append unless present *)
Definition add_item (a : Z) (l : list Z) : list Z := if mem a l then l else l ++ [a].
Definition g_set_imm (is_scratch : Z -> bool) (a b : Z) (g : group) : res group :=
  let g' := mkGroup (add_item b (add_item a (g_all g))) (set_imm a b (g_deps g))
                    (if is_scratch b then set_imm a b (g_scr g) else g_scr g) in
  if a =? b then Throw else Ok g'.

(* 399-402 *)
Definition g_find_all (g : group) : res group :=
  rbind (find_all_deps (g_deps g)) (fun d =>
  rbind (find_all_deps (g_scr g)) (fun s => Ok (mkGroup (g_all g) d s))).

(* 407-462: the scan of obj j over the list behind obj i: where to swap *)
Fixpoint find_swap (d : deps) (oi : Z) (pre post : list Z) : res (option (list Z * Z * list Z)) :=
  match post with
  | [] => Ok None
  | oj :: r =>
      if oi =? oj then Throw
      else
        rbind (is_dep_on d oi oj) (fun dij =>
        if dij then
          rbind (is_dep_on d oj oi) (fun dji => if dji then Throw else Ok (Some (pre, oj, r)))
        else find_swap d oi (pre ++ [oj]) r)
  end.
(* the 'while (!done)' loop at index i *)
Fixpoint settle (fuel : nat) (d : deps) (oi : Z) (post : list Z) : res (Z * list Z) :=
  match fuel with
  | O => OutOfFuel
  | S f =>
      rbind (find_swap d oi [] post) (fun o =>
      match o with
      | None => Ok (oi, post)
      | Some (pre, oj, r) => settle f d oj (pre ++ oi :: r)
      end)
  end.
(* the loop over i; [n] = number of remaining objs *)
Fixpoint topo_from (n : nat) (d : deps) (l : list Z) : res (list Z) :=
  match n, l with
  | S n', oi :: post =>
      rbind (settle (S (length l)) d oi post) (fun p =>
      rbind (topo_from n' d (snd p)) (fun r => Ok (fst p :: r)))
  | _, _ => Ok l
  end.
Definition topo_sort (g : group) : res group :=
  if Nat.leb (length (g_all g)) 1 then Ok g
  else
    rbind (g_find_all g) (fun g' =>
    rbind (topo_from (length (g_all g')) (g_deps g') (g_all g')) (fun l => Ok (mkGroup l (g_deps g') (g_scr g')))).

(* 470-510; [items o] = get_items() *)
Definition inherit_pair (full : group) (items : Z -> list Z) (g : group) (oi oj : Z) : group :=
  if oi =? oj then g
  else
    fold_left (fun g foi =>
      fold_left (fun g foj =>
        if foi =? foj then g
        else
          mkGroup (g_all g)
            (if is_imm_dep_on (g_deps full) foi foj then set_imm oi oj (g_deps g) else g_deps g)
            (if is_imm_dep_on (g_scr full) foi foj then set_imm oi oj (g_scr g) else g_scr g))
        (items oj) g)
      (items oi) g.
Definition inherit_deps_from (full : group) (items : Z -> list Z) (g : group) : res group :=
  g_find_all (fold_left (fun g oi => fold_left (fun g oj => inherit_pair full items g oi oj) (g_all g) g) (g_all g) g).
