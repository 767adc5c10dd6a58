(* src/compiler/lib/Eqs.cpp:1912-2031 Stages::calc_lifespans: memory slots of the scratch vars; the scratch children that
   src/compiler/lib/YaskKernel.cpp:1010-1060 prints for each part; and the order in which
   src/kernel/lib/stencil_calc.cpp:40-289 StencilPartBase::calc_micro_block evaluates them in one stage.
   A var, part, misc size is a number. *)
From Verif Require Import Base Deps_Model Eqs_Model Parts_Model.

(* ---- calc_lifespans ---- *)
Definition fupd {A B} (eqb : A -> A -> bool) (m : A -> B) (k : A) (x : B) : A -> B := fun k' => if eqb k' k then x else m k'.

(* 1917-1945: first and last stage that accesses each scratch var; [acc] lists the accessed scratch vars of each stage *)
Fixpoint first_last_from (snum : Z) (acc : list (list Z)) (m : Z -> option (Z * Z)) : Z -> option (Z * Z) :=
  match acc with
  | [] => m
  | vs :: r =>
      first_last_from (snum + 1) r
        (fold_left (fun m v => fupd Z.eqb m v (match m v with None => Some (snum, snum) | Some (f, _) => Some (f, snum) end)) vs m)
  end.
Definition first_last (acc : list (list Z)) : Z -> option (Z * Z) := first_last_from 0 acc (fun _ => None).

(* 1952-1954; the slots are kept in one map because a var has one size *)
Record lstate := mkLs { l_nmems : Z -> Z; l_free : Z -> list Z; l_slots : Z -> option Z }.
Definition ls0 : lstate := mkLs (fun _ => 0) (fun _ => []) (fun _ => None).

Section Slots.
  Variable msz : Z -> Z.                 (* get_misc_space_size(), Var.cpp:180 *)
  Variable fl : Z -> option (Z * Z).

  (* 1970-1994 *)
  Definition do_alloc (si : Z) (s : lstate) (v : Z) : lstate :=
    match fl v with
    | None => s
    | Some (f, _) =>
        if f =? si then
          match l_free s (msz v) with
          | n :: r => mkLs (l_nmems s) (fupd Z.eqb (l_free s) (msz v) r) (fupd Z.eqb (l_slots s) v (Some n))
          | [] => mkLs (fupd Z.eqb (l_nmems s) (msz v) (l_nmems s (msz v) + 1)) (l_free s) (fupd Z.eqb (l_slots s) v (Some (l_nmems s (msz v))))
          end
        else s
    end.
  (* 1996-2005; slots.at() throws when the var has no slot *)
  Definition do_free (si : Z) (s : lstate) (v : Z) : res lstate :=
    match fl v with
    | None => Ok s
    | Some (_, l) =>
        if l =? si then
          match l_slots s v with
          | None => Throw
          | Some n => Ok (mkLs (l_nmems s) (fupd Z.eqb (l_free s) (msz v) (n :: l_free s (msz v))) (l_slots s))
          end
        else Ok s
    end.
  (* 1957-2008; [order] is the iteration order of the map (by address of the vars) *)
  Definition assign (order : list Z) (nst : Z) : res lstate :=
    rfold (fun s si => rfold (do_free si) order (fold_left (do_alloc si) order s)) (zseq nst) ls0.
End Slots.

(* std::map<int,...>: sizes in increasing order *)
Fixpoint ins_sorted (x : Z) (l : list Z) : list Z :=
  match l with
  | [] => [x]
  | y :: r => if x <? y then x :: y :: r else if x =? y then y :: r else y :: ins_sorted x r
  end.
(* 2010-2024: offset of the slots of size [s] *)
Fixpoint slot_ofs (nm : Z -> Z) (sizes : list Z) (s : Z) (ofs : Z) : Z :=
  match sizes with
  | [] => ofs
  | x :: r => if x =? s then ofs else slot_ofs nm r s (ofs + nm x)
  end.
Definition calc_lifespans (msz : Z -> Z) (order : list Z) (acc : list (list Z)) : res (Z -> option Z) :=
  rbind (assign msz (first_last acc) order (Z.of_nat (length acc))) (fun s =>
  let sizes := fold_left (fun l v => ins_sorted (msz v) l) order [] in
  Ok (fun v => match l_slots s v with Some n => Some (slot_ofs (l_nmems s) sizes (msz v) 0 + n) | None => None end)).

(* ---- evaluation of a stage ---- *)

(* YaskKernel.cpp:1036-1058 and stencil_calc.hpp:130-144: the scratch children of part [p], by scratch stage and then in
   the order of all parts [ps], followed by [p] itself.  A stage is (is_scratch, parts). *)
Definition reqd_parts (sts : list (bool * list Z)) (ps : list Z) (sdeps : Z -> Z -> bool) (p : Z) : list Z :=
  concat (map (fun st : bool * list Z => if fst st then filter (fun p2 => sdeps p p2 && mem p2 (snd st)) ps else []) sts) ++ [p].

Section Exec.
  Variable V : Type.
  Variables rd wr : Z -> list (Z * Z).     (* scratch elements (var, element) read and written by a part *)
  Variable f : Z -> Z * Z -> list V -> V.  (* the value written to an element; non-scratch inputs do not change in a stage *)
  Variable key : Z * Z -> Z * Z.           (* where an element is stored *)
  Definition pair_eqb (a b : Z * Z) : bool := (fst a =? fst b) && (snd a =? snd b).

  Record xstate := mkX { x_done : list Z; x_mem : Z * Z -> V; x_log : list (Z * list V) }.

  (* stencil_calc.cpp:129-281: evaluate one part *)
  Definition exec_part (s : xstate) (p : Z) : xstate :=
    if mem p (x_done s) then s   (* 125-128 *)
    else
      let ins := map (fun e => x_mem s (key e)) (rd p) in
      mkX (p :: x_done s) (fold_left (fun m w => fupd pair_eqb m (key w) (f p w ins)) (wr p) (x_mem s)) (x_log s ++ [(p, ins)]).
  (* context.cpp:1136-1160: parts_done is cleared, then all parts of the stage are evaluated with their scratch children *)
  Definition run_stage (reqd : Z -> list Z) (parts : list Z) (m : Z * Z -> V) : xstate :=
    fold_left exec_part (concat (map reqd parts)) (mkX [] m []).
End Exec.
Arguments mkX {V} _ _ _. Arguments x_done {V} _. Arguments x_mem {V} _ _. Arguments x_log {V} _.
Arguments exec_part {V} _ _ _ _ _ _. Arguments run_stage {V} _ _ _ _ _ _ _.

(* ---- the stages and parts made by the compiler (Parts_Model) ---- *)
(* stages in execution order *)
Definition b_stages (ss : stages) : list (bool * list Z) :=
  map (fun id => (nth (Z.to_nat id) (st_scr ss) false, c_get (c_items (st_clus ss)) id)) (g_all (c_grp (st_clus ss))).
(* get_all_scratch_deps_on(), Eqs.hpp:367-370 *)
Definition b_sdeps (ps : parts) (p q : Z) : bool := mem q (dm_get p (d_full (g_scr (c_grp (ps_clus ps))))).
(* scratch elements read and written by a part for the point 0 of equations without offsets *)
Definition b_rd (scr : Z -> bool) (eqs : list eqn) (ps : parts) (p : Z) : list (Z * Z) :=
  flat_map (fun i => map (fun r => (p_var r, 0)) (filter (fun r => scr (p_var r)) (e_rhs (eq_at eqs i)))) (c_get (c_items (ps_clus ps)) p).
Definition b_wr (scr : Z -> bool) (eqs : list eqn) (ps : parts) (p : Z) : list (Z * Z) :=
  flat_map (fun i => if eq_scr scr eqs i then [(eq_var eqs i, 0)] else []) (c_get (c_items (ps_clus ps)) p).
