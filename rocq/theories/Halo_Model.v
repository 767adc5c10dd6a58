(* src/compiler/lib/Var.cpp:221-342 Var::update_halo, update_write_points, Var.hpp:184-220 get_halo_sizes, get_halo_size,
   Var.cpp:360-486 get_step_dim_info and src/compiler/lib/Eqs.cpp:1604-1909 Stages::calc_halos.
   Domain dims and stages are numbers.  The domain args of a point are listed in the order of the domain dims of its var.
   std::map is a list of entries; nothing depends on the order of the entries. *)
From Verif Require Import Base Deps_Model Eqs_Model Parts_Model Lifespan_Model.

(* IntTuple: (dim, value) in order *)
Definition tup := list (Z * Z).
Fixpoint tget (d : Z) (t : tup) : option Z :=
  match t with [] => None | (d', v) :: r => if d =? d' then Some v else tget d r end.
(* Var.cpp:248-260, 306-317: add the dim or keep the larger value *)
Fixpoint tput (d v : Z) (t : tup) : tup :=
  match t with
  | [] => [(d, v)]
  | (d', v') :: r => if d =? d' then (d', if v' <? v then v else v') :: r else (d', v') :: tput d v r
  end.
(* src/common/tuple.hpp:499-523 combine_elements with strict_rhs = false *)
Definition tcomb (f : Z -> Z -> Z) (t rhs : tup) : tup :=
  map (fun p => (fst p, match tget (fst p) rhs with Some v => f (snd p) v | None => snd p end)) t.

(* key of _halos: stage, left, step *)
Definition hkey := (Z * bool * Z)%type.
Definition hkey_eqb (a b : hkey) : bool :=
  let '(s, l, t) := a in let '(s', l', t') := b in (s =? s') && Bool.eqb l l' && (t =? t').
Definition hmap := list (hkey * tup).
(* _halos[stage][left][step] := f _, made if needed *)
Fixpoint hupd (k : hkey) (f : tup -> tup) (m : hmap) : hmap :=
  match m with
  | [] => [(k, f [])]
  | (k', t) :: r => if hkey_eqb k k' then (k', f t) :: r else (k', t) :: hupd k f r
  end.

(* the computed members of Var; _write_points as (stage, step offset), latest first *)
Record vinfo := mkVinfo { v_halos : hmap; v_wr : list (Z * Z); v_l1 : Z }.
Definition vinfo0 : vinfo := mkVinfo [] [] 0.

Definition step_of (s : option Z) : Z := match s with Some v => v | None => 0 end.
(* Var.cpp:274-323 update_halo(stage, offsets): [s] is the offset of the step dim, [o] the others *)
Definition upd_ofs (stage : Z) (s : option Z) (o : tup) (v : vinfo) : vinfo :=
  let m := match s with Some x => hupd (stage, x <=? 0, x) (fun t => t) (v_halos v) | None => v_halos v end in
  mkVinfo (fold_left (fun m p => hupd (stage, snd p <=? 0, step_of s) (tput (fst p) (Z.abs (snd p))) m) o m)
          (v_wr v) (Z.max (v_l1 v) (Z.of_nat (length (filter (fun p => 0 <? Z.abs (snd p)) o)))).
(* Var.hpp update_l1_dist *)
Definition upd_l1 (l1 : Z) (v : vinfo) : vinfo := mkVinfo (v_halos v) (v_wr v) (Z.max (v_l1 v) l1).
(* Var.cpp:224-268 update_halo(other) *)
Definition upd_from (other v : vinfo) : vinfo :=
  upd_l1 (v_l1 other)
    (mkVinfo (fold_left (fun m (e : hkey * tup) => fold_left (fun m p => hupd (fst e) (tput (fst p) (snd p)) m) (snd e) m) (v_halos other) (v_halos v))
             (v_wr v) (v_l1 v)).
(* Var.cpp:326-331 *)
Definition upd_write (stage : Z) (s : option Z) (v : vinfo) : vinfo :=
  match s with Some x => mkVinfo (v_halos v) ((stage, x) :: v_wr v) (v_l1 v) | None => v end.

(* Var.hpp:188-199 get_halo_sizes(stage, left) *)
Definition halo_sizes (stage : Z) (left : bool) (v : vinfo) : tup :=
  fold_left (fun t (e : hkey * tup) =>
    let '(s, l, _) := fst e in
    if (s =? stage) && Bool.eqb l left then fold_left (fun t p => tput (fst p) (snd p) t) (snd e) t else t) (v_halos v) [].
(* Var.hpp:202-219 get_halo_size(dim, left) *)
Definition halo_size (d : Z) (left : bool) (v : vinfo) : Z :=
  fold_left (fun h (e : hkey * tup) =>
    let '(_, l, _) := fst e in
    if Bool.eqb l left then match tget d (snd e) with Some x => Z.max h x | None => h end else h) (v_halos v) 0.

(* _halos[stage][left][step][dim], 0 if there is none *)
Fixpoint hlook (k : hkey) (m : hmap) : tup :=
  match m with [] => [] | (k', t) :: r => if hkey_eqb k k' then t else hlook k r end.
Definition halo_at (stage : Z) (left : bool) (step d : Z) (v : vinfo) : Z :=
  match tget d (hlook (stage, left, step) (v_halos v)) with Some x => x | None => 0 end.

Section Halos.
  Variable vdims : Z -> list Z.          (* domain dims of a var *)
  Variable eqs : list eqn.
  (* get_arg_offsets() without the step dim *)
  Definition pt_ofs (p : pt) : tup := combine (vdims (p_var p)) (p_dom p).

  Definition venv := Z -> vinfo.
  Definition env_upd (v : Z) (f : vinfo -> vinfo) (en : venv) : venv := fupd Z.eqb en v (f (en v)).
  Definition lhs_var (i : Z) : Z := eq_var eqs i.

  (* one access: Eqs.cpp:1684-1698 *)
  Definition touch (stage : Z) (en : venv) (p : pt) : venv := env_upd (p_var p) (upd_ofs stage (p_step p) (pt_ofs p)) en.
  (* 1671-1700: one equation of a stage or of a required scratch stage; [stage] is the non-scratch one *)
  Definition scan_eq (stage : Z) (en : venv) (i : Z) : venv :=
    let e := eq_at eqs i in
    env_upd (p_var (e_lhs e)) (upd_write stage (p_step (e_lhs e))) (fold_left (touch stage) (e_lhs e :: e_rhs e) en).

  (* a stage: number, is_scratch(), parts as lists of equations *)
  Record stg := mkStg { sg_id : Z; sg_scr : bool; sg_parts : list (list Z) }.
  Variable sdep : Z -> Z -> bool.        (* get_all_scratch_deps_on(st1).count(st2) *)

  (* 1644-1702 phase 1 *)
  Definition phase1 (sts : list stg) (en : venv) : venv :=
    fold_left (fun en st =>
      if sg_scr st then en
      else fold_left (scan_eq (sg_id st))
             (concat (sg_parts st) ++ concat (flat_map sg_parts (filter (fun s2 => sdep (sg_id st) (sg_id s2)) sts))) en) sts en.

  (* 1787-1880: one scratch part, with the shadow vars of the non-scratch stage [stage].  The shadow of a var not in the map
     is the var itself; [snd] lists the vars in the map (1793-1806). *)
  Definition do_part (stage : Z) (s : venv * list Z) (part : list Z) : venv * list Z :=
    match part with
    | [] => s
    | i1 :: _ =>
        let tch := fold_left (fun l i => fold_left (fun l p => add_item (p_var p) l) (e_rhs (eq_at eqs i)) (add_item (lhs_var i) l)) part (snd s) in
        let others := filter (fun i => negb (i1 =? i)) part in
        (* 1817-1839 *)
        let en := fold_left (fun en i => env_upd (lhs_var i1) (upd_from (en (lhs_var i))) en) others (fst s) in
        let en := fold_left (fun en i => env_upd (lhs_var i) (upd_from (en (lhs_var i1))) en) others en in
        (* 1844-1846 *)
        let lh := halo_sizes stage true (en (lhs_var i1)) in
        let rh := halo_sizes stage false (en (lhs_var i1)) in
        let l1 := v_l1 (en (lhs_var i1)) in
        (* 1859-1878 *)
        (fold_left (fun en i => fold_left (fun en p =>
           env_upd (p_var p) (fun v =>
             upd_l1 l1 (upd_ofs stage (p_step p) (tcomb Z.add (pt_ofs p) rh) (upd_ofs stage (p_step p) (tcomb Z.sub (pt_ofs p) lh) v))) en)
           (e_rhs (eq_at eqs i)) en) part en, tch)
    end.

  (* 1779-1787: the scratch parts needed for [stage], most dependent stage first *)
  Definition scratch_parts (sts : list stg) (stage : Z) : list (list Z) :=
    flat_map sg_parts (filter (fun s2 => sdep stage (sg_id s2)) (rev sts)).
  Definition shadows (sts : list stg) (en : venv) (stage : Z) : venv * list Z :=
    fold_left (do_part stage) (scratch_parts sts stage) (en, []).
  (* 1885-1908 *)
  Definition apply_shadows (en : venv) (sh : venv * list Z) : venv :=
    fold_left (fun en v => env_upd v (upd_from (fst sh v)) en) (snd sh) en.
  Definition calc_halos (sts : list stg) : venv :=
    let en := phase1 sts (fun _ => vinfo0) in
    fold_left apply_shadows (map (fun st => shadows sts en (sg_id st)) (filter (fun st => negb (sg_scr st)) sts)) en.
End Halos.

(* ---- get_step_dim_info ---- *)
(* std::map of stages: the different stages in the keys *)
Definition halo_stages (v : vinfo) : list Z := fold_left (fun l (e : hkey * tup) => add_item (fst (fst (fst e))) l) (v_halos v) [].
Definition stage_entries (stage : Z) (v : vinfo) : hmap := filter (fun e => fst (fst (fst e)) =? stage) (v_halos v).
Definition write_point (stage : Z) (v : vinfo) : option Z :=
  match find (fun p => fst p =? stage) (v_wr v) with Some (_, s) => Some s | None => None end.
Fixpoint tmax (t : tup) : Z := match t with [] => 0 | (_, v) :: r => Z.max v (tmax r) end.

(* 377-470: the size for one stage, and the step offset that is written back (if any) *)
Definition stage_steps (stage : Z) (v : vinfo) : Z * option Z :=
  let es := stage_entries stage v in
  let ofs := map (fun e : hkey * tup => snd (fst e)) (filter (fun e => negb (match snd e with [] => true | _ => false end)) es) in
  let written := match write_point stage v with Some w => existsb (fun e : hkey * tup => snd (fst e) =? w) es | None => false end in
  match ofs with
  | [] => (1, None)
  | o :: r =>
      let first := fold_left Z.min r o in
      let last := fold_left Z.max r o in
      if last =? first then (1, None)
      else
        let mx k := fold_left Z.max (map (fun e : hkey * tup => tmax (snd e)) (filter (fun e => snd (fst e) =? k) es)) 0 in
        if written && (mx first =? 0) && (mx last =? 0) then
          (last - first, match write_point stage v with
                         | Some w => if last =? w then Some first else if first =? w then Some last else None
                         | None => None end)
        else (last - first + 1, None)
  end.
(* 360-486; [has_step]: the var has a step dim; [api], [cmd]: _step_alloc of the var and of the settings.
   484: the size found is stored after the overrides *)
Definition step_dim_size (has_step : bool) (api cmd : Z) (v : vinfo) : Z :=
  if negb has_step then 1
  else match v_halos v with
  | [] => 1
  | _ =>
      let max_sz := fold_left (fun m st => Z.max m (fst (stage_steps st v))) (halo_stages v) 1 in
      let sz := if 0 <? api then api else 1 in
      let sz := if 0 <? cmd then cmd else sz in
      let sz := max_sz in
      sz
  end.

(* ---- the stages made by the compiler (Parts_Model) ---- *)
Definition h_stages (ps : parts) (ss : stages) : list stg :=
  map (fun id => mkStg id (nth (Z.to_nat id) (st_scr ss) false) (map (c_get (c_items (ps_clus ps))) (c_get (c_items (st_clus ss)) id)))
      (g_all (c_grp (st_clus ss))).
Definition h_sdep (ss : stages) (a b : Z) : bool := mem b (dm_get a (d_full (g_scr (c_grp (st_clus ss))))).
