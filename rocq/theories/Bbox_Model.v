(* Bounding boxes of parts and stages: src/kernel/lib/setup.cpp:1082-1169 and 1235-1498,
   src/kernel/lib/context.hpp:40-140, and their use in src/kernel/lib/stencil_calc.cpp:40-289.
   Simplifications: begin and end of a box are kept as one pair per domain dim; the alignment
   flags of a box are left out; machine integers are unbounded; the stencil point passed to
   is_in_valid_domain is the domain point (the step index is always 0). *)
From Coq Require Import String.
From Verif Require Import Base Idiv_Model ParFor_Model Tuple_Model.

(* One [bb_begin[j], bb_end[j]) per domain dim j. *)
Notation dbox := (list (Z * Z)).

(* context.hpp:103-125 *)
Fixpoint is_in_bb (bb : dbox) (pt : list Z) : bool :=
  match pt, bb with
  | [], _ => true
  | x :: pt', (b, e) :: bb' => if x <? b then false else if e <=? x then false else is_in_bb bb' pt'
  | _ :: _, [] => false
  end.

(* setup.cpp:1508-1510: bb_len and bb_size *)
Definition bb_len (bb : dbox) : list Z := map (fun c => snd c - fst c) bb.
Definition bb_size (bb : dbox) : Z := zprod (bb_len bb).
Definition bb_begin (bb : dbox) : list Z := map fst bb.

(* Indices::add_elements, sub_elements *)
Fixpoint add_el (a b : list Z) : list Z :=
  match a, b with
  | x :: a', y :: b' => (x + y) :: add_el a' b'
  | _, _ => a
  end.
Fixpoint sub_el (a b : list Z) : list Z :=
  match a, b with
  | x :: a', y :: b' => (x - y) :: sub_el a' b'
  | _, _ => a
  end.

(* setup.cpp:1383-1402: the first dim beyond the starting point is shortened; the flag tells
   whether the scan must be restarted ('j < nddims - 1'). *)
Fixpoint adjust (ib ie len : list Z) : option (list Z * bool) :=
  match ib, ie, len with
  | b :: ib', e :: ie', l :: len' =>
      if b <? e then Some ((e - b) :: len', match len' with [] => false | _ => true end)
      else match adjust ib' ie' len' with
           | Some (r, again) => Some (l :: r, again)
           | None => None
           end
  | _, _, _ => None
  end.

Section Find.
  (* is_in_valid_domain() *)
  Variable cond : list Z -> bool.

  (* setup.cpp:1319-1327, 1367-1376: in the sub-domain and in no box found before. *)
  Definition is_valid (found : list dbox) (p : list Z) : bool :=
    cond p && negb (existsb (fun bb => is_in_bb bb p) found).

  (* setup.cpp:1352-1408: one scan; state = lengths and do_scan. *)
  Definition scan_once (found : list dbox) (ib len : list Z) : list Z * bool :=
    fst (indices_visit_all_points (list Z * bool)
      (fun st ieofs _ =>
         let ie := add_el ib ieofs in
         if is_valid found ie then (st, true)
         else match adjust ib ie (fst st) with
              | Some (len', again) => ((len', snd st || again), false)
              | None => (st, true)
              end) true len (len, false)).

  (* setup.cpp:1342-1409 'while (do_scan)' *)
  Fixpoint scan_rect (fuel : nat) (found : list dbox) (ib len : list Z) : res (list Z) :=
    match fuel with
    | O => OutOfFuel
    | S n => let (len', again) := scan_once found ib len in
             if again then scan_rect n found ib len' else Ok len'
    end.

  (* setup.cpp:1308-1424: all boxes of a slice; [cur] is bb_lists[start].bbl. *)
  Definition find_in_slice (slice : dbox) (cur : list dbox) : res (list dbox) :=
    fst (indices_visit_all_points (res (list dbox))
      (fun st iofs _ =>
         (rbind st (fun found =>
            let ib := add_el (bb_begin slice) iofs in
            if is_valid found ib then
              let scan_len := sub_el (map snd slice) ib in
              rbind (scan_rect (S (Z.to_nat (zsum scan_len))) found ib scan_len) (fun len =>
                Ok (found ++ [combine ib (add_el ib len)]))
            else Ok found), true))
      true (bb_len slice) (Ok cur)).

  (* setup.cpp:1291-1301: the slice of thread [start]; None: nothing to do. *)
  Definition slice_of (part : dbox) (len_per_thr start : Z) : option dbox :=
    match part with
    | (b, e) :: r =>
        let sb := b + start * len_per_thr in
        let se := Z.min e (sb + len_per_thr) in
        if se <=? sb then None else Some ((sb, se) :: r)
    | [] => None
    end.

  (* setup.cpp:1263-1425: the boxes found by each thread.  The calls of yask_parallel_for
     are taken in one order; each only touches the list of its own 'start'. *)
  Definition find_slices (c : omp_cfg) (part : dbox) : res (list (list dbox)) :=
    match part with
    | [] => UB                                    (* bb_len[0] does not exist *)
    | (b, e) :: _ =>
        let outer_len := e - b in
        let nthreads := yask_get_num_threads c in
        let len_per_thr := CEIL_DIV outer_len nthreads in
        rbind (yask_parallel_for c 0 nthreads 1) (fun calls =>
        fold_left (fun acc call =>
            rbind acc (fun lists =>
              let start := fst call in
              match slice_of part len_per_thr start with
              | None => Ok lists
              | Some slice =>
                  rbind (find_in_slice slice (nth (Z.to_nat start) lists [])) (fun l =>
                  Ok (firstn (Z.to_nat start) lists ++ l :: skipn (S (Z.to_nat start)) lists))
              end))
          calls (Ok (map (fun _ => []) (zseq nthreads))))
    end.
End Find.

(* setup.cpp:1455-1470: adjacent in the outer dim, equal in the others. *)
Definition can_merge (bb bbn : dbox) : bool :=
  match bb, bbn with
  | (_, e) :: r, (b', _) :: r' =>
      (e =? b') && forallb (fun cc => (fst (fst cc) =? fst (snd cc)) && (snd (fst cc) =? snd (snd cc)))
                           (combine r r')
  | _, _ => false
  end.
(* setup.cpp:1471-1478: bb.bb_end[odim] = bbn.bb_end[odim] *)
Definition merge_bb (bb bbn : dbox) : dbox :=
  match bb, bbn with
  | (b, _) :: r, (_, e') :: _ => (b, e') :: r
  | _, _ => bb
  end.
(* setup.cpp:1450-1486 *)
Fixpoint add_merged (l : list dbox) (bbn : dbox) : list dbox :=
  match l with
  | [] => [bbn]
  | bb :: r => if can_merge bb bbn then merge_bb bb bbn :: r else bb :: add_merged r bbn
  end.

(* Indices::min_elements, max_elements on begin and end. *)
Fixpoint hull (a b : dbox) : dbox :=
  match a, b with
  | (x, y) :: a', (u, v) :: b' => (Z.min x u, Z.max y v) :: hull a' b'
  | _, _ => a
  end.

(* Overall box of a part with the number of points, and its list of full boxes. *)
Record part_bbs := mkPB { pb_bb : dbox; pb_num : Z; pb_list : list dbox }.

(* setup.cpp:1428-1488: merge boxes of all slices. *)
Definition merge_step (pb : part_bbs) (bbn : dbox) : part_bbs :=
  if bb_size bbn =? 0 then pb
  else mkPB (if pb_num pb =? 0 then bbn else hull (pb_bb pb) bbn)
            (pb_num pb + bb_size bbn)
            (add_merged (pb_list pb) bbn).

(* setup.cpp:1235-1498.  [cond = None] when the part has no sub-domain condition;
   bb_num_points of the starting box is its size (update_bb with force_full). *)
Definition part_find_bbs (c : omp_cfg) (cond : option (list Z -> bool)) (max_bb : dbox) : res part_bbs :=
  if bb_size max_bb =? 0 then Ok (mkPB max_bb (bb_size max_bb) [])
  else match cond with
       | None => Ok (mkPB max_bb (bb_size max_bb) [max_bb])
       | Some f =>
           rbind (find_slices f c max_bb) (fun lists =>
           Ok (fold_left merge_step (concat lists) (mkPB max_bb 0 [])))
       end.

(* A part as seen by the context: get_domain_description(), is_scratch(), its condition. *)
Record bpart := mkBP { bp_descr : string; bp_scratch : bool; bp_cond : option (list Z -> bool) }.

(* setup.cpp:1121-1146: cache of finished parts, one entry per description and kind. *)
Definition bb_cache := list ((string * bool) * part_bbs).
Fixpoint cache_find (k : string * bool) (l : bb_cache) : option part_bbs :=
  match l with
  | [] => None
  | (k', v) :: r => if String.eqb (fst k) (fst k') && Bool.eqb (snd k) (snd k') then Some v else cache_find k r
  end.
Definition part_bbs_of (c : omp_cfg) (ext_bb max_sbb : dbox) (cache : bb_cache) (p : bpart)
  : res (part_bbs * bb_cache) :=
  match cache_find (bp_descr p, bp_scratch p) cache with
  | Some v => Ok (v, cache)
  | None =>
      rbind (part_find_bbs c (bp_cond p) (if bp_scratch p then max_sbb else ext_bb)) (fun v =>
      Ok (v, ((bp_descr p, bp_scratch p), v) :: cache))
  end.
Fixpoint parts_bbs (c : omp_cfg) (ext_bb max_sbb : dbox) (cache : bb_cache) (ps : list bpart)
  : res (list part_bbs * bb_cache) :=
  match ps with
  | [] => Ok ([], cache)
  | p :: r => rbind (part_bbs_of c ext_bb max_sbb cache p) (fun vc =>
              rbind (parts_bbs c ext_bb max_sbb (snd vc) r) (fun lc => Ok (fst vc :: fst lc, snd lc)))
  end.
(* setup.cpp:1113-1155: a stage is a list of non-scratch parts, each given as its required
   parts (the scratch parts, then the part itself: the last one).  [dd] are the values of
   'domain_dims', the initial begin and end of the box of the stage. *)
Fixpoint stage_bbs (c : omp_cfg) (ext_bb max_sbb : dbox) (cache : bb_cache)
         (sps : list (list bpart)) (spbb : dbox)
  : res (list (list part_bbs) * dbox * bb_cache) :=
  match sps with
  | [] => Ok ([], spbb, cache)
  | reqd :: r =>
      rbind (parts_bbs c ext_bb max_sbb cache reqd) (fun lc =>
      rbind (stage_bbs c ext_bb max_sbb (snd lc) r
               (match rev (fst lc) with own :: _ => hull spbb (pb_bb own) | [] => spbb end)) (fun x =>
      Ok (fst lc :: fst (fst x), snd (fst x), snd x)))
  end.
Fixpoint find_all_bbs (c : omp_cfg) (ext_bb max_sbb : dbox) (dd : list Z) (cache : bb_cache)
         (stages : list (list (list bpart)))
  : res (list (list (list part_bbs) * dbox)) :=
  match stages with
  | [] => Ok []
  | sps :: r =>
      rbind (stage_bbs c ext_bb max_sbb cache sps (map (fun d => (d, d)) dd)) (fun x =>
      rbind (find_all_bbs c ext_bb max_sbb dd (snd x) r) (fun l => Ok (fst x :: l)))
  end.

(* stencil_calc.cpp:150-176: intersection of a full box and the range to evaluate. *)
Fixpoint trim (mb fbb : dbox) : dbox :=
  match mb, fbb with
  | (mb0, me0) :: mb', (b, e) :: fbb' => (Z.max mb0 b, Z.min me0 e) :: trim mb' fbb'
  | _, _ => []
  end.
Definition trim_ok (bb : dbox) : bool := forallb (fun c => fst c <? snd c) bb.
(* stencil_calc.cpp:61-64 and 142-176: the boxes that are evaluated (the part has at least
   one valid point, else nothing is done). *)
Definition eval_boxes (pb : part_bbs) (mb : dbox) : list dbox :=
  if pb_num pb =? 0 then []
  else filter trim_ok (map (trim mb) (pb_list pb)).
