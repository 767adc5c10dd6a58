(* Work statistics of a solution: src/kernel/lib/stencil_calc.cpp:461-598 Stage::init_work_stats, :437-439 add_steps,
   src/kernel/lib/context.hpp:124-135 intersection_with, src/kernel/lib/setup.cpp:605-661, the counters of run_solution
   (src/kernel/lib/context.cpp:220-624) and run_ref (:40-215), and src/kernel/lib/soln_apis.cpp:340-583 get_stats, clear_timers.
   Simplifications: times and rates are left out; machine integers are unbounded; the sum over ranks is a sum of a list;
   the name of a part is a number. *)
From Verif Require Import Base Bbox_Model Lifespan_Model Tile_Model.

(* context.hpp:124-135; bb_num_points = bb_size (update_bb with force_full) *)
Fixpoint bb_inter (a b : dbox) : dbox :=
  match a, b with
  | (b1, e1) :: a', (b2, e2) :: b' => let lo := Z.max b1 b2 in (lo, Z.max lo (Z.min e1 e2)) :: bb_inter a' b'
  | _, _ => []
  end.

(* a part: get_name(), get_bbs(), get_scalar_points_read(), get_scalar_points_written(), get_scalar_fp_ops() *)
Record wpart := mkWpart { wp_name : Z; wp_bbs : list dbox; wp_reads : Z; wp_writes : Z; wp_fpops : Z }.
Record work := mkWork { w_pts : Z; w_reads : Z; w_writes : Z; w_fpops : Z }.
Definition work0 : work := mkWork 0 0 0 0.
(* stencil_calc.cpp:503-507 *)
Definition add_work (q : wpart) (n : Z) (w : work) : work :=
  mkWork (w_pts w + n) (w_reads w + wp_reads q * n) (w_writes w + wp_writes q * n) (w_fpops w + wp_fpops q * n).
(* 483-511: npts, reads, writes, fpops by name of the part; new entries are 0 *)
Definition part_stats (sg_list : list wpart) (fbbs : list dbox) : Z -> work :=
  fold_left (fun m fbb =>
    fold_left (fun m rsg =>
      fold_left (fun m fnbb => fupd Z.eqb m (wp_name rsg) (add_work rsg (bb_size (bb_inter fbb fnbb)) (m (wp_name rsg)))) (wp_bbs rsg) m)
      sg_list m) fbbs (fun _ => work0).
(* 474-518: one non-scratch part with the scratch parts it requires (get_reqd_parts: the part itself is last) *)
Definition part_work (acc : work) (s : list wpart * wpart) : work :=
  let sg_list := fst s ++ [snd s] in
  let m := part_stats sg_list (wp_bbs (snd s)) in
  fold_left (fun a q => mkWork (w_pts a) (w_reads a + w_reads (m (wp_name q))) (w_writes a + w_writes (m (wp_name q))) (w_fpops a + w_fpops (m (wp_name q)))) sg_list acc.
(* 461-598: per step in this rank *)
Definition stage_work (sgs : list (list wpart * wpart)) : work := fold_left part_work sgs work0.
(* 593-596: sums over the ranks *)
Definition sum_work (l : list work) : work := mkWork 0 (zsum (map w_reads l)) (zsum (map w_writes l)) (zsum (map w_fpops l)).

(* steps_done of the solution and of each stage *)
Record counters := mkCnt { c_steps : Z; c_stage : list Z }.
(* context.cpp:583-593 *)
Definition add_steps (c : counters) (chunk : Z * Z) : counters :=
  let n := Z.abs (snd chunk - fst chunk) in mkCnt (c_steps c + n) (map (fun s => s + n) (c_stage c)).
(* context.cpp:236-250, 332-344: [wf] = wf_steps; [empty] = ext_bb has no points (263-265) *)
Definition count_run (wf : Z) (empty : bool) (first last : Z) (c : counters) : counters :=
  let step_dir := if first <=? last then 1 else -1 in
  if empty then c else fold_left add_steps (step_chunks first (last + step_dir) (Z.max wf 1 * step_dir)) c.
(* context.cpp:59-66, 207: run_ref *)
Definition count_ref (first last : Z) (c : counters) : counters :=
  let step_dir := if first <=? last then 1 else -1 in
  mkCnt (c_steps c + Z.abs (last + step_dir - first)) (c_stage c).

Record stats := mkStats { s_npts : Z; s_nsteps : Z; s_nreads : Z; s_nwrites : Z; s_nfpops : Z }.
(* soln_apis.cpp:396-431; [tots] = tot_*_per_step of each stage *)
Definition stage_sum (f : work -> Z) (tots : list work) (c : counters) : Z :=
  fold_left (fun a sw => a + f (snd sw) * fst sw) (combine (c_stage c) tots) 0.
Definition get_stats (tot_domain_pts : Z) (tots : list work) (c : counters) : stats :=
  mkStats tot_domain_pts (c_steps c) (stage_sum w_reads tots c) (stage_sum w_writes tots c) (stage_sum w_fpops tots c).
(* soln_apis.cpp:563-581 *)
Definition clear_counters (c : counters) : counters := mkCnt 0 (map (fun _ => 0) (c_stage c)).

(* calls of the API, and the statistics returned *)
Inductive call := CRun (first last : Z) | CRef (first last : Z) | CGet.
Fixpoint do_calls (wf : Z) (empty : bool) (pts : Z) (tots : list work) (c : counters) (l : list call) : list stats :=
  match l with
  | [] => []
  | CRun f t :: r => do_calls wf empty pts tots (count_run wf empty f t c) r
  | CRef f t :: r => do_calls wf empty pts tots (count_ref f t c) r
  | CGet :: r => get_stats pts tots c :: do_calls wf empty pts tots (clear_counters c) r
  end.
