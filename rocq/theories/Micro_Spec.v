(* What the writes of a micro-block cover, and what must have been evaluated. *)
From Verif Require Import Base ParFor_Model Cover_Spec Bbox_Spec Nano_Spec Loops_Model Bbox_Model Micro_Model.

(* point [p] is written by [w] *)
Definition wr_hits (fi : bool) (rofs folds : list Z) (w : wr) (p : list Z) : bool :=
  match w with WVec v m => writes fi rofs folds (v, m) p | WPt q => list_eqb q p end.


(* settings of [n] domain dims that the kernel accepts: sizes at least 1, at most 8 dims and 63 points per vector, loop modifiers
   that gen_loops.pl accepts and not 'manual' *)
Definition mset_ok (s : mset) (n : nat) : Prop :=
  (1 <= n <= 8)%nat /\ 1 <= ms_nbt s /\ 1 <= ms_slab s /\ (ms_inner s < n)%nat /\ (n <= ms_fuel s)%nat /\
  length (ms_rofs s) = n /\ length (ms_folds s) = n /\ length (ms_picos s) = n /\
  Forall (fun x => 1 <= x) (ms_folds s) /\ Forall (fun x => 1 <= x) (ms_picos s) /\ zprod (ms_folds s) <= 63 /\
  f_manual (ms_mf s) = false /\ f_tile (ms_mf s) = false /\ adj_feats n false (ms_mf s) <> None.

(* loop limits: strides and alignments at least 1 *)
Definition dims_ok (n : nat) (ds : list ldim) : Prop :=
  length ds = n /\ Forall (fun d => 1 <= l_stride d /\ 1 <= l_align d) ds.

(* the ids of the parts in a log, in order *)
Definition part_ids (log : list event) : list Z := flat_map (fun e => match e with EvPart id _ => [id] | EvInit _ => [] end) log.

(* the box in which a part is evaluated: the micro-block, for a scratch part extended by the write halos *)
Fixpoint extend (wl wr : list Z) (b : list (Z * Z)) : list (Z * Z) :=
  match wl, wr, b with l :: wl', r :: wr', c :: b' => (fst c - l, snd c + r) :: extend wl' wr' b' | _, _, _ => [] end.
Definition span (q : mpart) (mb : list (Z * Z)) : list (Z * Z) := if mp_scratch q then extend (mp_wl q) (mp_wr q) mb else mb.

(* [sp] is evaluated in this step, and [q] is one of the parts it requires *)
Definition active (sp : mpart) : Prop := mp_valid sp = true /\ 0 < pb_num (mp_pb sp).

(* the parts of a stage and the parts they require: bounding boxes as found by find_bounding_box for the domain condition [reg q],
   write halos not negative, a part without step condition is valid in every step, a part is known by its id *)
Definition required (reqd : mpart -> list mpart) (parts : list mpart) (q : mpart) : Prop := exists sp, In sp parts /\ In q (reqd sp).
Definition parts_ok (n : nat) (reqd : mpart -> list mpart) (parts : list mpart) (reg : mpart -> list Z -> bool) : Prop :=
  (forall q, required reqd parts q ->
    (mp_scratch q = true -> length (mp_wl q) = n /\ length (mp_wr q) = n /\ Forall (fun x => 0 <= x) (mp_wl q) /\ Forall (fun x => 0 <= x) (mp_wr q)) /\
    (mp_stepc q = false -> mp_valid q = true) /\
    exists c cond dom, 1 <= omp_num_threads c /\ length dom = n /\ Forall (fun d => fst d <= snd d) dom /\
      part_find_bbs c cond dom = Ok (mp_pb q) /\ forall p, reg q p = region dom cond p) /\
  (forall q q', required reqd parts q -> required reqd parts q' -> mp_id q = mp_id q' -> q = q').

(* an unconditional scratch part that writes [v] *)
Definition fills (reqd : mpart -> list mpart) (parts : list mpart) (v : Z) (r : mpart) : Prop :=
  required reqd parts r /\ mp_scratch r = true /\ mp_sub r = false /\ mp_stepc r = false /\ In v (mp_outs r).
