(* The reference run: src/kernel/lib/context.cpp:46-217 StencilContext::run_ref, and the parts that a part requires:
   src/compiler/lib/YaskKernel.cpp:1035-1056 with src/kernel/lib/stencil_calc.hpp:138-144.
   Simplifications: as in Micro_Model the result is a log of what is initialised and which points each part writes; one rank, so
   the halo exchanges (context.cpp:113, 148, 207) and the flags they need (197-201) are left out; timers, counters and the
   sizes of the storage of scratch vars (81-92) are left out. *)
From Verif Require Import Base Cover_Spec Bbox_Model Loops_Model Nano_Model Micro_Model.

(* YaskKernel.cpp:1035-1056: the scratch stages in order; of each stage, in the order of the parts, those that the part depends
   on; stencil_calc.hpp:140-144 get_reqd_parts: the part itself is last *)
Definition reqd_parts (sstages : list (list mpart)) (dep : mpart -> mpart -> bool) (sp : mpart) : list mpart :=
  flat_map (filter (dep sp)) sstages ++ [sp].

(* stencil_calc.hpp:341-363 calc_in_domain: the misc loops with stride 1; a point is evaluated if is_in_valid_domain [cond] *)
Definition calc_in_domain (cond : list Z -> bool) (aofs : list Z) (b : list (Z * Z)) : res (list wr) :=
  rbind (nano_dbg aofs b) (fun ws => Ok (filter (fun w => match w with WPt p => cond p | WVec _ _ => false end) ws)).

(* stencil_calc.cpp:357-382 adjust_scratch_span: begin and end; the strides that it sets are overwritten in context.cpp:188 *)
Fixpoint scratch_box (wl wr : list Z) (b : list (Z * Z)) : list (Z * Z) :=
  match wl, wr, b with
  | l :: wl', r :: wr', c :: b' => (fst c - l, snd c + r) :: scratch_box wl' wr' b'
  | _, _, _ => []
  end.

(* context.cpp:161-170: scratch vars not seen before are set to zero.  Vars written, log *)
Definition ref_inits (outs : list Z) (st : list Z * list event) : list Z * list event :=
  fold_left (fun wl v => if memz v (fst wl) then wl else (v :: fst wl, snd wl ++ [EvInit v])) outs st.

(* context.cpp:159-195: one required part.  [aofs] = alignment offsets, [rank] = the box of the rank *)
Definition ref_part (cond : mpart -> list Z -> bool) (aofs : list Z) (rank : list (Z * Z)) (st : list Z * list event) (p : mpart)
  : res (list Z * list event) :=
  let st1 := ref_inits (mp_outs p) st in
  if negb (mp_valid p) then Ok st1
  else rbind (calc_in_domain (cond p) aofs (if mp_scratch p then scratch_box (mp_wl p) (mp_wr p) rank else rank)) (fun ws =>
       Ok (fst st1, snd st1 ++ [EvPart (mp_id p) ws])).

(* context.cpp:133-203: the parts of one step *)
Definition ref_step (cond : mpart -> list Z -> bool) (aofs : list Z) (rank : list (Z * Z)) (reqd : mpart -> list mpart) (parts : list mpart)
  : res (list event) :=
  rfold (fun log ap => if negb (mp_valid ap) then Ok log
                       else rbind (rfold (ref_part cond aofs rank) (reqd ap) ([], log)) (fun st => Ok (snd st))) parts [].

(* context.cpp:59-66, 117-131: the steps *)
Definition ref_steps (first last : Z) : list Z :=
  let dir := if first <=? last then 1 else -1 in
  map (fun i => first + i * dir) (zseq (Z.abs (last + dir - first))).

(* context.cpp:118-205: [st_parts t] = the parts at step t (whether a part is valid depends on the step) *)
Definition run_ref (cond : mpart -> list Z -> bool) (aofs : list Z) (rank : list (Z * Z)) (reqd : Z -> mpart -> list mpart)
  (st_parts : Z -> list mpart) (first last : Z) : res (list (Z * list event)) :=
  rfold (fun acc t => rbind (ref_step cond aofs rank (reqd t) (st_parts t)) (fun log => Ok (acc ++ [(t, log)]))) (ref_steps first last) [].
