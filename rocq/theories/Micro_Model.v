(* A micro-block: src/kernel/lib/context.cpp:1124-1162 (the parts of a stage in StencilContext::calc_micro_block) and
   src/kernel/lib/stencil_calc.cpp:39-289 StencilPartBase::calc_micro_block, down to the vectors of calc_nano_block.
   Simplifications: values are left out; the result is a log of what is initialised and which points each part writes.
   The nano-blocks of the inner threads are listed one after the other.  A part, a var is a number. *)
From Verif Require Import Base Bbox_Model Idiv_Model Loops_Model Scan_Model Bind_Model Nano_Model.

(* one write: a vector with its mask, or one point *)
Inductive wr := WVec (v : list Z) (mask : Z) | WPt (p : list Z).

(* settings and constants used below.  [ms_mf] = modifiers of the micro-block loop *)
Record mset := mkMset { ms_nbt : Z; ms_bind : bool; ms_slab : Z; ms_k : nat; ms_scalar : bool; ms_init : bool;
                        ms_fi : bool; ms_inner : nat; ms_mf : feats; ms_rofs : list Z; ms_folds : list Z; ms_picos : list Z;
                        ms_mbs : list Z; ms_mbt : list Z; ms_nbs : list Z; ms_fuel : nat }.

(* stencil_calc.hpp:489-494: begin and end of the nano-block; the strides come from the pico-block sizes, [norm_stride] *)
Fixpoint nano_dims (rofs folds picos : list Z) (b : list (Z * Z)) : list ndim :=
  match rofs, folds, picos, b with
  | r :: rs, f :: fs, p :: ps, c :: b' => mkNdim (fst c) (snd c) r f p :: nano_dims rs fs ps b'
  | _, _, _, _ => []
  end.

(* stencil_calc.hpp:386-434 calc_nano_block_dbg: the misc loops (src/kernel/Makefile:568-576) with stride and alignment 1;
   the alignment offset is that of the micro-block *)
Definition nano_dbg (aofs : list Z) (b : list (Z * Z)) : res (list wr) :=
  rbind (run_loops true 1 None [(mkFeats false false false true false false,
           map (fun x => mkLdim (fst (fst x)) (snd (fst x)) 1 1 (snd x) 0) (combine b aofs))]) (fun bs =>
  Ok (map (fun c => WPt (map fst c)) bs)).

(* stencil_calc.hpp:369-382 calc_nano_block *)
Definition calc_nano_block (s : mset) (aofs : list Z) (b : list (Z * Z)) : res (list wr) :=
  if ms_scalar s then nano_dbg aofs b
  else rbind (calc_nano_block_opt (ms_fuel s) (ms_fi s) (ms_inner s) (nano_dims (ms_rofs s) (ms_folds s) (ms_picos s) b)) (fun vs =>
       Ok (map (fun v => WVec (fst v) (snd v)) vs)).

Fixpoint set_ranges (b : list (Z * Z)) (ds : list ldim) : list ldim :=
  match b, ds with c :: b', d :: ds' => set_range (fst c) (snd c) d :: set_ranges b' ds' | _, _ => [] end.

(* stencil_calc.cpp:162-272: the nano-blocks of one trimmed box *)
Definition nano_blocks (s : mset) (ds : list ldim) : res (list (list (Z * Z))) :=
  if (1 <? ms_nbt s) && ms_bind s
  then rbind (bound_calls (ms_slab s) (ms_nbt s) (ms_k s) (ms_mf s) (ms_folds s) ds) (fun l => Ok (map snd l))
  else run_loops true (ms_nbt s) None [(ms_mf s, ds)].

(* stencil_calc.cpp:138-272: a part in the range [ds] *)
Definition calc_range (s : mset) (pb : part_bbs) (ds : list ldim) : res (list wr) :=
  rconcat (map (fun bx =>
    rbind (nano_blocks s (set_ranges bx ds)) (fun nbs => rconcat (map (calc_nano_block s (map l_aofs ds)) nbs)))
    (eval_boxes pb (map (fun d => (l_begin d, l_end d)) ds))).

(* stencil_calc.cpp:342-427 adjust_scratch_span.  The code adjusts the strides of all dims once per dim; the last time counts. *)
Fixpoint scratch_span (folds mbs mbt nbs wl wr : list Z) (ds : list ldim) : list ldim :=
  match folds, mbs, mbt, nbs, wl, wr, ds with
  | f :: fs, a :: mbs', t :: mbt', n :: nbs', l :: wl', r :: wr', d :: ds' =>
      adjust_from_settings f a t n (set_range (l_begin d - l) (l_end d + r) d) :: scratch_span fs mbs' mbt' nbs' wl' wr' ds'
  | _, _, _, _, _, _, _ => []
  end.

(* a part: [mp_valid] = is_in_valid_step(t), [mp_sub] and [mp_stepc] = it has a domain or a step condition,
   [mp_outs] = output scratch vars, [mp_wl] and [mp_wr] = max write halos *)
Record mpart := mkMpart { mp_id : Z; mp_scratch : bool; mp_sub : bool; mp_stepc : bool; mp_valid : bool; mp_pb : part_bbs;
                          mp_wl : list Z; mp_wr : list Z; mp_outs : list Z }.

Inductive event := EvInit (v : Z) | EvPart (id : Z) (ws : list wr).

Definition memz (x : Z) (l : list Z) : bool := existsb (Z.eqb x) l.

(* parts done, scratch vars written, log *)
Definition mstate : Type := list Z * list Z * list event.

(* stencil_calc.cpp:93-112 *)
Definition init_vars (rp : mpart) (w : list Z) (log : list event) : list Z * list event :=
  fold_left (fun wl v => if memz v (fst wl) then wl
                         else (v :: fst wl, if mp_sub rp || mp_stepc rp then snd wl ++ [EvInit v] else snd wl))
            (mp_outs rp) (w, log).

Definition part_range (s : mset) (rp : mpart) (ds : list ldim) : list ldim :=
  if mp_scratch rp then scratch_span (ms_folds s) (ms_mbs s) (ms_mbt s) (ms_nbs s) (mp_wl rp) (mp_wr rp) ds else ds.

(* stencil_calc.cpp:80-282: one required part *)
Definition reqd_part (s : mset) (ds : list ldim) (st : mstate) (rp : mpart) : res mstate :=
  let '(done, w, log) := st in
  let wl := if mp_scratch rp && ms_init s then init_vars rp w log else (w, log) in
  if negb (mp_valid rp) then Ok (done, fst wl, snd wl)
  else if memz (mp_id rp) done then Ok (done, fst wl, snd wl)
  else rbind (calc_range s (mp_pb rp) (part_range s rp ds)) (fun ws =>
       Ok (mp_id rp :: done, fst wl, snd wl ++ [EvPart (mp_id rp) ws])).

(* stencil_calc.cpp:39-289 *)
Definition part_micro_block (s : mset) (ds : list ldim) (reqd : mpart -> list mpart) (st : mstate) (sp : mpart) : res mstate :=
  if pb_num (mp_pb sp) =? 0 then Ok st else rfold (reqd_part s ds) (reqd sp) st.

(* context.cpp:1134-1160 *)
Definition stage_micro_block (s : mset) (ds : list ldim) (reqd : mpart -> list mpart) (parts : list mpart) : res mstate :=
  rfold (fun st sp => if negb (mp_valid sp) then Ok st else if pb_num (mp_pb sp) <=? 0 then Ok st
                      else part_micro_block s ds reqd st sp) parts ([], [], []).
