(* Adjustment of tile sizes.  src/kernel/lib/settings.cpp:697-761 find_num_subsets, 766-1014 KernelSettings::adjust_settings.
   Messages are left out. *)
From Verif Require Import Base Idiv_Model.

(* An IdxTuple over the stencil dims: the size in the step dim, and those in the domain dims. *)
Record sizes := mkSizes { z_t : Z; z_d : list Z }.
Definition all_vals (s : sizes) : list Z := z_t s :: z_d s.

(* 707-731, one dim: default, round up, limit.  [mult] = 1 for a dim that 'mults' does not have *)
Definition fit (outer mult size : Z) : Z :=
  let s := if size <=? 0 then outer else size in
  let s := if 1 <? mult then ROUND_UP s mult else s in
  if outer <? s then outer else s.
(* 735-736 *)
Definition num_inner (outer inner : Z) : Z := if inner <=? 0 then 0 else Z.quot (outer + inner - 1) inner.

Fixpoint fit_dims (outer mults ds : list Z) : list Z :=
  match outer, mults, ds with
  | o :: outer', m :: mults', d :: ds' => fit o m d :: fit_dims outer' mults' ds'
  | _, _, _ => []
  end.
Fixpoint count_dims (outer ds : list Z) : Z :=
  match outer, ds with
  | o :: outer', d :: ds' => num_inner o d * count_dims outer' ds'
  | _, _ => 1
  end.
(* 697-761: the new inner sizes and the product of the numbers of subsets *)
Definition find_num_subsets (inner outer : sizes) (mults : list Z) : sizes * Z :=
  let ds := fit_dims (z_d outer) mults (z_d inner) in
  (mkSizes (z_t inner) ds, count_dims (z_d outer) ds).
Definition fitted (inner outer : sizes) (mults : list Z) : sizes := fst (find_num_subsets inner outer mults).

(* What adjust_settings reads but does not change *)
Record aenv := mkAenv {
  a_fold : list Z;            (* fold_pts, one per domain dim *)
  a_inner : nat;              (* number of the inner-loop dim among the domain dims *)
  a_threads : Z;              (* num_inner_threads *)
  a_bind : bool;              (* bind_inner_threads *)
  a_def : Z;                  (* def_blk_size *)
  a_offload : bool;           (* USE_OFFLOAD *)
  a_tiling : bool }.          (* USE_TILING *)

(* The sizes; k_posn = _bind_posn, a position among the stencil dims *)
Record kset := mkKset {
  k_rank : sizes; k_mega : sizes; k_block : sizes; k_micro : sizes; k_nano : sizes; k_pico : sizes;
  k_rktile : sizes; k_mgtile : sizes; k_bktile : sizes; k_mctile : sizes; k_nntile : sizes;
  k_posn : Z }.

(* 792-801: 'if (!size) size = def_blk_size' *)
Definition or_default (def : Z) (s : sizes) : sizes := mkSizes (z_t s) (map (fun x => if x =? 0 then def else x) (z_d s)).

(* 863-879, 935-949: first domain dim other than the inner one for which [ok] holds; [j] = number of the first dim in the list.
   [ok] may divide by zero *)
Fixpoint first_dim (inner j : nat) (ok : nat -> res bool) (n : nat) : res (option nat) :=
  match n with
  | O => Ok None
  | S n' =>
      if Nat.eqb j inner then first_dim inner (S j) ok n'
      else rbind (ok j) (fun b => if b then Ok (Some j) else first_dim inner (S j) ok n')
  end.
Fixpoint set_nth (k : nat) (v : Z) (l : list Z) : list Z :=
  match l, k with
  | [], _ => []
  | _ :: r, O => v :: r
  | x :: r, S k' => x :: set_nth k' v r
  end.

(* 853-896: nano-blocks become slabs when there are several inner threads and no nano-block size is set.
   At 885, '_block_sizes[_bind_posn - 1]' indexes a tuple that starts with the step dim. *)
Definition nano_default (e : aenv) (block nano : sizes) (posn : Z) : res (sizes * Z) :=
  if (1 <? a_threads e) && (zsum (all_vals nano) =? 0) then
    rbind (first_dim (a_inner e) 0 (fun j => Ok (a_threads e <=? Z.quot (nth j (z_d block) 0) (nth j (a_fold e) 1))) (length (z_d block))) (fun o =>
    let posn := match o with Some j => Z.of_nat (S j) | None => 1 end in
    let k := Z.to_nat (posn - 1) in
    let bsz := nth k (all_vals block) 0 in
    let vb := nth k (a_fold e) 1 in
    let v := if (2 <=? length (z_d block))%nat then vb else ROUND_UP (Z.quot bsz (a_threads e)) vb in
    Ok (mkSizes (z_t nano) (set_nth k v (z_d nano)), posn))
  else Ok (nano, posn).

(* 933-949 *)
Definition rebind (e : aenv) (block nano : sizes) (posn : Z) : res Z :=
  if a_bind e && (1 <? a_threads e) then
    rbind (first_dim (a_inner e) 0 (fun j =>
             let sb := nth j (z_d nano) 0 in
             if sb =? 0 then UB else Ok (a_threads e <=? CEIL_DIV (nth j (z_d block) 0) sb)) (length (z_d block))) (fun o =>
    Ok (match o with Some j => Z.of_nat (S j) | None => posn end))
  else Ok posn.

(* 766-1014 *)
Definition adjust_settings (e : aenv) (k : kset) : res kset :=
  let rt := Z.max (z_t (k_mega k)) 0 in
  let bt := Z.max (z_t (k_block k)) 0 in
  let mbt := Z.max (z_t (k_micro k)) 0 in
  let rt := if rt =? 0 then bt else rt in
  let mbt := if mbt =? 0 then bt else mbt in
  let pico := if a_offload e then or_default (a_def e) (k_pico k) else k_pico k in
  let block := if a_offload e then k_block k else or_default (a_def e) (k_block k) in
  let mega := fitted (mkSizes rt (z_d (k_mega k))) (k_rank k) (a_fold e) in
  let block := fitted (mkSizes bt (z_d block)) mega (a_fold e) in
  let micro := fitted (mkSizes mbt (z_d (k_micro k))) block (a_fold e) in
  rbind (nano_default e block (k_nano k) (k_posn k)) (fun np =>
  let nano := fitted (fst np) micro (a_fold e) in
  let pico := fitted pico nano (a_fold e) in
  rbind (rebind e block nano (snd np)) (fun posn =>
  Ok (if a_tiling e then
        mkKset (k_rank k) mega block micro nano pico
          (fitted (k_rktile k) (k_rank k) (z_d mega)) (fitted (k_mgtile k) mega (z_d block)) (fitted (k_bktile k) block (z_d micro))
          (fitted (k_mctile k) micro (z_d nano)) (fitted (k_nntile k) nano (z_d pico)) posn
      else
        mkKset (k_rank k) mega block micro nano pico (k_rktile k) (k_mgtile k) (k_bktile k) (k_mctile k) (k_nntile k) posn))).
