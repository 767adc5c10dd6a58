(* src/kernel/lib/stencil_calc.hpp:444-862, StencilPartBase::calc_nano_block_opt: a nano-block is cut into full vectors and
   masked (partial) vectors, and the loops of the generated calc_vectors(), src/compiler/lib/YaskKernel.cpp:598-691.
   Simplifications: the arithmetic of the stencil is left out; the result is the list of vectors evaluated, each with its
   write mask.  The nano-block and pico-block loops are those of src/kernel/Makefile:536-566 without offload (flattened
   'serpentine' over all dims; real nested loops over all dims but the inner one, then the inner one).  Integers are
   unbounded; -1 stands for the mask with all bits set. *)
From Verif Require Import Base Idiv_Model Loops_Model Scan_Model Combo_Model Tuple_Model.

(* one domain dim: the range given (global indices), the rank offset, the vector length and the pico-block size *)
Record ndim := mkNdim { nd_begin : Z; nd_end : Z; nd_rofs : Z; nd_fold : Z; nd_pico : Z }.

(* 539-678: what is computed for one dim: begin and end of the full vectors, outer boundaries, flags, masks *)
Record vparts := mkVparts { p_fvb : Z; p_fve : Z; p_ovb : Z; p_ove : Z; p_left : bool; p_right : bool; p_full : bool;
                            p_pmask : Z; p_rmask : Z }.

(* 576-626: both masks of dim j, by visiting the points of the fold (indices.hpp:399-428).  The highest bit is
   1 << (points - 1): with 64 points or more that is not a positive idx_t, and the result here is UB. *)
Definition both_masks (fi : bool) (folds : list Z) (j : nat) (ebgn eend ovbgn fvend : Z) : res (Z * Z) :=
  if 63 <? zprod folds then UB
  else
    let mbit := Z.shiftl 1 (zprod folds - 1) in
    Ok (fst (indices_visit_all_points (Z * Z) (fun (m : Z * Z) (pt : list Z) (_ : Z) =>
      let p := Z.shiftr (fst m) 1 in
      let r := Z.shiftr (snd m) 1 in
      ((if ebgn <=? ovbgn + nth j pt 0 then Z.lor p mbit else p,
        if fvend + nth j pt 0 <? eend then Z.lor r mbit else r), true)) fi folds (0, 0))).

(* 539-678 *)
Definition dim_parts (fi : bool) (folds : list Z) (j : nat) (d : ndim) : res vparts :=
  let ebgn := nd_begin d - nd_rofs d in
  let eend := nd_end d - nd_rofs d in
  let vpts := nd_fold d in
  if vpts =? 0 then UB
  else
    let fvbgn := round_up_flr ebgn vpts in
    let fvend := round_down_flr eend vpts in
    let ovbgn := round_down_flr ebgn vpts in
    let ovend := round_up_flr eend vpts in
    let left := ebgn <? fvbgn in
    let right := fvend <? eend in
    rbind (if left || right then both_masks fi folds j ebgn eend ovbgn fvend else Ok (0, 0)) (fun m =>
    if left && right && (ovbgn =? fvend) then (* 631-639 *)
      Ok (mkVparts fvbgn fvend ovbgn ovend true false false (Z.land (fst m) (snd m)) 0)
    else if fvend <=? fvbgn then (* 641-648 *)
      Ok (mkVparts fvend fvend ovbgn ovend left right false (fst m) (snd m))
    else Ok (mkVparts fvbgn fvend ovbgn ovend left right true (fst m) (snd m))).

Fixpoint all_parts (fi : bool) (folds : list Z) (j : nat) (ds : list ndim) : res (list vparts) :=
  match ds with
  | [] => Ok []
  | d :: r => rbind (dim_parts fi folds j d) (fun p => rbind (all_parts fi folds (S j) r) (fun ps => Ok (p :: ps)))
  end.

(* 489-494 and 83-94: the stride of the nano-block loop, in vectors *)
Definition norm_stride (d : ndim) : Z :=
  idiv_flr (l_stride (set_strides_from_inner (nd_fold d) (nd_pico d) (mkLdim (nd_begin d) (nd_end d) 0 0 0 0))) (nd_fold d).

(* loop limits; the generated code is built with -no-align, so align, align_ofs and tile_size are not used *)
Definition plain_dim (b e s : Z) : ldim := mkLdim b e s 1 0 0.

(* YaskKernel.cpp:654-663: the pico-block loops, src/kernel/Makefile:555-566, in a box of the nano-block loop; [inner] =
   position of the inner-loop dim.  The result is the list of the vector indices, in the order of the domain dims. *)
Definition pico_loops (inner : nat) (b : list (Z * Z)) : res (list (list Z)) :=
  let ds := map (fun c => plain_dim (fst c) (snd c) 1) b in
  rbind (run_loops false 1 None
    [(mkFeats false false false false false true, firstn inner ds ++ skipn (S inner) ds);
     (mkFeats false false false false false false, firstn 1 (skipn inner ds))]) (fun bs =>
  Ok (map (fun c => let v := map fst c in let o := removelast v in
                    firstn inner o ++ [last v 0] ++ skipn inner o) bs)).

(* YaskKernel.cpp:598-691 calc_vectors: the vectors of the box [rs] of normalised indices *)
Definition calc_vectors (inner : nat) (strides : list Z) (rs : list (Z * Z)) (mask : Z) : res (list (list Z * Z)) :=
  if mask =? 0 then Ok []
  else
    rbind (run_loops false 1 None
      [(mkFeats true false false false false false,
        map (fun x => plain_dim (fst (fst x)) (snd (fst x)) (snd x)) (combine rs strides))]) (fun boxes =>
    rconcat (map (fun b => rbind (pico_loops inner b) (fun vs => Ok (map (fun v => (v, mask)) vs))) boxes)).

(* combo.hpp:57-60 is_bit_set *)
Definition is_bit_set (c i : Z) : bool := Z.testbit c i.

(* 789-829: range, mask and need of one part; [j] = dim, [nsel] = selected dims so far *)
Fixpoint part_of (cdims lr : Z) (j nsel : Z) (ds : list ndim) (ps : list vparts) : list (Z * Z) * Z * bool :=
  match ds, ps with
  | d :: ds', p :: ps' =>
      let n x := idiv_flr x (nd_fold d) in
      if is_bit_set cdims j then
        let '(rs, m, ok) := part_of cdims lr (j + 1) (nsel + 1) ds' ps' in
        if is_bit_set lr nsel
        then ((n (p_fve p), n (p_ove p)) :: rs, Z.land (p_rmask p) m, p_right p && ok)
        else ((n (p_ovb p), n (p_fvb p)) :: rs, Z.land (p_pmask p) m, p_left p && ok)
      else
        let '(rs, m, ok) := part_of cdims lr (j + 1) nsel ds' ps' in
        ((n (p_fvb p), n (p_fve p)) :: rs, m, ok)
  | _, _ => ([], -1, true)
  end.

(* 734-857: the parts in order.  [fuel] bounds the search loop of n_choose_k_set. *)
Definition border_parts (fuel : nat) (inner : nat) (ds : list ndim) (ps : list vparts) : res (list (list Z * Z)) :=
  let nd := Z.of_nat (length ds) in
  rconcat (map (fun k =>
    rbind (n_choose_k nd k) (fun ncombos =>
    rconcat (map (fun r =>
      rbind (n_choose_k_set fuel nd k r) (fun cdims =>
      rconcat (map (fun lr =>
        let '(rs, m, ok) := part_of cdims lr 0 0 ds ps in
        if ok then calc_vectors inner (map norm_stride ds) rs m else Ok []) (zseq (Z.shiftl 1 k))))) (zseq ncombos))))
    (zrange 1 (nd + 1))).

(* 444-862 *)
Definition calc_nano_block_opt (fuel : nat) (fi : bool) (inner : nat) (ds : list ndim) : res (list (list Z * Z)) :=
  let folds := map nd_fold ds in
  rbind (all_parts fi folds 0 ds) (fun ps =>
  rbind (if forallb p_full ps
         then calc_vectors inner (map norm_stride ds)
                (map (fun x => (idiv_flr (p_fvb (snd x)) (nd_fold (fst x)), idiv_flr (p_fve (snd x)) (nd_fold (fst x)))) (combine ds ps)) (-1)
         else Ok []) (fun full =>
  if existsb (fun p => p_left p || p_right p) ps then
    if zprod folds =? 1 then Throw (* 707-709 *)
    else rbind (border_parts fuel inner ds ps) (fun parts => Ok (full ++ parts))
  else Ok full)).
