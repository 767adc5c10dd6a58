(* src/kernel/lib/indices.hpp:628-828, ScanIndices, one domain dimension: how the loop limits and strides of a level are
   derived from the enclosing level.  [fold] is fold_pts[j], the vector length in the dim. *)
From Verif Require Import Base Idiv_Model Loops_Model.

(* 736-759 create_inner: (start, stop) of the outer loop become begin and end *)
Definition create_inner (fold : Z) (d : ldim) (start stop : Z) : ldim :=
  let w := ROUND_UP (l_end d - l_begin d) fold * 2 in
  mkLdim start stop w (l_align d) (l_aofs d) w.

(* 767-791 adjust_from_settings *)
Definition adjust_from_settings (fold size_this tile_this size_inner : Z) (d : ldim) : ldim :=
  let w := ROUND_UP (l_end d - l_begin d) fold * 2 in
  mkLdim (l_begin d) (l_end d)
    (if size_this <=? size_inner then w else l_stride d) (l_align d) (l_aofs d)
    (if size_this <=? tile_this then w else l_tile d).

(* 794-806 set_strides_from_inner *)
Definition set_strides_from_inner (fold inner_size : Z) (d : ldim) : ldim :=
  let s := ROUND_UP inner_size fold in
  mkLdim (l_begin d) (l_end d) (if l_end d - l_begin d <? s then s * 2 else s) (l_align d) (l_aofs d) (l_tile d).

(* moving the range: the shift/trim code of context.cpp only writes begin and end *)
Definition set_range (b e : Z) (d : ldim) : ldim := mkLdim b e (l_stride d) (l_align d) (l_aofs d) (l_tile d).
