(* src/common/tuple.hpp, src/common/tuple.cpp: Tuple<T> for integer T,
   and the same algorithms on Indices in src/kernel/lib/indices.hpp.
   A tuple is a list of (dimension name, value) pairs plus the _first_inner flag.
   Simplifications: T and size_t are unbounded integers; name look-up by
   pooled pointer (tuple.hpp:251-256) is the same as look-up by string. *)
From Coq Require Import String.
From Verif Require Import Base Idiv_Model ParFor_Model.

Record tuple := mkTuple { dims : list (string * Z); first_inner : bool }.

Definition vals (t : tuple) : list Z := map snd (dims t).
Definition names (t : tuple) : list string := map fst (dims t).

(* tuple.hpp:487-490: product() is 1 if there are no dims, else the product (reduce). *)
Definition product (t : tuple) : Z :=
  match vals t with
  | [] => 1
  | v :: r => fold_left Z.mul r v
  end.

(* tuple.hpp:264-279: first position with that name. *)
Fixpoint lookup_list (l : list (string * Z)) (d : string) : option Z :=
  match l with
  | [] => None
  | (n, v) :: r => if String.eqb n d then Some v else lookup_list r d
  end.
Definition lookup (t : tuple) (d : string) : option Z := lookup_list (dims t) d.

(* *lookup(d) = v on an existing entry. *)
Fixpoint update_list (l : list (string * Z)) (d : string) (v : Z) : list (string * Z) :=
  match l with
  | [] => []
  | (n, x) :: r => if String.eqb n d then (n, v) :: r else (n, x) :: update_list r d v
  end.

(* tuple.cpp:77-85 *)
Definition add_dim_back (t : tuple) (d : string) (v : Z) : tuple :=
  match lookup t d with
  | Some _ => mkTuple (update_list (dims t) d v) (first_inner t)
  | None => mkTuple (dims t ++ [(d, v)]) (first_inner t)
  end.

(* tuple.cpp:100-111 *)
Definition set_vals (t src : tuple) (add_missing : bool) : tuple :=
  fold_left (fun acc i =>
    match lookup acc (fst i) with
    | Some _ => mkTuple (update_list (dims acc) (fst i) (snd i)) (first_inner acc)
    | None => if add_missing then add_dim_back acc (fst i) (snd i) else acc
    end) (dims src) t.

(* tuple.cpp:113-124 *)
Definition make_union_with (t rhs : tuple) : tuple :=
  fold_left (fun acc i =>
    match lookup acc (fst i) with
    | Some _ => acc
    | None => add_dim_back acc (fst i) (snd i)
    end) (dims rhs) t.

(* tuple.cpp:269-280: the new tuple is default-constructed, so first_inner = true. *)
Definition remove_dim (t : tuple) (posn : Z) : tuple :=
  fold_left (fun acc i =>
     if fst i =? posn then acc else add_dim_back acc (fst (snd i)) (snd (snd i)))
    (combine (zseq (Z.of_nat (length (dims t)))) (dims t)) (mkTuple [] true).

(* Order in which the loops of layout/unlayout/next_index walk the dims:
   tuple.cpp:205-208, 246-249; tuple.hpp:628-630; indices.hpp:301-303. *)
Definition inner_first {A} (fi : bool) (l : list A) : list A := if fi then l else rev l.

(* tuple.cpp:198-237 with strict_rhs = true (offsets in same order); loop over
   dims with the accumulators idx and prev_size. *)
Fixpoint layout_loop (sizes offs : list Z) (idx prev_size : Z) : Z :=
  match sizes, offs with
  | s :: sizes', o :: offs' => layout_loop sizes' offs' (idx + o * prev_size) (prev_size * s)
  | _, _ => idx
  end.
Definition layout_vals (fi : bool) (sizes offs : list Z) : Z :=
  layout_loop (inner_first fi sizes) (inner_first fi offs) 0 1.
Definition layout (t : tuple) (offs : tuple) : Z :=
  layout_vals (first_inner t) (vals t) (vals offs).

(* tuple.cpp:198-237 with strict_rhs = false: offsets looked up by name, missing => 0. *)
Definition layout_nonstrict (t : tuple) (offs : tuple) : Z :=
  layout_vals (first_inner t) (vals t)
    (map (fun d => match lookup offs d with Some o => o | None => 0 end) (names t)).

(* tuple.cpp:240-267, indices.hpp:297-320.  'dofs %= dsize' with dsize = 0 is UB. *)
Fixpoint unlayout_loop (sizes : list Z) (offset prev_size : Z) : res (list Z) :=
  match sizes with
  | [] => Ok []
  | s :: sizes' =>
      if (s =? 0) || (prev_size =? 0) then UB
      else rbind (unlayout_loop sizes' offset (prev_size * s))
                 (fun r => Ok (Z.rem (Z.quot offset prev_size) s :: r))
  end.
Definition unlayout_vals (fi : bool) (sizes : list Z) (offset : Z) : res (list Z) :=
  rbind (unlayout_loop (inner_first fi sizes) offset 1) (fun r => Ok (inner_first fi r)).

(* tuple.hpp:626-651, indices.hpp:329-353 (dims taken inner-most first).
   [next_wrap]: the loop that zeroes a dim that is too far and increments the next one. *)
Fixpoint next_wrap (sizes idxs : list Z) : list Z :=
  match sizes, idxs with
  | s :: sizes', i :: idxs' =>
      if s <=? i then
        0 :: match idxs' with
             | [] => []
             | i2 :: r => next_wrap sizes' ((i2 + 1) :: r)
             end
      else idxs
  | _, _ => idxs
  end.
Definition next_index (fi : bool) (sizes idxs : list Z) : list Z :=
  match inner_first fi sizes, inner_first fi idxs with
  | s :: _, i :: r =>
      if s <=? i + 1 then inner_first fi (next_wrap (inner_first fi sizes) ((i + 1) :: r))
      else inner_first fi ((i + 1) :: r)
  | _, _ => idxs
  end.

(* for (i = start; i < stop; i++) { ok = visitor(tp, i); if (!ok) return false; next_index(tp); }
   tuple.hpp:679-690, indices.hpp:415-426.
   The visitor is a state transformer returning 'true' to continue. *)
Section Visit.
  Variable St : Type.
  Variable visitor : St -> list Z -> Z -> St * bool.

  Fixpoint visit_loop (fi : bool) (sizes : list Z) (n : nat) (i : Z) (tp : list Z) (st : St)
    : St * bool :=
    match n with
    | O => (st, true)
    | S n' =>
        let (st', ok) := visitor st tp i in
        if ok then visit_loop fi sizes n' (i + 1) (next_index fi sizes tp) st'
        else (st', false)
    end.

  (* tuple.hpp:664-691: 'if (ne <= 1)' visits one point. *)
  Definition tuple_visit_all_points (t : tuple) (st : St) : St * bool :=
    let ne := product t in
    let tp := map (fun _ => 0) (vals t) in
    if ne <=? 1 then visitor st tp 0
    else visit_loop (first_inner t) (vals t) (Z.to_nat ne) 0 tp st.

  (* indices.hpp:399-427: 'if (ne < 1) return true'. *)
  Definition indices_visit_all_points (fi : bool) (sizes : list Z) (st : St) : St * bool :=
    let ne := zprod sizes in
    let tp := map (fun _ => 0) sizes in
    if ne <? 1 then (st, true)
    else if ne =? 1 then visitor st tp 0
    else visit_loop fi sizes (Z.to_nat ne) 0 tp st.
End Visit.

(* The visitor that records its arguments. *)
Definition recorder (st : list (list Z * Z)) (tp : list Z) (i : Z) : list (list Z * Z) * bool :=
  (st ++ [(tp, i)], true).

(* The visits made by one worker that visits [start, stop):
   tuple.hpp:722-741, indices.hpp:457-477. *)
Definition visit_share (fi : bool) (sizes : list Z) (start stop : Z) : res (list (list Z * Z)) :=
  if stop <=? start then Ok []
  else rbind (unlayout_vals fi sizes start) (fun tp =>
       Ok (fst (visit_loop _ recorder fi sizes (Z.to_nat (stop - start)) start tp []))).

(* common_utils.hpp:176-191 *)
Definition yask_get_num_threads (c : omp_cfg) : Z :=
  if (1 <? max_active_levels c) && (0 <? ynt0 c) && (1 <? ynt1 c) then ynt0 c * ynt1 c
  else if 0 <? ynt0 c then ynt0 c
  else omp_num_threads c.

(* indices.hpp:432-484 (tuple.hpp:698-750 differs only in the ne <= 1 case).
   The list collects the visits of all workers. *)
Definition indices_visit_in_parallel (c : omp_cfg) (fi : bool) (sizes : list Z)
  : res (list (list Z * Z)) :=
  let ne := zprod sizes in
  let tp := map (fun _ => 0) sizes in
  if ne <? 1 then Ok []
  else if ne =? 1 then Ok [(tp, 0)]
  else if negb (has_openmp c) then
    Ok (fst (indices_visit_all_points _ recorder fi sizes []))
  else
    let nthr := yask_get_num_threads c in
    rbind (yask_parallel_for c 0 nthr 1) (fun calls =>
    rconcat (map (fun call =>
       let n := fst call in
       visit_share fi sizes (div_equally_cumu_size_n ne nthr (n - 1))
                   (div_equally_cumu_size_n ne nthr n)) calls)).

Definition tuple_visit_in_parallel (c : omp_cfg) (t : tuple) : res (list (list Z * Z)) :=
  if product t <=? 1 then Ok [(map (fun _ => 0) (vals t), 0)]
  else indices_visit_in_parallel c (first_inner t) (vals t).

(* ---- comparison ---- *)

(* tuple.cpp:126-150 *)
Definition are_dims_same (a b : tuple) (same_order : bool) : bool :=
  if negb (Nat.eqb (List.length (dims a)) (List.length (dims b))) then false
  else if same_order then
    forallb (fun p => String.eqb (fst p) (snd p)) (combine (names a) (names b))
  else forallb (fun d => match lookup b d with Some _ => true | None => false end) (names a).

(* tuple.cpp:153-166 *)
Definition tuple_eq (a b : tuple) : bool :=
  are_dims_same a b true &&
  forallb (fun p => fst p =? snd p) (combine (vals a) (vals b)).

(* tuple.cpp:176-183 and 186-193: first difference decides, [None] = no difference. *)
Fixpoint first_diff_vals (a b : list Z) : option bool :=
  match a, b with
  | x :: a', y :: b' => if x <? y then Some true else if y <? x then Some false else first_diff_vals a' b'
  | _, _ => None
  end.
Fixpoint first_diff_names (a b : list string) : option bool :=
  match a, b with
  | x :: a', y :: b' =>
      match String.compare x y with
      | Lt => Some true
      | Gt => Some false
      | Eq => first_diff_names a' b'
      end
  | _, _ => None
  end.

(* tuple.cpp:170-195 *)
Definition tuple_lt (a b : tuple) : bool :=
  let na := List.length (dims a) in
  let nb := List.length (dims b) in
  if Nat.ltb na nb then true
  else if Nat.ltb nb na then false
  else match first_diff_vals (vals a) (vals b) with
       | Some r => r
       | None => match first_diff_names (names a) (names b) with
                 | Some r => r
                 | None => false
                 end
       end.

(* tuple.hpp derived comparisons *)
Definition tuple_le (a b : tuple) : bool := tuple_eq a b || tuple_lt a b.
Definition tuple_gt (a b : tuple) : bool := negb (tuple_le a b).
Definition tuple_ge (a b : tuple) : bool := negb (tuple_lt a b).
