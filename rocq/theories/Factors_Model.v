(* src/common/tuple.cpp:353-443: Tuple<T>::get_compact_factors (T unbounded).
   [ds] below are the values of *this. *)
From Coq Require Import String.
From Verif Require Import Base Tuple_Model.

(* max(), tuple.hpp (reduce with std::max): only used on tuples with at least one dim *)
Definition tmax (l : list Z) : Z := match l with [] => 0 | x :: r => fold_left Z.max r x end.

(* lines 374-378: factors of N, ascending *)
Definition factors (N : Z) : list Z := filter (fun n => Z.rem N n =? 0) (zrange 1 (N + 1)).

(* lines 388-402: number of options per dim; [first]: j == 0 *)
Fixpoint combo_sizes (keep first : bool) (nf : Z) (ds : list Z) : list Z :=
  match ds with
  | [] => []
  | d :: r => (if first || (keep && (0 <? d)) then 1 else nf) :: combo_sizes keep false nf r
  end.

(* lines 406-418: candidate before computing the first factor; -1 => needs to be calculated *)
Fixpoint candidate (keep first : bool) (facts ds combo : list Z) : list Z :=
  match ds, combo with
  | d :: r, c :: cr =>
      (if keep && (0 <? d) then d else if first then -1 else znth c facts) :: candidate keep false facts r cr
  | _, _ => []
  end.

(* lines 420-424 *)
Definition complete (N : Z) (can : list Z) : list Z :=
  match can with
  | a :: r => (if a =? -1 then Z.quot N (zprod (1 :: r)) else a) :: r
  | [] => []
  end.

(* lines 403-437: the visitor; best is empty at first *)
Definition factor_visitor (keep : bool) (N : Z) (facts ds : list Z) (best : list Z) (combo : list Z) (_ : Z) : list Z * bool :=
  let can := complete N (candidate keep true facts ds combo) in
  ((if zprod can =? N then
      if (Nat.eqb (List.length best) 0) || (tmax can <? tmax best) then can else best
    else best), true).

(* one iteration of "for (bool keep : { true, false })" *)
Definition try_factors (keep : bool) (N : Z) (t : tuple) (best : list Z) : list Z :=
  let facts := factors N in
  let combos := mkTuple (combine (names t) (combo_sizes keep true (Z.of_nat (List.length facts)) (vals t))) true in
  fst (tuple_visit_all_points _ (factor_visitor keep N facts (vals t)) combos best).

(* product() of an empty tuple is 1 (tuple.hpp:487) *)
Definition get_compact_factors (N : Z) (t : tuple) : tuple :=
  let ret vs := mkTuple (combine (names t) vs) true in
  match vals t with
  | [] => mkTuple [] true
  | _ =>
      if N =? 0 then mkTuple (map (fun d => (fst d, 0)) (dims t)) (first_inner t)
      else if product t =? N then t
      else
        let b1 := try_factors true N t [] in
        if zprod b1 =? N then ret b1
        else ret (try_factors false N t b1)
  end.
