(* src/kernel/lib/setup.cpp:169-520 StencilContext::setup_rank (with USE_MPI): sizes and offsets of the rank domains and the
   table of neighbors.  The function runs on all ranks; the broadcasts of 288-293 give every rank the same tables, so the model
   runs pass 0 on all ranks and then pass 1 on all ranks.  An exception on any rank is Throw for the whole job.
   int and idx_t are unbounded.  Tuples over the domain dims are lists. *)
From Verif Require Import Base Idiv_Model Tuple_Model.

Definition rmapM {A B} (f : A -> res B) : list A -> res (list B) :=
  fix go l := match l with [] => Ok [] | a :: r => rbind (f a) (fun b => rbind (go r) (fun bs => Ok (b :: bs))) end.
Definition guard (b : bool) : res unit := if b then Ok tt else Throw.
Definition pos (j : nat) (l : list Z) : Z := nth j l 0.

(* settings that are the same on all ranks (177-198): number of domain dims, _global_sizes, _num_ranks (after
   get_compact_factors, 236: Factors_Model), _fold_pts, find_loc, and the order used by unlayout() *)
Record job := mkJob { j_nd : nat; j_gsz : list Z; j_nranks : list Z; j_fold : list Z; j_find : bool; j_fi : bool }.
(* settings of one rank: _rank_indices, _rank_sizes (0: not given) *)
Record rank_in := mkRk { k_coords : list Z; k_sizes : list Z }.
(* results: _rank_sizes, _global_sizes, rank_domain_offsets *)
Record rank_out := mkRo { o_coords : list Z; o_sizes : list Z; o_gsz : list Z; o_ofs : list Z }.

Section Setup.
  Variable J : job.
  Let nd := j_nd J.
  Let dimsl := seq 0 nd.

  (* 248-249 *)
  Definition rank_coords (me : Z) (r : rank_in) : res rank_in :=
    if j_find J then rbind (unlayout_vals (j_fi J) (j_nranks J) me) (fun c => Ok (mkRk c (k_sizes r))) else Ok r.
  (* 190-196 and 252-263 *)
  Definition sizes_given (r : rank_in) : bool := forallb (fun j => negb ((pos j (j_gsz J) =? 0) && (pos j (k_sizes r) =? 0))) dimsl.
  Definition coords_ok (r : rank_in) : bool := forallb (fun j => (0 <=? pos j (k_coords r)) && (pos j (k_coords r) <? pos j (j_nranks J))) dimsl.

  (* 301-317 *)
  Definition rdeltas (me rn : rank_in) : list Z := map (fun j => pos j (k_coords rn) - pos j (k_coords me)) dimsl.
  Definition mandist (d : list Z) : Z := zsum (map Z.abs d).
  Definition maxdist (d : list Z) : Z := fold_left (fun m x => Z.max m (Z.abs x)) d 0.
  (* 342-349 *)
  Definition is_inline (me rn : rank_in) (di : nat) : bool :=
    forallb (fun dj => (dj =? di)%nat || (pos dj (rdeltas me rn) =? 0)) dimsl.
  (* 320-334: [i] and [me_i] are the rank numbers *)
  Definition place_ok (me_i : Z) (me : rank_in) (i : Z) (rn : rank_in) : bool :=
    if i =? me_i then mandist (rdeltas me rn) =? 0 else negb (mandist (rdeltas me rn) =? 0).
  (* 275-277, 352-355 *)
  Definition domain_sum (ranks : list rank_in) (me : rank_in) (di : nat) : Z :=
    zsum (map (fun rn => pos di (k_sizes rn)) (filter (fun rn => is_inline me rn di) ranks)).

  (* 453-497: sizes of one dim after pass 0: (rank size, global size) *)
  Definition pass0_dim (sum : Z) (me : rank_in) (j : nat) : res (Z * Z) :=
    let gsz := pos j (j_gsz J) in
    let nranks := pos j (j_nranks J) in
    if pos j (k_sizes me) =? 0 then
      if negb (sum =? 0) then Throw
      else
        let rsz := CEIL_DIV gsz nranks in
        let rsz := ROUND_UP rsz (pos j (j_fold J)) in
        let rem := gsz - rsz * (nranks - 1) in
        if rem <=? 0 then Throw
        else Ok (if pos j (k_coords me) =? nranks - 1 then rem else rsz, gsz)
    else Ok (pos j (k_sizes me), if gsz =? 0 then sum else gsz).
  Definition pass0 (ranks : list rank_in) (me_i : Z) (me : rank_in) : res (rank_in * list Z) :=
    rbind (guard (forallb (fun e : Z * rank_in => place_ok me_i me (fst e) (snd e)) (combine (zseq (Z.of_nat (length ranks))) ranks))) (fun _ =>
    rbind (rmapM (fun j => pass0_dim (domain_sum ranks me j) me j) dimsl) (fun l =>
    Ok (mkRk (k_coords me) (map fst l), map snd l))).

  (* 357-377 *)
  Definition aligned_with (me rn : rank_in) : bool :=
    forallb (fun di => negb (is_inline me rn di) ||
      forallb (fun dj => (dj =? di)%nat || (pos dj (k_sizes me) =? pos dj (k_sizes rn))) dimsl) dimsl.
  (* 379-382 *)
  Definition offset_dim (ranks : list rank_in) (me : rank_in) (di : nat) : Z :=
    zsum (map (fun rn => pos di (k_sizes rn)) (filter (fun rn => is_inline me rn di && (pos di (rdeltas me rn) <? 0)) ranks)).
  (* pass 1; 499-512 *)
  Definition pass1 (ranks : list rank_in) (me : rank_in) (gsz : list Z) : res rank_out :=
    rbind (guard (forallb (aligned_with me) ranks)) (fun _ =>
    rbind (guard (forallb (fun j => pos j gsz =? domain_sum ranks me j) dimsl)) (fun _ =>
    Ok (mkRo (k_coords me) (k_sizes me) gsz (map (offset_dim ranks me) dimsl)))).

  Definition setup_ranks (ranks : list rank_in) : res (list rank_out) :=
    let nr := Z.of_nat (length ranks) in
    rbind (guard (forallb sizes_given ranks)) (fun _ =>
    rbind (guard (zprod (j_nranks J) =? nr)) (fun _ =>      (* 240-244 *)
    rbind (rmapM (fun e : Z * rank_in => rank_coords (fst e) (snd e)) (combine (zseq nr) ranks)) (fun ranks =>
    rbind (guard (forallb coords_ok ranks)) (fun _ =>
    rbind (rmapM (fun e : Z * rank_in => pass0 ranks (fst e) (snd e)) (combine (zseq nr) ranks)) (fun l =>
    rmapM (fun e : rank_in * list Z => pass1 (map fst l) (fst e) (snd e)) l))))).
End Setup.

(* yk_var_apis.cpp get_first_rank_domain_index etc.: the domain of a rank *)
Definition rank_box (o : rank_out) : list (Z * Z) := map (fun p : Z * Z => (fst p, fst p + snd p)) (combine (o_ofs o) (o_sizes o)).
