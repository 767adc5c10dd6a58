(* Loop code generated by utils/bin/gen_loops.pl (the generated C++ text, not the perl):
   - 294-336 adjFeatures, 339-424 addIndexVars1, 427-633 addIndexVars2, 636-664 addIndexVars3, 667-757 beginLoop,
   - the values of the enclosing ScanIndices (src/kernel/lib/indices.hpp:628-828) that it reads.
   Simplifications: a generated loop nest is run as the list of its body calls; an OpenMP 'parallel for' runs
   every iteration once, and the list is in iteration order (no theorem about coverage depends on the order).
   Integers are unbounded.  C++ '/' and '%' are Z.quot and Z.rem, undefined for a zero divisor. *)
From Verif Require Import Base Idiv_Model ParFor_Model.

(* One dimension of the ScanIndices: begin, end, stride, align, align_ofs, tile_size (indices.hpp:631-636) *)
Record ldim := mkLdim { l_begin : Z; l_end : Z; l_stride : Z; l_align : Z; l_aofs : Z; l_tile : Z }.

Definition cquot (a b : Z) : res Z := if b =? 0 then UB else Ok (Z.quot a b).
Definition crem (a b : Z) : res Z := if b =? 0 then UB else Ok (Z.rem a b).

Section WithAlign.
  Variable do_align : bool. (* not -no-align *)

  (* 375-397: adj_align, aligned_begin and num_iters; idiv_flr asserts that the divisor is not zero *)
  Definition adj_align (d : ldim) : Z := Z.min (l_align d) (l_stride d).
  Definition aligned_begin (d : ldim) : Z :=
    if do_align then round_down_flr (l_begin d - l_aofs d) (adj_align d) + l_aofs d else l_begin d.
  Definition num_iters (d : ldim) : Z := ceil_idiv_flr (l_end d - aligned_begin d) (l_stride d).
  Definition divisors_ok (d : ldim) : bool :=
    negb (l_stride d =? 0) && (negb do_align || negb (adj_align d =? 0)).

  (* 648-661: start and stop for an index *)
  Definition sub_range (d : ldim) (i : Z) : Z * Z :=
    ((if do_align then Z.max (aligned_begin d + i * l_stride d) (l_begin d) else l_begin d + i * l_stride d),
     Z.min (aligned_begin d + (i + 1) * l_stride d) (l_end d)).

  (* Feature bits, 57-64 (SIMD only adds a pragma). *)
  Record feats := mkFeats { f_serp : bool; f_square : bool; f_tile : bool; f_omp : bool; f_manual : bool; f_nested : bool }.

  (* 294-336; [enc] = there is an enclosing loop dim; None = the generator dies *)
  Definition adj_feats (ndims : nat) (enc : bool) (f : feats) : option feats :=
    let manual := f_manual f && f_omp f in
    let square := f_square f && negb (Nat.ltb ndims 2) in
    let nested := f_nested f && negb (Nat.ltb ndims 2) in
    let serp := f_serp f && (enc || negb (Nat.ltb ndims 2)) in
    let tile := f_tile f && negb (Nat.ltb ndims 2) in
    if f_tile f && (serp || square) then None
    else if (manual || nested) && (serp || square || tile) then None
    else Some (mkFeats serp square tile (f_omp f) manual nested).

  (* 572-588: index of each dim, outer to inner, from the loop index; then 590-609 square wave (which also changes
     the index of the previous dim) and 611-626 serpentine.
     [prev] = index and number of iterations of the previous dim, from the enclosing loop for the outermost one.
     Result: new index of the previous dim, and the indices of these dims. *)
  Fixpoint path_ix (serp square outer : bool) (prev : option (Z * Z)) (ns : list Z) (i : Z) : res (option Z * list Z) :=
    match ns with
    | [] => Ok (option_map fst prev, [])
    | n :: rest =>
        rbind (match rest with [] => Ok i | _ => cquot i (zprod rest) end) (fun q =>
        rbind (if outer then Ok q else crem q n) (fun d0 =>
        let sq := square && negb outer && match rest with [] => true | _ => false end in
        let '(p, d1) :=
          match prev with
          | Some (p, pn) =>
              if sq && (1 <? n) && (Z.quot p 2 <? Z.quot pn 2) then
                let x2 := d0 + n * Z.land p 1 in
                let lsb := Z.lxor (Z.land x2 1) (Z.shiftr (Z.land x2 2) 1) in
                (Some (Z.lor (Z.land p (-2)) lsb), Z.quot x2 2)
              else (Some p, d0)
          | None => (None, d0)
          end in
        let d2 :=
          match p with
          | Some pv => if serp && (if sq then Z.land pv 2 =? 2 else Z.land pv 1 =? 1) then n - d1 - 1 else d1
          | None => d1
          end in
        rbind (path_ix serp square false (Some (d2, n)) rest i) (fun r =>
        Ok (p, (match fst r with Some d3 => d3 | None => d2 end) :: snd r))))
    end.

  (* 400-415: iterations in a full tile and number of full tiles *)
  Definition tile_iters (d : ldim) : Z := Z.min (ceil_idiv_flr (l_tile d) (l_stride d)) (num_iters d).
  Definition full_tiles (n t : Z) : Z := if t =? 0 then 0 else Z.quot n t.

  (* 457-502: per dim (n, t): tile index and iterations in this tile, given the product [pre] of the iterations of the
     outer dims in this tile and the offset so far; result also the offset within the tile *)
  Fixpoint tile_split (pre : Z) (nts : list (Z * Z)) (o : Z) : res (list (Z * Z) * Z) :=
    match nts with
    | [] => Ok ([], o)
    | (n, t) :: rest =>
        let tg := pre * t * zprod (map fst rest) in
        let ti := if tg =? 0 then 0 else Z.quot o tg in
        rbind (crem o tg) (fun o' =>
        let lt := if full_tiles n t <=? ti then n - full_tiles n t * t else t in
        rbind (tile_split (pre * lt) rest o') (fun r => Ok ((ti, lt) :: fst r, snd r)))
    end.
  (* 504-545: offsets within the tile and overall index *)
  Fixpoint tile_index (outer : bool) (l : list (Z * (Z * Z))) (o : Z) : res (list Z) :=
    match l with
    | [] => Ok []
    | (t, (ti, lt)) :: rest =>
        rbind (match rest with [] => Ok o | _ => cquot o (zprod (map (fun x => snd (snd x)) rest)) end) (fun q =>
        rbind (if outer then Ok q else crem q lt) (fun d =>
        rbind (tile_index false rest o) (fun r => Ok (t * ti + d :: r))))
    end.
  Definition tile_ix (nts : list (Z * Z)) (i : Z) : res (list Z) :=
    rbind (tile_split 1 nts i) (fun r => tile_index true (combine (map snd nts) (fst r)) (snd r)).

  (* 690-700: 'for (ix_k = 0; ix_k < n_k; ix_k++)' nested *)
  Fixpoint nest (ns : list Z) : list (list Z) :=
    match ns with
    | [] => [[]]
    | n :: rest => flat_map (fun i => map (cons i) (nest rest)) (zseq n)
    end.

  (* 727-739: 'for (; ix_k < n_k && i < te; ix_k++, ix_{k+1} = 0)', innermost increments i; result: indices and i *)
  Fixpoint manual_nest (ns ds : list Z) (te i : Z) : list (list Z) * Z :=
    match ns, ds with
    | n :: ns', d :: ds' =>
        let step := fun (st : list (list Z) * Z * list Z) ix =>
          let '(out, j, dsin) := st in
          if j <? te then
            let '(o, j') := manual_nest ns' dsin te j in
            (out ++ map (cons ix) o, j', map (fun _ => 0) ns')
          else st in
        let '(out, j, _) := fold_left step (zrange d n) ([], i, ds') in (out, j)
    | _, _ => ([[]], i + 1)
    end.
  (* 703-726: one thread *)
  Definition manual_thread (ns : list Z) (nthreads thread : Z) : res (list (list Z)) :=
    let total := zprod ns in
    let tb := div_equally_cumu_size_n total nthreads (thread - 1) in
    let te := div_equally_cumu_size_n total nthreads thread in
    rbind (path_ix false false true None ns tb) (fun r => Ok (fst (manual_nest ns (snd r) te tb))).

  Definition rconcat {A} (l : list (res (list A))) : res (list A) :=
    fold_right (fun x acc => rbind x (fun a => rbind acc (fun b => Ok (a ++ b)))) (Ok []) l.

  (* beginLoop, 667-757: the index vectors of one loop in order; [enc] = index of the innermost enclosing dim *)
  Definition one_loop (nthreads : Z) (f : feats) (enc : option Z) (ds : list ldim) : res (list (list Z)) :=
    if negb (forallb divisors_ok ds) then UB
    else
      let ns := map num_iters ds in
      if f_nested f then Ok (nest ns)
      else if f_manual f then
        rconcat (map (manual_thread ns nthreads) (zseq nthreads))
      else
        rconcat (map (fun i =>
          rbind (if f_tile f then tile_ix (combine ns (map tile_iters ds)) i
                 else rbind (path_ix (f_serp f) (f_square f) true (option_map (fun e => (e, 0)) enc) ns i) (fun r => Ok (snd r)))
                (fun ix => Ok [ix])) (zseq (zprod ns))).

  (* processCode, 934-1080: nested loop statements, outermost first; the list of body calls, each with the (start, stop)
     of all dims.  A loop without dims runs once (1050-1060). *)
  Fixpoint run_loops (nthreads : Z) (enc : option Z) (prog : list (feats * list ldim)) : res (list (list (Z * Z))) :=
    match prog with
    | [] => Ok [[]]
    | (f, []) :: rest => run_loops nthreads enc rest
    | (f, ds) :: rest =>
        match adj_feats (length ds) (match enc with Some _ => true | None => false end) f with
        | None => Throw (* the generator refuses *)
        | Some f' =>
            rbind (one_loop nthreads f' enc ds) (fun ixs =>
            rconcat (map (fun ix =>
              rbind (run_loops nthreads (Some (last ix 0)) rest) (fun bodies =>
              Ok (map (app (map (fun p => sub_range (fst p) (snd p)) (combine ds ix))) bodies))) ixs))
        end
    end.
End WithAlign.
