(* C40: each lane of a vector that is read holds the element at point + offset + lane position. *)
From Coq Require Import String.
From Verif Require Import Base Tuple_Model Vec_Model Vec_Spec Vec_Proofs.

(* Any fold, any offsets, all three code printers, both forms of the vector shift; whatever
   aligned vectors are known ([ps] are the reads of the equation, [avs] any list in any order),
   whatever control vectors were printed before ([defd]) and whatever the new vector variable
   held ([pv0]).  Vars without all folded dims are stored by element ([est]). *)
Theorem C40_read : forall (V : Type) (fold : tuple) (xv x : string -> Z)
    (vst : string -> list Z -> Z -> V) (est : string -> list Z -> V)
    sel_bit idx_mask k align (sty : style) (ps al avs : list vpoint) defd pv0 (p : vpoint)
    (mem : list Z -> V),
  fold_ok fold -> at_vector fold xv x ->
  (0 <= k /\ sel_bit = 2 ^ k /\ idx_mask = 2 ^ k - 1 /\ lanes_of fold <= 2 ^ k) ->
  (align = align_lanes V (lanes_of fold) \/
   (align = align_lanes_avx2 V (lanes_of fold) /\ (lanes_of fold) mod 2 = 0)) ->
  (forall q, In q (p :: ps) -> read_ok fold q) -> aligned_vecs fold ps = Ok al ->
  folds fold (map fst (vp_args p)) (vst (vp_var p)) mem ->
  (forall idx, est (vp_var p) idx = mem idx) ->
  exists ls, read_from_point V (lanes_of fold) sel_bit idx_mask align fold xv vst est
                             sty al avs defd pv0 p = Ok ls /\
    forall e idx, 0 <= e < lanes_of fold -> denotes fold x p e idx -> ls e = mem idx.
Proof.
  exact (fun V fold xv x vst est sb im k al sty ps a avs defd pv0 p mem Hf Hx
             '(conj H1 (conj H2 (conj H3 H4))) Ha Hr E Fo Es =>
    read_right V fold Hf xv x Hx vst est sb im k al sty ps a avs defd pv0 p mem H1 H2 H3 H4 Ha E
      (fun q Hq => Hr q (or_intror Hq)) (Hr p (or_introl eq_refl)) Fo Es).
Qed.
Print Assumptions C40_read.

(* Fold x=4, y=2; read of A(t, x-3, y+1) at x=8, y=6 by the AVX-512 printer: an unmasked
   2-vector shift, then a masked shift (mask 136); lane 6 (x position 2, y position 1) is A(t, 7, 8). *)
Definition ex_fold := mkTuple [("x"%string, 4); ("y"%string, 2)] true.
Definition ex_pt := mkVP "A"%string [("t"%string, VOff 1); ("x"%string, VOff (-3)); ("y"%string, VOff 1)].
Definition ex_xv (d : string) : Z :=
  if String.eqb d "x"%string then 2 else if String.eqb d "y"%string then 3 else 5.
Definition ex_vst (_ : string) (vi : list Z) (e : Z) : list Z :=
  match vi with [t; u; v] => [t; u * 4 + e mod 4; v * 2 + e / 4] | _ => [] end.
Definition ex_avs : list vpoint :=
  match elem_list ex_fold ex_pt with Ok es => nodup (fun a b => match Bool.bool_dec (vpoint_eqb a b) true with
       | left h => left (proj1 (VecCtor_Proofs.vpoint_eqb_eq a b) h)
       | right h => right (fun e => h (proj2 (VecCtor_Proofs.vpoint_eqb_eq a b) e)) end) (map ve_vec es)
  | _ => [] end.

Example C40_read_ex :
  vec_type ex_fold ex_pt = VEC_FULL /\ List.length ex_avs = 4%nat /\
  match elem_list ex_fold ex_pt with
  | Ok es => List.length (vec_ctor Avx512 8 es ex_avs []) = 2%nat /\
             List.length (vec_ctor Avx2 8 es ex_avs []) = 3%nat
  | _ => False
  end /\
  (forall sty, match read_from_point _ 8 8 7 (align_lanes_avx2 _ 8) ex_fold ex_xv ex_vst (fun _ i => i)
                       sty [] ex_avs [] (fun _ => []) ex_pt with
     | Ok ls => map ls (zseq 8) =
         [[6; 5; 7]; [6; 6; 7]; [6; 7; 7]; [6; 8; 7]; [6; 5; 8]; [6; 6; 8]; [6; 7; 8]; [6; 8; 8]]
     | _ => False
     end) /\
  denotes ex_fold (fun d => if String.eqb d "x"%string then 8 else if String.eqb d "y"%string then 6 else 5)
          ex_pt 6 [6; 7; 8].
Proof.
  split; [reflexivity|]. split; [vm_compute; reflexivity|]. split; [vm_compute; split; reflexivity|].
  split; [intros []; vm_compute; reflexivity|].
  repeat constructor; vm_compute; reflexivity.
Qed.

(* Reads with "unaligned loads" allowed: the fold has one dim longer than 1 and vectors
   that are neighbours along it are neighbours in memory. *)
Theorem C40_unaligned_load : forall (V : Type) (fold : tuple) (f : string) (s : Z)
    (vpos : (string -> Z) -> Z) (flat : Z -> V) (mem : (string -> Z) -> V) (idx : string -> Z) (e : Z),
  fold_ok fold -> In (f, s) (dims fold) ->
  (forall d l, In (d, l) (dims fold) -> d <> f -> l = 1) ->
  unit_stride vpos f -> flat_folds fold vpos flat mem ->
  0 <= e < lanes_of fold ->
  unaligned_load fold vpos flat idx e = mem (fun d => idx d + pos_in fold e d).
Proof.
  exact (fun V fold f s vpos flat mem idx e Hf Hin Hone Hu Hff He =>
    load_right V fold Hf f s Hin Hone vpos Hu flat mem idx e Hff He).
Qed.
Print Assumptions C40_unaligned_load.

(* Fold x=1, y=4 in a row of vectors: 4 elements from y=-2 on. *)
Example C40_unaligned_load_ex :
  let fold := mkTuple [("x"%string, 1); ("y"%string, 4)] true in
  let vpos := fun v : string -> Z => v "x"%string * 100 + v "y"%string in
  unit_stride vpos "y"%string /\ fold_ok fold /\
  map (unaligned_load fold vpos (fun a => a)
         (fun d => if String.eqb d "y"%string then -2 else 3)) (zseq 4) = [1198; 1199; 1200; 1201] /\
  map (fun e => pos_in fold e "y"%string) (zseq 4) = [0; 1; 2; 3].
Proof.
  split.
  { intros v w H1 H2. cbn beta. rewrite (H1 "x"%string) by discriminate. rewrite H2. lia. }
  split.
  { split; cbn.
    - constructor; [intros [C|[]]; discriminate C|]. constructor; [intros []|constructor].
    - repeat constructor; lia. }
  vm_compute. split; reflexivity.
Qed.
