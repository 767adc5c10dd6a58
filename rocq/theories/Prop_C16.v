(* C16: sub-domain boxes represent the sub-domain exactly. *)
From Coq Require Import String.
From Verif Require Import Base Cover_Spec ParFor_Model Bbox_Model Bbox_Spec Bbox_Proofs Bbox2_Proofs.

(* For every condition, domain and number of threads, the search ends, its boxes are disjoint
   and hold exactly the points of the domain where the condition holds; the overall box
   contains them and the recorded number of points is right. *)
Theorem C16_part : forall c cond dom, 1 <= omp_num_threads c -> dom <> [] ->
  Forall (fun d => fst d <= snd d) dom ->
  exists pb, part_find_bbs c cond dom = Ok pb /\
    represents (pb_list pb) (pb_bb pb) (pb_num pb) (region dom cond).
Proof. exact part_boxes. Qed.
Print Assumptions C16_part.

(* An L-shaped sub-domain with a hole, three threads. *)
Definition ex_cfg := Build_omp_cfg true 3 1 0 0.
Definition ex_cond (p : list Z) : bool :=
  match p with [x; y] => ((x <? 4) || (y <? 2)) && negb ((x =? 1) && (y =? 3)) | _ => false end.
Example C16_part_ex :
  part_find_bbs ex_cfg (Some ex_cond) [(0, 7); (0, 5)] =
  Ok (mkPB [(0, 7); (0, 5)] 25
        [[(0, 1); (0, 5)]; [(1, 3); (0, 3)]; [(2, 3); (3, 5)]; [(1, 2); (4, 5)]; [(3, 4); (0, 5)]; [(4, 7); (0, 2)]]).
Proof. vm_compute. reflexivity. Qed.
Example C16_part_ex_other_threads :
  part_find_bbs (Build_omp_cfg true 1 1 0 0) (Some ex_cond) [(0, 7); (0, 5)] =
  Ok (mkPB [(0, 7); (0, 5)] 25
        [[(0, 1); (0, 5)]; [(1, 4); (0, 3)]; [(4, 7); (0, 2)]; [(2, 4); (3, 5)]; [(1, 2); (4, 5)]]).
Proof. vm_compute. reflexivity. Qed.

(* All parts of all stages: parts with equal descriptions share their boxes; provided such
   parts have equal conditions every part gets its own region, and the box of a stage
   contains the regions of the parts (the last required part of each entry). *)
Theorem C16_all_stages : forall c ext_bb max_sbb dd stages, 1 <= omp_num_threads c ->
  ext_bb <> [] -> List.length max_sbb = List.length ext_bb -> List.length dd = List.length ext_bb ->
  Forall (fun d => fst d <= snd d) ext_bb -> Forall (fun d => fst d <= snd d) max_sbb ->
  (forall a b, In a (concat (concat stages)) -> In b (concat (concat stages)) ->
     bp_descr a = bp_descr b -> forall p, holds (bp_cond a) p = holds (bp_cond b) p) ->
  exists out, find_all_bbs c ext_bb max_sbb dd [] stages = Ok out /\
    Forall2 (fun sps r =>
      Forall2 (Forall2 (fun p pb =>
        represents (pb_list pb) (pb_bb pb) (pb_num pb)
          (region (if bp_scratch p then max_sbb else ext_bb) (bp_cond p)))) sps (fst r) /\
      (forall scr own pt, In (scr ++ [own]) sps ->
         region (if bp_scratch own then max_sbb else ext_bb) (bp_cond own) pt = true ->
         in_box (snd r) pt = true)) stages out.
Proof. exact all_boxes. Qed.
Print Assumptions C16_all_stages.

Definition ex_part := mkBP "x<4"%string false (Some (fun p => match p with x :: _ => x <? 4 | _ => false end)).
Definition ex_scr := mkBP "x<4"%string true (Some (fun p => match p with x :: _ => x <? 4 | _ => false end)).
Example C16_all_stages_ex :
  find_all_bbs ex_cfg [(2, 8)] [(0, 9)] [0] [] [[[ex_scr; ex_part]]; [[ex_part]]] =
  Ok [([[mkPB [(0, 4)] 4 [[(0, 4)]]; mkPB [(2, 4)] 2 [[(2, 4)]]]], [(0, 4)]);
      ([[mkPB [(2, 4)] 2 [[(2, 4)]]]], [(0, 4)])].
Proof. vm_compute. reflexivity. Qed.

(* What is evaluated in a range of points is the part of the sub-domain in that range, each
   point once, in non-empty boxes. *)
Theorem C16_eval : forall c cond dom mb pb, 1 <= omp_num_threads c -> dom <> [] ->
  Forall (fun d => fst d <= snd d) dom -> List.length mb = List.length dom ->
  part_find_bbs c cond dom = Ok pb ->
  exact_cover in_box (eval_boxes pb mb) (fun p => in_box mb p && region dom cond p) /\
  Forall (fun bb => Forall (fun d => fst d < snd d) bb) (eval_boxes pb mb).
Proof. exact eval_cover. Qed.
Print Assumptions C16_eval.

Example C16_eval_ex :
  match part_find_bbs ex_cfg (Some ex_cond) [(0, 7); (0, 5)] with
  | Ok pb => eval_boxes pb [(2, 6); (1, 4)] = [[(2, 3); (1, 3)]; [(2, 3); (3, 4)]; [(3, 4); (1, 4)]; [(4, 6); (1, 2)]]
  | _ => False
  end.
Proof. vm_compute. reflexivity. Qed.
