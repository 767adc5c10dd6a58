From Verif Require Import Base ParFor_Model Bbox_Model Stats_Model Stats_Spec.

(* An L-shaped part and a full part with a scratch part: boxes of the search *)
Definition sx_cfg := Build_omp_cfg true 3 1 0 0.
Definition sx_cond (p : list Z) : bool := match p with [x; y] => (x <? 2) || (y <? 1) | _ => false end.
Definition sx_boxes (cond : option (list Z -> bool)) (dom : dbox) : list dbox := match part_find_bbs sx_cfg cond dom with Ok pb => pb_list pb | _ => [] end.
Definition sx_q (name : Z) (cond : option (list Z -> bool)) (dom : dbox) : wpart := mkWpart name (sx_boxes cond dom) 5 2 7.
Definition sx_dom : dbox := [(0, 4); (0, 3)].
Lemma sx_found : forall name cond dom, dom <> [] -> length dom = 2%nat -> Forall (fun d => fst d <= snd d) dom -> (exists pb, part_find_bbs sx_cfg cond dom = Ok pb) -> found 2 (sx_q name cond dom) cond dom.
Proof. intros name cond dom H1 H2 H3 (pb & E). repeat split; try assumption. exists sx_cfg, pb. split; [cbn; lia|]. split; [exact E|]. cbn [wp_bbs sx_q]. unfold sx_boxes. rewrite E. reflexivity. Qed.
