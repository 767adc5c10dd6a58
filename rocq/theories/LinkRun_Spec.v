(* What the set-up of the kernel must provide for a run of a compiled solution. *)
From Verif Require Import Base Cover_Spec ParFor_Model Deps_Model Eqs_Model Parts_Model Bbox_Model Micro_Model Micro_Spec Link_Model.

(* [dom] = the box in which the bounding boxes of the parts are looked for *)
Record kernel_ok (vdims : Z -> list Z) (ddims : list Z) (eqs : list eqn) (ps : parts) (ss : stages) (dcond : Z -> list Z -> bool) (scond : Z -> Z -> bool)
  (pbs : Z -> part_bbs) (s : mset) (rank dom : list (Z * Z)) : Prop := mkKernelOk {
  ke_set : mset_ok s (length ddims);
  ke_len : length (ms_mbs s) = length ddims /\ length (ms_mbt s) = length ddims /\ length (ms_nbs s) = length ddims;
  ke_rank : length rank = length ddims /\ Forall (fun d => fst d < snd d) rank;
  ke_dom : length dom = length ddims /\ Forall (fun d => fst d <= snd d) dom;
  (* what a part has to evaluate for this rank lies in that box *)
  ke_span : forall t id p, In id (g_all (c_grp (ps_clus ps))) -> in_box (span (k_part vdims ddims eqs ps ss scond pbs t id) rank) p = true -> in_box dom p = true;
  ke_bbs : forall id, In id (g_all (c_grp (ps_clus ps))) -> exists c, 1 <= omp_num_threads c /\ part_find_bbs c (domain_cond ps dcond id) dom = Ok (pbs id);
  (* option -init_scratch_vars, or no conditions on scratch vars (see C65) *)
  ke_init : ms_init s = true \/ forall id, In id (g_all (c_grp (ps_clus ps))) -> a_scr (part_attr ps id) = true -> a_dc (part_attr ps id) = None /\ a_sc (part_attr ps id) = None }.
