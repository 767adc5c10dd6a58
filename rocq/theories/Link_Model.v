(* From the parts and stages made by the compiler to those of the kernel: src/compiler/lib/YaskKernel.cpp:460-515 (conditions of a
   part), 940-1060 (parts, stages and required scratch parts), src/kernel/lib/setup.cpp:1184-1228 (write halos), and what the code
   printed for a part computes (YaskKernel.cpp:520-700, see C61).
   Simplifications: conditions are oracles, the bounding boxes of a part [pbs] are given; all needed vars are listed. *)
From Verif Require Import Base Deps_Model Eqs_Model Parts_Model Halo_Model Span_Model Bbox_Model Micro_Model Ref_Model Sched_Spec Link_Spec.

Section Link.
  Variable vdims : Z -> list Z.
  Variable ddims : list Z.
  Variable eqs : list eqn.
  Variables (ps : parts) (ss : stages).
  Variable dcond : Z -> list Z -> bool.
  Variable scond : Z -> Z -> bool.
  Variable pbs : Z -> part_bbs.

  Definition part_eqs (id : Z) : list Z := c_get (c_items (ps_clus ps)) id.
  Definition part_attr (id : Z) : attr := nth (Z.to_nat id) (ps_attr ps) attr0.
  (* get_all_scratch_deps_on(p).count(p2) *)
  Definition h_pdep (a b : Z) : bool := mem b (dm_get a (d_full (g_scr (c_grp (ps_clus ps))))).
  Definition is_some {A} (x : option A) : bool := match x with Some _ => true | None => false end.

  (* YaskKernel.cpp:460-515 is_in_valid_domain, is_in_valid_step *)
  Definition in_valid_domain (id : Z) (p : list Z) : bool := match a_dc (part_attr id) with Some c => dcond c p | None => true end.
  Definition in_valid_step (id t : Z) : bool := match a_sc (part_attr id) with Some c => scond c t | None => true end.
  (* YaskKernel.cpp:940-1009; setup.cpp:1184-1228 *)
  Definition k_part (t id : Z) : mpart :=
    let wh := write_halo vdims eqs (calc_halos vdims eqs (h_sdep ss) (h_stages ps ss)) (part_eqs id) in
    mkMpart id (a_scr (part_attr id)) (is_some (a_dc (part_attr id))) (is_some (a_sc (part_attr id))) (in_valid_step id t) (pbs id)
      (map (wh true) ddims) (map (wh false) ddims)
      (if a_scr (part_attr id) then fold_left (fun l i => add_item (eq_var eqs i) l) (part_eqs id) [] else []).
  (* setup.cpp:1385-1488 find_bounding_box asks is_in_valid_domain; there is nothing to ask if the part has no condition *)
  Definition domain_cond (id : Z) : option (list Z -> bool) := option_map dcond (a_dc (part_attr id)).
  Definition k_cond (q : mpart) (p : list Z) : bool := in_valid_domain (mp_id q) p.

  (* YaskKernel.cpp:1011-1033: the parts of a stage that is not a scratch stage *)
  Definition k_stage (t a : Z) : list mpart := map (k_part t) (filter (fun p => negb (a_scr (part_attr p))) (c_get (c_items (st_clus ss)) a)).
  Definition k_stages (t : Z) : list (list mpart) := map (k_stage t) (filter (fun a => negb (nth (Z.to_nat a) (st_scr ss) false)) (g_all (c_grp (st_clus ss)))).
  (* 1035-1056: the parts of the scratch stages in the order of all parts; the parts that a part requires *)
  Definition k_sstages (t : Z) : list (list mpart) :=
    map (fun a => map (k_part t) (filter (fun p => mem p (c_get (c_items (st_clus ss)) a)) (g_all (c_grp (ps_clus ps)))))
        (filter (fun a => nth (Z.to_nat a) (st_scr ss) false) (g_all (c_grp (st_clus ss)))).
  Definition k_reqd (t : Z) : mpart -> list mpart := reqd_parts (k_sstages t) (fun sp q => h_pdep (mp_id sp) (mp_id q)).
  (* the scratch parts that some other part requires *)
  Definition k_ord (t : Z) : list mpart :=
    filter (fun q => existsb (fun sp => negb (a_scr (part_attr sp)) && h_pdep sp (mp_id q)) (g_all (c_grp (ps_clus ps)))) (concat (k_sstages t)).

  (* the printed code of a part: all equations of the part at one point *)
  Context {V : Type} (zero : V) (val : Z -> Z -> list Z -> list V -> V).
  Fixpoint part_val (t : Z) (p : list Z) (is : list Z) (vals : list V) (v : Z) : V :=
    match is with
    | [] => zero
    | i :: r => let n := length (e_rhs (eq_at eqs i)) in
                if eq_var eqs i =? v then val i t p (firstn n vals) else part_val t p r (skipn n vals) v
    end.
  Definition k_stencil : stencil V :=
    mkStencil V (fun x => flat_map (fun i => map (rd_elem vdims ddims (i_t x) (i_p x)) (e_rhs (eq_at eqs i))) (part_eqs (i_s x)))
                (fun x => map (fun i => wr_elem (i_t x) (i_p x) (e_lhs (eq_at eqs i))) (part_eqs (i_s x)))
                (fun x vals c => part_val (i_t x) (i_p x) (part_eqs (i_s x)) vals (fst (fst c))).
End Link.
