(* C17: Bound threads compute every slab exactly once. *)
From Verif Require Import Base Cover_Spec Loops_Model Bind_Model LoopsTop_Proofs Bind_Proofs.

(* [out] = pairs (thread, nano-block) of all calls made by the nbt threads for the micro-block [ds] *)
Theorem C17_cover : forall slab nbt k f folds ds, 1 <= slab -> 1 <= nbt -> f_manual f = false ->
  length folds = length ds -> ds <> [] -> Forall (fun x => 1 <= x) folds -> Forall (fun d => l_begin d < l_end d /\ 1 <= l_align d) ds ->
  (f_tile f = true -> Forall (fun d => 1 <= l_tile d) ds) -> adj_feats (length ds) false f <> None ->
  exists out, bound_calls slab nbt k f folds ds = Ok out /\
    exact_cover in_box (map snd out) (in_box (map (fun d => (l_begin d, l_end d)) ds)) /\
    Forall (fun tb => 0 <= fst tb < nbt) out.
Proof. exact bind_cover. Qed.
Print Assumptions C17_cover.

(* Full statement: the same without the divisibility hypothesis; false, see C17_position_refuted. *)
Theorem C17_position_partial : forall slab nbt k f folds ds d out, 1 <= slab -> 1 <= nbt -> length folds = length ds -> nth_error ds k = Some d ->
  (slab | 4096 + l_aofs d) ->
  bound_calls slab nbt k f folds ds = Ok out ->
  forall t b x, In (t, b) out -> in_iv (nth k b (0, 0)) x = true -> t = ((x + 4096) / slab) mod nbt.
Proof. exact bind_position. Qed.
Print Assumptions C17_position_partial.

(* Slab width 24: point 20 is computed by thread 0 in the tile [0, 48) and by thread 1 in the tile [10, 48). *)
Theorem C17_position_refuted : exists slab nbt f folds d d' out out' t t' b b' x,
  l_align d = l_align d' /\ l_aofs d = l_aofs d' /\
  bound_calls slab nbt 0 f folds [d] = Ok out /\ bound_calls slab nbt 0 f folds [d'] = Ok out' /\
  In (t, b) out /\ In (t', b') out' /\ in_box b [x] = true /\ in_box b' [x] = true /\ t <> t'.
Proof.
  exists 24, 2, (mkFeats false false false true false false), [8], (mkLdim 0 48 48 8 0 0), (mkLdim 10 48 48 8 0 0),
    [(0, [(0, 24)]); (1, [(24, 48)])], [(1, [(10, 24)]); (1, [(24, 48)])], 0, 1, [(0, 24)], [(10, 24)], 20.
  repeat split; try (vm_compute; auto; fail). discriminate.
Qed.
Print Assumptions C17_position_refuted.

Example C17_ex : bound_calls 16 3 1 (mkFeats false false false true false false) [4; 8] [mkLdim 0 10 4 4 0 0; mkLdim (-20) 37 16 8 0 0]
  = Ok [(0, [(0, 10); (-16, 0)]); (0, [(0, 10); (32, 37)]); (1, [(0, 10); (0, 16)]); (2, [(0, 10); (-20, -16)]); (2, [(0, 10); (16, 32)])].
Proof. vm_compute. reflexivity. Qed.
