(* C05: Every tiling level covers its parent range exactly once. *)
From Verif Require Import Base Cover_Spec Loops_Model Loops_Spec LoopsTop_Proofs Scan_Proofs.

(* [prog] = nested loop statements of one level, outermost first; [da] = aligned code; [accepted] = gen_loops.pl generates it.
   [wf_loop]: begin < end and stride >= 1 in every dim, align >= 1 if aligned, tile size >= 1 if tiled. *)
Theorem C05_cover : forall (da : bool) prog nt, 0 < nt -> Forall (wf_loop da) prog -> accepted false prog ->
  exists calls, run_loops da nt None prog = Ok calls /\
    exact_cover in_box calls (in_box (map (fun d => (l_begin d, l_end d)) (flat_map snd prog))) /\
    Forall nonempty_box calls /\
    Forall (box_inside (map (fun d => (l_begin d, l_end d)) (flat_map snd prog))) calls.
Proof. exact loops_cover. Qed.
Print Assumptions C05_cover.

(* A level with an empty range [begin, begin) can hand one empty sub-range to the next level. *)
Theorem C05_empty_range_refuted : exists d calls, l_begin d <= l_end d /\ 1 <= l_stride d /\ 1 <= l_align d /\
  run_loops true 1 None [(mkFeats false false false false false false, [d])] = Ok calls /\
  ~ Forall nonempty_box calls.
Proof.
  exists (mkLdim 20 20 8 4 15 0), [[(20, 20)]]. repeat split; try discriminate; try reflexivity.
  intros H. inversion H as [|? ? H1 _]; subst. inversion H1 as [|? ? H2 _]; subst. discriminate H2.
Qed.
Print Assumptions C05_empty_range_refuted.

(* aligned, tiled outer loop over two dims with partial tiles, serpentine inner loop *)
Definition C05_prog : list (feats * list ldim) :=
  [(mkFeats false false true true false false, [mkLdim 5 65 20 10 0 40; mkLdim (-3) 6 4 4 1 4]);
   (mkFeats true false false false false false, [mkLdim 0 5 2 1 0 0])].
Example C05_cover_ex : Forall (wf_loop true) C05_prog /\ accepted false C05_prog /\
  match run_loops true 3 None C05_prog with
  | Ok calls => length calls = 36%nat /\ firstn 4 calls =
      [[(5, 20); (-3, 1); (0, 2)]; [(5, 20); (-3, 1); (2, 4)]; [(5, 20); (-3, 1); (4, 5)]; [(20, 40); (-3, 1); (0, 2)]]
  | _ => False
  end.
Proof.
  split; [|split; [cbn; repeat split; discriminate|vm_compute; split; reflexivity]].
  repeat constructor; cbn; try (intros; discriminate); try (intros _; repeat constructor; cbn; discriminate); try discriminate.
Qed.
