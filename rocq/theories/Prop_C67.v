(* C67: The stencil compiler finds the dims of a solution, chooses an inner-loop dim and a vector fold of
   exactly the vector length, and orders the dims in memory as the settings ask. *)
From Coq Require Import String.
From Verif Require Import Base Tuple_Model Factors_Spec SetDims_Model SetDims_Spec SetDims_Proofs SetDims2_Proofs SetDims3_Proofs SetDims_Examples.
Open Scope string_scope.
Open Scope list_scope.
Open Scope Z_scope.

(* An accepted solution has one step dim and some domain dims, and no scratch var has the step dim; the
   domain dims are those of the settings followed by those of the vars, each once, in the order of their
   first mentions; the misc dims are those of the vars; the stencil dims are the step dim and the domain dims. *)
Theorem C67_dims_found : forall vars cs vlen eff o, named vars cs -> set_dims vars cs vlen eff = Ok o ->
  legal vars cs /\ step_name vars cs (d_step o) /\
  in_first_order (mentions vars cs) (d_domain o) /\
  NoDup (d_misc o) /\ (forall d, In d (d_misc o) <-> misc_name vars d) /\
  (one_kind vars cs -> d_stencil o = d_step o :: d_domain o).
Proof. exact dims_found. Qed.
Print Assumptions C67_dims_found.

(* Exactly the legal solutions are accepted, apart from one case: folding in one dim is preferred, the
   inner-loop dim is the last domain dim but one and the sizes asked for do not give the vector length. *)
Theorem C67_accepted_iff : forall vars cs vlen eff dd il, named vars cs -> cs_unaligned cs = false ->
  in_first_order (mentions vars cs) dd -> inner_choice dd (cs_inner cs) il ->
  (exists o, set_dims vars cs vlen eff = Ok o) <->
  legal vars cs /\
  ~ (eff = false /\ 1 < vlen /\ asked_size cs dd <> vlen /\ (2 <= List.length dd)%nat /\ next_to_last dd il).
Proof. exact accepted_iff. Qed.
Print Assumptions C67_accepted_iff.

(* The inner-loop dim is the domain dim asked for, and its number is its position among the stencil dims. *)
Theorem C67_inner_loop : forall vars cs vlen eff o, named vars cs -> set_dims vars cs vlen eff = Ok o ->
  inner_choice (d_domain o) (cs_inner cs) (d_inner o) /\
  1 <= d_inner_num o <= Z.of_nat (List.length (d_domain o)) /\
  nth_error (d_domain o) (Z.to_nat (d_inner_num o - 1)) = Some (d_inner o) /\
  (one_kind vars cs -> nth_error (d_stencil o) (Z.to_nat (d_inner_num o)) = Some (d_inner o)).
Proof. exact inner_loop. Qed.
Print Assumptions C67_inner_loop.

(* The fold has one positive size for each domain dim, and the product of the sizes is the vector length;
   sizes that were asked for and give the vector length are used unchanged, as are all sizes asked for when
   there are no vectors; the folded dims are those with sizes above 1. *)
Theorem C67_fold_sizes : forall vars cs vlen eff o, named vars cs -> set_dims vars cs vlen eff = Ok o ->
  names (d_fold o) = d_domain o /\ first_inner (d_fold o) = cs_first_inner cs /\
  Forall (fun n => 1 <= n) (vals (d_fold o)) /\
  (1 < vlen -> zprod (vals (d_fold o)) = vlen) /\
  (vlen <= 1 \/ asked_size cs (d_domain o) = vlen -> vals (d_fold o) = map (fun d => Z.max 1 (asked cs d)) (d_domain o)) /\
  dims (d_fold_gt1 o) = filter (fun i => 1 <? snd i) (dims (d_fold o)) /\
  first_inner (d_fold_gt1 o) = cs_first_inner cs /\
  (cs_unaligned cs = true -> (List.length (dims (d_fold_gt1 o)) <= 1)%nat).
Proof. exact fold_sizes. Qed.
Print Assumptions C67_fold_sizes.

(* With multi-dim folding, sizes that were asked for are kept whenever they can be completed to the vector
   length by the dims other than the inner-loop dim, and the other sizes are then as even as possible. *)
Theorem C67_request_kept : forall vars cs vlen eff o, named vars cs -> set_dims vars cs vlen eff = Ok o -> 1 < vlen ->
  let dd := d_domain o in let il := d_inner o in let r := vals (d_fold o) in
  let P f := completes cs dd vlen f /\ size_in dd f il (Z.max 1 (asked cs il)) in
  eff = true /\ (2 <= List.length dd)%nat \/ asked_size cs dd = vlen ->
  (exists f, P f) ->
  P r /\ forall f m, P f -> others_le dd il f m -> others_le dd il r m.
Proof. exact request_kept. Qed.
Print Assumptions C67_request_kept.

(* Without multi-dim folding, an adjusted fold only has sizes above 1 in the inner-loop dim, where it was
   asked for, and in the last domain dim but one. *)
Theorem C67_plain_fold : forall vars cs vlen o d n, named vars cs -> set_dims vars cs vlen false = Ok o -> 1 < vlen ->
  asked_size cs (d_domain o) <> vlen ->
  size_in (d_domain o) (vals (d_fold o)) d n ->
  (n <> 1 -> d = d_inner o \/ next_to_last (d_domain o) d) /\
  (d = d_inner o -> (2 <= List.length (d_domain o))%nat -> n < vlen /\ (n = 1 \/ n = asked cs d)).
Proof. exact plain_fold. Qed.
Print Assumptions C67_plain_fold.

(* All dims have one place each in memory order, as the settings ask; domain and misc dims keep their order;
   without vectors the last domain dim has unit stride. *)
Theorem C67_layout : forall vars cs vlen eff o, named vars cs -> set_dims vars cs vlen eff = Ok o -> one_kind vars cs ->
  NoDup (d_layout o) /\
  good_layout (d_step o) (d_domain o) (d_misc o) (cs_inner_misc cs) (cs_outer_domain cs) (zprod (vals (d_fold o)) <=? 1) (d_layout o).
Proof. exact layout_dims. Qed.
Print Assumptions C67_layout.

(* A var is folded iff it has domain dims and has all folded dims. *)
Theorem C67_foldable : forall vars cs vlen eff o v, named vars cs -> set_dims vars cs vlen eff = Ok o ->
  NoDup (map fst (dv_dims v)) ->
  is_foldable o v = true <->
  (exists d, In (d, KDomain) (dv_dims v)) /\
  (forall d n, size_in (d_domain o) (vals (d_fold o)) d n -> 1 < n -> In (d, KDomain) (dv_dims v)).
Proof. exact foldable_iff. Qed.
Print Assumptions C67_foldable.

(* FALSE of the code: every legal solution can be compiled.  A 2-dim solution for AVX2 (8 elements, no
   multi-dim folding) with fold x=2, y=2 and the first dim as inner-loop dim ends in the internal fault. *)
Theorem C67_all_legal_accepted_refuted : exists vars cs vlen,
  named vars cs /\ legal vars cs /\ one_kind vars cs /\ cs_unaligned cs = false /\ vlen = 8 /\
  cs_inner cs = ILnum 1 /\ set_dims vars cs vlen false = Throw.
Proof.
  exists [mkDvar [t_; x_; y_] false], (cs0 [] (ILnum 1) [("x", 2); ("y", 2)]), 8.
  assert (U : forall k d, uses [mkDvar [t_; x_; y_] false] k d -> k = KStep /\ d = "t" \/ k = KDomain /\ (d = "x" \/ d = "y")).
  { intros k d (v & [<-|[]] & J). cbn in J. destruct J as [J|[J|[J|[]]]]; injection J as <- <-; auto. }
  split; [split; [|auto]|split; [|split; [|repeat split]]].
  - intros k d H ->. apply U in H. intuition discriminate.
  - split; [|split].
    + exists "t". split; [right; exists (mkDvar [t_; x_; y_] false); cbn; auto|].
      intros t' [(N & E)|H]; [cbn in E; congruence|]. apply U in H. intuition (try discriminate; assumption).
    + exists "x". right. exists (mkDvar [t_; x_; y_] false). cbn. auto.
    + intros v d [<-|[]] E. discriminate.
  - split; [|split].
    + intros d [(N & E)|H1] [H2|H2]; try (cbn in E; congruence); try (destruct H2; fail).
      apply U in H1. apply U in H2. intuition congruence.
    + intros d _ H2. apply U in H2. intuition discriminate.
    + intros d _ H2. apply U in H2. intuition discriminate.
Qed.
Print Assumptions C67_all_legal_accepted_refuted.

(* FALSE of the code: a name is only used for one kind of dim.  The step dim can be given as a domain dim. *)
Theorem C67_one_kind_refuted : exists vars cs o,
  named vars cs /\ set_dims vars cs 1 false = Ok o /\ In (d_step o) (d_domain o).
Proof.
  exists [mkDvar [t_; x_] false], (cs0 ["t"; "x"] ILnone []).
  eexists. split; [|split; [vm_compute; reflexivity|left; reflexivity]].
  split; [|cbn; intuition discriminate]. intros k d (v & [<-|[]] & J). cbn in J.
  destruct J as [J|[J|[]]]; injection J as <- <-; discriminate.
Qed.
Print Assumptions C67_one_kind_refuted.

(* The first three domain dims are found in a scratch var and in a misc-dim var; 16 elements, z=2 asked for,
   y is the inner-loop dim: z=2, x=8. *)
Example C67_ex :
  named [vS; vA; vB] cs1 /\ one_kind [vS; vA; vB] cs1 /\ set_dims [vS; vA; vB] cs1 16 true = Ok o1 /\
  asked_size cs1 (d_domain o1) = 2 /\
  (exists f, completes cs1 (d_domain o1) 16 f /\ size_in (d_domain o1) f (d_inner o1) (Z.max 1 (asked cs1 (d_inner o1)))) /\
  is_foldable o1 vA = true /\ is_foldable o1 vB = true /\ is_foldable o1 vS = false /\
  NoDup (map fst (dv_dims vA)) /\ zprod (vals (d_fold o1)) = 16.
Proof.
  split; [apply ex_named; auto|]. split; [apply ex_kinds; [reflexivity|intros d []]|]. split; [exact ex1|].
  split; [reflexivity|]. split.
  { exists [2; 1; 8]. split.
    - split; [split; [reflexivity|split; [repeat constructor; lia|reflexivity]]|]. repeat constructor; intros H; vm_compute in H; congruence.
    - exists 1%nat. split; reflexivity. }
  split; [reflexivity|]. split; [reflexivity|]. split; [reflexivity|]. split; [|reflexivity].
  cbn. repeat constructor; cbn; intuition discriminate.
Qed.

(* No vectors, x and y given, misc dims outside, first domain dim outermost, number 9 brought into range. *)
Example C67_ex2 :
  named [vS; vA; vB] cs2 /\ one_kind [vS; vA; vB] cs2 /\ set_dims [vS; vA; vB] cs2 1 false = Ok o2 /\
  d_layout o2 = ["x"; "m"; "t"; "y"; "z"] /\ d_inner o2 = "z".
Proof.
  split; [apply ex_named; cbn; intuition discriminate|]. split; [apply ex_kinds; [reflexivity|cbn; intuition]|].
  split; [exact ex2|]. split; reflexivity.
Qed.

(* One-dim folding: 8 elements go to the last dim but one; sizes that fit are kept. *)
Example C67_ex3 :
  (exists o, set_dims [vA] (cs0 [] ILnone []) 8 false = Ok o /\ vals (d_fold o) = [1; 8; 1] /\ asked_size (cs0 [] ILnone []) (d_domain o) <> 8) /\
  (exists o, set_dims [vA] (cs0 [] ILnone [("z", 2)]) 8 false = Ok o /\ vals (d_fold o) = [1; 4; 2]) /\
  (exists o, set_dims [vA] (cs0 [] (ILnum 2) [("x", 2); ("z", 4)]) 8 false = Ok o /\ vals (d_fold o) = [2; 1; 4]) /\
  set_dims [vA] (cs0 [] (ILnum 2) []) 8 false = Throw /\
  set_dims [vS] (cs0 [] ILnone []) 8 false = Throw /\
  set_dims [mkDvar [t_; z_] true] (cs0 [] ILnone []) 8 false = Throw.
Proof.
  split; [eexists; split; [vm_compute; reflexivity|split; [reflexivity|vm_compute; discriminate]]|].
  split; [eexists; split; [vm_compute; reflexivity|reflexivity]|].
  split; [eexists; split; [vm_compute; reflexivity|reflexivity]|].
  split; [reflexivity|]. split; reflexivity.
Qed.
