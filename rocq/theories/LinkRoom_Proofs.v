From Verif Require Import Base Deps_Model Deps_Spec Deps_Proofs Eqs_Model Eqs_Spec Parts_Model Parts_Spec Parts_Proofs Halo_Model Halo_Spec Halo_Proofs Step_Spec Step_Proofs LinkRoom_Spec.
From Coq Require Import ZifyBool.

Lemma ofs_zero : forall dims o, NoDup dims -> length o = length dims -> (forall q, In q dims -> dim_ofs dims o q = 0) -> Forall (eq 0) o.
Proof.
  induction dims as [|x dims IH]; intros [|y o] N L H; try discriminate; [constructor|]. inversion N; subst. constructor.
  - specialize (H x (or_introl eq_refl)). cbn in H. rewrite Z.eqb_refl in H. auto.
  - apply IH; [assumption|cbn in L; lia|]. intros q Hq. specialize (H q (or_intror Hq)). cbn in H. destruct (q =? x) eqn:E; [|exact H]. apply Z.eqb_eq in E. subst. contradiction.
Qed.

Theorem room_ok : forall scr dims_same halo_same bundle bundle_scratch regex dir d eqs,
  dir = 1 \/ dir = -1 -> d = 0 \/ d = dir -> Forall (fun e => legal_lhs scr dir e /\ reads_no_future dir e) eqs -> distinct_lhs eqs ->
  forall vdims, wf_eqs scr vdims eqs ->
  forall eg ps ss, build scr dims_same halo_same bundle bundle_scratch regex d eqs = Ok (eg, ps, ss) ->
  forall api cmd k i j e e' r s, In k (g_all (c_grp (st_clus ss))) -> nth (Z.to_nat k) (st_scr ss) false = false ->
    nth_error eqs i = Some e -> nth_error eqs j = Some e' -> In r (e_rhs e) -> p_var r = p_var (e_lhs e') -> p_step r = Some s -> vdims (p_var r) <> [] ->
    room_read scr vdims eqs dir (block ps ss) k i r s ->
    s = dir \/ (s - dir) mod step_dim_size true api cmd (calc_halos vdims eqs (h_sdep ss) (h_stages ps ss) (p_var r)) <> 0 \/ (i = j /\ Forall (eq 0) (p_dom r)).
Proof.
  intros scr dims_same halo_same bundle bundle_scratch regex dir d eqs Hdir Hd Hleg Hdis vdims Hwf eg ps ss HB api cmd k i j e e' r s Kb Ks He He' Hr Vr Hs Nv (Rb & p & Ap & Vp & Sp & Safe).
  set (h := calc_halos vdims eqs (h_sdep ss) (h_stages ps ss)). set (n := step_dim_size true api cmd (h (p_var r))). pose proof (size_pos api cmd (h (p_var r))) as Pn. fold n in Pn.
  assert (Hin : In e eqs) by (eapply nth_error_In; exact He).
  assert (Fut : 0 <= dir * (dir - s)). { destruct (proj1 (Forall_forall _ _) Hleg e Hin) as (_ & F). specialize (F r s Hr Hs). destruct Hdir as [->| ->]; lia. }
  assert (Sv : scr (p_var r) = false). { destruct Hwf as (_ & W). destruct (W e r Hin (or_intror Hr)) as (_ & X). destruct (scr (p_var r)); [specialize (X eq_refl); congruence|reflexivity]. }
  destruct (Z.eq_dec dir s) as [Eds|Nds]; [left; congruence|right].
  assert (Done : Z.abs (dir - s) < n -> (s - dir) mod n <> 0).
  { intros L X. apply Z.mod_divide in X as (c & X); [|lia]. destruct (Z.eq_dec c 0) as [->|N]; [lia|]. assert (n <= Z.abs (s - dir)) by (rewrite X, Z.abs_mul; nia). lia. }
  pose proof (acc_pr scr dims_same halo_same bundle bundle_scratch regex dir d eqs Hdir Hd Hleg Hdis vdims Hwf eg ps ss HB k Kb Ks) as APR.
  pose proof (acc_hget scr dims_same halo_same bundle bundle_scratch regex dir d eqs Hdir Hd Hleg Hdis vdims Hwf eg ps ss HB k Kb Ks) as AHG.
  pose proof (no_write scr dims_same halo_same bundle bundle_scratch regex dir d eqs Hdir Hd Hleg Hdis vdims Hwf eg ps ss HB k Kb) as NWR.
  fold h in APR, AHG, NWR. set (v := p_var r) in *.
  assert (Ar : acc scr eqs (block ps ss) k r) by (exists (Z.of_nat i), e; split; [exact Rb|]; rewrite Nat2Z.id; split; [exact He|right; exact Hr]).
  destruct (APR r Ar Nv) as (lr & Pr). rewrite Hs in Pr. cbn [step_of] in Pr. fold v in Pr.
  assert (Nvp : vdims (p_var p) <> []) by (rewrite Vp; exact Nv). destruct (APR p Ap Nvp) as (lp & Pp). rewrite Sp, Vp in Pp. cbn [step_of] in Pp.
  destruct (steps_bound k (h v) lp dir lr s Pp Pr Nds) as (B1 & B2 & B3 & B4).
  assert (Sz : fst (stage_steps k (h v)) <= n).
  { apply pr_entry in Pr as (t & _ & It). apply stage_size; [intros X; rewrite X in It; contradiction|eapply in_halo_stages; exact It]. }
  destruct Safe as [(p' & s' & Ap' & Vp' & Sp' & Far)|[(p' & q & Ap' & Vp' & Sp' & Hq & Nq)|[Nw|Only]]].
  - left. apply Done. assert (Nvp' : vdims (p_var p') <> []) by (rewrite Vp'; exact Nv). destruct (APR p' Ap' Nvp') as (lp' & Pp'). rewrite Sp', Vp' in Pp'. cbn [step_of] in Pp'.
    assert (Fut' : 0 <= dir * (dir - s')).
    { destruct Ap' as (i' & e2 & _ & He2 & [<-|Hp']).
      - destruct (proj1 (Forall_forall _ _) Hleg e2 (nth_error_In _ _ He2)) as ((_ & X) & _). rewrite Sp', Vp', Sv in X. injection X as ->. lia.
      - destruct (proj1 (Forall_forall _ _) Hleg e2 (nth_error_In _ _ He2)) as (_ & F). specialize (F p' s' Hp' Sp'). destruct Hdir as [->| ->]; lia. }
    assert (Z.abs (dir - s) + 1 <= fst (stage_steps k (h v))); [|lia]. apply B2. exists lp', s'. split; [exact Pp'|]. destruct Hdir as [->| ->]; lia.
  - left. apply Done. rewrite <- Vp' in Hq, Nq. destruct (AHG p' q Ap' Hq Nq) as (left & G). rewrite Vp' in G. assert (Z.abs (dir - s) + 1 <= fst (stage_steps k (h v))); [|lia]. apply B3. exists left, q. destruct Sp' as [Sp'|Sp']; rewrite Sp' in G; cbn [step_of] in G; auto.
  - left. apply Done. assert (Z.abs (dir - s) + 1 <= fst (stage_steps k (h v))); [|lia]. apply B4. apply (NWR v Sv Nw).
  - destruct (existsb (fun q => negb (dim_ofs (vdims v) (p_dom r) q =? 0)) (vdims v)) eqn:EX.
    + left. apply Done. apply existsb_exists in EX as (q & Hq & Nq). apply negb_true_iff, Z.eqb_neq in Nq. destruct (AHG r q Ar Hq Nq) as (left & G). rewrite Hs in G. cbn [step_of] in G. fold v in G. assert (Z.abs (dir - s) + 1 <= fst (stage_steps k (h v))); [|lia]. apply B3. exists left, q. auto.
    + right. split; [symmetry; apply (Only j e' He'); auto|]. destruct Hwf as (Wv & W). destruct (W e r Hin (or_intror Hr)) as (Wp & _). apply (ofs_zero (vdims v)); [apply Wv|exact Wp|].
      intros q Hq. destruct (Z.eq_dec (dim_ofs (vdims v) (p_dom r) q) 0) as [E|N]; [exact E|]. assert (X : existsb (fun q => negb (dim_ofs (vdims v) (p_dom r) q =? 0)) (vdims v) = true) by (apply existsb_exists; exists q; split; [exact Hq|lia]). congruence.
Qed.
