From Verif Require Import Base Coherency_Model Coherency_Spec.

Section P.
  Context {V : Type}.

  Lemma up_put : forall ws (m : memo V) c, up_to_date m c -> up_to_date (put ws m) (wr ws c).
  Proof.
    induction ws as [|w ws IH]; intros m c H; cbn; [exact H|].
    apply IH. intros k v. destruct (k =? fst w); [intros E; inversion E; reflexivity|apply H].
  Qed.

  Definition cinv (m : memo V) (s : @cvar V) : Prop :=
    (need_to_update_host (coh s) = false -> up_to_date m (host s)) /\
    (need_to_update_dev (coh s) = false -> up_to_date m (dev s)).

  Lemma cstep_inv : forall e (s s' : @cvar V) m, cinv m s -> cstep false s e = Ok s' -> cinv (latest [e] m) s'.
  Proof.
    intros e [c h d] s' m (H1 & H2) E. cbn in *. destruct e as [ws|ws| | |f]; cbn in E; destruct c; cbn in E; inversion E; subst s'; clear E;
      unfold cinv; cbn in *; split; intros Hn; try discriminate; try (apply up_put); auto; intros k v Ek; inversion Ek; reflexivity.
  Qed.

  Lemma crun_inv : forall evs (s s' : @cvar V) m, cinv m s -> crun false evs s = Ok s' -> cinv (latest evs m) s'.
  Proof.
    induction evs as [|e evs IH]; intros s s' m H E; cbn [crun] in E; [inversion E; subst; exact H|].
    destruct (cstep false s e) as [s1| | |] eqn:E1; cbn [rbind] in E; try discriminate.
    pose proof (cstep_inv e s s1 m H E1) as H1. specialize (IH _ _ _ H1 E). destruct e; exact IH.
  Qed.

  Theorem coherent : forall evs h0 d0 (s : @cvar V), crun false evs (mkC not_init h0 d0) = Ok s ->
    (need_to_update_host (coh s) = false -> up_to_date (latest evs (fun _ => None)) (host s)) /\
    (need_to_update_dev (coh s) = false -> up_to_date (latest evs (fun _ => None)) (dev s)) /\
    need_to_update_host (coh s) && need_to_update_dev (coh s) = false.
  Proof.
    intros evs h0 d0 s E. destruct (crun_inv evs _ s (fun _ => None) ltac:(split; intros _ k v Hk; discriminate) E) as (A & B).
    split; [exact A|]. split; [exact B|]. destruct (coh s); reflexivity.
  Qed.

  Lemma api_run_ok : forall l (s : @cvar V) m, cinv m s -> forallb (fun a => negb (is_run_ref a)) l = true ->
    exists s' o, api_run false l s = Ok (s', o) /\ Forall2 read_ok (reads l m) o.
  Proof.
    induction l as [|a l IH]; intros s m H F; cbn [api_run reads].
    - exists s, []. auto.
    - cbn [forallb] in F. apply andb_true_iff in F as (F1 & F2).
      destruct s as [c h d]. destruct H as (H1 & H2). cbn in H1, H2.
      assert (ST : exists s1 o1, api_step false (mkC c h d) a = Ok (s1, o1) /\
        match a with
        | ASetHost ws | ASetDev ws | ARun ws | ARunRef ws => cinv (put ws m) s1 /\ o1 = None
        | ASetAll f => cinv (fun k => Some (f k)) s1 /\ o1 = None
        | AGetHost k | AGetDev k => cinv m s1 /\ read_ok (m k) o1
        end).
      { destruct a as [ws|ws|ws|f|k|k|ws]; try discriminate; destruct c; cbn; eexists; eexists;
          (split; [reflexivity|]); unfold cinv; cbn; (split;
          [ split; intros Hn;
            first [ discriminate | apply up_put; solve [auto] | solve [auto] | (intros k' v Ek; inversion Ek; reflexivity) ]
          | first [ reflexivity | (intros v Ek; f_equal; first [apply H1; solve [auto] | apply H2; solve [auto]]) ] ]). }
      destruct ST as (s1 & o1 & E1 & K). rewrite E1. cbn [rbind fst snd].
      destruct a as [ws|ws|ws|f|k|k|ws]; try discriminate; destruct K as (K1 & K2);
        destruct (IH s1 _ K1 F2) as (s' & o & E & R); rewrite E; cbn [rbind fst snd];
        exists s', (o1 :: o); (split; [reflexivity|]); constructor; auto; subst; intros v Hv; discriminate.
  Qed.

  Theorem api_coherent : forall l h0 d0, forallb (fun a => negb (is_run_ref a)) l = true ->
    exists s o, api_run false l (mkC not_init h0 d0) = Ok (s, o) /\ Forall2 read_ok (reads l (fun _ : Z => @None V)) o.
  Proof. intros l h0 d0 F. apply api_run_ok; [|exact F]. split; intros _ k v Hk; discriminate. Qed.
End P.
