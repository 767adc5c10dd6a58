(* C29: host/device copies never lose an update. *)
From Verif Require Import Base Coherency_Model Coherency_Spec Coherency_Proofs.

(* Every sequence of events that raises no exception: a side not reported as needing an update holds every
   most recent value (so, right after a copy, both do), and the two sides never both need one. *)
Theorem C29_coherent : forall V evs (h0 d0 : Z -> V) s, crun false evs (mkC not_init h0 d0) = Ok s ->
  (need_to_update_host (coh s) = false -> up_to_date (latest evs (fun _ => None)) (host s)) /\
  (need_to_update_dev (coh s) = false -> up_to_date (latest evs (fun _ => None)) (dev s)) /\
  need_to_update_host (coh s) && need_to_update_dev (coh s) = false.
Proof. exact @coherent. Qed.
Print Assumptions C29_coherent.

(* Every sequence of library calls other than run_ref raises no exception and every read, on either side,
   returns the most recent value. *)
Theorem C29_api_reads : forall V l (h0 d0 : Z -> V), forallb (fun a => negb (is_run_ref a)) l = true ->
  exists s o, api_run false l (mkC not_init h0 d0) = Ok (s, o) /\ Forall2 read_ok (reads l (fun _ : Z => @None V)) o.
Proof. exact @api_coherent. Qed.
Print Assumptions C29_api_reads.

(* run_ref evaluates on the host without fetching device data and without recording that the host copy changed:
   a later device-side read returns stale data. *)
Theorem C29_run_ref_refuted : exists (l : list (@api Z)) h0 d0 s o,
  api_run false l (mkC not_init h0 d0) = Ok (s, o) /\ ~ Forall2 read_ok (reads l (fun _ => None)) o.
Proof.
  exists [ASetAll (fun _ => 1); ARun [(0, 2)]; AGetHost 0; ARunRef [(0, 3)]; AGetDev 0], (fun _ => 0), (fun _ => 0).
  eexists. eexists. split; [reflexivity|]. cbn. intros H.
  inversion H as [|? ? ? ? _ H1]; subst. inversion H1 as [|? ? ? ? _ H2]; subst. inversion H2 as [|? ? ? ? _ H3]; subst.
  inversion H3 as [|? ? ? ? _ H4]; subst. inversion H4 as [|? ? ? ? H5 _]; subst. specialize (H5 3 eq_refl). discriminate.
Qed.
Print Assumptions C29_run_ref_refuted.

(* With assertions compiled in, setting all elements always aborts: the state is forced to not_init just before
   mod_both() asserts that it is in_sync. *)
Theorem C29_set_all_assert_refuted : exists (evs : list (@cevent Z)) h0 d0,
  crun true evs (mkC not_init h0 d0) = UB /\ exists s, crun false evs (mkC not_init h0 d0) = Ok s.
Proof. exists [HostWrite [(0, 1)]; CopyToDev; SetAll (fun _ => 7)], (fun _ => 0), (fun _ => 0). split; [reflexivity|eexists; reflexivity]. Qed.
Print Assumptions C29_set_all_assert_refuted.

Example C29_example : exists s,
  crun false [HostWrite [(1, 5)]; CopyToDev; DevWrite [(2, 6)]; CopyToHost; HostWrite [(1, 7)]] (mkC not_init (fun _ => 0) (fun _ => 9)) = Ok s /\
  host s 1 = 7 /\ host s 2 = 6 /\ need_to_update_dev (coh s) = true /\ dev s 1 = 5.
Proof. eexists. split; [reflexivity|]. repeat split. Qed.
