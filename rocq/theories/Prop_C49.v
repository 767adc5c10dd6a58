(* C49: elapsed time is the sum of the measured intervals since the last clear. *)
From Verif Require Import Base Timer_Model Timer_Spec Timer_Proofs.

Theorem C49_elapsed : forall evs, proper false evs ->
  timer_get_elapsed (fst (timer_run evs timer_new)) = total evs.
Proof. exact timer_elapsed. Qed.
Print Assumptions C49_elapsed.

Theorem C49_get_anywhere : forall evs1 evs2, proper false (evs1 ++ EGet :: evs2) ->
  exists o1 o2, snd (timer_run (evs1 ++ EGet :: evs2) timer_new) = o1 ++ total evs1 :: o2 /\
                length o1 = length (snd (timer_run evs1 timer_new)).
Proof. exact timer_get_anywhere. Qed.
Print Assumptions C49_get_anywhere.

Theorem C49_stop_value : forall evs b ts, proper false (evs ++ [EStop ts]) ->
  fst (intervals None [] evs) = Some b ->
  snd (timer_stop ts (fst (timer_run evs timer_new))) = duration (b, ts) /\
  timer_since_start ts (fst (timer_run evs timer_new)) = duration (b, ts).
Proof. exact timer_stop_value. Qed.
Print Assumptions C49_stop_value.

Theorem C49_queries_harmless : forall evs t,
  fst (timer_run evs t) = fst (timer_run (filter (fun e => negb (is_query e)) evs) t).
Proof. exact timer_queries_harmless. Qed.
Print Assumptions C49_queries_harmless.

(* Two intervals after a clear, the second one crossing a second boundary: 3 s + 0.2 s. *)
Example C49_example :
  let evs := [EStart (mkTs 1 0); EStop (mkTs 2 0); EClear; EStart (mkTs 5 500000000); EGet; EStop (mkTs 8 500000000);
              EStart (mkTs 9 900000000); ESince (mkTs 10 0); EStop (mkTs 10 100000000)] in
  proper false evs /\ total evs = 3200000000 /\
  snd (timer_run evs timer_new) = [1000000000; 0; 3000000000; 100000000; 200000000].
Proof. cbn [proper]. repeat split. Qed.
