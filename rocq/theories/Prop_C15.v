(* C15: a shared-memory halo buffer is handed over safely. *)
From Verif Require Import Base Lock_Model Lock_Proofs.

(* For every interleaving of the two ranks and every list of messages (any lengths): the consumer never reads
   an unwritten element, the buffer is never written while it is read, and the messages received so far are
   exactly the first messages sent, in order, each once; the producer is at most one message ahead. *)
Theorem C15_handover : forall V (msgs : list (list V)) sched,
  exists s, l_run sched (l_init msgs) = Ok s /\ writing s && reading s = false /\
    (exists k, got s = firstn k msgs /\
       (length (got s) <= length msgs - length (todo s) <= S (length (got s)))%nat).
Proof. exact @lock_safe. Qed.
Print Assumptions C15_handover.

(* One of the two waiting conditions always holds, and once everything is sent and consumed, everything has arrived. *)
Theorem C15_no_deadlock : forall V (msgs : list (list V)) sched s, l_run sched (l_init msgs) = Ok s ->
  (wcount s = rcount s \/ wcount s = rcount s + 1) /\ (todo s = [] -> wcount s = rcount s -> got s = msgs).
Proof. exact @lock_no_deadlock. Qed.
Print Assumptions C15_no_deadlock.

(* From every reachable state all messages can still be delivered. *)
Theorem C15_can_finish : forall V (msgs : list (list V)) sched s, l_run sched (l_init msgs) = Ok s ->
  exists sched' s', l_run sched' s = Ok s' /\ got s' = msgs.
Proof. exact @lock_can_finish. Qed.
Print Assumptions C15_can_finish.

(* Two messages (one empty), consumer spinning first. *)
Example C15_example :
  exists s, l_run ([false; false; false] ++ repeat true 8 ++ repeat false 12 ++ repeat true 8 ++ repeat false 8)
                  (l_init [[7; 8]; []]) = Ok s /\ got s = [[7; 8]; []].
Proof. eexists. split; [vm_compute; reflexivity|reflexivity]. Qed.
