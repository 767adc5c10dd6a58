(* Shared-memory halo buffer guarded by a SimpleLock.
   src/kernel/lib/utils.hpp:43-137 (SimpleLock), src/kernel/lib/halo.cpp:246-321 (producer, the
   halo_pack_isend step with shm) and 345-436 (consumer, the halo_unpack step with shm).
   Every load or store of a shared location is one atomic step; steps of the two ranks interleave
   arbitrarily (sequential consistency is assumed; the code relies on volatile).  Packing and
   unpacking are done one buffer element per step.  `val++` is a load step and a store step. *)
From Verif Require Import Base.

Section Lock.
  Context {V : Type}.

  (* utils.hpp:61 *)
  Definition ival : Z := 1000.

  Inductive ppc :=
  | PLoadW                     (* wait_for_ok_to_write, load _write_count.val *)
  | PLoadR (w : Z)             (* load _read_count.val and compare, utils.hpp:107-117 *)
  | PPack (i : nat)            (* store element i of the message, halo.cpp:273-297 *)
  | PSize                      (* set_data(npbytes), halo.cpp:319 *)
  | PIncL                      (* mark_write_done: load, utils.hpp:120-124, halo.cpp:320 *)
  | PIncS (w : Z).             (* mark_write_done: store *)

  Inductive cpc :=
  | CLoadW                     (* wait_for_ok_to_read, load _write_count.val *)
  | CLoadR (w : Z)             (* load _read_count.val and compare, utils.hpp:85-97 *)
  | CSize                      (* get_data(), halo.cpp:352 *)
  | CUnpack (i n : nat) (acc : list V)  (* load element i, halo.cpp:402-425 *)
  | CIncL (acc : list V)       (* mark_read_done: load, utils.hpp:100-104, halo.cpp:434-435 *)
  | CIncS (r : Z) (acc : list V).

  Record lstate := mkL {
    wcount : Z; rcount : Z;    (* _write_count.val, _read_count.val *)
    dsize : nat;               (* _data.val, in elements *)
    buf : nat -> option V;     (* None: never written *)
    prod : ppc; todo : list (list V);     (* messages still to be sent, the first one in progress *)
    cons_pc : cpc; got : list (list V)    (* messages received, oldest first *)
  }.

  (* init(), utils.hpp:78-82 *)
  Definition l_init (msgs : list (list V)) : lstate :=
    mkL ival ival 0 (fun _ => None) PLoadW msgs CLoadW [].

  (* One step of the producer; no message left: it does nothing. *)
  Definition step_p (s : lstate) : lstate :=
    match todo s with
    | [] => s
    | m :: rest =>
      match prod s with
      | PLoadW => mkL (wcount s) (rcount s) (dsize s) (buf s) (PLoadR (wcount s)) (todo s) (cons_pc s) (got s)
      | PLoadR w => mkL (wcount s) (rcount s) (dsize s) (buf s)
                        (if w =? rcount s then PPack 0 else PLoadW) (todo s) (cons_pc s) (got s)
      | PPack i =>
          match nth_error m i with
          | Some v => mkL (wcount s) (rcount s) (dsize s) (fun k => if Nat.eqb k i then Some v else buf s k)
                          (PPack (S i)) (todo s) (cons_pc s) (got s)
          | None => mkL (wcount s) (rcount s) (dsize s) (buf s) PSize (todo s) (cons_pc s) (got s)
          end
      | PSize => mkL (wcount s) (rcount s) (length m) (buf s) PIncL (todo s) (cons_pc s) (got s)
      | PIncL => mkL (wcount s) (rcount s) (dsize s) (buf s) (PIncS (wcount s)) (todo s) (cons_pc s) (got s)
      | PIncS w => mkL (w + 1) (rcount s) (dsize s) (buf s) PLoadW rest (cons_pc s) (got s)
      end
    end.

  (* One step of the consumer.  Reading a never-written element is UB. *)
  Definition step_c (s : lstate) : res lstate :=
    match cons_pc s with
    | CLoadW => Ok (mkL (wcount s) (rcount s) (dsize s) (buf s) (prod s) (todo s) (CLoadR (wcount s)) (got s))
    | CLoadR w => Ok (mkL (wcount s) (rcount s) (dsize s) (buf s) (prod s) (todo s)
                          (if negb (w =? rcount s) then CSize else CLoadW) (got s))
    | CSize => Ok (mkL (wcount s) (rcount s) (dsize s) (buf s) (prod s) (todo s) (CUnpack 0 (dsize s) []) (got s))
    | CUnpack i n acc =>
        if Nat.ltb i n then
          match buf s i with
          | Some v => Ok (mkL (wcount s) (rcount s) (dsize s) (buf s) (prod s) (todo s) (CUnpack (S i) n (acc ++ [v])) (got s))
          | None => UB
          end
        else Ok (mkL (wcount s) (rcount s) (dsize s) (buf s) (prod s) (todo s) (CIncL acc) (got s))
    | CIncL acc => Ok (mkL (wcount s) (rcount s) (dsize s) (buf s) (prod s) (todo s) (CIncS (rcount s) acc) (got s))
    | CIncS r acc => Ok (mkL (wcount s) (r + 1) (dsize s) (buf s) (prod s) (todo s) CLoadW (got s ++ [acc]))
    end.

  (* An interleaving: true = producer step, false = consumer step. *)
  Fixpoint l_run (sched : list bool) (s : lstate) : res lstate :=
    match sched with
    | [] => Ok s
    | true :: r => l_run r (step_p s)
    | false :: r => rbind (step_c s) (l_run r)
    end.

  (* The producer is touching the buffer / the consumer is reading it. *)
  Definition writing (s : lstate) : bool :=
    match prod s with PPack _ | PSize => true | _ => false end.
  Definition reading (s : lstate) : bool :=
    match cons_pc s with CSize | CUnpack _ _ _ => true | _ => false end.
End Lock.
