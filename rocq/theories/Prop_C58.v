(* C58: The rolling vector buffers of the inner loop do not change what is computed. *)
From Verif Require Import Base Buf_Model Buf_Spec Buf_Proofs Buf_Examples.
Open Scope Z_scope.

(* The code generated for the inner loop of a part, run for any number of vectors, has the effect of the
   plain loop, in which every equation reads memory: whatever the fold length, the shortest buffer wanted,
   early loads and reuse of local vectors.  No buffer entry is used before it is set, none outside of its
   array, and every vector loaded lies between vectors that some index of the loop reads with the same
   other args.  The conditions are those of a part: nothing that an equation reads is written by an
   equation before it at the same index, and no vector of a var read at several offsets in the inner-loop
   dim was written at an earlier index. *)
Theorem C58_loop : forall (V : Type) (loc : nat -> Z -> Z) (f : nat -> V -> list V -> V)
    (c : bcfg) (reads : list vpt) (eqs : list (nat * list vpt)) (b : Z) (n : nat) (mem : Z -> V),
  0 < c_fold c -> aligned (c_fold c) reads -> all_listed reads eqs ->
  independent loc (c_fold c) eqs b (Z.of_nat n) ->
  not_carried loc (c_fold c) reads eqs b (Z.of_nat n) ->
  (0 < n)%nat ->
  exists log,
    run_code loc f (fun e => fst (nth e eqs (O, []))) c (loop_code c reads eqs) b n mem
      = Ok (plain_loop loc f (c_fold c) n b eqs mem, log) /\
    (forall x, In x log -> in_reach (c_fold c) reads b (Z.of_nat n) x).
Proof. exact buf_loop. Qed.
Print Assumptions C58_loop.

(* So the settings that only choose between buffers and loads never change a result. *)
Theorem C58_settings_agree : forall (V : Type) (loc : nat -> Z -> Z) (f : nat -> V -> list V -> V)
    (F : Z) (min1 min2 : Z) (early1 early2 reuse1 reuse2 : bool)
    (reads : list vpt) (eqs : list (nat * list vpt)) (b : Z) (n : nat) (mem : Z -> V),
  0 < F -> aligned F reads -> all_listed reads eqs ->
  independent loc F eqs b (Z.of_nat n) -> not_carried loc F reads eqs b (Z.of_nat n) -> (0 < n)%nat ->
  let c1 := mkB F min1 early1 reuse1 in
  let c2 := mkB F min2 early2 reuse2 in
  exists m log1 log2,
    run_code loc f (fun e => fst (nth e eqs (O, []))) c1 (loop_code c1 reads eqs) b n mem = Ok (m, log1) /\
    run_code loc f (fun e => fst (nth e eqs (O, []))) c2 (loop_code c2 reads eqs) b n mem = Ok (m, log2).
Proof. exact buf_settings. Qed.
Print Assumptions C58_settings_agree.

(* Five vectors of a part that reads one var at offsets -1 to 2: the conditions hold, the buffer keeps
   three vectors, and 3 + 5 vectors of that var are loaded instead of 20. *)
Example C58_ex :
  aligned 4 ex_reads /\ all_listed ex_reads ex_eqs /\
  independent ex_loc 4 ex_eqs 10 5 /\ not_carried ex_loc 4 ex_reads ex_eqs 10 5 /\
  s_len (point_stats ex_cfg ex_reads) 0 = Some 3 /\
  match run_code ex_loc ex_f (fun e => fst (nth e ex_eqs (O, []))) ex_cfg (loop_code ex_cfg ex_reads ex_eqs)
          10 5 ex_mem with
  | Ok (m, log) =>
      length (filter (fun x => (fst x =? 0)%nat) log) = 8%nat /\
      map (fun i => m (ex_loc 2 i)) [9; 10; 11; 14; 15] = [209 * 209; (81 * 3 + 100) * 3 + 144; 1432; 2365; 215 * 215] /\
      m (ex_loc 3 12) = (3 * 1 + 112 * 112) * 3 + 13 * 13
  | _ => False
  end.
Proof.
  split; [exact ex_aligned|]. split; [exact ex_listed|]. split; [exact ex_independent|].
  split; [exact ex_not_carried|]. vm_compute. repeat split.
Qed.
