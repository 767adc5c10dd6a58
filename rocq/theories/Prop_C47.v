(* C47: joining arguments with the quoting helper and splitting them with the tokeniser. *)
From Coq Require Import Ascii String.
From Verif Require Import Base Cmd_Model Cmd_Spec Cmd_Proofs Parse_Proofs.
Open Scope list_scope.

(* The full property is
     forall args, set_args (join args) = Ok args.
   It holds for the arguments described by [clean]; what is missing is every other argument, for which it is false
   (C47_exact). *)
Theorem C47_round_trip_partial : forall args, Forall clean args -> set_args (join args) = Ok args.
Proof. exact tokens_round_trip. Qed.
Print Assumptions C47_round_trip_partial.

(* The condition is exact for a single argument. *)
Theorem C47_exact : forall a, set_args (quote_whitespace a) = Ok [a] <-> clean a.
Proof. exact round_trip_exact. Qed.
Print Assumptions C47_exact.

(* Unrecognised arguments come back unchanged and in order. *)
Theorem C47_remainder_partial : forall (D : Type) (double_of : str -> option D) opts args e e' rem,
  parse_args double_of opts args e = Ok (e', rem) -> Forall clean args ->
  exists cs, explains double_of opts args cs /\ set_args rem = Ok (unused cs).
Proof. exact @remainder_tokens. Qed.
Print Assumptions C47_remainder_partial.

Definition C47_l : list str := [s2l "-opt"; s2l "two words"; s2l "C:\dir"; s2l "x"].
Example C47_example : Forall clean C47_l /\ join C47_l = s2l "-opt ""two words"" C:\dir x" /\ set_args (join C47_l) = Ok C47_l.
Proof.
  split; [|split; reflexivity]. unfold C47_l.
  assert (P : forall a, a <> [] -> forallb (fun c => negb (Ascii.eqb c apos || Ascii.eqb c quot || is_space c)) a = true -> clean a).
  { intros a Ha F. rewrite forallb_forall in F. split; [exact Ha|]. split; [intros I; specialize (F _ I); discriminate|]. split; [intros I; specialize (F _ I); discriminate|].
    right. intros c Ic J. specialize (F c Ic). cbn in J. intuition (subst; discriminate). }
  constructor; [apply P; [discriminate|reflexivity]|]. constructor.
  - split; [discriminate|]. split; [cbn; intuition discriminate|]. split; [cbn; intuition discriminate|]. left. exists " "%char. cbn. tauto.
  - constructor; [apply P; [discriminate|reflexivity]|]. constructor; [apply P; [discriminate|reflexivity]|constructor].
Qed.

(* Witness: the helper puts apostrophes around text that has an apostrophe and a blank, and the tokeniser throws. *)
Theorem C47_round_trip_refuted : exists args, set_args (join args) <> Ok args.
Proof. exact join_fails. Qed.
Print Assumptions C47_round_trip_refuted.

(* Kinds of failure: lost argument, changed argument, split argument, exception. *)
Example C47_failures :
  set_args (join [s2l "a"; []; s2l "b"]) = Ok [s2l "a"; s2l "b"] /\
  set_args (join [s2l """q"""]) = Ok [s2l "q"] /\
  set_args (join [[ascii_of_nat 97; ascii_of_nat 11; ascii_of_nat 98]]) = Ok [s2l "a"; s2l "b"] /\
  set_args (join [s2l "it's ok"]) = Throw.
Proof. repeat split; reflexivity. Qed.
