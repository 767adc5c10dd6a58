(* C48: option parsing consumes exactly the option's tokens, the last setting wins, and the rest is returned. *)
From Coq Require Import Ascii String.
From Verif Require Import Base Cmd_Model Cmd_Spec Cmd_Proofs Parse_Proofs.
Open Scope list_scope.

(* Whatever options are declared: when parsing succeeds, the tokens split into settings, each consisting of an option's
   own tokens with the value they spell, and unused tokens that belong to no option; the remainder joins the unused
   tokens in order; and each option ends up with its last setting, or unchanged if it has none. *)
Theorem C48_parse : forall (D : Type) (double_of : str -> option D) opts args e e' rem,
  parse_args double_of opts args e = Ok (e', rem) ->
  exists cs, explains double_of opts args cs /\ rem = join (unused cs) /\ forall n, e' n = setting_of n cs (e n).
Proof. exact @parse_args_sound. Qed.
Print Assumptions C48_parse.

(* Conversely, when no token belongs to two options, every splittable command line is parsed that way, and the only
   failure is an exception on a command line that cannot be split (missing or invalid argument). *)
Theorem C48_accepts : forall (D : Type) (double_of : str -> option D) opts args e, unambiguous opts ->
  (forall cs, explains double_of opts args cs ->
     exists e', parse_args double_of opts args e = Ok (e', join (unused cs)) /\ forall n, e' n = setting_of n cs (e n)) /\
  ((forall cs, ~ explains double_of opts args cs) -> parse_args double_of opts args e = Throw).
Proof. exact @parse_args_complete. Qed.
Print Assumptions C48_accepts.

Theorem C48_last_wins : forall (D : Type) (cs1 cs2 : list (@chunk D)) n v toks v0,
  (forall m w t, In (Setting m w t) cs2 -> m <> n) ->
  setting_of n (cs1 ++ Setting n v toks :: cs2) v0 = Some v.
Proof. exact @last_wins. Qed.
Print Assumptions C48_last_wins.

(* An int option is read as a 64-bit number and then narrowed without a check: an accepted command line can set a value
   other than the number given. *)
Theorem C48_int_value_refuted : exists a z, idx_of a = Some z /\ exists v, v <> z /\
  forall (D : Type) (double_of : str -> option D) n e, exists e',
  parse_args double_of [mkOpt n KInt] [dash n; a] e = Ok (e', []) /\ e' n = Some (VInt v).
Proof. exact int_truncated. Qed.
Print Assumptions C48_int_value_refuted.

Definition C48_opts : list opt := [mkOpt (s2l "b") KBool; mkOpt (s2l "g") KIdx; mkOpt (s2l "h") KIdx; mkOpt (s2l "l") (KList []); mkOpt (s2l "s") KStr].
Definition C48_args : list str := [s2l "-b"; s2l "x"; s2l "-g"; s2l "0x10"; s2l "-no-b"; s2l "-s"; s2l "-g"; s2l "-g"; s2l "-7"; s2l "-h"; s2l "0x1f"; s2l "-zz"; s2l "-l"; s2l "a,,b,"].
Example C48_example : unambiguous C48_opts /\
  exists e', parse_args (fun _ => None : option unit) C48_opts C48_args (fun _ => None) = Ok (e', s2l "x -zz") /\
    e' (s2l "b") = Some (VBool false) /\ e' (s2l "g") = Some (VIdx (-7)) /\ e' (s2l "s") = Some (VStr (s2l "-g")) /\
    e' (s2l "h") = Some (VIdx 31) /\ e' (s2l "l") = Some (VList [s2l "a"; []; s2l "b"]).
Proof.
  split.
  - unfold unambiguous. cbn. repeat (constructor; [cbn; intuition discriminate|]). constructor.
  - eexists. split; [reflexivity|]. repeat split.
Qed.
