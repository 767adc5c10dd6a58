(* Specifications for tokenising and option parsing. *)
From Coq Require Import Ascii String.
From Verif Require Import Base Cmd_Model.
Open Scope Z_scope.
Open Scope list_scope.

(* Arguments that survive: non-empty, no quote characters, and either no white space at all or at least one of the
   characters that trigger quoting. *)
Definition clean (a : str) : Prop :=
  a <> [] /\ ~ In apos a /\ ~ In quot a /\
  ((exists c, In c a /\ In c (s2l " " ++ [ascii_of_nat 9; ascii_of_nat 10; ascii_of_nat 13])) \/
   (forall c, In c a -> ~ In c [ascii_of_nat 32; ascii_of_nat 9; ascii_of_nat 10; ascii_of_nat 11; ascii_of_nat 12; ascii_of_nat 13])).

(* The digits 0-9, a-z and A-Z have the values 0 to 35. *)
Definition digit_is (c : ascii) (d : Z) : Prop :=
  exists n : nat, d = Z.of_nat n /\
    (nth_error (s2l "0123456789abcdefghijklmnopqrstuvwxyz") n = Some c \/ nth_error (s2l "0123456789ABCDEFGHIJKLMNOPQRSTUVWXYZ") n = Some c).
(* Positional value, most significant digit first. *)
Definition pos_value (base : Z) (ds : list Z) : Z :=
  zsum (map (fun i => nth i ds 0 * base ^ Z.of_nat (List.length ds - 1 - i)) (seq 0 (List.length ds))).
Definition number_in (base : Z) (s : str) (z : Z) : Prop :=
  exists ds, Forall2 digit_is s ds /\ Forall (fun d => d < base) ds /\ z = pos_value base ds.
(* C integer literals: 0x1f, 017, 15 *)
Definition unsigned_lit (s : str) (z : Z) : Prop :=
  (exists x r, s = "0"%char :: x :: r /\ In x (s2l "xX") /\ r <> [] /\ number_in 16 r z) \/
  (exists r, s = "0"%char :: r /\ number_in 8 r z) \/
  (exists c r, s = c :: r /\ c <> "0"%char /\ number_in 10 s z).
(* A 64-bit number, with blanks before it and a sign; the two extreme values are refused. *)
Definition idx_lit (s : str) (z : Z) : Prop :=
  - 2 ^ 63 < z < 2 ^ 63 - 1 /\
  exists sp r, s = sp ++ r /\ (forall c, In c sp -> In c (map ascii_of_nat [9; 10; 11; 12; 13; 32]%nat)) /\
    ((exists m, r = "-"%char :: m /\ exists u, unsigned_lit m u /\ z = - u) \/
     (exists m, r = "+"%char :: m /\ unsigned_lit m z) \/ unsigned_lit r z).
(* The items of a comma-separated list: a final comma ends the last item instead of starting another one. *)
Definition comma_list (s : str) (l : list str) : Prop :=
  Forall (fun i => ~ In ","%char i) l /\
  (s = flat_map (fun i => i ++ [","%char]) l \/
   exists i l', l = l' ++ [i] /\ i <> [] /\ s = flat_map (fun i => i ++ [","%char]) l' ++ i).

Section PSpec.
  Context {D : Type}.
  Variable double_of : str -> option D.
  Local Notation opt := opt. Local Notation value := (@value D).

  Definition dash (n : str) : str := "-"%char :: n.
  Definition nodash (n : str) : str := s2l "-no-" ++ n.

  (* the value that argument [a] of an option of kind [k] stands for *)
  Definition spells (k : kind) (a : str) (v : value) : Prop :=
    match k with
    | KBool => False
    | KDouble => a <> [] /\ exists d, double_of a = Some d /\ v = VDouble d
    | KIdx => exists z, idx_lit a z /\ v = VIdx z
    | KInt => exists z i, idx_lit a z /\ v = VInt i /\ - 2 ^ 31 <= i < 2 ^ 31 /\ (2 ^ 32 | z - i)
    | KStr => v = VStr a
    | KList allowed => exists l, comma_list a l /\ v = VList l /\ (allowed = [] \/ incl l allowed)
    end.

  (* tokens that some option reacts to *)
  Definition triggers (o : opt) : list str :=
    match o_kind o with KBool => [dash (o_name o); nodash (o_name o)] | _ => [dash (o_name o)] end.
  (* no token is ambiguous *)
  Definition unambiguous (opts : list opt) : Prop := NoDup (flat_map triggers opts).

  (* One recognised setting or one unused token, with the tokens it spans. *)
  Inductive chunk := Setting (n : str) (v : value) (toks : list str) | Unused (t : str).

  Definition chunk_ok (opts : list opt) (c : chunk) : Prop :=
    match c with
    | Setting n v toks => exists o, In o opts /\ o_name o = n /\
        match o_kind o with
        | KBool => (v = VBool true /\ toks = [dash n]) \/ (v = VBool false /\ toks = [nodash n])
        | k => exists a, toks = [dash n; a] /\ spells k a v
        end
    | Unused t => ~ In t (flat_map triggers opts)
    end.
  Definition chunk_toks (c : chunk) : list str := match c with Setting _ _ toks => toks | Unused t => [t] end.
  Definition unused (cs : list chunk) : list str := flat_map (fun c => match c with Unused t => [t] | _ => [] end) cs.

  (* the value of option n after the settings in order: the last one wins *)
  Fixpoint setting_of (n : str) (cs : list chunk) (v0 : option value) : option value :=
    match cs with
    | [] => v0
    | Setting m v _ :: r => setting_of n r (if list_eq_dec ascii_dec n m then Some v else v0)
    | Unused _ :: r => setting_of n r v0
    end.

  (* [cs] explains the whole command line *)
  Definition explains (opts : list opt) (args : list str) (cs : list chunk) : Prop :=
    args = flat_map chunk_toks cs /\ Forall (chunk_ok opts) cs.
End PSpec.
