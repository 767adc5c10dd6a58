(* utils/bin/gen_layouts.pl: the generated Layout_<perm> classes, and
   src/kernel/lib/generic_var.hpp:414-440 get_strides.
   A permutation is the list of 0-based dims, the last one having unit stride (@pm1, :136).
   Simplification: idx_t is an unbounded integer. *)
From Verif Require Import Base.

Definition dget (l : list Z) (k : nat) : Z := nth k l 0.

Fixpoint set_nth (k : nat) (v : Z) (l : list Z) : list Z :=
  match k, l with
  | _, [] => []
  | O, _ :: r => v :: r
  | S k', x :: r => x :: set_nth k' v r
  end.

(* makeLayout, gen_layouts.pl:66-80: j_i * product of the sizes listed after it, summed. *)
Fixpoint gl_layout (p : list nat) (sizes j : list Z) : Z :=
  match p with
  | [] => 0
  | k :: p' => dget j k * zprod (map (dget sizes) p') + gl_layout p' sizes j
  end.

(* makeUnlayout, gen_layouts.pl:83-101.  [first] = the '$i > 0' test on the modulo. *)
Fixpoint gl_unlayout_from (first : bool) (p : list nat) (sizes : list Z) (ai : Z) (j : list Z) : list Z :=
  match p with
  | [] => j
  | k :: p' =>
      let q := match p' with [] => ai | _ => Z.quot ai (zprod (map (dget sizes) p')) end in
      let v := if first then q else Z.rem q (dget sizes k) in
      gl_unlayout_from false p' sizes ai (set_nth k v j)
  end.
(* gen_layouts.pl:163-167: 'Indices j(_sizes); ...; return j;' *)
Definition gl_unlayout (p : list nat) (sizes : list Z) (ai : Z) : list Z :=
  gl_unlayout_from true p sizes ai sizes.

(* generic_var.hpp:414-440: stride of dim k = index(unit vector) - index(origin). *)
Definition gl_stride (p : list nat) (sizes : list Z) (k : nat) : Z :=
  let origin := map (fun _ => 0) sizes in
  gl_layout p sizes (set_nth k 1 origin) - gl_layout p sizes origin.
