(* src/common/idiv.hpp lines 55-86, and the rounding macros of
   src/common/common_utils.hpp lines 89-91.
   C++ '/' and '%' on signed integers truncate: Z.quot and Z.rem.
   Simplification: integers are unbounded (no overflow of a + b - 1 etc.);
   the host_assert(b) precondition is b <> 0. *)
From Verif Require Import Base.

(* a >> (sizeof(a)*8-1): arithmetic shift of a signed value: -1 if negative, else 0.
   idiv.hpp:60, :84 *)
Definition sign_shift (a : Z) : Z := if a <? 0 then -1 else 0.

(* idiv.hpp:55-61 *)
Definition idiv_flr (a b : Z) : Z := Z.quot (a + sign_shift a * (b - 1)) b.

(* idiv.hpp:63-67 *)
Definition ceil_idiv_flr (a b : Z) : Z := idiv_flr (a + b - 1) b.

(* idiv.hpp:69-73 *)
Definition round_up_flr (a b : Z) : Z := ceil_idiv_flr a b * b.

(* idiv.hpp:75-79 *)
Definition round_down_flr (a b : Z) : Z := idiv_flr a b * b.

(* idiv.hpp:81-88 *)
Definition imod_flr (a b : Z) : Z :=
  let c := Z.rem a b in c - sign_shift c * b.

(* common_utils.hpp:89-91 *)
Definition CEIL_DIV (n d : Z) : Z := Z.quot (n + d - 1) d.
Definition ROUND_UP (n m : Z) : Z := CEIL_DIV n m * m.
Definition ROUND_DOWN (n m : Z) : Z := Z.quot n m * m.
