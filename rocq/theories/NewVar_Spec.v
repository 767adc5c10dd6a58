(* What creating a var should do; yk_solution_api.hpp:945-1075. *)
From Coq Require Import String.
From Verif Require Import Base Resize_Model NewVar_Model.

(* A solution as the compiler and earlier calls make it: dims of different kinds differ, only domain dims are folded,
   the stencil's vars have known and different dims. *)
Record soln_ok (c : soln) : Prop := {
  so_step_dom : ~ In (s_step c) (s_domain c);
  so_step_misc : ~ In (s_step c) (s_misc c);
  so_dom_misc : forall d, In d (s_domain c) -> ~ In d (s_misc c);
  so_dom_nodup : NoDup (s_domain c);
  so_misc_nodup : NoDup (s_misc c);
  so_fold : forall d, 1 <= s_fold c d /\ (~ In d (s_domain c) -> s_fold c d = 1);
  so_rank : forall d, 0 <= s_rank c d;
  so_stencil : forall ds b, In (ds, b) (s_stencil c) -> NoDup ds /\
    forall d, In d ds -> d = s_step c \/ In d (s_domain c) \/ In d (s_misc c) }.

(* A request that is to be granted: a new name, one size per dim, and dims as in a var of the stencil or, if new kinds
   of vars are allowed, not too many of them with the step dim first. *)
Definition valid (c : soln) (name : string) (ds : list string) (sizes : option (list Z)) : Prop :=
  (forall v, In v (s_vars c) -> u_name v <> name) /\
  (forall l, sizes = Some l -> length l = length ds) /\
  ((exists b, In (ds, b) (s_stencil c)) \/
   (s_allow c = true /\ Z.of_nat (length ds) <= s_max c /\ forall i, nth_error ds i = Some (s_step c) -> i = O)).

(* One dim of the new var: its kind, its size and the room around it. *)
Definition dim_made (c : soln) (sizes : option (list Z)) (i : nat) (d : string) (k : rdim) : Prop :=
  (r_step k = true <-> d = s_step c) /\ (r_domain k = true <-> In d (s_domain c)) /\
  (forall l n, sizes = Some l -> nth_error l i = Some n -> r_dom k = n) /\
  (sizes = None -> (In d (s_domain c) -> r_dom k = s_rank c d) /\ (~ In d (s_domain c) -> r_dom k = 0)) /\
  (In d (s_domain c) -> s_extra c d <= r_lpad k /\ s_extra c d <= r_rpad k /\ s_min c d <= r_lpad k /\ s_min c d <= r_rpad k /\
                        0 <= r_lpad k /\ 0 <= r_rpad k /\ r_alloc k = r_lpad k + r_dom k + r_rpad k) /\
  (~ In d (s_domain c) -> r_alloc k = r_dom k).

(* The new var, laid out like the var of the stencil with the same dims or else not folded, and the solution afterwards. *)
Definition created (c : soln) (name : string) (ds : list string) (sizes : option (list Z)) (v : uvar) (c' : soln) : Prop :=
  u_name v = name /\ u_dims v = ds /\ u_user v = true /\ (u_fixed v = true <-> sizes <> None) /\
  length (rv_dims (u_core v)) = length ds /\
  (forall i d, nth_error ds i = Some d -> exists k, nth_error (rv_dims (u_core v)) i = Some k /\ dim_made c sizes i d k) /\
  (exists folded, (In (ds, folded) (s_stencil c) \/ folded = false /\ forall b, ~ In (ds, b) (s_stencil c)) /\
     forall i d k, nth_error ds i = Some d -> nth_error (rv_dims (u_core v)) i = Some k ->
       r_svl k = s_fold c d /\ r_vvl k = if folded then s_fold c d else 1) /\
  s_vars c' = s_vars c ++ [v] /\ s_step c' = s_step c /\ s_domain c' = s_domain c /\
  (exists new, s_misc c' = s_misc c ++ new /\
     forall d, In d new <-> In d ds /\ d <> s_step c /\ ~ In d (s_domain c) /\ ~ In d (s_misc c)).
