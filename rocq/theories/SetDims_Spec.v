(* Which dims a solution has, independent of how they are collected. *)
From Coq Require Import String.
From Verif Require Import Base Tuple_Model Factors_Spec SetDims_Model.
Open Scope string_scope.
Open Scope list_scope.
Open Scope Z_scope.

(* some var has dim [d] of kind [k] *)
Definition uses (vars : list dvar) (k : ikind) (d : string) : Prop :=
  exists v, In v vars /\ In (d, k) (dv_dims v).

Definition step_name (vars : list dvar) (cs : csettings) (d : string) : Prop :=
  d <> "" /\ d = cs_step cs \/ uses vars KStep d.
Definition domain_name (vars : list dvar) (cs : csettings) (d : string) : Prop :=
  In d (cs_domain cs) \/ uses vars KDomain d.
Definition misc_name (vars : list dvar) (d : string) : Prop := uses vars KMisc d.

(* index names are not empty *)
Definition named (vars : list dvar) (cs : csettings) : Prop :=
  (forall k d, uses vars k d -> d <> "") /\ ~ In "" (cs_domain cs).

(* exactly one step dim, at least one domain dim, no scratch var with a step dim *)
Definition legal (vars : list dvar) (cs : csettings) : Prop :=
  (exists t, step_name vars cs t /\ forall t', step_name vars cs t' -> t' = t) /\
  (exists d, domain_name vars cs d) /\
  (forall v d, In v vars -> dv_scratch v = true -> ~ In (d, KStep) (dv_dims v)).

(* no name is used for two kinds of dims *)
Definition one_kind (vars : list dvar) (cs : csettings) : Prop :=
  (forall d, step_name vars cs d -> ~ domain_name vars cs d) /\
  (forall d, step_name vars cs d -> ~ misc_name vars d) /\
  (forall d, domain_name vars cs d -> ~ misc_name vars d).

(* [l] holds each string of [m] once, in the order of the first mentions *)
Definition first_seen (m : list string) (a b : string) : Prop :=
  exists m1 m2, m = m1 ++ a :: m2 /\ ~ In b m1 /\ ~ In b [a].
Definition before {A} (l : list A) (a b : A) : Prop := exists l1 l2 l3, l = l1 ++ a :: l2 ++ b :: l3.
Definition in_first_order (m l : list string) : Prop :=
  NoDup l /\ (forall d, In d l <-> In d m) /\ forall a b, before l a b -> first_seen m a b.

(* the domain dims as mentioned: in the settings, then in the vars *)
Definition mentions (vars : list dvar) (cs : csettings) : list string :=
  cs_domain cs ++
  map fst (filter (fun i => match snd i with KDomain => true | _ => false end) (concat (map dv_dims vars))).

(* the size asked for in a dim; 0 = none *)
Definition asked (cs : csettings) (d : string) : Z :=
  match lookup (cs_fold cs) d with Some n => if 1 <=? n then n else 0 | None => 0 end.

(* the number of elements when nothing is added to what was asked for *)
Definition asked_size (cs : csettings) (dd : list string) : Z := zprod (map (fun d => Z.max 1 (asked cs d)) dd).

(* sizes, one for each dim of [dd], that make [vlen] elements and are the ones asked for where some were *)
Definition completes (cs : csettings) (dd : list string) (vlen : Z) (f : list Z) : Prop :=
  factorisation vlen (List.length dd) f /\ keeps (map (asked cs) dd) f.

(* the size in one dim *)
Definition size_in (dd : list string) (f : list Z) (d : string) (n : Z) : Prop :=
  exists i, nth_error dd i = Some d /\ nth_error f i = Some n.

(* largest size is as small as possible, where only the dims other than [il] count *)
Definition others_le (dd : list string) (il : string) (f : list Z) (m : Z) : Prop :=
  forall d n, size_in dd f d n -> d <> il -> n <= m.

(* the dim next to the inner-most one: last but one, or the only one *)
Definition next_to_last (dd : list string) (d : string) : Prop :=
  (exists a b, dd = a ++ [d; b]) \/ dd = [d].
Definition is_last (dd : list string) (d : string) : Prop := exists a, dd = a ++ [d].
Definition is_first (dd : list string) (d : string) : Prop := exists a, dd = d :: a.

(* which dim the setting of the inner-loop dim asks for: by name if there is such a dim, by number counted
   from 1 and brought into range, otherwise the last one *)
Definition inner_choice (dd : list string) (o : ilopt) (il : string) : Prop :=
  match o with
  | ILnone => is_last dd il
  | ILnum n => nth_error dd (Z.to_nat (Z.min (Z.max n 1) (Z.of_nat (List.length dd)) - 1)) = Some il
  | ILname s => In s dd /\ il = s \/ ~ In s dd /\ is_last dd il
  end.

(* the order of dims in memory; [small]: one element per vector *)
Definition good_layout (step : string) (dd misc : list string) (inner_misc outer small : bool) (lay : list string) : Prop :=
  Permutation lay (step :: dd ++ misc) /\
  (forall a b, before dd a b -> before lay a b) /\
  (forall a b, before misc a b -> before lay a b) /\
  (forall d, is_last dd d -> small = true -> is_last lay d) /\
  (forall d, is_first dd d -> outer = true -> (small = true -> ~ is_last dd d) -> is_first lay d) /\
  (forall d, In d dd -> (outer = true -> ~ is_first dd d) -> before lay step d) /\
  (forall m, In m misc -> if inner_misc then before lay step m else before lay m step) /\
  (forall m d, In m misc -> In d dd ->
     if inner_misc then (small = true -> ~ is_last dd d) -> before lay d m
     else (outer = true -> ~ is_first dd d) -> before lay m d).
