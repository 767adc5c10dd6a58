(* Which histories of API calls and runs keep the halos of a var up to date. *)
From Verif Require Import Base Rank_Model Exchange_Model Exchange_Spec Dirty_Model.

Section Spec.
  Variable S : xset.
  Variable ranks : list xrank.
  Variable v : xvar.
  Variable Val : Type.
  Notation point := (list Z).

  (* at most one step dim *)
  Definition one_step : Prop := (length (filter (fun d => match d with XStep _ => true | _ => false end) (v_dims v)) <= 1)%nat.
  (* how far halos of the var are exchanged *)
  Definition dist : Z := if 0 <? s_wf S then Z.of_nat (j_nd (s_job S)) else v_l1 v.
  (* the point is read by rank a and owned by another rank b from which a gets halos *)
  Definition halo_of (a b : xrank) (q : point) : Prop :=
    In a ranks /\ In b ranks /\ next_to dist a b /\ owns v b q /\ in_halo (shift_pts S a) v a q /\ ~ owns v a q.
  (* the values written by a list of writes into the storage of point q *)
  Definition written (q : point) (w : list (point * Val)) : list Val :=
    map snd (filter (fun e => if list_eq_dec Z.eq_dec (at_slot v (fst e)) (at_slot v q) then true else false) w).
  (* A point may have several owners when the var lacks a domain dim: they write the same values. *)
  Definition owners_agree (w : xrank -> list (point * Val)) : Prop :=
    forall a b q, In a ranks -> In b ranks -> owns v a q -> owns v b q -> written q (w a) = written q (w b).

  (* API calls: every rank writes its own points only, and all ranks write slices of the same steps. *)
  Definition api_ok (a : xrank) (c : api Val) : Prop :=
    match c with
    | AElem _ q _ => owns v a q
    | ASlice _ w t1 t2 => Forall (fun e => owns v a (fst e) /\ step_in v (fst e) (zrange t1 (t2 + 1))) w
    end.
  Definition slice_steps (l : list (api Val)) : list (Z * Z) := flat_map (fun c => match c with ASlice _ _ t1 t2 => [(t1, t2)] | _ => [] end) l.
  Definition api_writes (l : list (api Val)) : list (point * Val) := flat_map (fun c => match c with AElem _ q x => [(q, x)] | ASlice _ w _ _ => w end) l.

  (* A stage: the output steps of the calls are among those of the stage; what a rank calculates belongs to it, or it belongs to
     another rank that calculates the same step; what is calculated while messages are under way is in nobody's halo. *)
  Definition marked (g : stage Val) (a : xrank) : list (Z * list (point * Val)) := sg_ext Val g a ++ (if sg_overlap Val g then [] else sg_int Val g a).
  Definition stage_ok (g : stage Val) : Prop :=
    (forall a c e, In a ranks -> In c (sg_ext Val g a ++ sg_int Val g a) -> In e (snd c) -> step_in v (fst e) [fst c]) /\
    (forall a c, In a ranks -> In c (marked g a) -> In (fst c) (sg_outs Val g)) /\
    (forall a c e b, In a ranks -> In c (marked g a) -> In e (snd c) -> In b ranks -> owns v b (fst e) -> owns v a (fst e) \/ exists c', In c' (marked g b) /\ fst c' = fst c) /\
    (sg_overlap Val g = true -> forall a c e, In a ranks -> In c (sg_int Val g a) -> In e (snd c) ->
      owns v a (fst e) /\ forall b, In b ranks -> next_to dist b a -> ~ in_halo (shift_pts S b) v b (fst e)) /\
    owners_agree (fun a => flat_map snd (sg_ext Val g a)) /\ owners_agree (fun a => flat_map snd (sg_int Val g a)).
  Definition op_ok (o : op Val) : Prop :=
    match o with
    | OApi _ w => (forall a, In a ranks -> Forall (api_ok a) (w a)) /\ (forall a b, In a ranks -> In b ranks -> slice_steps (w a) = slice_steps (w b)) /\
        owners_agree (fun a => api_writes (w a))
    | ORun _ sgs => Forall stage_ok sgs
    end.
  (* what the history writes on rank b, in order *)
  Definition stage_writes (b : xrank) (g : stage Val) : list (point * Val) := flat_map snd (sg_ext Val g b) ++ flat_map snd (sg_int Val g b).
  Definition op_writes (b : xrank) (o : op Val) : list (point * Val) :=
    match o with OApi _ w => api_writes (w b) | ORun _ sgs => flat_map (stage_writes b) sgs end.
End Spec.
