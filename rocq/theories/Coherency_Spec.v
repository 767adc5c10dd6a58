(* The most recent value written to each element, whoever wrote it. *)
From Verif Require Import Base Coherency_Model.

Definition memo V := Z -> option V.
Definition put {V} (ws : list (Z * V)) (m : memo V) : memo V :=
  fold_left (fun m w => fun k => if k =? fst w then Some (snd w) else m k) ws m.

Fixpoint latest {V} (evs : list (@cevent V)) (m : memo V) : memo V :=
  match evs with
  | [] => m
  | HostWrite ws :: r => latest r (put ws m)
  | DevWrite ws :: r => latest r (put ws m)
  | SetAll f :: r => latest r (fun k => Some (f k))
  | _ :: r => latest r m
  end.

(* copy [c] holds every value recorded in [m] *)
Definition up_to_date {V} (m : memo V) (c : Z -> V) : Prop := forall k v, m k = Some v -> c k = v.

(* what the reads of a sequence of API calls should return, given a single copy of the data;
   None where no value has ever been written *)
Fixpoint reads {V} (l : list (@api V)) (m : memo V) : list (option V) :=
  match l with
  | [] => []
  | ASetHost ws :: r | ASetDev ws :: r | ARun ws :: r | ARunRef ws :: r => None :: reads r (put ws m)
  | ASetAll f :: r => None :: reads r (fun k => Some (f k))
  | AGetHost k :: r | AGetDev k :: r => m k :: reads r m
  end.

(* [o] is what was read, [e] what is expected *)
Definition read_ok {V} (e o : option V) : Prop := forall v, e = Some v -> o = Some v.

Definition is_run_ref {V} (a : @api V) : bool := match a with ARunRef _ => true | _ => false end.
