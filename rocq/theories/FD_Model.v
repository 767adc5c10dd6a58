(* src/contrib/coefficients/fd_coeff.cpp:53-101 and src/common/fd_coeff2.cpp:37-73.
   double is modelled by exact rationals (Qc): no rounding, no infinities; 1.0/0.0 is 0 here
   (theorems assume distinct points).  The work array d has dsz entries; access outside is UB. *)
From Coq Require Import QArith Qcanon.
From Verif Require Import Base.
Open Scope Z_scope.

Definition zq (z : Z) : Qc := Q2Qc (inject_Z z).

Section FdCoeff.
  Variables (order num_points : Z) (x_0 : Qc) (points : Z -> Qc).

  Definition m_idx : Z := (order + 1) * num_points.
  Definition n_idx : Z := num_points.
  Definition dsz : Z := m_idx * n_idx.

  Definition dget (d : Z -> Qc) (i : Z) : res Qc := if (0 <=? i) && (i <? dsz) then Ok (d i) else UB.
  Definition dset (d : Z -> Qc) (i : Z) (x : Qc) : res (Z -> Qc) :=
    if (0 <=? i) && (i <? dsz) then Ok (fun k => if k =? i then x else d k) else UB.

  (* lines 62-66 *)
  Definition d_init : Z -> Qc := fun i => if i =? 0 then 1%Qc else 0%Qc.

  (* lines 74-82: body of the m loop inside the v loop *)
  Definition body_vm (n v : Z) (c3 : Qc) (d : Z -> Qc) (m : Z) : res (Z -> Qc) :=
    rbind (dget d (m * m_idx + (n - 1) * n_idx + v)) (fun a =>
    rbind (if 0 <? m then rbind (dget d ((m - 1) * m_idx + (n - 1) * n_idx + v)) (fun b => Ok (zq m * b)%Qc)
           else Ok 0%Qc) (fun s =>
    dset d (m * m_idx + n * n_idx + v) (((points n - x_0) * a - s) * (1 / c3))%Qc)).

  (* lines 71-84: the v loop; state = (c2, d) *)
  Definition body_v (n : Z) (st : Qc * (Z -> Qc)) (v : Z) : res (Qc * (Z -> Qc)) :=
    let c3 := (points n - points v)%Qc in
    rbind (rfold (body_vm n v c3) (zseq (Z.min n order + 1)) (snd st)) (fun d' =>
    Ok ((fst st * c3)%Qc, d')).

  (* lines 85-94 *)
  Definition body_m (n : Z) (c1 c2 : Qc) (d : Z -> Qc) (m : Z) : res (Z -> Qc) :=
    rbind (if 0 <? m then rbind (dget d ((m - 1) * m_idx + (n - 1) * n_idx + (n - 1))) (fun b => Ok (zq m * b)%Qc)
           else Ok 0%Qc) (fun s =>
    rbind (dget d (m * m_idx + (n - 1) * n_idx + n - 1)) (fun a =>
    dset d (m * m_idx + n * n_idx + n) ((s - (points (n - 1) - x_0) * a) * (c1 / c2))%Qc)).

  (* lines 69-96: the n loop; state = (c1, d) *)
  Definition body_n (st : Qc * (Z -> Qc)) (n : Z) : res (Qc * (Z -> Qc)) :=
    rbind (rfold (body_v n) (zseq n) (1%Qc, snd st)) (fun vd =>
    let c2 := fst vd in
    rbind (rfold (body_m n (fst st) c2) (zseq (Z.min n order + 1)) (snd vd)) (fun d' =>
    Ok (c2, d'))).

  (* the whole function; the result is coeff[0 .. num_points-1] *)
  Definition fd_coeff : res (list Qc) :=
    rbind (dset d_init 0 1%Qc) (fun d0 =>
    rbind (rfold body_n (zrange 1 num_points) (1%Qc, d0)) (fun cd =>
    rfold (fun acc i => rbind (dget (snd cd) (order * m_idx + (num_points - 1) * n_idx + i))
                              (fun x => Ok (acc ++ [x])))
          (zseq num_points) [])).
End FdCoeff.

(* fd_coeff2.cpp:37-47 *)
Definition get_arbitrary_fd_coefficients (order : Z) (eval_point : Qc) (pts : list Qc) : res (list Qc) :=
  if order <? 1 then Throw
  else let n := Z.of_nat (length pts) in
       if n <? 2 then Throw
       else fd_coeff order n eval_point (fun i => nth (Z.to_nat i) pts 0%Qc).

(* fd_coeff2.cpp:50-58 *)
Definition get_center_fd_coefficients (order radius : Z) : res (list Qc) :=
  if radius <? 1 then Throw
  else get_arbitrary_fd_coefficients order 0%Qc (map zq (zrange (- radius) (radius + 1))).
(* fd_coeff2.cpp:59-66 *)
Definition get_forward_fd_coefficients (order accuracy : Z) : res (list Qc) :=
  if accuracy <? 1 then Throw
  else get_arbitrary_fd_coefficients order 0%Qc (map zq (zrange 0 (accuracy + 1))).
(* fd_coeff2.cpp:67-74 *)
Definition get_backward_fd_coefficients (order accuracy : Z) : res (list Qc) :=
  if accuracy <? 1 then Throw
  else get_arbitrary_fd_coefficients order 0%Qc (map zq (zrange (- accuracy) 1)).
