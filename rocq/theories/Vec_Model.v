(* Reading a var point as a vector of lanes: src/compiler/lib/Eqs.cpp:167-235
   (how a point may be vectorised), Vec.hpp/Vec.cpp (VecInfoVisitor), Cpp.cpp and
   CppIntrin.cpp (the code that is printed), src/kernel/lib/realv.hpp (what the
   printed vector operations do).
   Simplifications: machine integers are unbounded; an argument of a var point is
   either a constant or an offset from the index of its own dimension, which is
   what analyze_eqs enforces (Eqs.cpp:541-582); two var points are equal when
   they have the same var and arguments (the code compares their strings);
   caching of already-read vectors in C++ variables is left out. *)
From Coq Require Import String.
From Verif Require Import Base Idiv_Model ParFor_Model Tuple_Model.

Inductive varg :=
| VOff (o : Z)      (* "x + o" in dim x: recorded in _offsets *)
| VConst (c : Z).   (* a constant: recorded in _consts *)

(* VarPoint.hpp:48-81: var and one argument per dim of the var, in order. *)
Record vpoint := mkVP { vp_var : string; vp_args : list (string * varg) }.

(* VarPoint.hpp:140-142 *)
Definition varg_eqb (a b : varg) : bool :=
  match a, b with
  | VOff x, VOff y => x =? y
  | VConst x, VConst y => x =? y
  | _, _ => false
  end.
Fixpoint args_eqb (a b : list (string * varg)) : bool :=
  match a, b with
  | [], [] => true
  | (d, x) :: a', (e, y) :: b' => String.eqb d e && varg_eqb x y && args_eqb a' b'
  | _, _ => false
  end.
Definition vpoint_eqb (a b : vpoint) : bool :=
  String.eqb (vp_var a) (vp_var b) && args_eqb (vp_args a) (vp_args b).

(* VarPoint.hpp:109 get_arg_offsets. *)
Fixpoint offs_of (l : list (string * varg)) : list (string * Z) :=
  match l with
  | [] => []
  | (d, VOff o) :: r => (d, o) :: offs_of r
  | (_, VConst _) :: r => offs_of r
  end.
Definition arg_offsets (p : vpoint) : tuple := mkTuple (offs_of (vp_args p)) true.

(* VarPoint.cpp:237-280: the argument of the named dim becomes index + offset. *)
Fixpoint set_off (l : list (string * varg)) (d : string) (o : Z) : list (string * varg) :=
  match l with
  | [] => []
  | (e, a) :: r => if String.eqb e d then (e, VOff o) :: r else (e, a) :: set_off r d o
  end.
(* VarPoint.hpp:125-128 *)
Definition set_arg_offsets (p : vpoint) (t : tuple) : vpoint :=
  mkVP (vp_var p) (fold_left (fun l e => set_off l (fst e) (snd e)) (dims t) (vp_args p)).

(* tuple.hpp:499-521 with strict_rhs = false, combiner = addition. *)
Definition add_elements (t rhs : tuple) : tuple :=
  mkTuple (map (fun e => (fst e, match lookup rhs (fst e) with
                                 | Some r => snd e + r
                                 | None => snd e end)) (dims t)) (first_inner t).

(* Settings.cpp: _fold_gt1 holds the dims of _fold with more than one element. *)
Definition fold_gt1 (fold : tuple) : tuple :=
  mkTuple (filter (fun e => 1 <? snd e) (dims fold)) (first_inner fold).

Definition has_dim (t : tuple) (d : string) : bool :=
  match lookup t d with Some _ => true | None => false end.

(* Var.cpp:136-175: number of dims of the var that are folded; foldable when all are
   there and the var has a domain dim (_fold has every domain dim). *)
Definition var_nfd (fold : tuple) (p : vpoint) : nat :=
  List.length (filter (fun a => has_dim (fold_gt1 fold) (fst a)) (vp_args p)).
Definition is_foldable (fold : tuple) (p : vpoint) : bool :=
  existsb (fun a => has_dim fold (fst a)) (vp_args p) &&
  Nat.eqb (var_nfd fold p) (List.length (dims (fold_gt1 fold))).

(* Eqs.cpp:182-231 (SetVecVisitor::visit) *)
Inductive vtype := VEC_FULL | VEC_PARTIAL | VEC_NONE.
Definition vec_type (fold : tuple) (p : vpoint) : vtype :=
  let soln_nfd := List.length (dims (fold_gt1 fold)) in
  if Nat.eqb soln_nfd 0 && is_foldable fold p then VEC_FULL
  else if Nat.eqb (var_nfd fold p) 0 then VEC_NONE
  else
    let fdoffsets :=
      List.length (filter (fun f => has_dim (arg_offsets p) (fst f)) (dims (fold_gt1 fold))) in
    if Nat.eqb fdoffsets soln_nfd then VEC_FULL
    else if Nat.ltb 0 fdoffsets then VEC_PARTIAL
    else VEC_NONE.

(* Vec.hpp:113-126: the 'while' at most runs while the offset is negative. *)
Fixpoint fix_loop (fuel : nat) (index_out offset_out vec_len : Z) : res (Z * Z) :=
  if offset_out <? 0 then
    match fuel with
    | O => OutOfFuel
    | S n => fix_loop n (index_out - 1) (offset_out + vec_len) vec_len
    end
  else Ok (index_out, offset_out).
Definition fix_index_offset (index_in offset_in vec_len : Z) : res (Z * Z) :=
  let ofs := index_in * vec_len + offset_in in
  if vec_len =? 0 then UB
  else fix_loop (S (Z.to_nat (Z.abs ofs))) (Z.quot ofs vec_len) (Z.rem ofs vec_len) vec_len.

Definition len_of (fold : tuple) (d : string) : Z :=
  match lookup fold d with Some l => l | None => 1 end.

(* Vec.hpp:36-54 *)
Record velem := mkVE { ve_vec : vpoint; ve_off : Z }.

(* Vec.cpp:79-91: the loop over the offsets. *)
Fixpoint split_offsets (fold : tuple) (l : list (string * Z)) (vofs vloc : tuple)
  : res (tuple * tuple) :=
  match l with
  | [] => Ok (vofs, vloc)
  | (d, o) :: r =>
      let len := len_of fold d in
      rbind (fix_index_offset 0 o len) (fun io =>
        split_offsets fold r (add_dim_back vofs d (snd io))
                      (add_dim_back vloc d (fst io * len)))
  end.
(* Vec.cpp:70-121: where the lane at [vec_point] comes from. *)
Definition find_elem (fold : tuple) (p : vpoint) (vec_point : list Z) : res velem :=
  let vp := mkTuple (combine (names fold) vec_point) (first_inner fold) in
  let offsets := add_elements (arg_offsets p) vp in
  rbind (split_offsets fold (dims offsets) (mkTuple [] true) (mkTuple [] true)) (fun ol =>
    Ok (mkVE (set_arg_offsets p (snd ol)) (layout_nonstrict fold (fst ol)))).

(* Vec.cpp:66-126: one element per point of the fold, pushed in visiting order. *)
Definition elem_list (fold : tuple) (p : vpoint) : res (list velem) :=
  fst (tuple_visit_all_points (res (list velem))
         (fun st pt _ => (rbind st (fun l => rbind (find_elem fold p pt) (fun e => Ok (l ++ [e]))), true))
         fold (Ok [])).

(* ---- the printed code ---- *)

(* One printed statement that sets lanes of the vector under construction. *)
Inductive vinstr :=
| ISet (pelem : Z) (v : vpoint) (elem : Z)                        (* pv[pelem] = v[elem] *)
| IAlign (count : Z) (a b : vpoint) (mask : option Z)             (* real_vec_align[_masked]<count>(pv, a, b[, mask]) *)
| IPerm (ctrl : list Z) (a : vpoint) (mask : option Z)            (* real_vec_permute[_masked](pv, ctrl, a[, mask]) *)
| IPerm2 (ctrl : list Z) (a b : vpoint).                          (* real_vec_permute2(pv, ctrl, a, b) *)

Definition mem_z (x : Z) (l : list Z) : bool := existsb (Z.eqb x) l.
(* A list with positions. *)
Definition indexed {A} (l : list A) : list (Z * A) := combine (zseq (Z.of_nat (List.length l))) l.

(* Cpp.cpp:1175-1203 *)
Definition unaligned_vec_simple (elems : list velem) (done : list Z) : list vinstr :=
  map (fun ie => ISet (fst ie) (ve_vec (snd ie)) (ve_off (snd ie)))
      (filter (fun ie => negb (mem_z (fst ie) done)) (indexed elems)).

(* Bits 1 << i. *)
Definition mask_of (l : list Z) : Z := fold_left (fun m i => Z.lor m (Z.shiftl 1 i)) l 0.

Definition elems_from (n : Z) (count : Z) (elems : list velem) (done : list Z)
           (second : bool) (v : vpoint) : list Z :=
  map fst (filter (fun ie =>
    let i := fst ie in
    let ve := snd ie in
    let p := i + count in
    negb (mem_z i done) &&
    (if n - count <=? i
     then negb second && vpoint_eqb (ve_vec ve) v && (ve_off ve =? p - n)
     else second && vpoint_eqb (ve_vec ve) v && (ve_off ve =? p)))
    (indexed elems)).

(* CppIntrin.cpp:61-166: one shift amount; [None] means "return" from try_align. *)
Definition try_align1 (target : Z) (elems : list velem) (mask_allowed : bool)
           (mv1 mv2 : vpoint) (count : Z) (st : list vinstr * list Z)
  : option (list vinstr * list Z) :=
  let '(code, done) := st in
  let n := Z.of_nat (List.length elems) in
  let used1 := elems_from n count elems done false mv1 in
  let used2 := elems_from n count elems done true mv2 in
  let found := (used2 ++ used1)%list in
  if Z.of_nat (List.length found) =? target then
    let need_mask := negb (Nat.eqb (List.length done) 0) in
    if need_mask && negb mask_allowed then None
    else
      let mk := if need_mask then Some (mask_of found) else None in
      let ins :=
        match used1, used2 with
        | _ :: _, _ :: _ => IAlign count mv1 mv2 mk
        | _ :: _, [] => IAlign count mv1 mv1 mk
        | [], _ => IAlign count mv2 mv2 mk
        end in
      Some ((code ++ [ins])%list, (done ++ found)%list)
  else Some st.

(* The flag is true once the function has returned early. *)
Definition astate := ((list vinstr * list Z) * bool)%type.

(* CppIntrin.cpp:61-62 'for (count = 1; done < nelems && count < nelems; count++)' *)
Definition align_counts (target : Z) (elems : list velem) (mask_allowed : bool)
           (mv1 mv2 : vpoint) (s : astate) : astate :=
  let n := Z.of_nat (List.length elems) in
  fold_left (fun (s : astate) (count : Z) =>
    let '(st, ret) := s in
    if ret then s
    else if Z.of_nat (List.length (snd st)) <? n then
      match try_align1 target elems mask_allowed mv1 mv2 count st with
      | Some st' => (st', false)
      | None => (st, true)
      end
    else s) (zrange 1 n) s.

(* CppIntrin.cpp:33-170 *)
Definition try_align (target : Z) (elems : list velem) (avs : list vpoint) (mask_allowed : bool)
           (st : list vinstr * list Z) : list vinstr * list Z :=
  fst (fold_left (fun s mv1 =>
         fold_left (fun s mv2 => align_counts target elems mask_allowed mv1 mv2 s) avs s)
       avs (st, false)).

(* CppIntrin.cpp:174-252; NA is 0 (CppIntrin.hpp:52-57). *)
Definition try_perm1 (target : Z) (elems : list velem) (avs : list vpoint)
           (st : list vinstr * list Z) : list vinstr * list Z :=
  fold_left (fun st mv =>
    let '(code, done) := st in
    let hit := fun ie : Z * velem => negb (mem_z (fst ie) done) && vpoint_eqb (ve_vec (snd ie)) mv in
    let found := map fst (filter hit (indexed elems)) in
    let ctrl := map (fun ie => if hit ie then ve_off (snd ie) else 0) (indexed elems) in
    if Z.of_nat (List.length found) =? target then
      let need_mask := negb (Nat.eqb (List.length done) 0) in
      ((code ++ [IPerm ctrl mv (if need_mask then Some (mask_of found) else None)])%list,
       (done ++ found)%list)
    else st) avs st.

(* CppIntrin.cpp:282-330 (names and control vectors).  A control entry is its name:
   "NA", "A<n>" or "B<n>"; its value sets the selector bit for "B". *)
Inductive centry := CNA | CA (n : Z) | CB (n : Z).
Definition cval (sel_bit : Z) (c : centry) : Z :=
  match c with CNA => 0 | CA n => n | CB n => Z.lor sel_bit n end.
Definition centry_eqb (a b : centry) : bool :=
  match a, b with
  | CNA, CNA => true
  | CA x, CA y => x =? y
  | CB x, CB y => x =? y
  | _, _ => false
  end.
Fixpoint centries_eqb (a b : list centry) : bool :=
  match a, b with
  | [], [] => true
  | x :: a', y :: b' => centry_eqb x y && centries_eqb a' b'
  | _, _ => false
  end.

(* CppIntrin.cpp:254-370.  [defd] are the perm2 control vectors already defined. *)
Definition perm2_pair (sel_bit target : Z) (elems : list velem) (mv1 mv2 : vpoint)
           (defd : list (list centry)) : option (vinstr * list Z * list (list centry)) :=
  let from1 := fun ve : velem => vpoint_eqb (ve_vec ve) mv1 in
  let from2 := fun ve : velem => vpoint_eqb (ve_vec ve) mv2 in
  let found := map fst (filter (fun ie : Z * velem => from1 (snd ie) || from2 (snd ie)) (indexed elems)) in
  let name12 := map (fun ve => if from1 ve || from2 ve
                               then (if from1 ve then CA (ve_off ve) else CB (ve_off ve)) else CNA) elems in
  let name21 := map (fun ve => if from1 ve || from2 ve
                               then (if from1 ve then CB (ve_off ve) else CA (ve_off ve)) else CNA) elems in
  if Z.of_nat (List.length found) =? target then
    let use12 := negb (existsb (centries_eqb name21) defd) in
    let name := if use12 then name12 else name21 in
    let ctrl := map (cval sel_bit) name in
    let defd' := if existsb (centries_eqb name) defd then defd else name :: defd in
    Some (if use12 then IPerm2 ctrl mv1 mv2 else IPerm2 ctrl mv2 mv1, found, defd')
  else None.
Definition try_perm2 (sel_bit target : Z) (elems : list velem) (avs : list vpoint)
           (st : list vinstr * list Z) (defd : list (list centry))
  : (list vinstr * list Z) * list (list centry) :=
  match snd st with
  | _ :: _ => (st, defd)
  | [] =>
      match fold_left (fun r mv1 =>
              fold_left (fun r mv2 =>
                match r with
                | Some _ => r
                | None => if vpoint_eqb mv1 mv2 then None
                          else perm2_pair sel_bit target elems mv1 mv2 defd
                end) avs r) avs None with
      | Some (ins, found, defd') => (((fst st ++ [ins])%list, found), defd')
      | None => (st, defd)
      end
  end.

(* Which printer generates the code: CppVecPrintHelper (Cpp.hpp:209-211),
   CppAvx2PrintHelper and CppAvx512PrintHelper (CppIntrin.hpp:116-166). *)
Inductive style := Simple | Avx2 | Avx512.

Definition cstate := ((list vinstr * list Z) * list (list centry))%type.
Definition try_strategies (sty : style) (sel_bit target : Z) (elems : list velem)
           (avs : list vpoint) (s : cstate) : cstate :=
  let '(st, defd) := s in
  match sty with
  | Simple => s
  | Avx2 => (try_align target elems avs false st, defd)
  | Avx512 =>
      let st1 := try_align target elems avs true st in
      let '(st2, defd2) := try_perm2 sel_bit target elems avs st1 defd in
      (try_perm1 target elems avs st2, defd2)
  end.

(* CppIntrin.cpp:436-454: targets from the number of elements down to 1, then
   the elements that are left, one by one. *)
Definition vec_ctor (sty : style) (sel_bit : Z) (elems : list velem) (avs : list vpoint)
           (defd : list (list centry)) : list vinstr :=
  let n := Z.of_nat (List.length elems) in
  let '((code, done), _) :=
    fold_left (fun s target =>
      if Z.of_nat (List.length (snd (fst s))) <? n
      then try_strategies sty sel_bit target elems avs s else s)
      (rev (zrange 1 (n + 1))) (([], []), defd) in
  if Z.of_nat (List.length done) =? n then code
  else (code ++ unaligned_vec_simple elems done)%list.

(* ---- what the printed operations do (realv.hpp) ---- *)
Section Exec.
  Variable V : Type.
  Variable vlen : Z.                       (* VLEN *)
  Variables sel_bit idx_mask : Z.          (* ctrl_sel_bit, ctrl_idx_mask: realv.hpp:46-105 *)

  Definition lanes := Z -> V.

  (* realv.hpp:758-803 and, for AVX2, the 128-bit form below. *)
  Definition align_lanes (count : Z) (a b : lanes) : lanes :=
    if count =? 0 then b
    else if count =? vlen then a
    else fun i => if i <? vlen - count then b (i + count) else a (i + count - vlen).

  (* realv.hpp:785-808: permute2x128 with control 0x21, then alignr in each half. *)
  Definition permute2x128_21 (b a : lanes) : lanes :=
    let h := vlen / 2 in
    fun i => if i <? h then b (i + h) else a (i - h).
  Definition alignr_half (hi lo : lanes) (count : Z) : lanes :=
    let h := vlen / 2 in
    fun i => let half := (i / h) * h in   (* first lane of this half *)
             let j := i - half in
             if j + count <? h then lo (half + j + count) else hi (half + j + count - h).
  Definition align_lanes_avx2 (count : Z) (a b : lanes) : lanes :=
    if count =? 0 then b
    else if count =? vlen then a
    else
      let tmp := permute2x128_21 b a in
      if count =? vlen / 2 then tmp
      else if count <? vlen / 2 then alignr_half tmp b count
      else alignr_half a tmp (count - vlen / 2).

  (* realv.hpp:838-868, 898-927: lanes whose bit is 0 keep their value. *)
  Definition masked (mask : option Z) (old new : lanes) : lanes :=
    match mask with
    | None => new
    | Some k => fun i => if Z.testbit k i then new i else old i
    end.

  (* realv.hpp:882-886 *)
  Definition permute_lanes (ctrl : list Z) (a : lanes) : lanes :=
    fun i => a (nth (Z.to_nat i) ctrl 0).
  (* realv.hpp:942-950 *)
  Definition permute2_lanes (ctrl : list Z) (a b : lanes) : lanes :=
    fun i => let c := nth (Z.to_nat i) ctrl 0 in
             if Z.land c sel_bit =? 0 then a (Z.land c idx_mask) else b (Z.land c idx_mask).

  (* [align] is the form of real_vec_align that is compiled in. *)
  Variable align : Z -> lanes -> lanes -> lanes.

  (* [vec_vars]: the C++ variable that holds each aligned vector. *)
  Definition exec1 (vec_vars : vpoint -> lanes) (pv : lanes) (ins : vinstr) : lanes :=
    match ins with
    | ISet p v e => fun i => if i =? p then vec_vars v e else pv i
    | IAlign c a b None => align c (vec_vars a) (vec_vars b)
    | IAlign c a b (Some k) => masked (Some k) pv (align_lanes c (vec_vars a) (vec_vars b))
    | IPerm c a k => masked k pv (permute_lanes c (vec_vars a))
    | IPerm2 c a b => permute2_lanes c (vec_vars a) (vec_vars b)
    end.
  Definition exec (vec_vars : vpoint -> lanes) (pv : lanes) (code : list vinstr) : lanes :=
    fold_left (exec1 vec_vars) code pv.

  (* ---- memory reads ---- *)

  Variable fold : tuple.
  (* Current position: vector index of each dim; element index = vector index * length. *)
  Variable xv : string -> Z.
  (* Storage of a folded var: vector indices and lane; and of a var that is not folded:
     element indices. *)
  Variable vst : string -> list Z -> Z -> V.
  Variable est : string -> list Z -> V.

  (* VarPoint.cpp:160-207 and Settings.cpp:326-350: vector-normalised argument. *)
  Definition norm_ofs (o len : Z) : Z :=
    if o =? 0 then 0 else if 0 <? o then Z.quot o len else - (Z.quot (- o) len).
  Definition norm_arg (d : string) (a : varg) : Z :=
    match a with
    | VConst c => c
    | VOff o =>
        if o =? 0 then xv d
        else if has_dim (fold_gt1 fold) d then xv d + norm_ofs o (len_of fold d)
        else xv d + o
    end.
  (* Cpp.cpp:911-1003 (read_vec_norm / load_from) *)
  Definition aligned_read (p : vpoint) : lanes :=
    fun lane => vst (vp_var p) (map (fun a => norm_arg (fst a) (snd a)) (vp_args p)) lane.

  (* Cpp.cpp:1009-1045 with the indices replaced through the var map [em]. *)
  Definition scalar_read (p : vpoint) (em : string -> Z) : V :=
    est (vp_var p) (map (fun a => match snd a with VConst c => c | VOff o => em (fst a) + o end) (vp_args p)).

  (* Cpp.cpp:1228-1240: x_elem = x * VLEN_X. *)
  Definition elem_map (d : string) : Z := xv d * len_of fold d.

  (* Cpp.cpp:1049-1096: one element per point of the fold. *)
  Definition partial_read (p : vpoint) : lanes :=
    fst (tuple_visit_all_points lanes
           (fun st pt pelem =>
              let vp := mkTuple (combine (names fold) pt) (first_inner fold) in
              let em := fun d => match lookup vp d with
                                 | Some o => elem_map d + o
                                 | None => elem_map d end in
              (fun i => if i =? pelem then scalar_read p em else st i, true))
           fold (fun _ => scalar_read p elem_map)).

  (* Cpp.cpp:822-893 (read_from_point) without the cache of C++ variables.
     [aligned] is _aligned_reads, [avs] the set _vblk2avblks[gp] in its order,
     [pv0] the contents of the uninitialised vector variable. *)
  Definition read_from_point (sty : style) (aligned : list vpoint) (avs : list vpoint)
             (defd : list (list centry)) (pv0 : lanes) (p : vpoint) : res lanes :=
    match vec_type fold p with
    | VEC_NONE => Ok (fun _ => scalar_read p elem_map)
    | VEC_PARTIAL => Ok (partial_read p)
    | VEC_FULL =>
        if existsb (vpoint_eqb p) aligned then Ok (aligned_read p)
        else rbind (elem_list fold p) (fun elems =>
             Ok (exec aligned_read pv0 (vec_ctor sty sel_bit elems avs defd)))
    end.
End Exec.

(* Vec.cpp:101-111: every aligned vector of every visited point. *)
Fixpoint aligned_vecs (fold : tuple) (ps : list vpoint) : res (list vpoint) :=
  match ps with
  | [] => Ok []
  | p :: r =>
      rbind (aligned_vecs fold r) (fun l =>
        match vec_type fold p with
        | VEC_FULL => rbind (elem_list fold p) (fun es => Ok (map ve_vec es ++ l)%list)
        | _ => Ok l
        end)
  end.

(* yk_var.hpp:378-409 (get_elem_ptr of a folded var): address of an element, counted in
   elements; [vpos] is the position of a vector in the storage (_data.get_ptr).
   Cpp.cpp:1100-1113 (print_unaligned_vec_read) loads VLEN elements from that address. *)
Definition elem_addr (fold : tuple) (vpos : (string -> Z) -> Z) (idx : string -> Z) : Z :=
  vpos (fun d => idiv_flr (idx d) (len_of fold d)) * product fold
  + layout_vals (first_inner fold) (vals fold)
                (map (fun d => imod_flr (idx d) (len_of fold d)) (names fold)).
Definition unaligned_load {V} (fold : tuple) (vpos : (string -> Z) -> Z) (flat : Z -> V)
           (idx : string -> Z) : Z -> V :=
  fun e => flat (elem_addr fold vpos idx + e).
