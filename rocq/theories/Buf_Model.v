(* Code written by the compiler for the inner loop of a vectorized part: which aligned vectors are
   kept in rolling buffers, the code that fills and shifts those buffers, and the reads that use them
   (src/compiler/lib/Cpp.cpp, src/compiler/lib/YaskKernel.cpp).  The model has the generator, which
   makes a list of instructions, and a machine that runs them.

   Simplifications.  A read point is a number standing for its var and all its args except the one in
   the inner-loop dim, and the offset in elements in that dim.  The expression of an equation is a
   function of the vectors read and of the old contents of the vector written (masked stores keep some
   of them).  Reads of points that are not fully vectorized and values known before the loop do not
   use buffers and are part of that function.  The address of a vector is a function of the number of
   the point and of the vector index in the inner-loop dim; the pointers and strides behind it are
   modelled in Ptr_Model.  Prefetches have no effect on values and are left out. *)
From Verif Require Import Base.
Open Scope Z_scope.

(* VarPoint, as far as used here (src/compiler/lib/VarPoint.hpp:60-80): [p_key] stands for the var and
   all args outside the inner-loop dim, [p_ofs] is the offset in elements found by
   get_arg_offsets().lookup(ildim), if there is one (Cpp.cpp:447-454). *)
Record vpt := mkPt { p_key : nat; p_ofs : option Z }.

(* Comparison of VarPoints as keys of a map (VarPoint.hpp operator== and operator<). *)
Definition vpt_eqb (a b : vpt) : bool :=
  (p_key a =? p_key b)%nat &&
  match p_ofs a, p_ofs b with
  | Some x, Some y => x =? y
  | None, None => true
  | _, _ => false
  end.

(* Settings: fold length in the inner-loop dim, min-buffer-len, early-loads
   (src/compiler/lib/Settings.hpp:45,67) and _reuse_vars (src/compiler/lib/Vec.hpp:205,241). *)
Record bcfg := mkB { c_fold : Z; c_min : Z; c_early : bool; c_reuse : bool }.

(* _pt_inner_loop_lo, _pt_inner_loop_hi and _pt_buf_len, keyed by the point with inner-loop offset 0
   (src/compiler/lib/Cpp.hpp:190-210 and Cpp.cpp:456-492). *)
Record stats := mkS { s_lo : nat -> option Z; s_hi : nat -> option Z; s_len : nat -> option Z }.

(* Assignment to an entry of a map. *)
Definition put {A} (m : nat -> option A) (k : nat) (x : A) : nat -> option A :=
  fun k' => if (k' =? k)%nat then Some x else m k'.

(* Body of the loop of get_point_stats() (Cpp.cpp:434-493). *)
Definition visit_pt (c : bcfg) (s : stats) (p : vpt) : stats :=
  match p_ofs p with
  | None => s
  | Some ofs =>
      let k := p_key p in
      let vofs := Z.quot ofs (c_fold c) in
      let lo := match s_lo s k with
                | Some l => if vofs <? l then vofs else l
                | None => vofs end in
      let hi := match s_hi s k with
                | Some h => if h <? vofs then vofs else h
                | None => vofs end in
      let len := hi - lo in
      let mbl := Z.max (c_min c) 1 in
      mkS (put (s_lo s) k lo) (put (s_hi s) k hi)
          (if mbl <=? len then put (s_len s) k len else s_len s)
  end.

(* get_point_stats() (Cpp.cpp:422-493): all aligned read points. *)
Definition point_stats (c : bcfg) (reads : list vpt) : stats :=
  fold_left (visit_pt c) reads (mkS (fun _ => None) (fun _ => None) (fun _ => None)).

(* Instructions of the generated code. *)
Inductive ins :=
| ILoad (v : nat) (p : vpt)            (* vec v; v.load_from(ptr to p)      Cpp.cpp:970-975,1000-1005 *)
| IGet (v : nat) (k : nat) (i : Z)     (* vec v = buf_k[i]                  Cpp.cpp:936-940 *)
| IDecl (k : nat) (len : Z)            (* vec buf_k[len]                    Cpp.cpp:563 *)
| ICopy (k : nat) (i j : Z)            (* buf_k[i] = buf_k[j]               Cpp.cpp:547-549 *)
| IPut (k : nat) (i : Z) (v : nat)     (* buf_k[i] = v                      Cpp.cpp:590 *)
| IEq (e : nat) (args : list nat).     (* equation e, stored at its LHS     Cpp.cpp:898-908,1104-1148 *)

(* State of the print helper: next fresh name and _vec_vars (src/compiler/lib/Vec.hpp:206). *)
Record gst := mkG { g_next : nat; g_vars : list (vpt * nat) }.

(* lookup in _vec_vars. *)
Definition vec_var (g : gst) (p : vpt) : option nat :=
  match find (fun q => vpt_eqb (fst q) p) (g_vars g) with
  | Some q => Some (snd q)
  | None => None
  end.

(* print_aligned_vec_read() (Cpp.cpp:911-1006): the new variable comes from the buffer when the point
   is one of the reads (it has an entry in _inner_loop_key), its key has a buffer name and the index is
   inside the buffer; from memory otherwise. *)
Definition aligned_read (c : bcfg) (reads : list vpt) (s : stats) (named : list nat)
    (g : gst) (p : vpt) : list ins * nat * gst :=
  let v := g_next g in
  let g' := mkG (S v) (g_vars g) in
  let k := p_key p in
  let from_buf :=
    match p_ofs p with
    | Some ofs =>
        if existsb (vpt_eqb p) reads && existsb (Nat.eqb k) named then
          match s_lo s k, s_len s k with
          | Some lo, Some len =>
              let i := Z.quot ofs (c_fold c) - lo in
              if (0 <=? i) && (i <? len) then Some i else None
          | _, _ => None
          end
        else None
    | None => None
    end in
  (match from_buf with Some i => [IGet v k i] | None => [ILoad v p] end, v, g').

(* read_from_point() for an aligned point (Cpp.cpp:820-856,886-891). *)
Definition read_point (c : bcfg) (reads : list vpt) (s : stats) (named : list nat)
    (g : gst) (p : vpt) : list ins * nat * gst :=
  match (if c_reuse c then vec_var g p else None) with
  | Some v => ([], v, g)
  | None =>
      let '(code, v, g') := aligned_read c reads s named g p in
      (code, v, mkG (g_next g') ((p, v) :: g_vars g'))
  end.

(* Reads of several points, one after the other. *)
Fixpoint read_points (c : bcfg) (reads : list vpt) (s : stats) (named : list nat)
    (g : gst) (ps : list vpt) : list ins * list nat * gst :=
  match ps with
  | [] => ([], [], g)
  | p :: r =>
      let '(c1, v, g1) := read_point c reads s named g p in
      let '(c2, vs, g2) := read_points c reads s named g1 r in
      (c1 ++ c2, v :: vs, g2)
  end.

(* Equations in the order of the part; each is the key of the point written and the aligned vectors it
   reads (YaskKernel.cpp:694-697, PrintVisitorBottomUp). *)
Fixpoint eqs_code (c : bcfg) (reads : list vpt) (s : stats) (named : list nat)
    (g : gst) (e : nat) (eqs : list (nat * list vpt)) : list ins * gst :=
  match eqs with
  | [] => ([], g)
  | (_, rs) :: r =>
      let '(c1, vs, g1) := read_points c reads s named g rs in
      let '(c2, g2) := eqs_code c reads s named g1 (S e) r in
      (c1 ++ IEq e vs :: c2, g2)
  end.

(* Inner loop of print_buffer_code() (Cpp.cpp:571-591): entries [i], [i]+1, ... get the vectors at
   offsets [start] to [stop]-1, as far as they fit in [len]. *)
Fixpoint fill (c : bcfg) (reads : list vpt) (s : stats) (named : list nat) (g : gst)
    (k : nat) (len : Z) (n : nat) (vofs stop i : Z) : list ins * gst :=
  match n with
  | O => ([], g)
  | S n =>
      if (vofs <? stop) && (i <? len) then
        let ogp := mkPt k (Some (vofs * c_fold c)) in
        let '(c1, v, g1) :=
          match (if c_reuse c then vec_var g ogp else None) with
          | Some v => ([], v, g)
          | None => aligned_read c reads s named g ogp
          end in
        let '(c2, g2) := fill c reads s named g1 k len n (vofs + 1) stop (i + 1) in
        (c1 ++ IPut k i v :: c2, g2)
      else ([], g)
  end.

(* Code for the buffer of one key (Cpp.cpp:530-597). *)
Definition buf_code1 (c : bcfg) (reads : list vpt) (s : stats) (named : list nat) (in_loop : bool)
    (g : gst) (k : nat) (lo len : Z) : list ins * gst :=
  let stop_lo := lo + len in
  let '(c1, start_ofs, stop_ofs, start_load) :=
    if in_loop
    then (map (fun i => ICopy k i (i + 1)) (zseq (len - 1)), stop_lo, stop_lo + 1, Z.max (len - 1) 0)
    else ([IDecl k len], lo, stop_lo, 0) in
  let '(c2, g') := fill c reads s named g k len (Z.to_nat (stop_ofs - start_ofs))
                        start_ofs stop_ofs start_load in
  (c1 ++ c2, g').

(* print_buffer_code() (Cpp.cpp:511-598): every key with a buffer once.  [named] are the keys in
   _pt_buf_name, which gets its entries when in_loop is false. *)
Fixpoint buffer_code (c : bcfg) (reads : list vpt) (s : stats) (in_loop : bool) (named done : list nat)
    (g : gst) (ps : list vpt) : list ins * list nat * gst :=
  match ps with
  | [] => ([], named, g)
  | p :: r =>
      let k := p_key p in
      match p_ofs p, s_lo s k, s_len s k with
      | Some _, Some lo, Some len =>
          if existsb (Nat.eqb k) done then buffer_code c reads s in_loop named done g r
          else
            let '(c1, g1) := buf_code1 c reads s named in_loop g k lo len in
            let named' := if in_loop then named else k :: named in
            let '(c2, named2, g2) := buffer_code c reads s in_loop named' (k :: done) g1 r in
            (c1 ++ c2, named2, g2)
      | _, _, _ => buffer_code c reads s in_loop named done g r
      end
  end.

(* calc_vectors() (YaskKernel.cpp:677-706): buffers before the inner loop, then in the loop early
   loads, the equations, and the update of the buffers.  The result is the code before the loop and
   the code of the body. *)
Definition loop_code (c : bcfg) (reads : list vpt) (eqs : list (nat * list vpt)) : list ins * list ins :=
  let s := point_stats c reads in
  let g0 := mkG 0 [] in
  let '(pre, named, g1) := buffer_code c reads s false [] [] g0 reads in
  let '(early, g2) :=
    if c_early c then
      let '(code, _, g2) := read_points c reads s named g1 reads in (code, g2)
    else ([], g1) in
  let '(body, g3) := eqs_code c reads s named g2 0 eqs in
  let '(post, _, _) := buffer_code c reads s true named [] g3 reads in
  (pre, early ++ body ++ post).

(* The machine: memory, buffers (entries not yet written are None), local vectors, and a log of the
   vectors loaded: key and vector index. *)
Record mst (V : Type) := mkM {
  m_mem : Z -> V;
  m_buf : nat -> option (list (option V));
  m_var : nat -> option V;
  m_log : list (nat * Z) }.
Arguments mkM {V}.
Arguments m_mem {V}.
Arguments m_buf {V}.
Arguments m_var {V}.
Arguments m_log {V}.

(* Entry [i] of a list replaced. *)
Fixpoint set_nth {A} (n : nat) (x : A) (l : list A) : list A :=
  match l, n with
  | [], _ => []
  | _ :: r, O => x :: r
  | y :: r, S n => y :: set_nth n x r
  end.

(* Value of a local vector; an undefined one is undefined behaviour. *)
Definition get_var {V} (s : mst V) (v : nat) : res V :=
  match m_var s v with Some x => Ok x | None => UB end.

(* Values of several local vectors. *)
Fixpoint get_vars {V} (s : mst V) (vs : list nat) : res (list V) :=
  match vs with
  | [] => Ok []
  | v :: r => rbind (get_var s v) (fun x => rbind (get_vars s r) (fun xs => Ok (x :: xs)))
  end.

(* Entry of a buffer: reading outside of the array or an entry never written is undefined. *)
Definition get_buf {V} (s : mst V) (k : nat) (i : Z) : res V :=
  match m_buf s k with
  | Some l => if 0 <=? i then
                match nth_error l (Z.to_nat i) with Some (Some x) => Ok x | _ => UB end
              else UB
  | None => UB
  end.

(* Assignment to an entry of a buffer. *)
Definition put_buf {V} (s : mst V) (k : nat) (i : Z) (x : V) : res (mst V) :=
  match m_buf s k with
  | Some l => if (0 <=? i) && (i <? Z.of_nat (length l)) then
                Ok (mkM (m_mem s) (put (m_buf s) k (set_nth (Z.to_nat i) (Some x) l))
                        (m_var s) (m_log s))
              else UB
  | None => UB
  end.

Section Run.
Context {V : Type}.
(* Address of the vector with index [i] in the inner-loop dim of the points with a key. *)
Variable loc : nat -> Z -> Z.
(* Result of an equation from the old contents of its vector and the vectors read. *)
Variable f : nat -> V -> list V -> V.
(* Keys of the points written. *)
Variable wkey : nat -> nat.
Variable c : bcfg.

(* Vector index of a point when the inner-loop index is [j] (make_norm_arg_str, VarPoint.cpp:160-189
   and make_norm_str, Settings.cpp:326-353: the sign is outside of the division). *)
Definition norm_idx (p : vpt) (j : Z) : Z :=
  match p_ofs p with
  | Some ofs => if ofs <? 0 then j - Z.quot (- ofs) (c_fold c) else j + Z.quot ofs (c_fold c)
  | None => j
  end.

(* One instruction with inner-loop index [j]. *)
Definition run1 (j : Z) (i : ins) (s : mst V) : res (mst V) :=
  match i with
  | ILoad v p =>
      Ok (mkM (m_mem s) (m_buf s) (put (m_var s) v (m_mem s (loc (p_key p) (norm_idx p j))))
              ((p_key p, norm_idx p j) :: m_log s))
  | IGet v k i =>
      rbind (get_buf s k i) (fun x => Ok (mkM (m_mem s) (m_buf s) (put (m_var s) v x) (m_log s)))
  | IDecl k len =>
      Ok (mkM (m_mem s) (put (m_buf s) k (repeat None (Z.to_nat len))) (m_var s) (m_log s))
  | ICopy k i i' => rbind (get_buf s k i') (fun x => put_buf s k i x)
  | IPut k i v => rbind (get_var s v) (fun x => put_buf s k i x)
  | IEq e args =>
      rbind (get_vars s args) (fun xs =>
        let a := loc (wkey e) j in
        Ok (mkM (fun b => if b =? a then f e (m_mem s a) xs else m_mem s b)
                (m_buf s) (m_var s) (m_log s)))
  end.

(* A list of instructions. *)
Fixpoint run (j : Z) (l : list ins) (s : mst V) : res (mst V) :=
  match l with
  | [] => Ok s
  | i :: r => rbind (run1 j i s) (run j r)
  end.

(* The inner loop (pico-block loop, YaskKernel.cpp:684-718): the body for [n] indices from [j].
   Vectors declared in the body are gone at its end. *)
Fixpoint run_loop (n : nat) (j : Z) (body : list ins) (s : mst V) : res (mst V) :=
  match n with
  | O => Ok s
  | S n =>
      rbind (run j body s) (fun s' =>
        run_loop n (j + 1) body (mkM (m_mem s') (m_buf s') (m_var s) (m_log s')))
  end.

(* The generated code run from index [b] for [n] vectors on memory [m]: final memory and log. *)
Definition run_code (code : list ins * list ins) (b : Z) (n : nat) (m : Z -> V)
    : res ((Z -> V) * list (nat * Z)) :=
  rbind (run b (fst code) (mkM m (fun _ => None) (fun _ => None) [])) (fun s =>
  rbind (run_loop n b (snd code) s) (fun s' => Ok (m_mem s', m_log s'))).
End Run.
