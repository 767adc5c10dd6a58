(* Command-line handling: src/common/common_utils.cpp:157-177 quote_whitespace, 319-330 _is_opt,
   334-391 value readers, 394-491 check_arg methods, 524-564 parse_args, 567-616 set_args.
   Strings are lists of 8-bit characters without NUL. *)
From Coq Require Import Ascii String.
From Verif Require Import Base.
Open Scope Z_scope.
Open Scope list_scope.

Definition str := list ascii.
Definition s2l (s : string) : str := list_ascii_of_string s.
Definition str_eqb (a b : str) : bool := if list_eq_dec ascii_dec a b then true else false.

Definition apos : ascii := "'"%char.
Definition quot : ascii := """"%char.
Definition bslash : ascii := "\"%char.
Definition spc : ascii := " "%char.
Definition code (c : ascii) : Z := Z.of_N (N_of_ascii c).

(* str.find_first_of(" \t\r\n"), line 158 *)
Definition is_quotable_ws (c : ascii) : bool :=
  (code c =? 32) || (code c =? 9) || (code c =? 13) || (code c =? 10).
(* isspace(c) in the C locale: space, \t \n \v \f \r; bytes above 127 are not spaces *)
Definition is_space (c : ascii) : bool := (code c =? 32) || ((9 <=? code c) && (code c <=? 13)).

Definition has (c : ascii) (s : str) : bool := existsb (Ascii.eqb c) s.

(* 157-177 *)
Definition quote_whitespace (s : str) : str :=
  if existsb is_quotable_ws s then
    if negb (has apos s) then quot :: s ++ [quot]
    else if negb (has quot s) then apos :: s ++ [apos]
    else apos :: flat_map (fun c => if Ascii.eqb c apos then [bslash; apos] else [c]) s ++ [apos]
  else s.

(* 567-616: the scan; [inq] = in_quote, [ok] = is_ok, [tmp] = current token, [acc] = args so far *)
Fixpoint tok (s : str) (inq : option ascii) (ok : bool) (tmp : str) (acc : list str) : res (list str) :=
  match s with
  | [] =>
      match inq with
      | Some _ => Throw
      | None => Ok (if ok then acc ++ [tmp] else acc)
      end
  | c :: r =>
      match inq with
      | Some q => if Ascii.eqb q c then tok r None true tmp acc else tok r inq ok (tmp ++ [c]) acc
      | None =>
          if is_space c then tok r None false [] (if ok then acc ++ [tmp] else acc)
          else if Ascii.eqb c quot || Ascii.eqb c apos then tok r (Some c) ok tmp acc
          else tok r None true (tmp ++ [c]) acc
      end
  end.
Definition set_args (s : str) : res (list str) := tok s None false [] [].

(* 552-563: building the remainder string from the unused args *)
Definition join (l : list str) : str :=
  fold_left (fun rem r => (if Nat.ltb 0 (List.length rem) then rem ++ [spc] else rem) ++ quote_whitespace r) l [].

(* strtoll(nptr, &endptr, 0) on the whole string: Some v if *endptr == '\0' and no overflow *)
Definition digit_val (c : ascii) : option Z :=
  let k := code c in
  if (48 <=? k) && (k <=? 57) then Some (k - 48)
  else if (97 <=? k) && (k <=? 122) then Some (k - 87)
  else if (65 <=? k) && (k <=? 90) then Some (k - 55)
  else None.
Fixpoint digits (base : Z) (s : str) (v : Z) : option Z :=
  match s with
  | [] => Some v
  | c :: r => match digit_val c with
              | Some d => if d <? base then digits base r (v * base + d) else None
              | None => None
              end
  end.
Definition nat_lit (s : str) : option Z :=
  match s with
  | [] => None
  | c :: r =>
      if Ascii.eqb c "0"%char then
        match r with
        | x :: (_ :: _) as h => if Ascii.eqb x "x"%char || Ascii.eqb x "X"%char then digits 16 h 0 else digits 8 r 0
        | _ => digits 8 r 0
        end
      else digits 10 s 0
  end.
Fixpoint skip_space (s : str) : str :=
  match s with c :: r => if is_space c then skip_space r else s | [] => [] end.
Definition strtoll0 (s : str) : option Z :=
  match skip_space s with
  | c :: r => if Ascii.eqb c "-"%char then option_map Z.opp (nat_lit r)
              else if Ascii.eqb c "+"%char then nat_lit r
              else nat_lit (c :: r)
  | [] => None
  end.
Definition llong_min : Z := - 2 ^ 63.
Definition llong_max : Z := 2 ^ 63 - 1.
(* 356-372; saturation to LLONG_MIN/MAX counts as failure, as do those two values themselves *)
Definition idx_of (s : str) : option Z :=
  match s with
  | [] => None
  | _ => match strtoll0 s with
         | Some v => if (v <=? llong_min) || (llong_max <=? v) then None else Some v
         | None => None
         end
  end.
(* (int) of an idx_t, line 438 *)
Definition to_int (v : Z) : Z := (v + 2 ^ 31) mod 2 ^ 32 - 2 ^ 31.

(* getline(ss, str, ',') loop, 481: pieces between commas; no piece after a final comma, none for "" *)
Fixpoint pieces (s : str) (cur : str) (any : bool) : list str :=
  match s with
  | [] => if any then [cur] else []
  | c :: r => if Ascii.eqb c ","%char then cur :: pieces r [] false else pieces r (cur ++ [c]) true
  end.

Section Parse.
  (* strtod with its checks (334-350): oracle on non-empty strings *)
  Context {D : Type}.
  Variable double_of : str -> option D.

  Inductive value := VBool (b : bool) | VDouble (d : D) | VInt (z : Z) | VIdx (z : Z) | VStr (s : str) | VList (l : list str).
  Inductive kind := KBool | KDouble | KInt | KIdx | KStr | KList (allowed : list str).
  Record opt := mkOpt { o_name : str; o_kind : kind }.
  Definition env := str -> option value.
  Definition eset (e : env) (n : str) (v : value) : env := fun m => if str_eqb m n then Some v else e m.

  (* value of an option's argument: None = exception.  [a] = None if there is no argument.
     (a string-list option also clears its old value before failing; after an exception nothing is read) *)
  Definition arg_value (k : kind) (a : option str) : option value :=
    match k, a with
    | KBool, _ => None
    | _, None => None
    | KDouble, Some s => match s with [] => None | _ => option_map VDouble (double_of s) end
    | KInt, Some s => option_map (fun v => VInt (to_int v)) (idx_of s)
    | KIdx, Some s => option_map VIdx (idx_of s)
    | KStr, Some s => Some (VStr s)
    | KList allowed, Some s =>
        let l := pieces s [] false in
        if Nat.ltb 0 (List.length allowed) && negb (forallb (fun p => existsb (str_eqb p) allowed) l)
        then None else Some (VList l)
    end.

  (* _is_opt, 319-330 *)
  Definition is_opt (t : str) (n : str) : bool := str_eqb t ("-"%char :: n).

  (* check_arg of each class, 394-491, at args[argi] = t with [r] the tokens after it.
     Ok None: no match; Ok (Some (env, rest)): matched and consumed *)
  Definition check_arg (o : opt) (t : str) (r : list str) (e : env) : res (option (env * list str)) :=
    match o_kind o with
    | KBool =>
        if is_opt t (o_name o) then Ok (Some (eset e (o_name o) (VBool true), r))
        else if is_opt t (s2l "no-" ++ o_name o) then Ok (Some (eset e (o_name o) (VBool false), r))
        else Ok None
    | k =>
        if is_opt t (o_name o) then
          match arg_value k (hd_error r) with
          | Some v => Ok (Some (eset e (o_name o) v, tl r))
          | None => Throw
          end
        else Ok None
    end.

  (* 534-543: the options in map order *)
  Fixpoint try_opts (opts : list opt) (t : str) (r : list str) (e : env) : res (option (env * list str)) :=
    match opts with
    | [] => Ok None
    | o :: os => rbind (check_arg o t r e) (fun m =>
        match m with Some x => Ok (Some x) | None => try_opts os t r e end)
    end.

  (* 524-550: result = settings and unused args; fuel >= number of args suffices *)
  Fixpoint parse_loop (fuel : nat) (opts : list opt) (args : list str) (e : env) (non_args : list str) : res (env * list str) :=
    match args with
    | [] => Ok (e, non_args)
    | t :: r =>
        match fuel with
        | O => OutOfFuel
        | S f => rbind (try_opts opts t r e) (fun m =>
            match m with
            | Some (e', r') => parse_loop f opts r' e' non_args
            | None => parse_loop f opts r e (non_args ++ [t])
            end)
        end
    end.
  Definition parse_args (opts : list opt) (args : list str) (e : env) : res (env * str) :=
    rbind (parse_loop (List.length args) opts args e []) (fun x => Ok (fst x, join (snd x))).
End Parse.
