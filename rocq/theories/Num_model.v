(* Model of reading and writing integers: lobject.c l_str2int, luaO_str2num, and
   lbaselib.c b_str2int (tonumber with a base).  A C string is the list of bytes before its
   terminating zero at the end of the Lua string; a pointer into it is the remaining suffix,
   and reading the empty suffix gives the terminator. *)
Require Import ZArith List Bool.
From Verif Require Import Base Str Ctype_model.
Import ListNotations.
Open Scope Z_scope.

Definition cur (t : list Z) : Z := hd 0 t.

(* while (lisspace( *s)) s++; it stops at the terminator, which is no space *)
Fixpoint skip_spaces (t : list Z) : list Z :=
  match t with c :: t' => if lisspace c then skip_spaces t' else t | [] => [] end.

(* lobject.c:171-175 isneg *)
Definition isneg (t : list Z) : bool * list Z :=
  match t with
  | c :: t' => if c =? 45 then (true, t') else if c =? 43 then (false, t') else (false, t)
  | [] => (false, t)
  end.

(* lobject.c:165-168 luaO_hexavalue *)
Definition hexavalue (c : Z) : Z := if lisdigit c then c - 48 else (ltolower c - 97) + 10.

Definition MAXBY10 : Z := maxint / 10.       (* lobject.c:297 *)
Definition MAXLASTD : Z := maxint mod 10.    (* lobject.c:298 *)

(* lobject.c:309-312: the loop over hexadecimal digits *)
Fixpoint hex_loop (t : list Z) (a : Z) (empty : bool) : Z * bool * list Z :=
  match t with
  | c :: t' => if lisxdigit c then hex_loop t' (u64 (u64 (a * 16) + hexavalue c)) false else (a, empty, t)
  | [] => (a, empty, t)
  end.
(* lobject.c:315-321: decimal digits; None = overflow, return NULL *)
Fixpoint dec_loop (t : list Z) (neg : bool) (a : Z) (empty : bool) : option (Z * bool * list Z) :=
  match t with
  | c :: t' =>
    if lisdigit c then
      let d := c - 48 in
      if (MAXBY10 <=? a) && ((MAXBY10 <? a) || (MAXLASTD + (if neg then 1 else 0) <? d)) then None
      else dec_loop t' neg (u64 (u64 (a * 10) + d)) false
    else Some (a, empty, t)
  | [] => Some (a, empty, t)
  end.

(* lobject.c:300-330 l_str2int: the value and the remaining suffix *)
Definition l_str2int (t : list Z) : option (Z * list Z) :=
  let t := skip_spaces t in
  let '(neg, t) := isneg t in
  let r := match t with
           | c0 :: c1 :: t' =>
             if (c0 =? 48) && ((c1 =? 120) || (c1 =? 88)) then Some (hex_loop t' 0 true) else dec_loop t neg 0 true
           | _ => dec_loop t neg 0 true
           end in
  match r with
  | None => None
  | Some (a, empty, t) =>
    let t := skip_spaces t in
    if empty || negb (cur t =? 0) then None
    else Some (s64 (if neg then u64 (0 - a) else a), t)
  end.

(* lvm.c:92-97, lbaselib.c:78: luaO_str2num must use the whole string; only the integer
   branch is modelled (None: not an integer numeral) *)
Definition str2int (s : list Z) : option Z :=
  match l_str2int s with
  | Some (n, rest) => if slen s - slen rest + 1 =? slen s + 1 then Some n else None
  | None => None
  end.

(* lbaselib.c:44-66: the standard ctype functions in the C locale *)
Definition isdigit (c : Z) : bool := (48 <=? c) && (c <=? 57).
Definition isupper (c : Z) : bool := (65 <=? c) && (c <=? 90).
Definition islower (c : Z) : bool := (97 <=? c) && (c <=? 122).
Definition isalnum (c : Z) : bool := isdigit c || isupper c || islower c.
Definition toupper (c : Z) : Z := if islower c then c - 32 else c.
(* lbaselib.c:44 SPACECHARS *)
Definition spacechar (c : Z) : bool := existsb (Z.eqb c) [32; 12; 10; 13; 9; 11].
Fixpoint span_spaces (t : list Z) : list Z :=
  match t with c :: t' => if spacechar c then span_spaces t' else t | [] => [] end.
(* lbaselib.c:54-61 *)
Fixpoint base_loop (t : list Z) (base n : Z) : option (Z * list Z) :=
  match t with
  | c :: t' =>
    if isalnum c then
      let digit := if isdigit c then c - 48 else (toupper c - 65) + 10 in
      if base <=? digit then None else base_loop t' base (u64 (u64 (n * base) + digit))
    else Some (n, t)
  | [] => Some (n, t)
  end.
Definition b_str2int (t : list Z) (base : Z) : option (Z * list Z) :=
  let t := span_spaces t in
  let '(neg, t) := isneg t in
  if negb (isalnum (cur t)) then None else
  match base_loop t base 0 with
  | None => None
  | Some (n, t) => Some (s64 (if neg then u64 (0 - n) else n), span_spaces t)
  end.
(* lbaselib.c:84-97 tonumber(s, base) *)
Definition tonumber_base (s : list Z) (base : Z) : outcome (option Z) :=
  if negb ((2 <=? base) && (base <=? 36)) then Err EArg else
  Ok (match b_str2int s base with
      | Some (n, rest) => if slen rest =? 0 then Some n else None
      | None => None
      end).
