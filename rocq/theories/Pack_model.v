(* Model of string.pack, string.packsize and string.unpack (lstrlib.c:1326-1752). Sizes as on LP64:
   int has 4 bytes, long, size_t, lua_Integer and lua_Number have 8, MAXALIGN is 8. Memory errors and
   the limit of the string buffer are left out. *)
Require Import ZArith List Bool.
From Verif Require Import Base Str Strlib_model.
Import ListNotations.
Open Scope Z_scope.

Definition MAXINTSIZE : Z := 16.                       (* lstrlib.c:1333 *)
Definition SZINT : Z := 8.                             (* 1342 *)
Definition MAXALIGN : Z := 8.                          (* 1358 *)

Inductive KOption := Kint | Kuint | Kfloat | Kchar | Kstring | Kzstr | Kpadding | Kpaddalign | Knop.
Record header := mkHdr { islittle : bool; maxalign : Z }.

(* *fmt: the terminating zero is read at the end *)
Definition cur (fmt : list Z) : Z := match fmt with [] => 0 | c :: _ => c end.
(* lstrlib.c:1401 *)
Definition digit (c : Z) : bool := (48 <=? c) && (c <=? 57).
(* lstrlib.c:1406-1411: the loop; int arithmetic *)
Fixpoint getnum_loop (fmt : list Z) (a : Z) : outcome (Z * list Z) :=
  match fmt with
  | [] => Ok (a, [])
  | c :: r =>
    if digit c && (a <=? (MAXSIZE - 9) / 10) then
      let a := a * 10 + (c - 48) in
      if a <=? INT_MAX then getnum_loop r a else UB
    else Ok (a, fmt)
  end.
(* lstrlib.c:1403-1413; the test on a is true in the first round *)
Definition getnum (fmt : list Z) (df : Z) : outcome (Z * list Z) :=
  if negb (digit (cur fmt)) then Ok (df, fmt) else getnum_loop fmt 0.
(* lstrlib.c:1420-1426 *)
Definition getnumlimit (fmt : list Z) (df : Z) : outcome (Z * list Z) :=
  bind (getnum fmt df) (fun '(sz, fmt) =>
  if (MAXINTSIZE <? sz) || (sz <=? 0) then Err EFormat else Ok (sz, fmt)).

Section NATIVE.
Variable native_little : bool.                         (* nativeendian.little, 1346-1349 *)
(* lstrlib.c:1442-1477. The option, its size, the rest of the format and the header *)
Definition getoption (h : header) (fmt : list Z) : outcome (KOption * Z * list Z * header) :=
  let opt := cur fmt in
  let fmt := tl fmt in
  let plain k sz := Ok (k, sz, fmt, h) in
  let limited k df := bind (getnumlimit fmt df) (fun '(sz, fmt) => Ok (k, sz, fmt, h)) in
  if opt =? 98 (* b *) then plain Kint 1
  else if opt =? 66 (* B *) then plain Kuint 1
  else if opt =? 104 (* h *) then plain Kint 2
  else if opt =? 72 (* H *) then plain Kuint 2
  else if opt =? 108 (* l *) then plain Kint 8
  else if opt =? 76 (* L *) then plain Kuint 8
  else if opt =? 106 (* j *) then plain Kint 8
  else if opt =? 74 (* J *) then plain Kuint 8
  else if opt =? 84 (* T *) then plain Kuint 8
  else if opt =? 102 (* f *) then plain Kfloat 4
  else if opt =? 100 (* d *) then plain Kfloat 8
  else if opt =? 110 (* n *) then plain Kfloat 8
  else if opt =? 105 (* i *) then limited Kint 4
  else if opt =? 73 (* I *) then limited Kuint 4
  else if opt =? 115 (* s *) then limited Kstring 8
  else if opt =? 99 (* c *) then
    bind (getnum fmt (-1)) (fun '(sz, fmt) => if sz =? -1 then Err EFormat else Ok (Kchar, sz, fmt, h))
  else if opt =? 122 (* z *) then plain Kzstr 0
  else if opt =? 120 (* x *) then plain Kpadding 1
  else if opt =? 88 (* X *) then plain Kpaddalign 0
  else if opt =? 32 (* space *) then plain Knop 0
  else if opt =? 60 (* < *) then Ok (Knop, 0, fmt, mkHdr true (maxalign h))
  else if opt =? 62 (* > *) then Ok (Knop, 0, fmt, mkHdr false (maxalign h))
  else if opt =? 61 (* = *) then Ok (Knop, 0, fmt, mkHdr native_little (maxalign h))
  else if opt =? 33 (* ! *) then
    bind (getnumlimit fmt MAXALIGN) (fun '(sz, fmt) => Ok (Knop, 0, fmt, mkHdr (islittle h) sz))
  else Err EFormat.
Definition is_Kchar (k : KOption) : bool := match k with Kchar => true | _ => false end.
(* lstrlib.c:1489-1507. Also the padding *)
Definition getdetails (h : header) (totalsize : Z) (fmt : list Z) : outcome (KOption * Z * Z * list Z * header) :=
  bind (getoption h fmt) (fun '(opt, psize, fmt, h) =>
  bind (match opt with
        | Kpaddalign =>
          if cur fmt =? 0 then Err EArg
          else bind (getoption h fmt) (fun '(o2, align, fmt, h) => if is_Kchar o2 || (align =? 0) then Err EArg else Ok (align, fmt, h))
        | _ => Ok (psize, fmt, h)
        end) (fun '(align, fmt, h) =>
  if (align <=? 1) || is_Kchar opt then Ok (opt, psize, 0, fmt, h)
  else
    let align := if maxalign h <? align then maxalign h else align in
    if negb (Z.land align (align - 1) =? 0) then Err EArg
    else Ok (opt, psize, Z.land (align - Z.land totalsize (align - 1)) (align - 1), fmt, h))).

(* lstrlib.c:1516-1530. The bytes of the buffer are all written: they start as zero here *)
Definition place (little : bool) (size i : nat) : nat := if little then i else (size - 1 - i)%nat.
Fixpoint pack_loop (little : bool) (size : nat) (buff : list Z) (n : Z) (i k : nat) : list Z :=
  match k with
  | O => buff
  | S k =>
    let n := n / 256 in
    pack_loop little size (upd buff (place little size i) (Z.land n 255)) n (S i) k
  end.
Fixpoint sign_loop (little : bool) (size : nat) (buff : list Z) (i k : nat) : list Z :=
  match k with
  | O => buff
  | S k => sign_loop little size (upd buff (place little size i) 255) (S i) k
  end.
Definition packint (n : Z) (little : bool) (size : Z) (neg : bool) : list Z :=
  let sz := Z.to_nat size in
  let buff := upd (repeat 0 sz) (place little sz 0) (Z.land n 255) in
  let buff := pack_loop little sz buff n 1 (sz - 1) in
  if neg && (SZINT <? size) then sign_loop little sz buff 8 (sz - 8) else buff.
(* lstrlib.c:1537-1546 *)
Definition copywithendian (src : list Z) (little : bool) : list Z := if Bool.eqb little native_little then src else rev src.
(* the bytes of an object of size bytes with the value n in memory *)
Fixpoint le_bytes (n : Z) (size : nat) : list Z := match size with O => [] | S k => n mod 256 :: le_bytes (n / 256) k end.
Fixpoint le_val (l : list Z) : Z := match l with [] => 0 | b :: l => b + 256 * le_val l end.
Definition in_memory (n : Z) (size : nat) : list Z := if native_little then le_bytes n size else rev (le_bytes n size).
Definition of_memory (l : list Z) : Z := if native_little then le_val l else le_val (rev l).

(* Arguments are any Lua values with the conversions of luaL_checkinteger, luaL_checknumber (the bits
   of the double) and luaL_checklstring, lauxlib.c. to_single, of_single: C conversions between
   double and float, on bits *)
Variable V : Type.
Variable toint : V -> option Z.
Variable tonum : V -> option Z.
Variable tostr : V -> option (list Z).
Variable to_single of_single : Z -> Z.

Definition check {A} (o : option A) : outcome A := match o with Some a => Ok a | None => Err EArg end.
Definition carg {A} (conv : V -> option A) (args : list V) : outcome (A * list V) :=
  match args with [] => Err EArg | v :: r => bind (check (conv v)) (fun a => Ok (a, r)) end.
Definition zeros (n : Z) : list Z := repeat 0 (Z.to_nat n).
(* strlen(s): to the first zero byte or the final one *)
Fixpoint strlen (s : list Z) : Z := match s with [] => 0 | c :: r => if c =? 0 then 0 else 1 + strlen r end.

(* lstrlib.c:1558-1630 *)
Fixpoint pack_run (fuel : nat) (h : header) (fmt : list Z) (args : list V) (totalsize : Z) (b : list Z) : outcome (list Z) :=
  match fuel with
  | O => OutOfFuel
  | S f =>
    if cur fmt =? 0 then Ok b
    else bind (getdetails h totalsize fmt) (fun '(opt, size, ntoalign, fmt, h) =>
      let totalsize := u64 (totalsize + (ntoalign + size)) in
      let b := b ++ zeros ntoalign in
      match opt with
      | Kint => bind (carg toint args) (fun '(n, args) =>
          let ok := if size <? SZINT then (let lim := 2 ^ (size * 8 - 1) in (- lim <=? n) && (n <? lim)) else true in
          if negb ok then Err EArg
          else pack_run f h fmt args totalsize (b ++ packint (u64 n) (islittle h) size (n <? 0)))
      | Kuint => bind (carg toint args) (fun '(n, args) =>
          let ok := if size <? SZINT then u64 n <? 2 ^ (size * 8) else true in
          if negb ok then Err EArg
          else pack_run f h fmt args totalsize (b ++ packint (u64 n) (islittle h) size false))
      | Kfloat => bind (carg tonum args) (fun '(n, args) =>
          let u := if size =? 4 then in_memory (to_single n) 4 else in_memory n 8 in
          pack_run f h fmt args totalsize (b ++ copywithendian u (islittle h)))
      | Kchar => bind (carg tostr args) (fun '(s, args) =>
          if negb (slen s <=? size) then Err EArg
          else pack_run f h fmt args totalsize (b ++ s ++ zeros (size - slen s)))
      | Kstring => bind (carg tostr args) (fun '(s, args) =>
          if negb ((8 <=? size) || (slen s <? 2 ^ (size * 8))) then Err EArg
          else pack_run f h fmt args (u64 (totalsize + slen s)) (b ++ packint (slen s) (islittle h) size false ++ s))
      | Kzstr => bind (carg tostr args) (fun '(s, args) =>
          if negb (strlen s =? slen s) then Err EArg
          else pack_run f h fmt args (u64 (totalsize + (slen s + 1))) (b ++ s ++ [0]))
      | Kpadding => pack_run f h fmt args totalsize (b ++ [0])
      | Kpaddalign | Knop => pack_run f h fmt args totalsize b
      end)
  end.
Definition initheader : header := mkHdr native_little 1.             (* 1432-1436 *)
Definition str_pack (fmt : list Z) (args : list V) : outcome (list Z) :=
  pack_run (S (length fmt)) initheader fmt args 0 [].

(* lstrlib.c:1636-1653 *)
Fixpoint packsize_run (fuel : nat) (h : header) (fmt : list Z) (totalsize : Z) : outcome Z :=
  match fuel with
  | O => OutOfFuel
  | S f =>
    if cur fmt =? 0 then Ok totalsize
    else bind (getdetails h totalsize fmt) (fun '(opt, size, ntoalign, fmt, h) =>
      if match opt with Kstring | Kzstr => true | _ => false end then Err EArg
      else
        let size := size + ntoalign in
        if INT_MAX <? size then UB
        else if negb (totalsize <=? MAXSIZE - size) then Err EArg
        else packsize_run f h fmt (totalsize + size))
  end.
Definition str_packsize (fmt : list Z) : outcome Z := packsize_run (S (length fmt)) initheader fmt 0.

(* lstrlib.c:1664-1687 *)
Fixpoint unpack_loop (data : list Z) (pos : Z) (little : bool) (size : Z) (k : nat) (res : Z) : outcome Z :=
  match k with
  | O => Ok res
  | S i =>
    bind (sbyte data (pos + (if little then Z.of_nat i else size - 1 - Z.of_nat i))) (fun c =>
    unpack_loop data pos little size i (Z.lor (u64 (res * 256)) c))
  end.
Fixpoint mask_loop (data : list Z) (pos : Z) (little : bool) (size mask i : Z) (k : nat) : outcome unit :=
  match k with
  | O => Ok tt
  | S k =>
    bind (sbyte data (pos + (if little then i else size - 1 - i))) (fun c =>
    if negb (c =? mask) then Err EArg else mask_loop data pos little size mask (i + 1) k)
  end.
Definition unpackint (data : list Z) (pos : Z) (little : bool) (size : Z) (issigned : bool) : outcome Z :=
  let limit := if size <=? SZINT then size else SZINT in
  bind (unpack_loop data pos little size (Z.to_nat limit) 0) (fun res =>
  if size <? SZINT then
    if issigned then
      let mask := 2 ^ (size * 8 - 1) in
      Ok (s64 (u64 (Z.lxor res mask - mask)))
    else Ok (s64 res)
  else if SZINT <? size then
    let mask := if negb issigned || (0 <=? s64 res) then 0 else 255 in
    bind (mask_loop data pos little size mask limit (Z.to_nat (size - limit))) (fun _ => Ok (s64 res))
  else Ok (s64 res)).

(* values returned by unpack; floats by their bits *)
Inductive uval := UInt (n : Z) | UFlt (bits : Z) | UStr (s : list Z).
(* strlen(data + pos) *)
Fixpoint cstrlen (fuel : nat) (data : list Z) (p : Z) : outcome Z :=
  match fuel with
  | O => OutOfFuel
  | S f => bind (sbyte data p) (fun c => if c =? 0 then Ok 0 else bind (cstrlen f data (p + 1)) (fun r => Ok (1 + r)))
  end.
(* luaL_checkstack(L, 2, ...) with n results on the stack succeeds *)
Variable stack_room : Z -> bool.
(* lstrlib.c:1699-1752; ld is the length of data, so pos <= ld and no sum wraps *)
Fixpoint unpack_run (fuel : nat) (h : header) (fmt data : list Z) (pos n : Z) : outcome (list uval * Z) :=
  match fuel with
  | O => OutOfFuel
  | S f =>
    let ld := slen data in
    if cur fmt =? 0 then Ok ([], pos + 1)
    else bind (getdetails h pos fmt) (fun '(opt, size, ntoalign, fmt, h) =>
      if negb (ntoalign + size <=? ld - pos) then Err EArg
      else
        let pos := pos + ntoalign in
        if negb (stack_room n) then Err EArg
        else
          let push v pos := bind (unpack_run f h fmt data pos (n + 1)) (fun '(l, p) => Ok (v :: l, p)) in
          match opt with
          | Kint | Kuint =>
            bind (unpackint data pos (islittle h) size (match opt with Kint => true | _ => false end)) (fun res =>
            push (UInt res) (pos + size))
          | Kfloat =>
            bind (sread data pos (Z.to_nat size)) (fun bytes =>
            let u := copywithendian bytes (islittle h) in
            push (UFlt (if size =? 4 then of_single (of_memory u) else of_memory u)) (pos + size))
          | Kchar => bind (sread data pos (Z.to_nat size)) (fun s => push (UStr s) (pos + size))
          | Kstring =>
            bind (unpackint data pos (islittle h) size false) (fun r =>
            let len := u64 r in
            if negb (len <=? ld - pos - size) then Err EArg
            else bind (sread data (pos + size) (Z.to_nat len)) (fun s => push (UStr s) (pos + len + size)))
          | Kzstr =>
            bind (cstrlen (S (length data)) data pos) (fun len =>
            if negb (pos + len <? ld) then Err EArg
            else bind (sread data pos (Z.to_nat len)) (fun s => push (UStr s) (pos + (len + 1) + size)))
          | Kpaddalign | Kpadding | Knop => unpack_run f h fmt data (pos + size) n
          end)
  end.
Definition str_unpack (fmt data : list Z) (init : Z) : outcome (list uval * Z) :=
  let pos := u64 (posrelatI init (slen data) - 1) in
  if negb (pos <=? slen data) then Err EArg
  else unpack_run (S (length fmt)) initheader fmt data pos 0.
End NATIVE.
