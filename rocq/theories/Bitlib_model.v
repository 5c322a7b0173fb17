(* Model of the libraries bit32 (lbitlib.c) and bit (bit.c); arguments are lua_Integer. *)
Require Import ZArith List Bool.
From Verif Require Import Base.
Import ListNotations.
Open Scope Z_scope.

Definition NBITS : Z := 32.                                        (* lbitlib.c:28 *)
(* lbitlib.c:37 ALLONES, :41 trim, :45 mask *)
Definition unot (x : Z) : Z := u64 (Z.lnot x).
Definition ALLONES : Z := unot (u64 (Z.shiftl (u64 (Z.shiftl (unot 0) (NBITS - 1))) 1)).
Definition trim (x : Z) : Z := Z.land x ALLONES.
Definition mask (n : Z) : Z := unot (u64 (Z.shiftl (u64 (Z.shiftl ALLONES 1)) (n - 1))).

(* lbitlib.c:49-55 andaux; 58-62 b_and; 65-69 b_test *)
Definition andaux (l : list Z) : Z := trim (fold_left (fun r x => Z.land r (u64 x)) l (unot 0)).
Definition b_and (l : list Z) : Z := s64 (andaux l).
Definition b_test (l : list Z) : bool := negb (andaux l =? 0).
(* lbitlib.c:72-79, 82-89, 92-96 *)
Definition b_or (l : list Z) : Z := s64 (trim (fold_left (fun r x => Z.lor r (u64 x)) l 0)).
Definition b_xor (l : list Z) : Z := s64 (trim (fold_left (fun r x => Z.lxor r (u64 x)) l 0)).
Definition b_not (x : Z) : Z := s64 (trim (unot (u64 x))).

(* lbitlib.c:99-113 b_shift *)
Definition b_shift (r i : Z) : outcome Z :=
  if i <? 0 then
    bind (c_signed (- i)) (fun i =>
    let r := trim r in
    Ok (s64 (if NBITS <=? i then 0 else Z.shiftr r i)))
  else
    Ok (s64 (trim (if NBITS <=? i then 0 else u64 (Z.shiftl r i)))).
(* lbitlib.c:116-118, 121-123 *)
Definition b_lshift (x i : Z) : outcome Z := b_shift (u64 x) i.
Definition b_rshift (x i : Z) : outcome Z := bind (c_signed (- i)) (fun j => b_shift (u64 x) j).
(* lbitlib.c:126-138 b_arshift *)
Definition b_arshift (x i : Z) : outcome Z :=
  let r := u64 x in
  if (i <? 0) || (Z.land r (Z.shiftl 1 (NBITS - 1)) =? 0) then bind (c_signed (- i)) (fun j => b_shift r j)
  else Ok (s64 (if NBITS <=? i then ALLONES
                else trim (Z.lor (Z.shiftr r i) (unot (Z.shiftr (trim (unot 0)) i))))).

(* lbitlib.c:141-149 b_rot; d & 31 on a two's complement lua_Integer *)
Definition b_rot (x d : Z) : Z :=
  let i := Z.land d (NBITS - 1) in
  let r := trim (u64 x) in
  let r := if i =? 0 then r else Z.lor (u64 (Z.shiftl r i)) (Z.shiftr r (NBITS - i)) in
  s64 (trim r).
Definition b_lrot (x d : Z) : outcome Z := Ok (b_rot x d).
Definition b_rrot (x d : Z) : outcome Z := bind (c_signed (- d)) (fun e => Ok (b_rot x e)).

(* lbitlib.c:168-177 fieldargs *)
Definition fieldargs (f w : Z) : outcome (Z * Z) :=
  if f <? 0 then Err EArg
  else if w <=? 0 then Err EArg
  else bind (c_signed (f + w)) (fun s => if NBITS <? s then Err EArg else Ok (f, w)).

(* lbitlib.c:180-187 b_extract; 190-199 b_replace *)
Definition b_extract (x f w : Z) : outcome Z :=
  let r := trim (u64 x) in
  bind (fieldargs f w) (fun '(f, w) => Ok (s64 (Z.land (Z.shiftr r f) (mask w)))).
Definition b_replace (x v f w : Z) : outcome Z :=
  let r := trim (u64 x) in
  let v := trim (u64 v) in
  bind (fieldargs f w) (fun '(f, w) =>
  let m := mask w in
  Ok (s64 (Z.lor (Z.land r (unot (u64 (Z.shiftl m f)))) (u64 (Z.shiftl (Z.land v m) f))))).

(* ---- bit.c: UBits = uint32_t, SBits = int32_t; BRET converts to SBits ---- *)
Definition barg (x : Z) : Z := u32 x.                              (* bit.c:41-44 *)
Definition bit_tobit (x : Z) : Z := s32 (barg x).                  (* bit.c:49 *)
Definition bit_bnot (x : Z) : Z := s32 (u32 (Z.lnot (barg x))).    (* bit.c:50 *)
(* bit.c:52-57: the first argument combined with the others, last one first *)
Definition bit_op (op : Z -> Z -> Z) (x : Z) (l : list Z) : Z :=
  s32 (fold_left (fun b y => op b (barg y)) (rev l) (barg x)).
Definition bit_band := bit_op Z.land.
Definition bit_bor := bit_op Z.lor.
Definition bit_bxor := bit_op Z.lxor.
(* bit.c:59-71; a shift of a 32-bit operand by 32 is undefined *)
Definition count (n : Z) : Z := Z.land (barg n) 31.
Definition shl32 (b n : Z) : outcome Z := if (n <? 0) || (32 <=? n) then UB else Ok (u32 (Z.shiftl b n)).
Definition shr32 (b n : Z) : outcome Z := if (n <? 0) || (32 <=? n) then UB else Ok (Z.shiftr b n).
Definition bit_lshift (x n : Z) : outcome Z := bind (shl32 (barg x) (count n)) (fun b => Ok (s32 b)).
Definition bit_rshift (x n : Z) : outcome Z := bind (shr32 (barg x) (count n)) (fun b => Ok (s32 b)).
Definition bit_arshift (x n : Z) : outcome Z := bind (shr32 (s32 (barg x)) (count n)) (fun b => Ok (s32 b)).
Definition bit_rol (x n : Z) : outcome Z :=
  bind (shl32 (barg x) (count n)) (fun a => bind (shr32 (barg x) (32 - count n)) (fun b => Ok (s32 (Z.lor a b)))).
Definition bit_ror (x n : Z) : outcome Z :=
  bind (shl32 (barg x) (32 - count n)) (fun a => bind (shr32 (barg x) (count n)) (fun b => Ok (s32 (Z.lor a b)))).

(* bit.c:73-78 *)
Definition bit_bswap (x : Z) : Z :=
  let b := barg x in
  s32 (Z.lor (Z.lor (Z.lor (Z.shiftr b 24) (Z.land (Z.shiftr b 8) 65280))
              (u32 (Z.shiftl (Z.land b 65280) 8))) (u32 (Z.shiftl b 24))).

(* bit.c:80-92 bit_tohex: the digits, most significant first; n = None when absent.
   -n overflows an int for n = -2^31. *)
Definition hexdigit (upper : bool) (d : Z) : Z :=
  if d <? 10 then 48 + d else (if upper then 55 else 87) + d.
Fixpoint hexloop (upper : bool) (i : nat) (b : Z) (acc : list Z) : list Z :=
  match i with O => acc | S k => hexloop upper k (Z.shiftr b 4) (hexdigit upper (Z.land b 15) :: acc) end.
Definition bit_tohex (x : Z) (n : option Z) : outcome (list Z) :=
  let n := match n with None => 8 | Some n => s32 (barg n) end in
  if n =? - two31 then UB else
  let upper := n <? 0 in
  let n := Z.abs n in
  let n := if 8 <? n then 8 else n in
  Ok (hexloop upper (Z.to_nat n) (barg x) []).
