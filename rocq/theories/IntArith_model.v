(* Model of the integer arithmetic of lvm.c / lobject.c. *)
Require Import ZArith List Bool.
From Verif Require Import Base.
Open Scope Z_scope.

(* lvm.h:71 intop(op,v1,v2): operate on the unsigned values, cast back. *)
Definition intop (op : Z -> Z -> Z) (a b : Z) : Z := s64 (op (u64 a) (u64 b)).

Definition int_add (a b : Z) : Z := intop Z.add a b.
Definition int_sub (a b : Z) : Z := intop Z.sub a b.
Definition int_mul (a b : Z) : Z := intop Z.mul a b.
(* lobject.c:83-101 intarith, case LUA_OPUNM: intop(-, 0, v1) *)
Definition int_unm (a : Z) : Z := intop Z.sub 0 a.
(* lobject.c intarith, bitwise cases: intop(&,..), intop(|,..), intop(^,..),
   LUA_OPBNOT: intop(^, ~l_castS2U(0), v1) *)
Definition int_band (a b : Z) : Z := intop Z.land a b.
Definition int_bor (a b : Z) : Z := intop Z.lor a b.
Definition int_bxor (a b : Z) : Z := intop Z.lxor a b.
Definition int_bnot (a : Z) : Z := intop Z.lxor (two64 - 1) a.

(* lvm.c:889-901 luaV_idiv.  The test (l_castS2U(n) + 1u <= 1u) selects n = -1, 0;
   C division truncates (Z.quot); (m ^ n) < 0 is the sign of the exclusive or.  The signed
   C operations are undefined when their result does not fit. *)
Definition luaV_idiv (m n : Z) : outcome Z :=
  if u64 (u64 n + 1) <=? 1 then
    if n =? 0 then Err EDivZero else Ok (int_sub 0 m)
  else
    bind (c_signed (Z.quot m n)) (fun q =>
    if (Z.lxor m n <? 0) && negb (Z.rem m n =? 0) then c_signed (q - 1) else Ok q).

(* lvm.c:909-921 luaV_mod. *)
Definition luaV_mod (m n : Z) : outcome Z :=
  if u64 (u64 n + 1) <=? 1 then
    if n =? 0 then Err EModZero else Ok 0
  else
    bind (c_signed (Z.rem m n)) (fun r =>
    if negb (r =? 0) && (Z.lxor r n <? 0) then c_signed (r + n) else Ok r).

(* lvm.c:935 NBITS *)
Definition NBITS : Z := 64.

(* lvm.c:940-949 luaV_shiftl.  After the range tests -y and y are valid shift
   amounts for the unsigned 64-bit shifts. *)
Definition luaV_shiftl (x y : Z) : Z :=
  if y <? 0 then
    if y <=? - NBITS then 0 else intop Z.shiftr x (- y)
  else
    if NBITS <=? y then 0 else intop Z.shiftl x y.

(* lvm.c:1593-1612 OP_SHL / OP_SHR on integers (also lobject.c intarith
   LUA_OPSHL/LUA_OPSHR): SHR computes luaV_shiftl(ib, -ic); the negation is a C
   signed negation, undefined for the minimum integer. *)
Definition op_shl (x y : Z) : outcome Z := Ok (luaV_shiftl x y).
Definition op_shr (x y : Z) : outcome Z :=
  bind (c_signed (- y)) (fun y' => Ok (luaV_shiftl x y')).

(* Integer operators of lobject.c:83-101 intarith. *)
Inductive iop : Set :=
  OpAdd | OpSub | OpMul | OpMod | OpIDiv | OpBand | OpBor | OpBxor
| OpShl | OpShr | OpUnm | OpBnot.

Definition intarith (o : iop) (a b : Z) : outcome Z :=
  match o with
  | OpAdd => Ok (int_add a b)
  | OpSub => Ok (int_sub a b)
  | OpMul => Ok (int_mul a b)
  | OpMod => luaV_mod a b
  | OpIDiv => luaV_idiv a b
  | OpBand => Ok (int_band a b)
  | OpBor => Ok (int_bor a b)
  | OpBxor => Ok (int_bxor a b)
  | OpShl => op_shl a b
  | OpShr => op_shr a b
  | OpUnm => Ok (int_unm a)
  | OpBnot => Ok (int_bnot a)
  end.
