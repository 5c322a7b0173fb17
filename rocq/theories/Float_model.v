(* Model of Lua numbers: 64-bit integers and IEEE binary64 floats.  Floats are Coq's reference
   semantics SpecFloat (pure Gallina), with 53 bits of precision and exponents below 1024; a float
   is a spec_float which is valid_binary.  NaNs are all identified. *)
Require Import ZArith List Bool.
From Coq Require Import Floats.SpecFloat.
From Verif Require Import Base.
Import ListNotations.
Open Scope Z_scope.

Definition prec : Z := 53.
Definition emax : Z := 1024.
Definition flt := spec_float.
Definition valid (f : flt) : Prop := valid_binary prec emax f = true.

(* C operators on double, llimits.h:341-348 *)
Definition fadd (a b : flt) : flt := SFadd prec emax a b.
Definition fsub (a b : flt) : flt := SFsub prec emax a b.
Definition fmul (a b : flt) : flt := SFmul prec emax a b.
Definition fneg (a : flt) : flt := SFopp a.
Definition flt_lt (a b : flt) : bool := SFltb a b.
Definition flt_le (a b : flt) : bool := SFleb a b.
Definition flt_eq (a b : flt) : bool := SFeqb a b.

(* cast_num: conversion of an integer, rounding to nearest even *)
Definition cast_num (i : Z) : flt := binary_normalize prec emax i 0 false.

(* the integer part of a finite float s, m, e rounded down *)
Definition sgn_m (s : bool) (m : positive) : Z := if s then Z.neg m else Z.pos m.
Definition floor_Z (s : bool) (m : positive) (e : Z) : Z :=
  if 0 <=? e then sgn_m s m * 2 ^ e else sgn_m s m / 2 ^ (- e).
(* C library floor: the largest integral value not above the argument (a float again);
   negative arguments above -1 give -1, and floor(-0.0) is -0.0 *)
Definition l_floor (f : flt) : flt :=
  match f with
  | S754_finite s m e => if 0 <=? e then f else binary_normalize prec emax (floor_Z s m e) 0 s
  | _ => f
  end.
(* C library ceil *)
Definition l_ceil (f : flt) : flt := fneg (l_floor (fneg f)).

(* C conversion of a double to a 64-bit integer: truncation, undefined out of range *)
Definition trunc_Z (s : bool) (m : positive) (e : Z) : Z :=
  if 0 <=? e then sgn_m s m * 2 ^ e else Z.quot (sgn_m s m) (2 ^ (- e)).
Definition f2i (f : flt) : outcome Z :=
  match f with
  | S754_zero _ => Ok 0
  | S754_finite s m e => let z := trunc_Z s m e in if (minint <=? z) && (z <=? maxint) then Ok z else UB
  | _ => UB
  end.

(* luaconf.h:459-462 lua_numbertointeger *)
Definition numbertointeger (n : flt) : outcome (option Z) :=
  if flt_le (cast_num minint) n && flt_lt n (fneg (cast_num minint))
  then bind (f2i n) (fun z => Ok (Some z)) else Ok None.

(* lvm.h:43-47 F2Imod *)
Inductive F2Imod := F2Ieq | F2Ifloor | F2Iceil.
Definition fone : flt := cast_num 1.
Definition fzero : flt := S754_zero false.

(* lvm.c:121-130 luaV_flttointeger *)
Definition flttointeger (n : flt) (mode : F2Imod) : outcome (option Z) :=
  let f := l_floor n in
  if negb (flt_eq n f) then
    match mode with
    | F2Ieq => Ok None
    | F2Iceil => numbertointeger (fadd f fone)
    | F2Ifloor => numbertointeger f
    end
  else numbertointeger f.

Inductive num := NInt (i : Z) | NFlt (f : flt).

(* lvm.c:137-146 luaV_tointegerns, on numbers *)
Definition tointegerns (v : num) (mode : F2Imod) : outcome (option Z) :=
  match v with
  | NFlt f => flttointeger f mode
  | NInt i => Ok (Some i)
  end.

(* lvm.c:74-77: MAXINTFITSF = 2^53; unsigned arithmetic *)
Definition NBM : Z := 53.
Definition MAXINTFITSF : Z := Z.shiftl 1 NBM.
Definition l_intfitsf (i : Z) : bool := u64 (MAXINTFITSF + u64 i) <=? 2 * MAXINTFITSF.

(* lvm.c:578-588 LTintfloat; 595-605 LEintfloat; 612-622 LTfloatint; 629-639 LEfloatint *)
Definition LTintfloat (i : Z) (f : flt) : outcome bool :=
  if l_intfitsf i then Ok (flt_lt (cast_num i) f)
  else bind (flttointeger f F2Iceil) (fun o =>
       match o with Some fi => Ok (i <? fi) | None => Ok (flt_lt fzero f) end).
Definition LEintfloat (i : Z) (f : flt) : outcome bool :=
  if l_intfitsf i then Ok (flt_le (cast_num i) f)
  else bind (flttointeger f F2Ifloor) (fun o =>
       match o with Some fi => Ok (i <=? fi) | None => Ok (flt_lt fzero f) end).
Definition LTfloatint (f : flt) (i : Z) : outcome bool :=
  if l_intfitsf i then Ok (flt_lt f (cast_num i))
  else bind (flttointeger f F2Ifloor) (fun o =>
       match o with Some fi => Ok (fi <? i) | None => Ok (flt_lt f fzero) end).
Definition LEfloatint (f : flt) (i : Z) : outcome bool :=
  if l_intfitsf i then Ok (flt_le f (cast_num i))
  else bind (flttointeger f F2Iceil) (fun o =>
       match o with Some fi => Ok (fi <=? i) | None => Ok (flt_lt f fzero) end).

(* lvm.c:645-661 LTnum *)
Definition LTnum (l r : num) : outcome bool :=
  match l, r with
  | NInt a, NInt b => Ok (a <? b)
  | NInt a, NFlt b => LTintfloat a b
  | NFlt a, NFlt b => Ok (flt_lt a b)
  | NFlt a, NInt b => LTfloatint a b
  end.
(* lvm.c:667-683 LEnum *)
Definition LEnum (l r : num) : outcome bool :=
  match l, r with
  | NInt a, NInt b => Ok (a <=? b)
  | NInt a, NFlt b => LEintfloat a b
  | NFlt a, NFlt b => Ok (flt_le a b)
  | NFlt a, NInt b => LEfloatint a b
  end.
(* lvm.c:731-745 luaV_equalobj on numbers *)
Definition EQnum (l r : num) : outcome bool :=
  match l, r with
  | NInt a, NInt b => Ok (a =? b)
  | NFlt a, NFlt b => Ok (flt_eq a b)
  | _, _ =>
    bind (tointegerns l F2Ieq) (fun o1 =>
    match o1 with
    | None => Ok false
    | Some i1 => bind (tointegerns r F2Ieq) (fun o2 =>
                 match o2 with None => Ok false | Some i2 => Ok (i1 =? i2) end)
    end)
  end.

(* lmathlib.c:84-90 pushnumint; 93-102 math.floor, 105-114 math.ceil, 70-80 math.tointeger *)
Definition pushnumint (d : flt) : outcome num :=
  bind (numbertointeger d) (fun o => match o with Some n => Ok (NInt n) | None => Ok (NFlt d) end).
Definition math_floor (v : num) : outcome num :=
  match v with NInt _ => Ok v | NFlt f => pushnumint (l_floor f) end.
Definition math_ceil (v : num) : outcome num :=
  match v with NInt _ => Ok v | NFlt f => pushnumint (l_ceil f) end.
Definition math_toint (v : num) : outcome (option Z) := tointegerns v F2Ieq.
(* lmathlib.c:28-37 math.abs *)
Definition math_abs (v : num) : num :=
  match v with NInt n => NInt (if n <? 0 then s64 (u64 (0 - u64 n)) else n) | NFlt f => NFlt (SFabs f) end.
