(* Model of the operators on values: the opcodes of lvm.c that compute them, the constant folder
   and the choice of type-specialised opcodes in lcode.c. *)
Require Import ZArith List Bool.
From Coq Require Import Floats.SpecFloat.
From Verif Require Import Base IntArith_model Float_model.
Import ListNotations.
Open Scope Z_scope.

(* TValue: objects are named by numbers, strings by their bytes *)
Inductive val :=
| Nil | Bool (b : bool) | Num (n : num) | Str (s : list Z)
| IArr (i : nat) | FArr (i : nat) | Tab (i : nat) | Fun (i : nat) | UData (i : nat) | Oth (i : nat).
Definition I (i : Z) : val := Num (NInt i).
Definition F (f : flt) : val := Num (NFlt f).

(* lua.h:285-298 LUA_OPADD..LUA_OPSHR; the same order in lcode.h:27-31 BinOpr and in
   lopcodes.h:148-159 OP_ADD..OP_SHR, so that op + LUA_OPADD and op + OP_ADD are the same operator *)
Inductive bop := Add | Sub | Mul | Mod | Pow | Div | IDiv | Band | Bor | Bxor | Shl | Shr.
(* lcode.h:40, the operators with a value: OPR_MINUS, OPR_BNOT *)
Inductive uop := Unm | Bnot.
(* OP_EQ, OP_LT, OP_LE *)
Inductive cop := Eq | Lt | Le.

(* the opcodes that compute binary operators: generic and specialised, lopcodes.h *)
Inductive bopcode :=
| OP_G (o : bop)
| ADDFF | ADDFI | ADDII | SUBFF | SUBFI | SUBIF | SUBII | MULFF | MULFI | MULII
| DIVFF | DIVFI | DIVIF | DIVII
| BAND_II | BOR_II | BXOR_II | SHL_II | SHR_II.
Inductive uopcode := OP_U (o : uop) | BNOT_I.
Inductive copcode := OP_C (o : cop) | EQ_II | EQ_FF | LT_II | LT_FF | LE_II | LE_FF.

(* ivalue, fltvalue (lobject.h): reading the wrong member of the union is undefined *)
Definition ivalue (v : val) : outcome Z := match v with Num (NInt i) => Ok i | _ => UB end.
Definition fltvalue (v : val) : outcome flt := match v with Num (NFlt f) => Ok f | _ => UB end.
(* lvm.h:56-58 tonumberns *)
Definition tonumberns (v : val) : option flt :=
  match v with Num (NFlt f) => Some f | Num (NInt i) => Some (cast_num i) | _ => None end.
(* lvm.h:67-68 tointegerns: LUA_FLOORN2I is F2Ieq, lvm.h:36 *)
Definition tointns (v : val) : outcome (option Z) :=
  match v with Num n => tointegerns n F2Ieq | _ => Ok None end.

Definition fdiv (a b : flt) : flt := SFdiv prec emax a b.

Section ops.
Variable W : Type.                                   (* the rest of the machine *)
Variable fmod : flt -> flt -> flt.                   (* C library fmod *)
Variable fpow : flt -> flt -> flt.                   (* C library pow *)
(* ltm.c:140-173 luaT_trybinTM: call the metamethod or raise an error *)
Variable tmbin : bop -> val -> val -> W -> outcome (val * W).
Variable tmun : uop -> val -> W -> outcome (val * W).
(* luaV_equalobj, luaV_lessthan, luaV_lessequal on operands that are not both numbers *)
Variable tmcmp : cop -> val -> val -> W -> outcome (bool * W).

(* llimits.h:329-332 luai_nummod *)
Definition nummod (a b : flt) : flt :=
  let m := fmod a b in if flt_lt (fmul m b) fzero then fadd m b else m.
(* llimits.h:313-315 luai_numidiv *)
Definition numidiv (a b : flt) : flt := l_floor (fdiv a b).

Definition done (w : W) (x : outcome val) : outcome (val * W) := bind x (fun v => Ok (v, w)).
Definition iret (w : W) (x : outcome Z) : outcome (val * W) := done w (bind x (fun i => Ok (I i))).
Definition fret (w : W) (f : flt) : outcome (val * W) := Ok (F f, w).

(* the shape of OP_ADD, OP_SUB, OP_MUL, OP_MOD, OP_IDIV (lvm.c:1511-1552, 1613-1642) *)
Definition arith_ (o : bop) (iop : Z -> Z -> outcome Z) (fop : flt -> flt -> flt) (b c : val) (w : W) : outcome (val * W) :=
  match b, c with
  | Num (NInt x), Num (NInt y) => iret w (iop x y)
  | _, _ => match tonumberns b, tonumberns c with
            | Some x, Some y => fret w (fop x y)
            | _, _ => tmbin o b c w
            end
  end.
(* the shape of OP_DIV, OP_POW (lvm.c:1553-1562, 1643-1652) *)
Definition arithf_ (o : bop) (fop : flt -> flt -> flt) (b c : val) (w : W) : outcome (val * W) :=
  match tonumberns b, tonumberns c with
  | Some x, Some y => fret w (fop x y)
  | _, _ => tmbin o b c w
  end.
(* the shape of OP_BAND .. OP_SHR (lvm.c:1563-1612) *)
Definition bitop_ (o : bop) (iop : Z -> Z -> outcome Z) (b c : val) (w : W) : outcome (val * W) :=
  bind (tointns b) (fun ob =>
  match ob with
  | None => tmbin o b c w
  | Some x => bind (tointns c) (fun oc =>
              match oc with None => tmbin o b c w | Some y => iret w (iop x y) end)
  end).

(* the generic opcodes *)
Definition generic (o : bop) : val -> val -> W -> outcome (val * W) :=
  match o with
  | Add => arith_ Add (fun x y => Ok (int_add x y)) fadd      (* lvm.c:1511 *)
  | Sub => arith_ Sub (fun x y => Ok (int_sub x y)) fsub      (* lvm.c:1525 *)
  | Mul => arith_ Mul (fun x y => Ok (int_mul x y)) fmul      (* lvm.c:1539 *)
  | Div => arithf_ Div fdiv                                   (* lvm.c:1553 *)
  | Band => bitop_ Band (fun x y => Ok (int_band x y))        (* lvm.c:1563 *)
  | Bor => bitop_ Bor (fun x y => Ok (int_bor x y))           (* lvm.c:1573 *)
  | Bxor => bitop_ Bxor (fun x y => Ok (int_bxor x y))        (* lvm.c:1583 *)
  | Shl => bitop_ Shl op_shl                                  (* lvm.c:1593 *)
  | Shr => bitop_ Shr op_shr                                  (* lvm.c:1603 *)
  | Mod => arith_ Mod luaV_mod nummod                         (* lvm.c:1613 *)
  | IDiv => arith_ IDiv luaV_idiv numidiv                     (* lvm.c:1629 *)
  | Pow => arithf_ Pow fpow                                   (* lvm.c:1643 *)
  end.

(* the specialised opcodes read the union without looking at the tag *)
Definition ii (f : Z -> Z -> outcome val) (b c : val) (w : W) : outcome (val * W) :=
  done w (bind (ivalue b) (fun x => bind (ivalue c) (fun y => f x y))).
Definition ff (f : flt -> flt -> flt) (b c : val) (w : W) : outcome (val * W) :=
  done w (bind (fltvalue b) (fun x => bind (fltvalue c) (fun y => Ok (F (f x y))))).
Definition fi (f : flt -> flt -> flt) (b c : val) (w : W) : outcome (val * W) :=
  done w (bind (fltvalue b) (fun x => bind (ivalue c) (fun y => Ok (F (f x (cast_num y)))))).
Definition if_ (f : flt -> flt -> flt) (b c : val) (w : W) : outcome (val * W) :=
  done w (bind (ivalue b) (fun x => bind (fltvalue c) (fun y => Ok (F (f (cast_num x) y))))).
Definition wrapped (f : Z -> Z -> Z) (x y : Z) : outcome val := Ok (I (f x y)).
(* setivalue(ra, ivalue(rb) + ivalue(rc)): arithmetic of the C type, undefined on overflow *)
Definition signed (f : Z -> Z -> Z) (x y : Z) : outcome val := bind (c_signed (f x y)) (fun z => Ok (I z)).
Definition exec_bin (o : bopcode) : val -> val -> W -> outcome (val * W) :=
  match o with
  | OP_G o => generic o
  | ADDFF => ff fadd | ADDFI => fi fadd | ADDII => ii (signed Z.add)                       (* lvm.c:2431-2448 *)
  | SUBFF => ff fsub | SUBFI => fi fsub | SUBIF => if_ fsub | SUBII => ii (signed Z.sub)   (* 2449-2472 *)
  | MULFF => ff fmul | MULFI => fi fmul | MULII => ii (signed Z.mul)                       (* 2473-2490 *)
  | DIVFF => ff fdiv | DIVFI => fi fdiv | DIVIF => if_ fdiv                                (* 2491-2508 *)
  | DIVII => ii (fun x y => Ok (F (fdiv (cast_num x) (cast_num y))))                       (* 2509 *)
  | BAND_II => ii (wrapped int_band) | BOR_II => ii (wrapped int_bor)                      (* 2068-2079 *)
  | BXOR_II => ii (wrapped int_bxor) | SHL_II => ii (wrapped luaV_shiftl)                  (* 2080-2091 *)
  | SHR_II => ii (fun x y => bind (op_shr x y) (fun z => Ok (I z)))                        (* 2092 *)
  end.

(* OP_UNM lvm.c:1653, OP_BNOT 1668, OP_RAVI_BNOT_I 2099 *)
Definition exec_un (o : uopcode) (b : val) (w : W) : outcome (val * W) :=
  match o with
  | OP_U Unm => match b with
                | Num (NInt x) => iret w (Ok (int_unm x))
                | Num (NFlt f) => fret w (fneg f)
                | _ => tmun Unm b w
                end
  | OP_U Bnot => bind (tointns b) (fun ob =>
                 match ob with Some x => iret w (Ok (int_bnot x)) | None => tmun Bnot b w end)
  | BNOT_I => done w (bind (ivalue b) (fun x => Ok (I (int_bnot x))))
  end.

(* OP_EQ lvm.c:1706, OP_LT 1719, OP_LE 1736; OP_RAVI_EQ_II 2121 .. OP_RAVI_LE_FF 2171 *)
Definition cdone (w : W) (x : outcome bool) : outcome (bool * W) := bind x (fun b => Ok (b, w)).
Definition cii (f : Z -> Z -> bool) (b c : val) (w : W) : outcome (bool * W) :=
  cdone w (bind (ivalue b) (fun x => bind (ivalue c) (fun y => Ok (f x y)))).
Definition cff (f : flt -> flt -> bool) (b c : val) (w : W) : outcome (bool * W) :=
  cdone w (bind (fltvalue b) (fun x => bind (fltvalue c) (fun y => Ok (f x y)))).
Definition exec_cmp (o : copcode) (b c : val) (w : W) : outcome (bool * W) :=
  match o with
  | OP_C o =>
    match b, c with
    | Num x, Num y => cdone w (match o with Eq => EQnum x y | Lt => LTnum x y | Le => LEnum x y end)
    | _, _ => tmcmp o b c w
    end
  | EQ_II => cii Z.eqb b c w | EQ_FF => cff flt_eq b c w
  | LT_II => cii Z.ltb b c w | LT_FF => cff flt_lt b c w
  | LE_II => cii Z.leb b c w | LE_FF => cff flt_le b c w
  end.

(* lobject.c:83-101 intarith (here without the unary operators), 104-116 numarith *)
Definition intarith2 (o : bop) (x y : Z) : outcome Z :=
  match o with
  | Add => Ok (int_add x y) | Sub => Ok (int_sub x y) | Mul => Ok (int_mul x y)
  | Mod => luaV_mod x y | IDiv => luaV_idiv x y
  | Band => Ok (int_band x y) | Bor => Ok (int_bor x y) | Bxor => Ok (int_bxor x y)
  | Shl => op_shl x y | Shr => op_shr x y
  | Pow | Div => UB                          (* lua_assert(0) *)
  end.
Definition numarith (o : bop) (x y : flt) : outcome flt :=
  match o with
  | Add => Ok (fadd x y) | Sub => Ok (fsub x y) | Mul => Ok (fmul x y) | Div => Ok (fdiv x y)
  | Pow => Ok (fpow x y) | IDiv => Ok (numidiv x y) | Mod => Ok (nummod x y)
  | _ => UB                                  (* lua_assert(0) *)
  end.
Definition real (n : num) : flt := match n with NFlt f => f | NInt i => cast_num i end.
(* lobject.c:119-152 luaO_rawarith on numbers; None: failure *)
Definition rawarith (o : bop) (a b : num) : outcome (option num) :=
  match o with
  | Band | Bor | Bxor | Shl | Shr =>
    bind (tointegerns a F2Ieq) (fun oa => match oa with
    | None => Ok None
    | Some x => bind (tointegerns b F2Ieq) (fun ob => match ob with
                | None => Ok None
                | Some y => bind (intarith2 o x y) (fun z => Ok (Some (NInt z)))
                end)
    end)
  | Div | Pow => bind (numarith o (real a) (real b)) (fun z => Ok (Some (NFlt z)))
  | _ => match a, b with
         | NInt x, NInt y => bind (intarith2 o x y) (fun z => Ok (Some (NInt z)))
         | _, _ => bind (numarith o (real a) (real b)) (fun z => Ok (Some (NFlt z)))
         end
  end.
(* the same for LUA_OPUNM, LUA_OPBNOT (the second operand is the fake 0 of luaK_prefix) *)
Definition rawarith1 (o : uop) (a : num) : outcome (option num) :=
  match o with
  | Bnot => bind (tointegerns a F2Ieq) (fun oa => match oa with
            | None => Ok None | Some x => Ok (Some (NInt (int_bnot x))) end)
  | Unm => match a with NInt x => Ok (Some (NInt (int_unm x))) | NFlt f => Ok (Some (NFlt (fneg f))) end
  end.
(* lobject.c:155-162 luaO_arith; the metamethods it would try if luaO_rawarith fails are not reached
   from the constant folder: undefined here *)
Definition must (x : outcome (option num)) : outcome num :=
  bind x (fun o => match o with Some v => Ok v | None => UB end).

(* lcode.c:1257-1270 validop *)
Definition nvalue (n : num) : flt := match n with NInt i => cast_num i | NFlt f => f end.
Definition both_ints (a b : num) : outcome bool :=
  bind (tointegerns a F2Ieq) (fun x => match x with
  | None => Ok false
  | Some _ => bind (tointegerns b F2Ieq) (fun y => Ok (match y with Some _ => true | None => false end))
  end).
Definition validop (o : bop) (a b : num) : outcome bool :=
  match o with
  | Band | Bor | Bxor | Shl | Shr => both_ints a b
  | Div | IDiv | Mod => Ok (negb (flt_eq (nvalue b) fzero))
  | _ => Ok true
  end.
Definition validop1 (o : uop) (a : num) : outcome bool :=
  match o with Bnot => both_ints a (NInt 0) | Unm => Ok true end.

(* lcode.c:1275-1295 constfolding on two numerals: the result is dropped if it is NaN or 0.0 *)
Definition keep (r : num) : option num :=
  match r with
  | NInt _ => Some r
  | NFlt n => if negb (flt_eq n n) || flt_eq n fzero then None else Some r
  end.
Definition constfolding (o : bop) (a b : num) : outcome (option num) :=
  bind (validop o a b) (fun ok => if ok then bind (must (rawarith o a b)) (fun r => Ok (keep r)) else Ok None).
Definition constfolding1 (o : uop) (a : num) : outcome (option num) :=
  bind (validop1 o a) (fun ok => if ok then bind (must (rawarith1 o a)) (fun r => Ok (keep r)) else Ok None).
End ops.

(* lobject.h:60-97 ravi_type_map: one bit for each type *)
Definition tmap := Z.
Definition T_NIL : tmap := 1.
Definition T_FALSE : tmap := 2.
Definition T_TRUE : tmap := 4.
Definition T_INT : tmap := 8.
Definition T_FLT : tmap := 16.
Definition T_IARR : tmap := 32.
Definition T_FARR : tmap := 64.
Definition T_TAB : tmap := 128.
Definition T_STR : tmap := 256.
Definition T_FUN : tmap := 512.
Definition T_UDATA : tmap := 1024.
Definition T_OTHER : tmap := 2048.
Definition T_ANY : tmap := -1.
Definition T_NUM : tmap := 24.             (* RAVI_TM_NUMBER *)
Definition T_FALSISH : tmap := 3.
Definition T_TRUISH : tmap := Z.lnot 3.
Definition T_BOOL : tmap := 6.
Definition none_of (t mask : tmap) : bool := Z.land t mask =? 0.
(* (t & ~mask) == 0 *)
Definition within (t mask : tmap) : bool := Z.land t (Z.lnot mask) =? 0.

(* lcode.c:1357-1460 codebinexpval: the opcode, whether the operands are swapped, and the type of the
   result.  RAVI_GEN_ARITH: *)
Record arith_ops := { o_ff : bopcode; o_fi : bopcode; o_if : bopcode; o_swap : bool; o_ii : bopcode; o_iit : tmap }.
Definition gen_arith (o : bop) (s : arith_ops) (t1 t2 : tmap) : bopcode * bool * tmap :=
  let otherwise :=
    (OP_G o, false,
     if within t1 T_NUM && within t2 T_NUM then
       (if none_of (Z.land t1 t2) T_INT then T_FLT else Z.lor T_FLT (o_iit s))
     else T_ANY) in
  if t1 =? T_FLT then
    if t2 =? T_FLT then (o_ff s, false, T_FLT)
    else if t2 =? T_INT then (o_fi s, false, T_FLT)
    else otherwise
  else if t1 =? T_INT then
    if t2 =? T_FLT then (o_if s, o_swap s, T_FLT)
    else if t2 =? T_INT then (o_ii s, false, o_iit s)
    else otherwise
  else otherwise.
(* RAVI_GEN_INT_OP *)
Definition gen_int (o : bop) (s : bopcode) (t1 t2 : tmap) : bopcode * bool * tmap :=
  if (t1 =? T_INT) && (t2 =? T_INT) then (s, false, T_INT)
  else if within t1 T_NUM && within t2 T_NUM then (OP_G o, false, T_INT)
  else (OP_G o, false, T_ANY).
Definition allgen (o : bop) (t : tmap) : arith_ops :=      (* RAVI_OPCODE_GENERIC *)
  {| o_ff := OP_G o; o_fi := OP_G o; o_if := OP_G o; o_swap := false; o_ii := OP_G o; o_iit := t |}.
Definition codebin (o : bop) (t1 t2 : tmap) : bopcode * bool * tmap :=
  match o with
  | Add => gen_arith Add {| o_ff := ADDFF; o_fi := ADDFI; o_if := ADDFI; o_swap := true; o_ii := ADDII; o_iit := T_INT |} t1 t2
  | Sub => gen_arith Sub {| o_ff := SUBFF; o_fi := SUBFI; o_if := SUBIF; o_swap := false; o_ii := SUBII; o_iit := T_INT |} t1 t2
  | Mul => gen_arith Mul {| o_ff := MULFF; o_fi := MULFI; o_if := MULFI; o_swap := true; o_ii := MULII; o_iit := T_INT |} t1 t2
  | Div => gen_arith Div {| o_ff := DIVFF; o_fi := DIVFI; o_if := DIVIF; o_swap := false; o_ii := DIVII; o_iit := T_FLT |} t1 t2
  | IDiv => gen_arith IDiv (allgen IDiv T_INT) t1 t2
  | Mod => gen_arith Mod (allgen Mod T_INT) t1 t2
  | Pow => gen_arith Pow (allgen Pow T_FLT) t1 t2
  | Band => gen_int Band BAND_II t1 t2
  | Bor => gen_int Bor BOR_II t1 t2
  | Bxor => gen_int Bxor BXOR_II t1 t2
  | Shl => gen_int Shl SHL_II t1 t2
  | Shr => gen_int Shr SHR_II t1 t2
  end.
(* lcode.c:1303-1347 codeunexpval, OP_UNM and OP_BNOT *)
Definition codeun (o : uop) (t : tmap) : uopcode * tmap :=
  match o with
  | Bnot => if t =? T_INT then (BNOT_I, T_INT)
            else (OP_U Bnot, if t =? T_FLT then T_INT else T_ANY)
  | Unm => (OP_U Unm, if within t T_NUM then t else T_ANY)
  end.
(* lcode.c:1454-1476 get_type_specific_comp_op *)
Definition comp_op (o : cop) (t1 t2 : tmap) : copcode :=
  match o with
  | Eq => if (t1 =? T_INT) && (t2 =? T_INT) then EQ_II else if (t1 =? T_FLT) && (t2 =? T_FLT) then EQ_FF else OP_C Eq
  | Lt => if (t1 =? T_INT) && (t2 =? T_INT) then LT_II else if (t1 =? T_FLT) && (t2 =? T_FLT) then LT_FF else OP_C Lt
  | Le => if (t1 =? T_INT) && (t2 =? T_INT) then LE_II else if (t1 =? T_FLT) && (t2 =? T_FLT) then LE_FF else OP_C Le
  end.

(* Indexing.  The tables themselves are parameters: reading a field of a table with all its
   metamethods (luaH_get, luaH_getint, luaH_getshortstr are one function of the key), arrays, and
   values that are no tables (luaV_finishget and luaV_finishset with a NULL slot). *)
Inductive gopcode := OP_GETTABLE | OP_GETI | OP_GETFIELD | OP_TABLE_GETFIELD | OP_IARRAY_GET | OP_FARRAY_GET.
Inductive sopcode := OP_SETTABLE | OP_SETI | OP_SETFIELD | OP_TABLE_SETFIELD | OP_IARRAY_SET | OP_IARRAY_SETI | OP_FARRAY_SET | OP_FARRAY_SETF.
Section index.
Variable W : Type.
Variable tabget : nat -> val -> W -> outcome (val * W).
Variable iget : nat -> Z -> W -> outcome Z.
Variable fget : nat -> Z -> W -> outcome flt.
Variable otherget : val -> val -> W -> outcome (val * W).
Variable tabset : nat -> val -> val -> W -> outcome W.
Variable iset : nat -> Z -> Z -> W -> outcome W.
Variable fset : nat -> Z -> flt -> W -> outcome W.
Variable otherset : val -> val -> val -> W -> outcome W.

Definition aget_i (a : nat) (i : Z) (w : W) : outcome (val * W) := bind (iget a i w) (fun z => Ok (I z, w)).
Definition aget_f (a : nat) (i : Z) (w : W) : outcome (val * W) := bind (fget a i w) (fun z => Ok (F z, w)).
(* lvm.c:293-323 GETTABLE_INLINE_, 329-354 GETTABLE_INLINE_I_, 358-369 GETTABLE_INLINE_SSKEY_;
   OP_RAVI_TABLE_GETFIELD 2269-2291, OP_RAVI_IARRAY_GET 2292, OP_RAVI_FARRAY_GET 2300.  ivalue, tsvalue,
   hvalue, arrvalue of a value of another type are undefined. *)
Definition index_key (k : val) : outcome Z := match k with Num (NInt i) => Ok i | _ => Err EType end.
Definition tsvalue (k : val) : outcome val := match k with Str _ => Ok k | _ => UB end.
Definition exec_get (o : gopcode) (t k : val) (w : W) : outcome (val * W) :=
  match o with
  | OP_GETTABLE => match t with
      | Tab i => tabget i k w
      | FArr a => bind (index_key k) (fun i => aget_f a i w)
      | IArr a => bind (index_key k) (fun i => aget_i a i w)
      | _ => otherget t k w
      end
  | OP_GETI => match t with
      | Tab i => bind (ivalue k) (fun _ => tabget i k w)
      | FArr a => bind (ivalue k) (fun i => aget_f a i w)
      | IArr a => bind (ivalue k) (fun i => aget_i a i w)
      | _ => otherget t k w
      end
  | OP_GETFIELD => match t with
      | Tab i => bind (tsvalue k) (fun k => tabget i k w)
      | FArr _ | IArr _ => Err EType
      | _ => otherget t k w
      end
  | OP_TABLE_GETFIELD => bind (tsvalue k) (fun k => match t with Tab i => tabget i k w | _ => UB end)
  | OP_IARRAY_GET => bind (ivalue k) (fun i => match t with IArr a => aget_i a i w | _ => UB end)
  | OP_FARRAY_GET => bind (ivalue k) (fun i => match t with FArr a => aget_f a i w | _ => UB end)
  end.
(* the value stored into an array: lvm.c:398-411, 415-428 in SETTABLE_INLINE_ *)
Definition store_int (v : val) : outcome Z :=
  bind (tointns v) (fun o => match o with Some z => Ok z | None => Err EType end).
Definition store_flt (v : val) : outcome flt := match tonumberns v with Some f => Ok f | None => Err EType end.
(* lvm.c:374-431 SETTABLE_INLINE_, 435-486 SETTABLE_INLINE_I_, 491-507 SETTABLE_INLINE_SSKEY_;
   OP_RAVI_TABLE_SETFIELD, OP_RAVI_IARRAY_SET 2308: a float is cast, OP_RAVI_IARRAY_SETI 2325,
   OP_RAVI_FARRAY_SET 2333, OP_RAVI_FARRAY_SETF 2350 *)
Definition exec_set (o : sopcode) (t k v : val) (w : W) : outcome W :=
  match o with
  | OP_SETTABLE => match t with
      | Tab i => tabset i k v w
      | FArr a => bind (index_key k) (fun i => bind (store_flt v) (fun f => fset a i f w))
      | IArr a => bind (index_key k) (fun i => bind (store_int v) (fun z => iset a i z w))
      | _ => otherset t k v w
      end
  | OP_SETI => match t with
      | Tab i => bind (ivalue k) (fun _ => tabset i k v w)
      | FArr a => bind (ivalue k) (fun i => bind (store_flt v) (fun f => fset a i f w))
      | IArr a => bind (ivalue k) (fun i => bind (store_int v) (fun z => iset a i z w))
      | _ => otherset t k v w
      end
  | OP_SETFIELD => match t with
      | Tab i => bind (tsvalue k) (fun k => tabset i k v w)
      | FArr _ | IArr _ => Err EType
      | _ => otherset t k v w
      end
  | OP_TABLE_SETFIELD => bind (tsvalue k) (fun k => match t with Tab i => tabset i k v w | _ => UB end)
  | OP_IARRAY_SET => match t with
      | IArr a => bind (ivalue k) (fun i =>
          match v with
          | Num (NInt z) => iset a i z w
          | Num (NFlt f) => bind (f2i f) (fun z => iset a i z w)
          | _ => bind (store_int v) (fun z => iset a i z w)
          end)
      | _ => UB
      end
  | OP_IARRAY_SETI => match t with IArr a => bind (ivalue k) (fun i => bind (ivalue v) (fun z => iset a i z w)) | _ => UB end
  | OP_FARRAY_SET => match t with FArr a => bind (ivalue k) (fun i => bind (store_flt v) (fun f => fset a i f w)) | _ => UB end
  | OP_FARRAY_SETF => match t with FArr a => bind (ivalue k) (fun i => bind (fltvalue v) (fun f => fset a i f w)) | _ => UB end
  end.
End index.
(* lcode.c:575-607 luaK_dischargevars, case VINDEXED with the table in a register: the opcode and the
   type of the result; short: the key is a short string constant *)
Definition codeget (t k : tmap) (short : bool) : gopcode * tmap :=
  (if k =? T_INT then
     if t =? T_FARR then OP_FARRAY_GET else if t =? T_IARR then OP_IARRAY_GET else OP_GETI
   else if (k =? T_STR) && short then if t =? T_TAB then OP_TABLE_GETFIELD else OP_GETFIELD
   else OP_GETTABLE,
   if negb (within t (Z.lor T_IARR T_FARR)) then T_ANY
   else Z.lor (if none_of t T_IARR then 0 else T_INT) (if none_of t T_FARR then 0 else T_FLT)).
(* lcode.c:1041-1063 luaK_storevar, case VINDEXED with the table in a register *)
Definition codeset (t k v : tmap) (short : bool) : sopcode :=
  if k =? T_INT then
    if t =? T_FARR then (if v =? T_FLT then OP_FARRAY_SETF else OP_FARRAY_SET)
    else if t =? T_IARR then (if v =? T_INT then OP_IARRAY_SETI else OP_IARRAY_SET)
    else OP_SETI
  else if (k =? T_STR) && short then if t =? T_TAB then OP_TABLE_SETFIELD else OP_SETFIELD
  else OP_SETTABLE.
