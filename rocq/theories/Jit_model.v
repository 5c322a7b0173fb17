(* Model of the C code that ravi_jitshared.c generates for a function, and of the interpreter's own
   execution (lvm.c) of the same instructions.  The generated text is modelled by its syntax tree; the
   macros of the text's header (ravi_jitshared.c:124-660) are primitives of the tree. *)
Require Import ZArith List Bool Arith.
From Coq Require Import Floats.SpecFloat.
From Verif Require Import Base IntArith_model Float_model Op_model.
Import ListNotations.
Open Scope Z_scope.
Local Open Scope outcome_scope.

(* RK(x): a register or a constant (lopcodes.h ISK) *)
Inductive rk := RR (n : nat) | RK (n : nat).

(* lopcodes.h: the modelled instructions.  A jump keeps its sBx. *)
Inductive instr :=
| MOVE (a b : nat) | LOADK (a bx : nat) | LOADBOOL (a : nat) (b c : bool) | LOADNIL (a b : nat)
| LOADFZ (a : nat) | LOADIZ (a : nat)
| BIN (o : bopcode) (a : nat) (b c : rk) | UN (o : uopcode) (a b : nat) | UNMI (a b : nat) | UNMF (a b : nat)
| NOT (a b : nat) | JMP (a : nat) (sbx : Z)
| CMP (o : copcode) (a : Z) (b c : rk) | TEST (a : nat) (c : bool) | TESTSET (a b : nat) (c : bool)
| GET (o : gopcode) (a b : nat) (c : rk) | SET (o : sopcode) (a : nat) (b c : rk)
| MOVEI (a b : nat) | MOVEF (a b : nat) | MOVEIARR (a b : nat) | MOVEFARR (a b : nat) | MOVETAB (a b : nat)
| TOINT (a : nat) | TOFLT (a : nat) | TOTAB (a : nat) | TOIARR (a : nat) | TOFARR (a : nat)
| TOSTRING (a : nat) | TOCLOSURE (a : nat)
| FORPREP (a : nat) (sbx : Z) | FORLOOP (a : nat) (sbx : Z)
| IFORPREP (one : bool) (a : nat) (sbx : Z) | IFORLOOP (one : bool) (a : nat) (sbx : Z)
| RETURN (a b : nat).

(* the type tests: lobject.h:162-716 and the same macros in the header of the text *)
Inductive tag := TInt | TFlt | TNum | TNil | TIArr | TFArr | TLtab | TStr | TClosure | TFalse.
Definition is_tag (t : tag) (v : val) : bool :=
  match t, v with
  | TInt, Num (NInt _) | TFlt, Num (NFlt _) | TNum, Num _ | TNil, Nil | TIArr, IArr _ | TFArr, FArr _
  | TLtab, Tab _ | TStr, Str _ | TClosure, Fun _ | TFalse, Nil | TFalse, Bool false => true
  | _, _ => false
  end.

(* sBx + pc + 1 *)
Definition target (pc : nat) (sbx : Z) : nat := Z.to_nat (Z.of_nat pc + 1 + sbx).

(* C expressions over int64, int and double *)
Inductive cval := VI (z : Z) | VD (f : flt).
Inductive ptr := Pa | Pb | Pc.
(* the variables of the text: i, ic, n, nc, result; for every loop register A: i_A, limit_A, step_A,
   ninit_A, nlimit_A, nstep_A, intloop_A *)
Inductive var := Vi | Vic | Vn | Vnc | Vres
| Li (a : nat) | Llim (a : nat) | Lstep (a : nat) | Lninit (a : nat) | Lnlim (a : nat) | Lnstep (a : nat) | Lint (a : nat).
Definition var_eq : forall x y : var, {x = y} + {x <> y}.
Proof. decide equality; apply Nat.eq_dec. Defined.
Definition is_double (v : var) : bool :=
  match v with Vn | Vnc | Lninit _ | Lnlim _ | Lnstep _ => true | _ => false end.
Inductive cbin := CAdd | CSub | CMul | CDiv.
Inductive ccmp := CLt | CLe | CEq.
Inductive exp :=
| EInt (z : Z)                     (* %lld, or a literal of the text *)
| E17 (f : flt)                    (* %.17g *)
| EDbl (f : flt)                   (* a literal with a point *)
| EBad                             (* a constant of another type printed by %lld or %.17g *)
| EIval (p : ptr) | EFval (p : ptr) | EVar (v : var)
| EBin (o : cbin) (x y : exp) | EIntop (f : Z -> Z -> Z) (x y : exp) | ECast (x : exp) | ENeg (x : exp)
| EShiftl (x y : exp) | ECmp (o : ccmp) (x y : exp) | EFalse (p : ptr) | ENFalse (p : ptr)
| ETern (t : tag) (p : ptr) (x y : exp)   (* ttisX(p) ? x : y *)
| EElem.                           (* iptr[ukey] or nptr[ukey] *)
Inductive cond :=
| KTag (t : tag) (p : ptr) | KNot (c : cond) | KAnd (c d : cond)
| KToNum (p : ptr) (v : var)       (* tonumberns(p, v) *)
| KToInt (p : ptr) (v : var)       (* tointegerns(p, &v) *)
| KExp (x : exp)
| KEqv (v : var) (z : Z)           (* v == z *)
| KTern (c d e : cond)
| KRange.                          (* ukey < (lua_Unsigned)(t->len) *)
Inductive stmt :=
| Skip | Seq (s t : stmt)
| Reg (p : ptr) (n : nat) | Konst (p : ptr) (n : nat) | PtrAdd (p q : ptr) (k : nat)   (* rb = ra+1 *)
| SetI (x : exp) | SetF (x : exp) | SetB (x : exp) | SetNil | SetObj (q : ptr)          (* all to ra *)
| Assign (v : var) (x : exp) | If (c : cond) (s t : stmt) | Do (c : cond)               (* an expression statement *)
| Raise (e : error)
| TryTM (o : bop) | TryTMun (o : uop) | Arith (o : bop) | OpBnot | CmpCall (o : cop)
| Close | Goto (pc : nat) | Return (b : nat)
| Ukey (p : ptr) | Arr (p : ptr) | Store (x : exp) | SlowSet (x : exp)
| GetCall (o : gopcode) | SetCall (o : sopcode).
Infix ";;" := Seq (at level 61, right associativity).

(* "%.17g" prints a float without point or exponent when it is an integer of at most 17 digits: the text
   is an integer literal then.  Other floats are assumed to be read back exactly; inf and nan are macros. *)
Definition integral (f : flt) : option Z :=
  match f with
  | S754_zero _ => Some 0
  | S754_finite s m e =>
    let z := if 0 <=? e then sgn_m s m * 2 ^ e else sgn_m s m / 2 ^ (- e) in
    if ((0 <=? e) || (Z.pos m mod 2 ^ (- e) =? 0)) && (Z.abs z <? 10 ^ 17) then Some z else None
  | _ => None
  end.
Definition lit17 (f : flt) : cval := match integral f with Some z => VI z | None => VD f end.
(* a decimal literal: 9223372036854775808 has no type *)
Definition lit (z : Z) : outcome cval := if z =? minint then UB else Ok (VI z).

Definition to_d (v : cval) : flt := match v with VI z => cast_num z | VD f => f end.
Definition to_i (v : cval) : outcome Z := match v with VI z => Ok z | VD f => f2i f end.
Definition b2z (b : bool) : Z := if b then 1 else 0.
(* arithmetic conversions: on two integers signed arithmetic, otherwise double *)
Definition cbinop (o : cbin) (x y : cval) : outcome cval :=
  match x, y with
  | VI a, VI b =>
    match o with
    | CAdd => do z <- c_signed (a + b); Ok (VI z)
    | CSub => do z <- c_signed (a - b); Ok (VI z)
    | CMul => do z <- c_signed (a * b); Ok (VI z)
    | CDiv => if b =? 0 then UB else do z <- c_signed (Z.quot a b); Ok (VI z)
    end
  | _, _ =>
    Ok (VD (match o with CAdd => fadd | CSub => fsub | CMul => fmul | CDiv => fdiv end (to_d x) (to_d y)))
  end.
Definition ccmpop (o : ccmp) (x y : cval) : bool :=
  match x, y with
  | VI a, VI b => match o with CLt => a <? b | CLe => a <=? b | CEq => a =? b end
  | _, _ => match o with CLt => flt_lt | CLe => flt_le | CEq => flt_eq end (to_d x) (to_d y)
  end.

(* ravi_jitshared.h compile options: inline_lua_arithmetic_operators, omit_array_get_range_check.
   Automatic compilation has neither (ldo.c:485-487); ravi.compile(f) without options has both
   (ravi_jit.c:94-97). *)
Record options := mkOpts { inline_arith : bool; omit_range : bool }.
Definition auto_options := mkOpts false false.
Definition manual_options := mkOpts true true.

(* the machine outside the instructions: library and metamethods, and the arrays (t->len, the elements,
   and the growth by one element) *)
Definition state (W : Type) : Type := ((nat -> val) * W)%type.      (* the registers and the rest *)
Record lib (W : Type) := mkLib {
  l_fmod : flt -> flt -> flt; l_fpow : flt -> flt -> flt;
  l_tmbin : bop -> val -> val -> state W -> outcome (val * state W);
  l_tmun : uop -> val -> state W -> outcome (val * state W);
  l_tmcmp : cop -> val -> val -> state W -> outcome (bool * state W);
  l_close : nat -> state W -> outcome (state W);                    (* luaF_close(L, base + n) *)
  l_tabget : nat -> val -> state W -> outcome (val * state W);
  l_otherget : val -> val -> state W -> outcome (val * state W);
  l_tabset : nat -> val -> val -> state W -> outcome (state W);
  l_otherset : val -> val -> val -> state W -> outcome (state W);
  l_alen : nat -> state W -> Z;
  l_icell : nat -> Z -> state W -> Z;
  l_fcell : nat -> Z -> state W -> flt;
  l_iput : nat -> Z -> Z -> state W -> state W;
  l_fput : nat -> Z -> flt -> state W -> state W;
  l_igrow : nat -> Z -> state W -> outcome (state W);
  l_fgrow : nat -> flt -> state W -> outcome (state W) }.
Arguments l_fmod {W}. Arguments l_fpow {W}. Arguments l_tmbin {W}. Arguments l_tmun {W}. Arguments l_tmcmp {W}.
Arguments l_close {W}. Arguments l_tabget {W}. Arguments l_otherget {W}. Arguments l_tabset {W}. Arguments l_otherset {W}.
Arguments l_alen {W}. Arguments l_icell {W}. Arguments l_fcell {W}. Arguments l_iput {W}. Arguments l_fput {W}.
Arguments l_igrow {W}. Arguments l_fgrow {W}.

Section machine.
Context {W : Type}.
Notation St := (state W).
Variable L : lib W.
Variable kst : nat -> val.                            (* the constants *)
Variable sizep : bool.                                (* cl->p->sizep > 0 *)
Notation fmod := (l_fmod L).
Notation fpow := (l_fpow L).
Notation tmbin := (l_tmbin L).
Notation tmun := (l_tmun L).
Notation tmcmp := (l_tmcmp L).
Notation close := (l_close L).
Notation tabget := (l_tabget L).
Notation otherget := (l_otherget L).
Notation tabset := (l_tabset L).
Notation otherset := (l_otherset L).
Notation alen := (l_alen L).
Notation icell := (l_icell L).
Notation fcell := (l_fcell L).
Notation iput := (l_iput L).
Notation fput := (l_fput L).
Notation igrow := (l_igrow L).
Notation fgrow := (l_fgrow L).

Definition upr (m : St) (n : nat) (v : val) : St := ((fun k => if Nat.eqb k n then v else fst m k), snd m).
Definition rkv (m : St) (x : rk) : val := match x with RR n => fst m n | RK n => kst n end.

(* ltable.c:859-880 raviH_set_int, 882-903 raviH_set_float: the key is cut to 32 bits *)
Definition set_int (a : nat) (u1 v : Z) (m : St) : outcome St :=
  let u := u32 u1 in
  if u <? alen a m then Ok (iput a u v m) else if u =? alen a m then igrow a v m else Err EBounds.
Definition set_float (a : nat) (u1 : Z) (v : flt) (m : St) : outcome St :=
  let u := u32 u1 in
  if u <? alen a m then Ok (fput a u v m) else if u =? alen a m then fgrow a v m else Err EBounds.
(* ltable.h:165-205 raviH_get_int_inline .. raviH_set_float_inline *)
Definition iget (a : nat) (k : Z) (m : St) : outcome Z :=
  let u := u32 k in if u <? alen a m then Ok (icell a u m) else Err EBounds.
Definition fget (a : nat) (k : Z) (m : St) : outcome flt :=
  let u := u32 k in if u <? alen a m then Ok (fcell a u m) else Err EBounds.
Definition iset (a : nat) (k v : Z) (m : St) : outcome St :=
  let u := u32 k in if u <? alen a m then Ok (iput a u v m) else set_int a u v m.
Definition fset (a : nat) (k : Z) (v : flt) (m : St) : outcome St :=
  let u := u32 k in if u <? alen a m then Ok (fput a u v m) else set_float a u v m.

(* ---- the interpreter: lvm.c ---- *)
Inductive next := At (pc : nat) (m : St) | Done (a b : nat) (m : St).

(* lvm.c:1094-1107 dojump; 1110 donextjump *)
Definition dojump (pc a : nat) (sbx : Z) (m : St) : outcome next :=
  do m' <- (match a with O => Ok m | S r => close r m end); Ok (At (target pc sbx) m').
Definition donextjump (code : list instr) (pc : nat) (m : St) : outcome next :=
  match nth_error code (S pc) with Some (JMP a sbx) => dojump (S pc) a sbx m | _ => UB end.
(* OP_LOADNIL lvm.c:1431 *)
Fixpoint nils (a b : nat) (m : St) : St :=
  let m := upr m a Nil in match b with O => m | S b => nils (S a) b m end.
Definition exec_get' := exec_get St tabget iget fget otherget.
Definition exec_set' := exec_set St tabset iset fset otherset.
Definition exec_bin' := exec_bin St fmod fpow tmbin.
Definition exec_un' := exec_un St tmun.
Definition exec_cmp' := exec_cmp St tmcmp.
Definition set_res (pc a : nat) (r : outcome (val * St)) : outcome next :=
  do '(v, m) <- r; Ok (At (S pc) (upr m a v)).
(* a move that accepts the values of one type only *)
Definition move_if (t : tag) (pc a : nat) (v : val) (m : St) : outcome next :=
  if is_tag t v then Ok (At (S pc) (upr m a v)) else Err EType.
Definition check_if (b : bool) (pc : nat) (m : St) : outcome next := if b then Ok (At (S pc) m) else Err EType.
Definition to_int (pc a : nat) (v : val) (m : St) : outcome next :=
  do o <- tointns v; match o with Some z => Ok (At (S pc) (upr m a (I z))) | None => Err EType end.
Definition to_flt (pc a : nat) (v : val) (m : St) : outcome next :=
  match tonumberns v with Some f => Ok (At (S pc) (upr m a (F f))) | None => Err EType end.
(* lvm.c:1910-1938 OP_FORPREP.  Strings are not converted: tonumber of a string is not modelled. *)
Definition forprep_ (pc a : nat) (sbx : Z) (m : St) : outcome next :=
  let floats :=
    match tonumberns (fst m (a + 1)%nat), tonumberns (fst m (a + 2)%nat), tonumberns (fst m a) with
    | Some l, Some s, Some i =>
      Ok (At (target pc sbx) (upr (upr (upr m (a + 1)%nat (F l)) (a + 2)%nat (F s)) a (F (fsub i s))))
    | _, _, _ => Err EType
    end in
  match fst m a, fst m (a + 2)%nat, fst m (a + 1)%nat with
  | Num (NInt i), Num (NInt s), Num lim =>
    do '(l, stop) <-
      (match lim with
       | NInt l => Ok (l, false)
       | NFlt f =>
         (* lvm.c:183-205 luaV_forlimit *)
         do o <- flttointeger f (if s <? 0 then F2Iceil else F2Ifloor);
         match o with
         | Some p => Ok (p, false)
         | None => if flt_lt fzero f then Ok (maxint, s <? 0) else Ok (minint, 0 <=? s)
         end
       end);
    let iv := if stop : bool then 0 else i in
    Ok (At (target pc sbx) (upr (upr m (a + 1)%nat (I l)) a (I (int_sub iv s))))
  | _, _, _ => floats
  end.
(* lvm.c:1886-1909 OP_FORLOOP *)
Definition forloop_ (pc a : nat) (sbx : Z) (m : St) : outcome next :=
  match fst m a with
  | Num (NInt i) =>
    do s <- ivalue (fst m (a + 2)%nat);
    let idx := int_add i s in
    do l <- ivalue (fst m (a + 1)%nat);
    if (if 0 <? s then idx <=? l else l <=? idx)
    then Ok (At (target pc sbx) (upr (upr m a (I idx)) (a + 3)%nat (I idx))) else Ok (At (S pc) m)
  | v =>
    do s <- fltvalue (fst m (a + 2)%nat);
    do i <- fltvalue v;
    let idx := fadd i s in
    do l <- fltvalue (fst m (a + 1)%nat);
    if (if flt_lt fzero s then flt_le idx l else flt_le l idx)
    then Ok (At (target pc sbx) (upr (upr m a (F idx)) (a + 3)%nat (F idx))) else Ok (At (S pc) m)
  end.
(* lvm.c:2193-2205 OP_RAVI_FORPREP_IP/I1, 2181-2192 OP_RAVI_FORLOOP_IP/I1 *)
Definition iforprep_ (one : bool) (pc a : nat) (sbx : Z) (m : St) : outcome next :=
  do i <- ivalue (fst m a);
  do s <- (if one then Ok 1 else ivalue (fst m (a + 2)%nat));
  do z <- c_signed (i - s);
  Ok (At (target pc sbx) (upr m a (I z))).
Definition iforloop_ (one : bool) (pc a : nat) (sbx : Z) (m : St) : outcome next :=
  do s <- (if one then Ok 1 else ivalue (fst m (a + 2)%nat));
  do i <- ivalue (fst m a);
  do idx <- c_signed (i + s);
  do l <- ivalue (fst m (a + 1)%nat);
  if idx <=? l then Ok (At (target pc sbx) (upr (upr m a (I idx)) (a + 3)%nat (I idx))) else Ok (At (S pc) m).

Definition istep (code : list instr) (pc : nat) (m : St) : outcome next :=
  let R := fst m in
  match nth_error code pc with
  | None => UB
  | Some i =>
    match i with
    | MOVE a b => Ok (At (S pc) (upr m a (R b)))                                    (* lvm.c:1410 *)
    | LOADK a bx => Ok (At (S pc) (upr m a (kst bx)))                               (* 1414 *)
    | LOADBOOL a b c => Ok (At (if c then S (S pc) else S pc) (upr m a (Bool b)))   (* 1426 *)
    | LOADNIL a b => Ok (At (S pc) (nils a b m))                                    (* 1431 *)
    | LOADFZ a => Ok (At (S pc) (upr m a (F fzero)))                                (* 2415 *)
    | LOADIZ a => Ok (At (S pc) (upr m a (I 0)))                                    (* 2411 *)
    | BIN o a b c => set_res pc a (exec_bin' o (rkv m b) (rkv m c) m)
    | UN o a b => set_res pc a (exec_un' o (R b) m)
    | UNMI a b => do x <- ivalue (R b); do z <- c_signed (- x); Ok (At (S pc) (upr m a (I z)))   (* 2425 *)
    | UNMF a b => do x <- fltvalue (R b); Ok (At (S pc) (upr m a (F (fneg x))))     (* 2419 *)
    | NOT a b => Ok (At (S pc) (upr m a (Bool (is_tag TFalse (R b)))))              (* 1679 *)
    | JMP a sbx => dojump pc a sbx m                                                (* 1702 *)
    | CMP o a b c =>                                                                (* 1706-1752, 2121-2180 *)
      do '(r, m) <- exec_cmp' o (rkv m b) (rkv m c) m;
      if b2z r =? a then donextjump code pc m else Ok (At (S (S pc)) m)
    | TEST a c =>                                                                   (* 1753 *)
      if (if c then is_tag TFalse (R a) else negb (is_tag TFalse (R a)))
      then Ok (At (S (S pc)) m) else donextjump code pc m
    | TESTSET a b c =>                                                              (* 1760 *)
      if (if c then is_tag TFalse (R b) else negb (is_tag TFalse (R b)))
      then Ok (At (S (S pc)) m) else donextjump code pc (upr m a (R b))
    | GET o a b c => set_res pc a (exec_get' o (R b) (rkv m c) m)
    | SET o a b c => do m <- exec_set' o (R a) (rkv m b) (rkv m c) m; Ok (At (S pc) m)
    | MOVEI a b => to_int pc a (R b) m                                              (* 2515 *)
    | MOVEF a b => to_flt pc a (R b) m                                              (* 2523 *)
    | MOVEIARR a b => move_if TIArr pc a (R b) m                                    (* 2531 *)
    | MOVEFARR a b => move_if TFArr pc a (R b) m                                    (* 2540 *)
    | MOVETAB a b => move_if TLtab pc a (R b) m                                     (* 2549 *)
    | TOINT a => to_int pc a (R a) m                                                (* 2558 *)
    | TOFLT a => to_flt pc a (R a) m                                                (* 2565 *)
    | TOTAB a => check_if (is_tag TLtab (R a)) pc m                                 (* 2572 *)
    | TOIARR a => check_if (is_tag TIArr (R a)) pc m                                (* 2577 *)
    | TOFARR a => check_if (is_tag TFArr (R a)) pc m                                (* 2582 *)
    | TOSTRING a => check_if (is_tag TNil (R a) || is_tag TStr (R a)) pc m          (* 2587 *)
    | TOCLOSURE a => check_if (is_tag TNil (R a) || is_tag TClosure (R a)) pc m     (* 2592 *)
    | FORPREP a sbx => forprep_ pc a sbx m
    | FORLOOP a sbx => forloop_ pc a sbx m
    | IFORPREP one a sbx => iforprep_ one pc a sbx m
    | IFORLOOP one a sbx => iforloop_ one pc a sbx m
    | RETURN a b =>                                                                 (* 1844-1885 *)
      do m <- (if sizep then close 0%nat m else Ok m); Ok (Done a b m)
    end
  end.
(* n instructions; the values returned are R(A), .., R(A+B-2) (all up to the top if B is 0) *)
Fixpoint irun (n : nat) (code : list instr) (pc : nat) (m : St) : outcome (nat * nat * St) :=
  match n with
  | O => OutOfFuel
  | S n =>
    do x <- istep code pc m;
    match x with At pc m => irun n code pc m | Done a b m => Ok (a, b, m) end
  end.

(* ---- the generated code: ravi_jitshared.c ---- *)
(* emit_reg_or_k 725-739 *)
Definition regk (p : ptr) (x : rk) : stmt := match x with RR n => Reg p n | RK n => Konst p n end.
(* the constants printed by %lld and %.17g *)
Definition kint (n : nat) : exp := match kst n with Num (NInt z) => EInt z | _ => EBad end.
Definition kflt (n : nat) : exp := match kst n with Num (NFlt f) => E17 f | _ => EBad end.

(* emit_op_loadk 1084-1104 *)
Definition emit_loadk (a bx : nat) : stmt :=
  Reg Pa a ;;
  match kst bx with
  | Num (NInt z) => SetI (EInt z)
  | Num (NFlt f) => SetF (E17 f)
  | Bool b => SetB (EInt (b2z b))
  | _ => Konst Pb bx ;; SetObj Pb
  end.
(* emit_op_loadnil 1127-1134 *)
Fixpoint emit_nils (b : nat) : stmt :=
  SetNil ;; PtrAdd Pa Pa 1 ;; match b with O => Skip | S b => emit_nils b end.
(* emit_ff_op 1404-1422, emit_ii_op 1440-1458 *)
Definition emit_ff (o : cbin) (a : nat) (b c : rk) : stmt :=
  Reg Pa a ;;
  match b, c with
  | RK k, _ => regk Pc c ;; SetF (EBin o (kflt k) (EFval Pc))
  | _, RK k => regk Pb b ;; SetF (EBin o (EFval Pb) (kflt k))
  | _, _ => regk Pb b ;; regk Pc c ;; SetF (EBin o (EFval Pb) (EFval Pc))
  end.
Definition emit_ii (o : cbin) (a : nat) (b c : rk) : stmt :=
  Reg Pa a ;;
  match b, c with
  | RK k, _ => regk Pc c ;; SetI (EBin o (kint k) (EIval Pc))
  | _, RK k => regk Pb b ;; SetI (EBin o (EIval Pb) (kint k))
  | _, _ => regk Pb b ;; regk Pc c ;; SetI (EBin o (EIval Pb) (EIval Pc))
  end.
(* the beginning of the other binary operators *)
Definition abc (a : nat) (b c : rk) (s : stmt) : stmt := Reg Pa a ;; regk Pb b ;; regk Pc c ;; s.
(* emit_fi_op 1424-1430, emit_if_op 1432-1438 *)
Definition emit_fi (o : cbin) (a : nat) (b c : rk) : stmt := abc a b c (SetF (EBin o (EFval Pb) (EIval Pc))).
Definition emit_if (o : cbin) (a : nat) (b c : rk) : stmt := abc a b c (SetF (EBin o (EIval Pb) (EFval Pc))).
(* emit_op_arithslow 879-896 *)
Definition emit_slow (o : bop) (c : cbin) : stmt :=
  If (KAnd (KTag TInt Pb) (KTag TInt Pc))
     (Assign Vi (EIval Pb) ;; Assign Vic (EIval Pc) ;; SetI (EBin c (EVar Vi) (EVar Vic)))
     (If (KAnd (KToNum Pb Vn) (KToNum Pc Vnc)) (SetF (EBin c (EVar Vn) (EVar Vnc))) (TryTM o)).
(* raviJ_codegen 2136-2248, 2345-2353; emit_binary_op 1395-1403; emit_int_bitop 935-960; emit_op_divii 1460-1468 *)
Definition emit_bin (op : options) (o : bopcode) (a : nat) (b c : rk) : stmt :=
  match o with
  | OP_G Add => abc a b c (if inline_arith op then emit_slow Add CAdd else Arith Add)
  | OP_G Sub => abc a b c (if inline_arith op then emit_slow Sub CSub else Arith Sub)
  | OP_G Mul => abc a b c (if inline_arith op then emit_slow Mul CMul else Arith Mul)
  | OP_G o => abc a b c (Arith o)
  | ADDFF => emit_ff CAdd a b c | ADDFI => emit_fi CAdd a b c | ADDII => emit_ii CAdd a b c
  | SUBFF => emit_ff CSub a b c | SUBFI => emit_fi CSub a b c | SUBIF => emit_if CSub a b c | SUBII => emit_ii CSub a b c
  | MULFF => emit_ff CMul a b c | MULFI => emit_fi CMul a b c | MULII => emit_ii CMul a b c
  | DIVFF => emit_ff CDiv a b c | DIVFI => emit_fi CDiv a b c | DIVIF => emit_if CDiv a b c
  | DIVII => abc a b c (SetF (EBin CDiv (ECast (EIval Pb)) (ECast (EIval Pc))))
  | BAND_II => abc a b c (SetI (EIntop Z.land (EIval Pb) (EIval Pc)))
  | BOR_II => abc a b c (SetI (EIntop Z.lor (EIval Pb) (EIval Pc)))
  | BXOR_II => abc a b c (SetI (EIntop Z.lxor (EIval Pb) (EIval Pc)))
  | SHL_II => abc a b c (SetI (EShiftl (EIval Pb) (EIval Pc)))
  | SHR_II => abc a b c (Assign Vic (EIval Pc) ;; SetI (EShiftl (EIval Pb) (ENeg (EVar Vic))))
  end.
(* emit_op_unm 898-911, emit_op_bnot 927-933, emit_op_BNOT_I 962-968 *)
Definition emit_un (o : uopcode) (a b : nat) : stmt :=
  Reg Pa a ;; Reg Pb b ;;
  match o with
  | OP_U Unm =>
    If (KTag TInt Pb) (Assign Vi (EIval Pb) ;; SetI (EIntop Z.sub (EInt 0) (EVar Vi)))
       (If (KToNum Pb Vn) (SetF (ENeg (EVar Vn))) (TryTMun Unm))
  | OP_U Bnot => OpBnot
  | BNOT_I => Assign Vi (EIval Pb) ;; SetI (EIntop Z.lxor (EInt (two64 - 1)) (EVar Vi))
  end.
(* the jump of the tests: "if (jA > 0) { ra = R(jA - 1); luaF_close(L, ra); } goto Lbc_j" *)
Definition emit_goto (ja j : nat) : stmt := match ja with O => Goto j | S r => Reg Pa r ;; Close ;; Goto j end.
(* emit_comparison 970-1074 *)
Definition cmp_ii (o : ccmp) (b c : rk) : stmt :=
  match b, c with
  | RK k, RK l => Assign Vres (ECmp o (kint k) (kint l))
  | RK k, _ => regk Pc c ;; Assign Vres (ECmp o (kint k) (EIval Pc))
  | _, RK l => regk Pb b ;; Assign Vres (ECmp o (EIval Pb) (kint l))
  | _, _ => regk Pb b ;; regk Pc c ;; Assign Vres (ECmp o (EIval Pb) (EIval Pc))
  end.
Definition cmp_ff (o : ccmp) (b c : rk) : stmt :=
  match b, c with
  | RK k, RK l => Assign Vres (ECmp o (kflt k) (kflt l))
  | RK k, _ => regk Pc c ;; Assign Vres (ECmp o (kflt k) (EFval Pc))
  | _, RK l => regk Pb b ;; Assign Vres (ECmp o (EFval Pb) (kflt l))
  | _, _ => regk Pb b ;; regk Pc c ;; Assign Vres (ECmp o (EFval Pb) (EFval Pc))
  end.
Definition cmp_slow (o : cop) (r : ccmp) (b c : rk) : stmt :=
  regk Pb b ;; regk Pc c ;;
  If (KAnd (KTag TInt Pb) (KTag TInt Pc)) (Assign Vres (ECmp r (EIval Pb) (EIval Pc))) (CmpCall o).
Definition emit_cmp (o : copcode) (a : Z) (b c : rk) (j ja : nat) : stmt :=
  match o with
  | LT_II => cmp_ii CLt b c | LE_II => cmp_ii CLe b c | EQ_II => cmp_ii CEq b c
  | LT_FF => cmp_ff CLt b c | LE_FF => cmp_ff CLe b c | EQ_FF => cmp_ff CEq b c
  | OP_C Lt => cmp_slow Lt CLt b c | OP_C Le => cmp_slow Le CLe b c
  | OP_C Eq => regk Pb b ;; regk Pc c ;; CmpCall Eq
  end ;;
  If (KEqv Vres a) (emit_goto ja j) Skip.
(* emit_op_test 1160-1183, emit_op_testset 1184-1207 *)
Definition emit_test (a : nat) (c : bool) (j ja : nat) : stmt :=
  Reg Pa a ;; Assign Vres (if c then EFalse Pa else ENFalse Pa) ;; If (KEqv Vres 0) (emit_goto ja j) Skip.
Definition emit_testset (a b : nat) (c : bool) (j ja : nat) : stmt :=
  Reg Pb b ;; Assign Vres (if c then EFalse Pb else ENFalse Pb) ;;
  If (KEqv Vres 0) (Reg Pa a ;; SetObj Pb ;; emit_goto ja j) Skip.
(* emit_IARRAY_GET 748-770, emit_FARRAY_GET 772-794; emit_op_gettable 1306-1322 *)
Definition emit_get (op : options) (o : gopcode) (a b : nat) (c : rk) : stmt :=
  Reg Pa a ;; Reg Pb b ;; regk Pc c ;;
  match o with
  | OP_IARRAY_GET => Ukey Pc ;; Arr Pb ;; (if omit_range op then SetI EElem else If KRange (SetI EElem) (Raise EBounds))
  | OP_FARRAY_GET => Ukey Pc ;; Arr Pb ;; (if omit_range op then SetF EElem else If KRange (SetF EElem) (Raise EBounds))
  | OP_GETFIELD => GetCall OP_GETFIELD
  | OP_GETI => GetCall OP_GETI
  | _ => GetCall OP_GETTABLE
  end.
(* emit_IARRAY_SETI 796-810, emit_IARRAY_SET 812-835, emit_FARRAY_SETF 837-851, emit_FARRAY_SET 853-877;
   emit_op_settable 1348-1364 *)
Definition emit_set (o : sopcode) (a : nat) (b c : rk) : stmt :=
  Reg Pa a ;; regk Pb b ;; regk Pc c ;;
  match o with
  | OP_IARRAY_SETI => Arr Pa ;; Ukey Pb ;; If KRange (Store (EIval Pc)) (SlowSet (EIval Pc))
  | OP_IARRAY_SET => Arr Pa ;; Ukey Pb ;; If (KNot (KTag TInt Pc)) (Raise EType) Skip ;;
                     Assign Vi (EIval Pc) ;; If KRange (Store (EVar Vi)) (SlowSet (EVar Vi))
  | OP_FARRAY_SETF => Arr Pa ;; Ukey Pb ;; If KRange (Store (EFval Pc)) (SlowSet (EFval Pc))
  | OP_FARRAY_SET => Arr Pa ;; Ukey Pb ;; If (KNot (KTag TNum Pc)) (Raise EType) Skip ;;
                     Assign Vn (ETern TInt Pc (ECast (EIval Pc)) (EFval Pc)) ;;
                     If KRange (Store (EVar Vn)) (SlowSet (EVar Vn))
  | OP_SETFIELD => SetCall OP_SETFIELD
  | OP_SETI => SetCall OP_SETI
  | _ => SetCall OP_SETTABLE
  end.
(* emit_op_MOVEIARRAY 1523, MOVEFARRAY 1538, movetab 1553; toai 1600, toaf 1613, totab 1626, toclosure 1639, tostring 1652 *)
Definition emit_move (t : tag) (a b : nat) : stmt := Reg Pa a ;; Reg Pb b ;; If (KTag t Pb) (SetObj Pb) (Raise EType).
Definition emit_check (t : tag) (a : nat) : stmt := Reg Pa a ;; If (KNot (KTag t Pa)) (Raise EType) Skip.
Definition emit_check_nil (t : tag) (a : nat) : stmt :=
  Reg Pa a ;; If (KAnd (KNot (KTag TNil Pa)) (KNot (KTag t Pa))) (Raise EType) Skip.
(* emit_op_iforprep 1719-1747 *)
Definition emit_iforprep (one : bool) (a j : nat) : stmt :=
  Reg Pa a ;; Assign (Li a) (EIval Pa) ;; Reg Pa (a + 1) ;; Assign (Llim a) (EIval Pa) ;;
  (if one then Assign (Li a) (EBin CSub (EVar (Li a)) (EInt 1))
   else Reg Pa (a + 2) ;; Assign (Lstep a) (EIval Pa) ;; Assign (Li a) (EBin CSub (EVar (Li a)) (EVar (Lstep a)))) ;;
  Goto j.
(* emit_op_iforloop 1806-1818 *)
Definition emit_iforloop (one : bool) (a j : nat) : stmt :=
  Assign (Li a) (EBin CAdd (EVar (Li a)) (if one then EInt 1 else EVar (Lstep a))) ;;
  If (KExp (ECmp CLe (EVar (Li a)) (EVar (Llim a)))) (Reg Pa (a + 3) ;; SetI (EVar (Li a)) ;; Goto j) Skip.
(* emit_op_forprep 1749-1804 *)
Definition emit_forprep (a j : nat) : stmt :=
  Reg Pa a ;; PtrAdd Pb Pa 1 ;; PtrAdd Pc Pa 2 ;;
  If (KAnd (KTag TInt Pa) (KAnd (KTag TInt Pc) (KTag TInt Pb)))
     (Assign (Llim a) (EIval Pb) ;; Assign (Li a) (EIval Pa) ;; Assign (Lstep a) (EIval Pc) ;;
      Assign (Li a) (EBin CSub (EVar (Li a)) (EVar (Lstep a))) ;; Assign (Lint a) (EInt 1))
     (If (KNot (KTag TNum Pb)) (Raise EType) Skip ;; If (KNot (KTag TNum Pc)) (Raise EType) Skip ;;
      If (KNot (KTag TNum Pa)) (Raise EType) Skip ;;
      Do (KToNum Pb (Lnlim a)) ;; Do (KToNum Pa (Lninit a)) ;; Do (KToNum Pc (Lnstep a)) ;;
      Assign (Lninit a) (EBin CSub (EVar (Lninit a)) (EVar (Lnstep a))) ;; Assign (Lint a) (EInt 0)) ;;
  Goto j.
(* emit_op_forloop 1820-1835 *)
Definition emit_forloop (a j : nat) : stmt :=
  If (KNot (KEqv (Lint a) 0))
     (Assign (Li a) (EBin CAdd (EVar (Li a)) (EVar (Lstep a))) ;;
      If (KTern (KExp (ECmp CLt (EInt 0) (EVar (Lstep a))))
                (KExp (ECmp CLe (EVar (Li a)) (EVar (Llim a)))) (KExp (ECmp CLe (EVar (Llim a)) (EVar (Li a)))))
         (Reg Pa (a + 3) ;; SetI (EVar (Li a)) ;; Goto j) Skip)
     (Assign (Lninit a) (EBin CAdd (EVar (Lninit a)) (EVar (Lnstep a))) ;;
      If (KTern (KExp (ECmp CLt (EDbl fzero) (EVar (Lnstep a))))
                (KExp (ECmp CLe (EVar (Lninit a)) (EVar (Lnlim a)))) (KExp (ECmp CLe (EVar (Lnlim a)) (EVar (Lninit a)))))
         (Reg Pa (a + 3) ;; SetF (EVar (Lninit a)) ;; Goto j) Skip).

(* the instructions that raviJ_codegen emits alone *)
Definition emit1 (op : options) (pc : nat) (i : instr) : stmt :=
  match i with
  | MOVE a b => Reg Pa a ;; Reg Pb b ;; SetObj Pb                                   (* 1120 *)
  | LOADK a bx => emit_loadk a bx
  | LOADBOOL a b c =>                                                               (* 1150 *)
    Reg Pa a ;; SetB (EInt (b2z b)) ;; (if c then Goto (pc + 2) else Skip)
  | LOADNIL a b => Reg Pa a ;; emit_nils b
  | LOADFZ a => Reg Pa a ;; SetF (EDbl fzero)                                       (* 1478 *)
  | LOADIZ a => Reg Pa a ;; SetI (EInt 0)                                           (* 1483 *)
  | BIN o a b c => emit_bin op o a b c
  | UN o a b => emit_un o a b
  | UNMI a b => Reg Pa a ;; Reg Pb b ;; SetI (ENeg (EIval Pb))                      (* 920 *)
  | UNMF a b => Reg Pa a ;; Reg Pb b ;; SetF (ENeg (EFval Pb))                      (* 913 *)
  | NOT a b => Reg Pa a ;; Reg Pb b ;; Assign Vres (EFalse Pb) ;; SetB (EVar Vres)  (* 1705 *)
  | JMP a sbx => emit_goto a (target pc sbx)                                        (* 1136 *)
  | GET o a b c => emit_get op o a b c
  | SET o a b c => emit_set o a b c
  | MOVEI a b => Reg Pa a ;; Reg Pb b ;; Assign Vi (EInt 0) ;;                      (* 1489 *)
                 If (KTag TInt Pb) (Assign Vi (EIval Pb) ;; SetI (EVar Vi)) (Raise EType)
  | MOVEF a b => Reg Pa a ;; Reg Pb b ;; Assign Vn (EDbl fzero) ;;                  (* 1505 *)
                 If (KTag TNum Pb) (Assign Vn (ETern TFlt Pb (EFval Pb) (ECast (EIval Pb))) ;; SetF (EVar Vn)) (Raise EType)
  | MOVEIARR a b => emit_move TIArr a b
  | MOVEFARR a b => emit_move TFArr a b
  | MOVETAB a b => emit_move TLtab a b
  | TOINT a => Reg Pa a ;; Assign Vi (EInt 0) ;; If (KToInt Pa Vi) (SetI (EVar Vi)) (Raise EType)    (* 1568 *)
  | TOFLT a => Reg Pa a ;; Assign Vn (EDbl fzero) ;;                                (* 1583 *)
               If (KTag TNum Pa) (Assign Vn (ETern TInt Pa (ECast (EIval Pa)) (EFval Pa)) ;; SetF (EVar Vn)) (Raise EType)
  | TOTAB a => emit_check TLtab a
  | TOIARR a => emit_check TIArr a
  | TOFARR a => emit_check TFArr a
  | TOSTRING a => emit_check_nil TStr a
  | TOCLOSURE a => emit_check_nil TClosure a
  | FORPREP a sbx => emit_forprep a (target pc sbx)
  | FORLOOP a sbx => emit_forloop a (target pc sbx)
  | IFORPREP one a sbx => emit_iforprep one a (target pc sbx)
  | IFORLOOP one a sbx => emit_iforloop one a (target pc sbx)
  | RETURN a b => (if sizep then Reg Pa 0 ;; Close else Skip) ;; Reg Pa a ;; Return b    (* 1106-1118 *)
  | CMP _ _ _ _ | TEST _ _ | TESTSET _ _ _ => Skip                                  (* see emit2 *)
  end.
(* the instructions emitted together with the jump that follows them (raviJ_codegen 1977-2035) *)
Definition emit2 (pc : nat) (i : instr) (ja : nat) (sbx : Z) : option stmt :=
  let j := target (S pc) sbx in
  match i with
  | CMP o a b c => Some (emit_cmp o a b c j ja)
  | TEST a c => Some (emit_test a c j ja)
  | TESTSET a b c => Some (emit_testset a b c j ja)
  | _ => None
  end.
Definition pairs (i : instr) : bool := match i with CMP _ _ _ _ | TEST _ _ | TESTSET _ _ _ => true | _ => false end.

(* scan_jump_targets 685-718 *)
Definition scan_target (pc : nat) (i : instr) : option nat :=
  match i with
  | LOADBOOL _ _ true => Some (pc + 2)%nat
  | JMP _ sbx | IFORPREP _ _ sbx | IFORLOOP _ _ sbx | FORLOOP _ sbx | FORPREP _ sbx => Some (target pc sbx)
  | _ => None
  end.
Fixpoint jmps (pc : nat) (code : list instr) (l : nat) : bool :=
  match code with
  | [] => false
  | i :: r => match scan_target pc i with Some t => Nat.eqb t l | None => false end || jmps (S pc) r l
  end.

(* raviJ_codegen 1881-2409: the pieces of the body, each with its label if it has one (emit_jump_label 1076-1082).
   The instruction after a test is taken for its jump; a test at the end of the code is not compiled. *)
Fixpoint emit_from (op : options) (lab : nat -> bool) (pc : nat) (code : list instr) : list (option nat * stmt) :=
  let label := if lab pc then Some pc else None in
  match code with
  | [] => []
  | i :: r =>
    if pairs i then
      match r with
      | JMP ja sbx :: r' =>
        match emit2 pc i ja sbx with
        | Some s => (label, s) :: emit_from op lab (S (S pc)) r'
        | None => []
        end
      | _ => []
      end
    else (label, emit1 op pc i) :: emit_from op lab (S pc) r
  end.
Definition emit (op : options) (code : list instr) : list (option nat * stmt) :=
  emit_from op (jmps 0 code) 0 code.

(* ---- what the C text does ---- *)
Inductive loc := LNull | LR (n : nat) | LK (n : nat).
Record cst := mkC { ptrs : ptr -> loc; vars : var -> cval; ukey : Z; tarr : option val; mem : St }.
Definition ptr_eqb (p q : ptr) : bool := match p, q with Pa, Pa | Pb, Pb | Pc, Pc => true | _, _ => false end.
Definition setptr (c : cst) (p : ptr) (l : loc) : cst :=
  mkC (fun q => if ptr_eqb q p then l else ptrs c q) (vars c) (ukey c) (tarr c) (mem c).
Definition setvar (c : cst) (v : var) (x : cval) : cst :=
  mkC (ptrs c) (fun w => if var_eq w v then x else vars c w) (ukey c) (tarr c) (mem c).
Definition setmem (c : cst) (m : St) : cst := mkC (ptrs c) (vars c) (ukey c) (tarr c) m.
(* the variables start with 0 (initfn 1216-1261, emit_op_forprep 1753-1759) *)
Definition cinit (m : St) : cst :=
  mkC (fun _ => LNull) (fun v => if is_double v then VD fzero else VI 0) 0 None m.

Definition deref (c : cst) (p : ptr) : outcome val :=
  match ptrs c p with LNull => UB | LR n => Ok (fst (mem c) n) | LK n => Ok (kst n) end.
(* assignments through ra *)
Definition put (c : cst) (v : val) : outcome cst :=
  match ptrs c Pa with LR n => Ok (setmem c (upr (mem c) n v)) | _ => UB end.
(* an assignment converts to the type of the variable *)
Definition assign (c : cst) (v : var) (x : cval) : outcome cst :=
  if is_double v then Ok (setvar c v (VD (to_d x))) else do z <- to_i x; Ok (setvar c v (VI z)).
(* iptr[ukey], nptr[ukey]: beyond the length of the array the memory is not the array's *)
Definition elem (c : cst) : outcome cval :=
  match tarr c with
  | Some (IArr a) => if ukey c <? alen a (mem c) then Ok (VI (icell a (ukey c) (mem c))) else UB
  | Some (FArr a) => if ukey c <? alen a (mem c) then Ok (VD (fcell a (ukey c) (mem c))) else UB
  | _ => UB
  end.
Fixpoint eval (x : exp) (c : cst) : outcome cval :=
  match x with
  | EInt z => lit z
  | E17 f => Ok (lit17 f)
  | EDbl f => Ok (VD f)
  | EBad => UB
  | EIval p => do v <- deref c p; do z <- ivalue v; Ok (VI z)
  | EFval p => do v <- deref c p; do f <- fltvalue v; Ok (VD f)
  | EVar v => Ok (vars c v)
  | EBin o x y => do a <- eval x c; do b <- eval y c; cbinop o a b
  | EIntop f x y => do a <- eval x c; do b <- eval y c;
                    match a, b with VI a, VI b => Ok (VI (intop f a b)) | _, _ => UB end
  | ECast x => do a <- eval x c; Ok (VD (to_d a))
  | ENeg x => do a <- eval x c; match a with VI z => do z <- c_signed (- z); Ok (VI z) | VD f => Ok (VD (fneg f)) end
  | EShiftl x y => do a <- eval x c; do b <- eval y c;
                   match a, b with VI a, VI b => Ok (VI (luaV_shiftl a b)) | _, _ => UB end
  | ECmp o x y => do a <- eval x c; do b <- eval y c; Ok (VI (b2z (ccmpop o a b)))
  | EFalse p => do v <- deref c p; Ok (VI (b2z (is_tag TFalse v)))
  | ENFalse p => do v <- deref c p; Ok (VI (b2z (negb (is_tag TFalse v))))
  | ETern t p x y => do v <- deref c p; if is_tag t v then eval x c else eval y c
  | EElem => elem c
  end.
Fixpoint test (k : cond) (c : cst) : outcome (bool * cst) :=
  match k with
  | KTag t p => do v <- deref c p; Ok (is_tag t v, c)
  | KNot k => do '(b, c) <- test k c; Ok (negb b, c)
  | KAnd k l => do '(b, c) <- test k c; if b : bool then test l c else Ok (false, c)
  | KToNum p v =>
    do x <- deref c p;
    match tonumberns x with Some f => do c <- assign c v (VD f); Ok (true, c) | None => Ok (false, c) end
  | KToInt p v =>
    do x <- deref c p; do o <- tointns x;
    match o with Some z => do c <- assign c v (VI z); Ok (true, c) | None => Ok (false, c) end
  | KExp x => do v <- eval x c; match v with VI z => Ok (negb (z =? 0), c) | VD f => Ok (negb (flt_eq f fzero), c) end
  | KEqv v z => match vars c v with VI x => Ok (x =? z, c) | VD _ => UB end
  | KTern k l n => do '(b, c) <- test k c; if b : bool then test l c else test n c
  | KRange =>
    match tarr c with
    | Some (IArr a) | Some (FArr a) => Ok (ukey c <? alen a (mem c), c)
    | _ => UB
    end
  end.
Inductive flow := Fall (c : cst) | Jump (l : nat) (c : cst) | Ret (a b : nat) (m : St).
(* a library function that leaves a value in ra *)
Definition putres (c : cst) (r : outcome (val * St)) : outcome flow :=
  do '(v, m) <- r; do c <- put (setmem c m) v; Ok (Fall c).
(* lobject.c:156-163 luaO_arith with 119-152 luaO_rawarith, on any values *)
Definition luaO_arith (o : bop) (x y : val) (m : St) : outcome (val * St) :=
  let fail := tmbin o x y m in
  let floats :=
    match tonumberns x, tonumberns y with
    | Some a, Some b => do z <- numarith fmod fpow o a b; Ok (F z, m)
    | _, _ => fail
    end in
  match o with
  | Band | Bor | Bxor | Shl | Shr =>
    do a <- tointns x;
    match a with
    | None => fail
    | Some a => do b <- tointns y;
                match b with None => fail | Some b => do z <- intarith2 o a b; Ok (I z, m) end
    end
  | Div | Pow => floats
  | _ => match x, y with
         | Num (NInt a), Num (NInt b) => do z <- intarith2 o a b; Ok (I z, m)
         | _, _ => floats
         end
  end.
Fixpoint cexec (s : stmt) (c : cst) : outcome flow :=
  match s with
  | Skip => Ok (Fall c)
  | Seq s t => do f <- cexec s c; match f with Fall c => cexec t c | _ => Ok f end
  | Reg p n => Ok (Fall (setptr c p (LR n)))
  | Konst p n => Ok (Fall (setptr c p (LK n)))
  | PtrAdd p q k =>
    match ptrs c q with LR n => Ok (Fall (setptr c p (LR (n + k)))) | LK n => Ok (Fall (setptr c p (LK (n + k)))) | LNull => UB end
  | SetI x => do v <- eval x c; do z <- to_i v; do c <- put c (I z); Ok (Fall c)
  | SetF x => do v <- eval x c; do c <- put c (F (to_d v)); Ok (Fall c)
  | SetB x => do v <- eval x c; do z <- to_i v; do c <- put c (Bool (negb (z =? 0))); Ok (Fall c)
  | SetNil => do c <- put c Nil; Ok (Fall c)
  | SetObj q => do v <- deref c q; do c <- put c v; Ok (Fall c)
  | Assign v x => do a <- eval x c; do c <- assign c v a; Ok (Fall c)
  | If k s t => do '(b, c) <- test k c; if b : bool then cexec s c else cexec t c
  | Do k => do '(b, c) <- test k c; Ok (Fall c)
  | Raise e => Err e
  | TryTM o => do x <- deref c Pb; do y <- deref c Pc; putres c (tmbin o x y (mem c))
  | TryTMun o => do x <- deref c Pb; putres c (tmun o x (mem c))
  | Arith o => do x <- deref c Pb; do y <- deref c Pc; putres c (luaO_arith o x y (mem c))
  | OpBnot =>                                                         (* lvm.c:3149-3155 raviV_op_bnot *)
    do x <- deref c Pb; do o <- tointns x;
    putres c (match o with Some z => Ok (I (int_bnot z), mem c) | None => tmun Bnot x (mem c) end)
  | CmpCall o =>                                                      (* luaV_equalobj, luaV_lessthan, luaV_lessequal *)
    do x <- deref c Pb; do y <- deref c Pc; do '(b, m) <- exec_cmp' (OP_C o) x y (mem c);
    do c <- assign (setmem c m) Vres (VI (b2z b)); Ok (Fall c)
  | Close => match ptrs c Pa with LR n => do m <- close n (mem c); Ok (Fall (setmem c m)) | _ => UB end
  | Goto l => Ok (Jump l c)
  | Return b => match ptrs c Pa with LR n => Ok (Ret n b (mem c)) | _ => UB end
  | Ukey p => do v <- deref c p; do z <- ivalue v; Ok (Fall (mkC (ptrs c) (vars c) (u64 z) (tarr c) (mem c)))
  | Arr p =>
    do v <- deref c p;
    match v with IArr _ | FArr _ => Ok (Fall (mkC (ptrs c) (vars c) (ukey c) (Some v) (mem c))) | _ => UB end
  | Store x =>
    do v <- eval x c;
    match tarr c, v with
    | Some (IArr a), VI z => Ok (Fall (setmem c (iput a (ukey c) z (mem c))))
    | Some (FArr a), VD f => Ok (Fall (setmem c (fput a (ukey c) f (mem c))))
    | _, _ => UB
    end
  | SlowSet x =>
    do v <- eval x c;
    match tarr c, v with
    | Some (IArr a), VI z => do m <- set_int a (ukey c) z (mem c); Ok (Fall (setmem c m))
    | Some (FArr a), VD f => do m <- set_float a (ukey c) f (mem c); Ok (Fall (setmem c m))
    | _, _ => UB
    end
  | GetCall o =>                                                      (* luaV_gettable, raviV_gettable_i, raviV_gettable_sskey *)
    do t <- deref c Pb; do k <- deref c Pc; putres c (exec_get' o t k (mem c))
  | SetCall o =>
    do t <- deref c Pa; do k <- deref c Pb; do v <- deref c Pc; do m <- exec_set' o t k v (mem c); Ok (Fall (setmem c m))
  end.

(* the body from a label on; a goto to a label that is not in the text does not compile *)
Fixpoint find_label (l : nat) (body : list (option nat * stmt)) : option (list (option nat * stmt)) :=
  match body with
  | [] => None
  | (Some k, s) :: r => if Nat.eqb k l then Some body else find_label l r
  | (None, _) :: r => find_label l r
  end.
(* n pieces of the body *)
Fixpoint crun (n : nat) (body rest : list (option nat * stmt)) (c : cst) : outcome (nat * nat * St) :=
  match n with
  | O => OutOfFuel
  | S n =>
    match rest with
    | [] => UB
    | (_, s) :: r =>
      do f <- cexec s c;
      match f with
      | Fall c => crun n body r c
      | Jump l c => match find_label l body with Some r => crun n body r c | None => UB end
      | Ret a b m => Ok (a, b, m)
      end
    end
  end.
End machine.
