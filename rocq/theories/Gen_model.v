(* Model of the code generator for expressions (lcode.c) and of the part of the interpreter (lvm.c)
   that runs the code it generates.  Jump lists are lists of positions instead of chains through the
   instructions (the chains are the subject of C31); the limits on registers, constants and jump
   distances are left out; luaK_nil never merges two OP_LOADNIL. *)
Require Import ZArith List Bool Arith.
From Verif Require Import Base Float_model Op_model.
Import ListNotations.
Local Open Scope nat_scope.

(* an operand that is a register or a constant: ISK, RKASK, INDEXK (lopcodes.h:104-116) *)
Inductive rk := R (r : nat) | K (k : nat).
(* the types a value can be converted to or checked for: OP_RAVI_TOINT, TOFLT, TOIARRAY, TOFARRAY,
   TOTAB, TOSTRING, TOCLOSURE *)
Inductive conv := CInt | CFlt | CIArr | CFArr | CTab | CStr | CFun.
(* instructions that put a value into register A *)
Inductive vop :=
| OMove (b : nat) | OMoveT (c : conv) (b : nat)      (* OP_MOVE; OP_RAVI_MOVEI, MOVEF, MOVEIARRAY, .. *)
| OLoadK (k : nat) | OLoadBool (b : bool) | OLoadNil
| OGetUpval (u : nat) | OGet (o : gopcode) (t : nat) (k : rk) | OGetTabUp (o : gopcode) (u : nat) (k : rk)
| OBin (o : bopcode) (x y : rk) | OUn (o : uopcode) (b : nat) | OLen (b : nat) | ONot (b : nat)
| OConcat (b c : nat).
Inductive instr :=
| Val (a : option nat) (o : vop)       (* None: A still is the 0 it is emitted with *)
| LoadBoolSkip (a : nat) (b : bool)    (* OP_LOADBOOL with C = 1 *)
| Conv (a : nat) (c : conv)
| Cmp (o : copcode) (c : bool) (x y : rk)
| Test (b : nat) (c : bool)
| TestSet (a : option nat) (b : nat) (c : bool)      (* None: NO_REG *)
| Jmp (d : option nat)                 (* None: NO_JUMP; the absolute destination *)
| Call (a n : nat).                    (* n arguments, one result *)

(* lparser.h:26-62 expkind *)
Inductive kind :=
| VNil | VTrue | VFalse | VK (k : nat) | VKInt (i : Z) | VKFlt (f : flt)
| VLocal (r : nat) | VNonreloc (r : nat) | VUpval (u : nat)
| VIndexed (up : bool) (t : nat) (idx : rk) (kt : tmap)      (* up: vt == VUPVAL *)
| VReloc (pc : nat) | VJmp (pc : nat).
(* lparser.h:72-98 expdesc: t and f are the jumps to take if the value is true or false *)
Record expdesc := mk { ek : kind; et : list nat; ef : list nat; ety : tmap }.
Definition with_k (e : expdesc) (k : kind) : expdesc := mk k (et e) (ef e) (ety e).
Definition with_ty (e : expdesc) (t : tmap) : expdesc := mk (ek e) (et e) (ef e) t.
Definition init (k : kind) (t : tmap) : expdesc := mk k [] [] t.
(* lcode.c:36 hasjumps *)
Definition hasjumps (e : expdesc) : bool := match et e, ef e with [], [] => false | _, _ => true end.

(* lparser.h:184-203 FuncState: code with pc = length, the pending jumps to pc, constants, the types
   of the active local variables (raviY_get_register_typeinfo, lparser.c:478-494) *)
Record fstate := mkfs { code : list instr; jpc : list nat; ks : list val; freereg : nat; nactvar : nat; lty : nat -> tmap; uty : nat -> tmap }.
Definition with_code (fs : fstate) (c : list instr) : fstate := mkfs c (jpc fs) (ks fs) (freereg fs) (nactvar fs) (lty fs) (uty fs).
Definition with_jpc (fs : fstate) (l : list nat) : fstate := mkfs (code fs) l (ks fs) (freereg fs) (nactvar fs) (lty fs) (uty fs).
Definition with_ks (fs : fstate) (l : list val) : fstate := mkfs (code fs) (jpc fs) l (freereg fs) (nactvar fs) (lty fs) (uty fs).
Definition with_free (fs : fstate) (n : nat) : fstate := mkfs (code fs) (jpc fs) (ks fs) n (nactvar fs) (lty fs) (uty fs).
Definition pc (fs : fstate) : nat := length (code fs).
Definition register_type (fs : fstate) (r : nat) : tmap := if r <? nactvar fs then lty fs r else T_ANY.

Fixpoint upd {A} (l : list A) (n : nat) (x : A) : list A :=
  match l, n with
  | [], _ => []
  | _ :: l, O => x :: l
  | y :: l, S n => y :: upd l n x
  end.

(* testTMode (lopcodes.c): the next instruction is a jump *)
Definition testT (i : instr) : bool := match i with Cmp _ _ _ _ | Test _ _ | TestSet _ _ _ => true | _ => false end.
(* lcode.c:184-190 getjumpcontrol, as a position *)
Definition getjumpcontrol (c : list instr) (p : nat) : nat :=
  match p with
  | S q => match nth_error c q with Some i => if testT i then q else p | None => p end
  | O => p
  end.
(* lcode.c:200-217 patchtestreg *)
Definition patchtestreg (c : list instr) (node : nat) (reg : option nat) : list instr * bool :=
  let q := getjumpcontrol c node in
  match nth_error c q with
  | Some (TestSet _ b cc) =>
    (match reg with
     | Some r => if r =? b then upd c q (Test b cc) else upd c q (TestSet (Some r) b cc)
     | None => upd c q (Test b cc)
     end, true)
  | _ => (c, false)
  end.
(* lcode.c:223-226 removevalues *)
Fixpoint removevalues (c : list instr) (l : list nat) : list instr :=
  match l with [] => c | j :: l => removevalues (fst (patchtestreg c j None)) l end.
(* lcode.c:104-112 fixjump; 234-244 patchlistaux *)
Definition fixjump (c : list instr) (p : nat) (dest : option nat) : list instr := upd c p (Jmp dest).
Fixpoint patchlistaux (c : list instr) (l : list nat) (vtarget : nat) (reg : option nat) (dtarget : option nat) : list instr :=
  match l with
  | [] => c
  | j :: l => let '(c', b) := patchtestreg c j reg in
              patchlistaux (fixjump c' j (if b then Some vtarget else dtarget)) l vtarget reg dtarget
  end.
(* lcode.c:252-255 dischargejpc *)
Definition dischargejpc (fs : fstate) : fstate :=
  with_jpc (with_code fs (patchlistaux (code fs) (jpc fs) (pc fs) None (Some (pc fs)))) [].
(* lcode.c:300-315 luaK_code *)
Definition emit (fs : fstate) (i : instr) : fstate :=
  let fs := dischargejpc fs in with_code fs (code fs ++ [i]).
(* lcode.c:141-149 luaK_jump: the jumps to here go where the new jump will go *)
Definition luaK_jump (fs : fstate) : fstate * list nat :=
  let l := jpc fs in
  let fs := with_jpc fs [] in
  (emit fs (Jmp None), pc fs :: l).
(* lcode.c:164-167 condjump *)
Definition condjump (fs : fstate) (i : instr) : fstate * list nat := luaK_jump (emit fs i).
(* lcode.c:262-265 luaK_patchtohere *)
Definition patchtohere (fs : fstate) (l : list nat) : fstate := with_jpc fs (jpc fs ++ l).

(* lcode.c:381-392 luaK_reserveregs, 398-403 freereg, 409-412 freeexp, 419-430 freeexps *)
Definition reserve (fs : fstate) : fstate := with_free fs (S (freereg fs)).
Definition free_reg (fs : fstate) (r : nat) : fstate := if nactvar fs <=? r then with_free fs (pred (freereg fs)) else fs.
Definition free_rk (fs : fstate) (x : rk) : fstate := match x with R r => free_reg fs r | K _ => fs end.
Definition freeexp (fs : fstate) (e : expdesc) : fstate := match ek e with VNonreloc r => free_reg fs r | _ => fs end.
Definition freeexps (fs : fstate) (e1 e2 : expdesc) : fstate :=
  match ek e1, ek e2 with
  | VNonreloc r1, VNonreloc r2 => if r2 <? r1 then free_reg (free_reg fs r1) r2 else free_reg (free_reg fs r2) r1
  | _, _ => freeexp (freeexp fs e2) e1
  end.

(* lcode.c:440-464 addk.  The cache finds an equal constant that is already in the list; equal is
   luaV_rawequalobj of values of the same type, so 0.0 and -0.0 are the same *)
Definition same_const (a b : val) : bool :=
  match a, b with
  | Nil, Nil => true
  | Bool x, Bool y => Bool.eqb x y
  | Num (NInt x), Num (NInt y) => Z.eqb x y
  | Num (NFlt x), Num (NFlt y) => flt_eq x y
  | Str x, Str y => if list_eq_dec Z.eq_dec x y then true else false
  | _, _ => false
  end.
Fixpoint find_const (l : list val) (v : val) (i : nat) : option nat :=
  match l with [] => None | x :: l => if same_const x v then Some i else find_const l v (S i) end.
Definition addk (fs : fstate) (v : val) : fstate * nat :=
  match find_const (ks fs) v 0 with
  | Some i => (fs, i)
  | None => (with_ks fs (ks fs ++ [v]), length (ks fs))
  end.
(* lcode.c:48-60 tonumeral *)
Definition tonumeral (e : expdesc) : option num :=
  if hasjumps e then None else match ek e with VKInt i => Some (NInt i) | VKFlt f => Some (NFlt f) | _ => None end.

(* lcode.c:556-564 isshortstr; LUAI_MAXSHORTLEN *)
Definition short_str (s : list Z) : bool := length s <=? 40.
Definition isshortstr (fs : fstate) (x : rk) : bool :=
  match x with
  | K k => match nth_error (ks fs) k with Some (Str s) => short_str s | _ => false end
  | R _ => false
  end.
(* lcode.c:566-624 luaK_dischargevars (calls have one result here, see gen) *)
Definition dischargevars (fs : fstate) (e : expdesc) : fstate * expdesc :=
  match ek e with
  | VLocal r => (fs, with_k e (VNonreloc r))
  | VUpval u => (emit fs (Val None (OGetUpval u)), with_k e (VReloc (pc fs)))
  | VIndexed up t idx kt =>
    let fs1 := free_rk fs idx in
    let fs2 := if up then fs1 else free_reg fs1 t in
    let '(o, ty) := codeget (ety e) kt (isshortstr fs idx) in
    let i := if up then OGetTabUp (if (Z.eqb kt T_STR) && isshortstr fs idx then OP_GETFIELD else OP_GETTABLE) t idx
             else OGet o t idx in
    (emit fs2 (Val None i), with_ty (with_k e (VReloc (pc fs))) ty)
  | _ => (fs, e)
  end.
(* SETARG_A of the instruction of a relocatable expression *)
Definition set_a (c : list instr) (p r : nat) : list instr :=
  match nth_error c p with Some (Val _ o) => upd c p (Val (Some r) o) | _ => c end.
(* lcode.c:631-706 discharge2reg *)
Definition T_STR_NIL : tmap := Z.lor T_STR T_NIL.
Definition T_FUN_NIL : tmap := Z.lor T_FUN T_NIL.
Definition move (fs : fstate) (r b : nat) : fstate :=
  let t := register_type fs r in
  if Z.eqb t T_INT then emit fs (Val (Some r) (OMoveT CInt b))
  else if Z.eqb t T_FLT then emit fs (Val (Some r) (OMoveT CFlt b))
  else if Z.eqb t T_IARR then emit fs (Val (Some r) (OMoveT CIArr b))
  else if Z.eqb t T_FARR then emit fs (Val (Some r) (OMoveT CFArr b))
  else if Z.eqb t T_TAB then emit fs (Val (Some r) (OMoveT CTab b))
  else
    let fs := emit fs (Val (Some r) (OMove b)) in
    if Z.eqb t T_STR_NIL then emit fs (Conv r CStr)
    else if Z.eqb t T_FUN_NIL then emit fs (Conv r CFun)
    else fs.
Definition discharge2reg (fs : fstate) (e : expdesc) (r : nat) : fstate * expdesc :=
  let '(fs, e) := dischargevars fs e in
  let done fs := (fs, with_k e (VNonreloc r)) in
  let constant v := let '(fs, k) := addk fs v in done (emit fs (Val (Some r) (OLoadK k))) in
  match ek e with
  | VNil => done (emit fs (Val (Some r) OLoadNil))
  | VTrue => done (emit fs (Val (Some r) (OLoadBool true)))
  | VFalse => done (emit fs (Val (Some r) (OLoadBool false)))
  | VK k => done (emit fs (Val (Some r) (OLoadK k)))
  | VKFlt f => constant (F f)
  | VKInt i => constant (I i)
  | VReloc p => done (with_code fs (set_a (code fs) p r))
  | VNonreloc b => done (if r =? b then fs else move fs r b)
  | _ => (fs, e)                 (* VJMP *)
  end.
(* lcode.c:712-717 discharge2anyreg *)
Definition discharge2anyreg (fs : fstate) (e : expdesc) : fstate * expdesc :=
  match ek e with
  | VNonreloc _ => (fs, e)
  | _ => discharge2reg (reserve fs) e (freereg fs)
  end.
(* lcode.c:730-736 need_value *)
Definition need_value (c : list instr) (l : list nat) : bool :=
  existsb (fun j => match nth_error c (getjumpcontrol c j) with Some (TestSet _ _ _) => false | _ => true end) l.
(* lcode.c:746-767 exp2reg *)
Definition exp2reg (fs : fstate) (e : expdesc) (r : nat) : fstate * expdesc :=
  let '(fs, e) := discharge2reg fs e r in
  let e := match ek e with VJmp p => mk (ek e) (et e ++ [p]) (ef e) (ety e) | _ => e end in
  let fs :=
    if hasjumps e then
      let '(fs, pf, pt) :=
        if need_value (code fs) (et e) || need_value (code fs) (ef e) then
          let '(fs, fj) := match ek e with VJmp _ => (fs, []) | _ => luaK_jump fs end in
          let pf := pc fs in
          let fs := emit fs (LoadBoolSkip r false) in
          let pt := pc fs in
          let fs := emit fs (Val (Some r) (OLoadBool true)) in
          (patchtohere fs fj, Some pf, Some pt)
        else (fs, None, None) in
      let final := pc fs in
      let c := patchlistaux (code fs) (ef e) final (Some r) pf in
      with_code fs (patchlistaux c (et e) final (Some r) pt)
    else fs in
  (fs, mk (VNonreloc r) [] [] (ety e)).
(* lcode.c:774-779 luaK_exp2nextreg *)
Definition exp2nextreg (fs : fstate) (e : expdesc) : fstate * expdesc :=
  let '(fs, e) := dischargevars fs e in
  let fs := reserve (freeexp fs e) in
  exp2reg fs e (pred (freereg fs)).
(* lcode.c:786-799 luaK_exp2anyreg *)
Definition exp2anyreg (fs : fstate) (e : expdesc) : fstate * expdesc :=
  let '(fs, e) := dischargevars fs e in
  match ek e with
  | VNonreloc r =>
    if negb (hasjumps e) then (fs, e)
    else if nactvar fs <=? r then exp2reg fs e r
    else exp2nextreg fs e
  | _ => exp2nextreg fs e
  end.
(* lcode.c:816-821 luaK_exp2val *)
Definition exp2val (fs : fstate) (e : expdesc) : fstate * expdesc :=
  if hasjumps e then exp2anyreg fs e else dischargevars fs e.
(* the register of an expression that is in one *)
Definition reg_of (e : expdesc) : nat := match ek e with VNonreloc r => r | _ => 0 end.
(* lcode.c:830-849 luaK_exp2RK *)
Definition MAXINDEXRK := 255.
Definition exp2RK (fs : fstate) (e : expdesc) : fstate * expdesc * rk :=
  let '(fs, e) := exp2val fs e in
  let inreg fs e := let '(fs, e) := exp2anyreg fs e in (fs, e, R (reg_of e)) in
  let vk fs k := let e := with_k e (VK k) in if k <=? MAXINDEXRK then (fs, e, K k) else inreg fs e in
  let constant v := let '(fs, k) := addk fs v in vk fs k in
  match ek e with
  | VTrue => constant (Bool true)
  | VFalse => constant (Bool false)
  | VNil => constant Nil
  | VKInt i => constant (I i)
  | VKFlt f => constant (F f)
  | VK k => vk fs k
  | _ => inreg fs e
  end.

(* lcode.c:1110-1117 negatecondition *)
Definition negatecondition (c : list instr) (p : nat) : list instr :=
  let q := getjumpcontrol c p in
  match nth_error c q with Some (Cmp o b x y) => upd c q (Cmp o (negb b) x y) | _ => c end.
(* lcode.c:1126-1138 jumponcond *)
Definition jumponcond (fs : fstate) (e : expdesc) (cond : bool) : fstate * expdesc * list nat :=
  let other :=
    let '(fs, e) := discharge2anyreg fs e in
    let fs := freeexp fs e in
    let '(fs, j) := condjump fs (TestSet None (reg_of e) cond) in (fs, e, j) in
  match ek e with
  | VReloc p =>
    match nth_error (code fs) p with
    | Some (Val _ (ONot b)) =>
      let '(fs, j) := condjump (with_code fs (removelast (code fs))) (Test b (negb cond)) in (fs, e, j)
    | _ => other
    end
  | _ => other
  end.
(* lcode.c:1144-1172 luaK_goiftrue *)
Definition goiftrue (fs : fstate) (e : expdesc) : fstate * expdesc :=
  let '(fs, e) := dischargevars fs e in
  let '(fs, e, j) :=
    match ek e with
    | VJmp p => (with_code fs (negatecondition (code fs) p), e, [p])
    | VK _ | VKFlt _ | VKInt _ | VTrue => (fs, e, [])
    | _ => if none_of (ety e) T_FALSISH then (fs, e, []) else jumponcond fs e false
    end in
  (patchtohere fs (et e), mk (ek e) [] (ef e ++ j) (ety e)).
(* lcode.c:1178-1205 luaK_goiffalse *)
Definition goiffalse (fs : fstate) (e : expdesc) : fstate * expdesc :=
  let '(fs, e) := dischargevars fs e in
  let '(fs, e, j) :=
    match ek e with
    | VJmp p => (fs, e, [p])
    | VNil | VFalse => (fs, e, [])
    | _ => if none_of (ety e) T_TRUISH then (fs, e, []) else jumponcond fs e true
    end in
  (patchtohere fs (ef e), mk (ek e) (et e ++ j) [] (ety e)).
(* lcode.c:1211-1242 codenot *)
Definition codenot (fs : fstate) (e : expdesc) : fstate * expdesc :=
  let '(fs, e) := dischargevars fs e in
  let '(fs, e) :=
    match ek e with
    | VNil | VFalse => (fs, with_k e VTrue)
    | VK _ | VKFlt _ | VKInt _ | VTrue => (fs, with_k e VFalse)
    | VJmp p => (with_code fs (negatecondition (code fs) p), e)
    | _ => let '(fs, e) := discharge2anyreg fs e in
           let fs := freeexp fs e in
           (emit fs (Val None (ONot (reg_of e))), with_k e (VReloc (pc fs)))
    end in
  let ty := Z.lor (if none_of (ety e) T_TRUISH then 0 else T_FALSE) (if none_of (ety e) T_FALSISH then 0 else T_TRUE) in
  (with_code fs (removevalues (removevalues (code fs) (et e)) (ef e)), mk (ek e) (ef e) (et e) ty).

(* lcode.c:1303-1347 codeunexpval *)
Definition T_LEN : tmap := Z.lor (Z.lor T_IARR T_FARR) T_STR.
Definition codeunexpval (fs : fstate) (o : uop) (e : expdesc) : fstate * expdesc :=
  let '(fs, e) := exp2anyreg fs e in
  let r := reg_of e in
  let fs := freeexp fs e in
  let '(oc, ty) := codeun o (ety e) in
  (emit fs (Val None (OUn oc r)), with_ty (with_k e (VReloc (pc fs))) ty).
Definition codelen (fs : fstate) (e : expdesc) : fstate * expdesc :=
  let '(fs, e) := exp2anyreg fs e in
  let r := reg_of e in
  let fs := freeexp fs e in
  let fs' := emit fs (Val None (OLen r)) in
  let e' := with_k e (VReloc (pc fs)) in
  if within (ety e) T_LEN then (fs', with_ty e' T_INT)
  else if within (ety e) (Z.lor T_LEN T_TAB) then
    let '(fs, e) := exp2anyreg fs' e' in (emit fs (Conv (reg_of e) CInt), with_ty e T_INT)
  else (fs', with_ty e' T_ANY).
(* lcode.c:1357-1447 codebinexpval, the arithmetic and bitwise operators *)
Definition codebinexpval (fs : fstate) (o : bop) (e1 e2 : expdesc) : fstate * expdesc :=
  let '(fs, e2, rk2) := exp2RK fs e2 in
  let '(fs, e1, rk1) := exp2RK fs e1 in
  let fs := freeexps fs e1 e2 in
  let '(oc, sw, ty) := codebin o (ety e1) (ety e2) in
  (emit fs (Val None (OBin oc (if sw then rk2 else rk1) (if sw then rk1 else rk2))), with_ty (with_k e1 (VReloc (pc fs))) ty).
(* the operators that are compared: OPR_EQ, OPR_LT, OPR_LE, OPR_NE, OPR_GT, OPR_GE (lcode.h:33-34) *)
Inductive cmpop := CEq | CLt | CLe | CNe | CGt | CGe.
(* lcode.c:1482-1514 codecomp *)
Definition codecomp (fs : fstate) (o : cmpop) (e1 e2 : expdesc) : fstate * expdesc :=
  let rk1 := match ek e1 with VK k => K k | _ => R (reg_of e1) end in
  let t1 := ety e1 in
  let '(fs, e2, rk2) := exp2RK fs e2 in
  let t2 := ety e2 in
  let fs := freeexps fs e1 e2 in
  let i := match o with
           | CNe => Cmp (comp_op Eq t1 t2) false rk1 rk2
           | CGt => Cmp (comp_op Lt t2 t1) true rk2 rk1
           | CGe => Cmp (comp_op Le t2 t1) true rk2 rk1
           | CEq => Cmp (comp_op Eq t1 t2) true rk1 rk2
           | CLt => Cmp (comp_op Lt t1 t2) true rk1 rk2
           | CLe => Cmp (comp_op Le t1 t2) true rk1 rk2
           end in
  let '(fs, j) := condjump fs i in
  (fs, mk (VJmp (hd 0 j)) (et e1) (ef e1) T_BOOL).
(* lcode.c:1523-1613 code_type_assertion: table constructors are not modelled (e->pc < 0) *)
Definition conv_ty (c : conv) : tmap :=
  match c with CInt => T_INT | CFlt => T_FLT | CIArr => T_IARR | CFArr => T_FARR | CTab => T_TAB | CStr => T_STR_NIL | CFun => T_FUN_NIL end.
Definition nothing_to_do (c : conv) (t : tmap) : bool :=
  match c with
  | CStr | CFun => within t (conv_ty c)
  | _ => Z.eqb t (conv_ty c)
  end.
Definition code_type_assertion (fs : fstate) (c : conv) (e : expdesc) : outcome (fstate * expdesc) :=
  let '(fs, e) := dischargevars fs e in
  match ek e with
  | VKFlt _ => match c with CFlt => Ok (fs, e) | _ => Err EType end
  | VKInt _ => match c with CInt => Ok (fs, e) | _ => Err EType end
  | VK _ => match c with CStr => if Z.eqb (ety e) T_STR then Ok (fs, e) else Err EType | _ => Err EType end
  | VReloc _ | VNonreloc _ =>
    let '(fs, e) := discharge2anyreg fs e in
    if nothing_to_do c (ety e) then Ok (fs, e)
    else Ok (emit fs (Conv (reg_of e) c), with_ty e (conv_ty c))
  | _ => Err EType
  end.
(* lcode.c:1248-1255 luaK_indexed *)
Definition indexed (fs : fstate) (t k : expdesc) : fstate * expdesc :=
  let '(fs, k', idx) := exp2RK fs k in
  (fs, with_k t (match ek t with VUpval u => VIndexed true u idx (ety k) | _ => VIndexed false (reg_of t) idx (ety k) end)).
(* lcode.c:1649-1684 luaK_infix *)
Inductive binopr := BArith (o : bop) | BConcat | BCmp (o : cmpop) | BAnd | BOr.
Definition infix (fs : fstate) (o : binopr) (v : expdesc) : fstate * expdesc :=
  match o with
  | BAnd => goiftrue fs v
  | BOr => goiffalse fs v
  | BConcat => exp2nextreg fs v
  | BArith _ => match tonumeral v with Some _ => (fs, v) | None => fst (exp2RK fs v) end
  | BCmp _ => fst (exp2RK fs v)
  end.
Definition T_CAT : tmap := Z.lor (Z.lor T_STR T_INT) T_FLT.
Definition of_num (n : num) (e : expdesc) : expdesc :=
  match n with NInt i => with_ty (with_k e (VKInt i)) T_INT | NFlt f => with_ty (with_k e (VKFlt f)) T_FLT end.
(* lcode.c:1693-1760 luaK_posfix *)
Section fold.
Variable fmod fpow : flt -> flt -> flt.
Definition posfix (fs : fstate) (o : binopr) (e1 e2 : expdesc) : outcome (fstate * expdesc) :=
  match o with
  | BAnd =>
    let '(fs, e2) := dischargevars fs e2 in
    let ty := if none_of (ety e1) T_TRUISH then Z.land (ety e1) T_FALSISH else Z.lor (ety e2) (Z.land (ety e1) T_FALSISH) in
    Ok (fs, mk (ek e2) (et e2) (ef e2 ++ ef e1) ty)
  | BOr =>
    let '(fs, e2) := dischargevars fs e2 in
    let ty := if none_of (ety e1) T_FALSISH then Z.land (ety e1) T_TRUISH else Z.lor (ety e2) (Z.land (ety e1) T_TRUISH) in
    Ok (fs, mk (ek e2) (et e2 ++ et e1) (ef e2) ty)
  | BConcat =>
    let '(fs, e2) := exp2val fs e2 in
    let merge := match ek e2 with
                 | VReloc p => match nth_error (code fs) p with Some (Val a (OConcat b c)) => Some (p, a, c) | _ => None end
                 | _ => None
                 end in
    match merge with
    | Some (p, a, c) =>
      let fs := freeexp fs e1 in
      Ok (with_code fs (upd (code fs) p (Val a (OConcat (reg_of e1) c))),
          mk (VReloc p) (et e1) (ef e1) (if Z.eqb (ety e2) T_STR && within (ety e1) T_CAT then T_STR else T_ANY))
    | None =>
      let '(fs, e2) := exp2nextreg fs e2 in
      (* codebinexpval with OP_CONCAT: both operands are in registers *)
      let fs := freeexps fs e1 e2 in
      Ok (emit fs (Val None (OConcat (reg_of e1) (reg_of e2))),
          mk (VReloc (pc fs)) (et e1) (ef e1) (if within (ety e1) T_CAT && within (ety e2) T_CAT then T_STR else T_ANY))
    end
  | BArith op =>
    let unfolded := Ok (codebinexpval fs op e1 e2) in
    match tonumeral e1, tonumeral e2 with
    | Some a, Some b => bind (constfolding fmod fpow op a b) (fun r => match r with Some n => Ok (fs, of_num n e1) | None => unfolded end)
    | _, _ => unfolded
    end
  | BCmp op => Ok (codecomp fs op e1 e2)
  end.
(* lcode.c:1618-1641 luaK_prefix *)
Inductive unopr := UArith (o : uop) | ULen | UNot | UAssert (c : conv).
Definition prefix (fs : fstate) (o : unopr) (e : expdesc) : outcome (fstate * expdesc) :=
  match o with
  | UArith op =>
    match tonumeral e with
    | Some a => bind (constfolding1 op a) (fun r => match r with Some n => Ok (fs, of_num n e) | None => Ok (codeunexpval fs op e) end)
    | None => Ok (codeunexpval fs op e)
    end
  | ULen => Ok (codelen fs e)
  | UNot => Ok (codenot fs e)
  | UAssert c => code_type_assertion fs c e
  end.

(* the expressions: subexpr, simpleexp, suffixedexp, primaryexp (lparser.c:1570-1830).  A global
   variable is a field of upvalue u; parentheses discharge the expression; a call has one result (as
   if it stood in parentheses). *)
Inductive expr :=
| ENil | ETrue | EFalse | EInt (i : Z) | EFlt (f : flt) | EStr (s : list Z)
| ELocal (r : nat) | EUpval (u : nat) | EGlobal (u : nat) (name : list Z) | EParen (a : expr)
| EIndex (a b : expr) | EUn (o : unopr) (a : expr) | EBin (o : binopr) (a b : expr) | ECall (f : expr) (l : args)
with args := ANil | ACons (a : expr) (l : args).
(* lcode.c:806-809 luaK_exp2anyregup is exp2anyreg here: a table that is an upvalue is put into a
   register, except for globals *)
Fixpoint gen (fs : fstate) (x : expr) : outcome (fstate * expdesc) :=
  match x with
  | ENil => Ok (fs, init VNil T_NIL)
  | ETrue => Ok (fs, init VTrue T_TRUE)
  | EFalse => Ok (fs, init VFalse T_FALSE)
  | EInt i => Ok (fs, init (VKInt i) T_INT)
  | EFlt f => Ok (fs, init (VKFlt f) T_FLT)
  | EStr s => let '(fs, k) := addk fs (Str s) in Ok (fs, init (VK k) T_STR)
  | ELocal r => Ok (fs, init (VLocal r) (register_type fs r))
  | EUpval u => Ok (fs, init (VUpval u) (uty fs u))
  | EGlobal u s => let '(fs, k) := addk fs (Str s) in Ok (indexed fs (init (VUpval u) (uty fs u)) (init (VK k) T_STR))
  | EParen a => bind (gen fs a) (fun '(fs, e) => Ok (dischargevars fs e))
  | EIndex a b =>
    bind (gen fs a) (fun '(fs, e) =>
    let '(fs, e) := exp2anyreg fs e in
    bind (gen fs b) (fun '(fs, k) =>
    let '(fs, k) := exp2val fs k in
    Ok (indexed fs e k)))
  | EUn o a => bind (gen fs a) (fun '(fs, e) => prefix fs o e)
  | EBin o a b =>
    bind (gen fs a) (fun '(fs, e1) =>
    let '(fs, e1) := infix fs o e1 in
    bind (gen fs b) (fun '(fs, e2) => posfix fs o e1 e2))
  | ECall f l =>
    bind (gen fs f) (fun '(fs, e) =>
    let '(fs, e) := exp2nextreg fs e in
    bind (genargs fs l) (fun '(fs, n) =>
    Ok (with_free (emit fs (Call (reg_of e) n)) (S (reg_of e)), init (VNonreloc (reg_of e)) T_ANY)))
  end
with genargs (fs : fstate) (l : args) : outcome (fstate * nat) :=
  match l with
  | ANil => Ok (fs, 0)
  | ACons a l => bind (gen fs a) (fun '(fs, e) => let '(fs, _) := exp2nextreg fs e in
                 bind (genargs fs l) (fun '(fs, n) => Ok (fs, S n)))
  end.
End fold.

(* lcode.c:851-985 check_valid_store: Err is a syntax error.  Variables of user-defined types are not
   modelled. *)
Definition vindexed_ty (e : expdesc) : tmap :=
  match ek e with
  | VIndexed _ _ _ _ => if Z.eqb (ety e) T_IARR then T_INT else if Z.eqb (ety e) T_FARR then T_FLT else T_ANY
  | _ => ety e
  end.
Definition check_valid_store (fs : fstate) (vt : tmap) (ex : expdesc) : outcome (fstate * expdesc) :=
  let runtime := match ek ex with
                 | VNonreloc _ => Z.eqb vt T_FLT || Z.eqb vt T_INT || Z.eqb vt T_FARR || Z.eqb vt T_IARR || Z.eqb vt T_TAB
                                  || Z.eqb vt T_STR_NIL || Z.eqb vt T_FUN_NIL
                 | _ => false
                 end in
  if runtime then Ok (fs, ex)
  else
    let t := vindexed_ty ex in
    let convert (c : conv) := let '(fs, ex, x) := exp2RK fs ex in
                     match x with R r => Ok (emit fs (Conv r c), ex) | K _ => UB end in
    let check (ok : bool) (c : conv) := if ok then Ok (fs, ex) else if Z.eqb t T_ANY then convert c else Err EType in
    if Z.eqb vt T_FLT then check (Z.eqb t T_FLT) CFlt
    else if Z.eqb vt T_INT then check (Z.eqb t T_INT) CInt
    else if within vt (Z.lor (Z.lor T_IARR T_FARR) T_TAB) then
      check (Z.eqb t vt) (if negb (none_of vt T_IARR) then CIArr else if negb (none_of vt T_FARR) then CFArr else CTab)
    else if Z.eqb vt T_STR_NIL then check (within t T_STR_NIL) CStr
    else if Z.eqb vt T_FUN_NIL then check (within t T_FUN_NIL) CFun
    else Ok (fs, ex).
(* lcode.c:1028-1034 luaK_storevar, case VLOCAL *)
Definition storelocal (fs : fstate) (r : nat) (ex : expdesc) : outcome fstate :=
  bind (check_valid_store fs (register_type fs r) ex) (fun '(fs, ex) =>
  Ok (fst (exp2reg (freeexp fs ex) ex r))).
(* lparser.c:1929-1936 cond *)
Definition cond (fs : fstate) (v : expdesc) : fstate * list nat :=
  let v := match ek v with VNil => with_k v VFalse | _ => v end in
  let '(fs, v) := goiftrue fs v in (fs, ef v).

(* the interpreter *)
Record env (W : Type) := mkenv {
  fmod : flt -> flt -> flt; fpow : flt -> flt -> flt;
  tmbin : bop -> val -> val -> W -> outcome (val * W);
  tmun : uop -> val -> W -> outcome (val * W);
  tmcmp : cop -> val -> val -> W -> outcome (bool * W);
  tabget : nat -> val -> W -> outcome (val * W);
  iget : nat -> Z -> W -> outcome Z;
  fget : nat -> Z -> W -> outcome flt;
  otherget : val -> val -> W -> outcome (val * W);
  getup : W -> nat -> val;                                (* the value of an upvalue *)
  lenof : val -> W -> outcome (val * W);                  (* luaV_objlen *)
  concat : val -> val -> W -> outcome (val * W);          (* luaV_concat of two values *)
  call : val -> list val -> W -> outcome (val * W);       (* luaD_call with one result *)
  junk : W -> nat -> val                                  (* what a call leaves in the registers above it *)
}.
Arguments fmod {W}. Arguments fpow {W}. Arguments tmbin {W}. Arguments tmun {W}. Arguments tmcmp {W}.
Arguments tabget {W}. Arguments iget {W}. Arguments fget {W}. Arguments otherget {W}. Arguments getup {W}.
Arguments lenof {W}. Arguments concat {W}. Arguments call {W}. Arguments junk {W}.

(* lvm.h:38 l_isfalse *)
Definition truthy (v : val) : bool := match v with Nil | Bool false => false | _ => true end.
(* OP_RAVI_TOINT .. OP_RAVI_TOCLOSURE, lvm.c:2558-2596; OP_RAVI_MOVEI .. OP_RAVI_MOVETAB, lvm.c:2515-2557 *)
Definition do_conv (c : conv) (v : val) : outcome val :=
  match c with
  | CInt => bind (tointns v) (fun o => match o with Some z => Ok (I z) | None => Err EType end)
  | CFlt => match tonumberns v with Some f => Ok (F f) | None => Err EType end
  | CIArr => match v with IArr _ => Ok v | _ => Err EType end
  | CFArr => match v with FArr _ => Ok v | _ => Err EType end
  | CTab => match v with Tab _ => Ok v | _ => Err EType end
  | CStr => match v with Nil | Str _ => Ok v | _ => Err EType end
  | CFun => match v with Nil | Fun _ => Ok v | _ => Err EType end
  end.
Section machine.
Variable W : Type.
Variable E : env W.
Definition get (o : gopcode) : val -> val -> W -> outcome (val * W) := exec_get W (tabget E) (iget E) (fget E) (otherget E) o.
Definition regs := nat -> val.
Record state := mkst { reg : regs; world : W }.
Record prog := mkprog { text : list instr; consts : list val }.
Definition setr (s : state) (r : nat) (v : val) (w : W) : state := mkst (fun x => if x =? r then v else reg s x) w.
Definition rkval (ks : list val) (s : state) (x : rk) : outcome val :=
  match x with R r => Ok (reg s r) | K k => match nth_error ks k with Some v => Ok v | None => UB end end.
(* OP_CONCAT lvm.c:1689: from right to left *)
Fixpoint concat_regs (s : regs) (b n : nat) (w : W) : outcome (val * W) :=
  match n with
  | O => Ok (s b, w)
  | S n => bind (concat_regs s (S b) n w) (fun '(v, w) => concat E (s b) v w)
  end.
(* the value an instruction computes *)
Definition vres (ks : list val) (s : state) (o : vop) : outcome (val * W) :=
  let w := world s in
  match o with
  | OMove b => Ok (reg s b, w)
  | OMoveT c b => bind (do_conv c (reg s b)) (fun v => Ok (v, w))
  | OLoadK k => bind (rkval ks s (K k)) (fun v => Ok (v, w))
  | OLoadBool b => Ok (Bool b, w)
  | OLoadNil => Ok (Nil, w)
  | OGetUpval u => Ok (getup E w u, w)
  | OGet o t k => bind (rkval ks s k) (fun v => get o (reg s t) v w)
  | OGetTabUp o u k => bind (rkval ks s k) (fun v => get o (getup E w u) v w)
  | OBin o x y => bind (rkval ks s x) (fun a => bind (rkval ks s y) (fun b => exec_bin W (fmod E) (fpow E) (tmbin E) o a b w))
  | OUn o b => exec_un W (tmun E) o (reg s b) w
  | OLen b => lenof E (reg s b) w
  | ONot b => Ok (Bool (negb (truthy (reg s b))), w)
  | OConcat b c => concat_regs (reg s) b (c - b) w
  end.
Definition cres (ks : list val) (s : state) (o : copcode) (x y : rk) : outcome (bool * W) :=
  bind (rkval ks s x) (fun a => bind (rkval ks s y) (fun b => exec_cmp W (tmcmp E) o a b (world s))).
Fixpoint values (s : regs) (r n : nat) : list val := match n with O => [] | S n => s r :: values s (S r) n end.
Definition config := (nat * state)%type.
(* one step: the instruction at the position is executed; OP_TEST, OP_TESTSET and comparisons either
   skip the jump that follows or run into it.  UB: there is no instruction *)
Definition step (P : prog) (c : config) : outcome config :=
  let '(p, s) := c in
  match nth_error (text P) p with
  | None => UB
  | Some i =>
    match i with
    | Val a o => bind (vres (consts P) s o) (fun '(v, w) => Ok (S p, setr s (match a with Some r => r | None => 0 end) v w))
    | LoadBoolSkip a b => Ok (S (S p), setr s a (Bool b) (world s))
    | Conv a c => bind (do_conv c (reg s a)) (fun v => Ok (S p, setr s a v (world s)))
    | Cmp o b x y => bind (cres (consts P) s o x y) (fun '(r, w) =>
        Ok (if Bool.eqb r b then S p else S (S p), mkst (reg s) w))
    | Test b c => Ok (if Bool.eqb (truthy (reg s b)) c then S p else S (S p), s)
    | TestSet a b c =>
      if Bool.eqb (truthy (reg s b)) c then Ok (S p, setr s (match a with Some r => r | None => 255 end) (reg s b) (world s))
      else Ok (S (S p), s)
    | Jmp (Some d) => Ok (d, s)
    | Jmp None => Ok (p, s)                      (* NO_JUMP as an offset: a jump to itself *)
    | Call a n => bind (call E (reg s a) (values (reg s) (S a) n) (world s)) (fun '(v, w) =>
        Ok (S p, mkst (fun x => if x <? a then reg s x else if x =? a then v else junk E w x) w))
    end
  end.
End machine.
Arguments reg {W}. Arguments world {W}. Arguments mkst {W}. Arguments setr {W}.
