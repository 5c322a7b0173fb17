(* What expressions mean, without registers, instructions or jumps; the static types of expressions;
   and the expressions for which the code generator is right. *)
Require Import ZArith List Bool Arith.
From Coq Require Import Floats.SpecFloat.
From Verif Require Import Base Float_model Op_model Op_spec Gen_model.
Import ListNotations.
Local Open Scope nat_scope.

(* static types *)
Section types.
Variable n : nat.                        (* number of local variables *)
Variable lt ut : nat -> tmap.            (* types of the local variables and the upvalues *)
Definition elements (t : tmap) : tmap := snd (codeget t T_ANY false).
Definition not_ty (t : tmap) : tmap := Z.lor (if none_of t T_TRUISH then 0 else T_FALSE) (if none_of t T_FALSISH then 0 else T_TRUE).
Definition cat_ty (t1 t2 : tmap) : tmap := if within t1 T_CAT && within t2 T_CAT then T_STR else T_ANY.
Definition len_ty (t : tmap) : tmap := if within t (Z.lor T_LEN T_TAB) then T_INT else T_ANY.
Definition table_len (t : tmap) : bool := negb (within t T_LEN) && within t (Z.lor T_LEN T_TAB).
Definition conv_ty' (c : conv) (t : tmap) : tmap := if nothing_to_do c t then t else conv_ty c.
Fixpoint styp (x : expr) : tmap :=
  match x with
  | ENil => T_NIL | ETrue => T_TRUE | EFalse => T_FALSE | EInt _ => T_INT | EFlt _ => T_FLT | EStr _ => T_STR
  | ELocal r => if r <? n then lt r else T_ANY
  | EUpval u => ut u
  | EGlobal u _ => elements (ut u)
  | EParen a => styp a
  | EIndex a _ => elements (styp a)
  | EUn (UArith o) a => snd (codeun o (styp a))
  | EUn ULen a => len_ty (styp a)
  | EUn UNot a => not_ty (styp a)
  | EUn (UAssert c) a => conv_ty' c (styp a)
  | EBin (BArith o) a b => snd (codebin o (styp a) (styp b))
  | EBin BConcat a b => cat_ty (styp a) (styp b)
  | EBin (BCmp _) _ _ => T_BOOL
  | EBin BAnd a b => if none_of (styp a) T_TRUISH then Z.land (styp a) T_FALSISH else Z.lor (styp b) (Z.land (styp a) T_FALSISH)
  | EBin BOr a b => if none_of (styp a) T_FALSISH then Z.land (styp a) T_TRUISH else Z.lor (styp b) (Z.land (styp a) T_TRUISH)
  | ECall _ _ => T_ANY
  end.
End types.

Section meaning.
Variable W : Type.
Variable E : env W.
Variable n : nat.
Variable lt ut : nat -> tmap.
Definition index (t k : val) (w : W) : outcome (val * W) := get W E OP_GETTABLE t k w.
Definition compare (o : cop) (a b : val) (w : W) : outcome (bool * W) := exec_cmp W (tmcmp E) (OP_C o) a b w.
Definition as_val (neg : bool) (x : outcome (bool * W)) : outcome (val * W) := bind x (fun '(b, w) => Ok (Bool (xorb neg b), w)).
Definition binary (o : binopr) (a b : val) (w : W) : outcome (val * W) :=
  match o with
  | BArith o => generic W (fmod E) (fpow E) (tmbin E) o a b w
  | BConcat => concat E a b w
  | BCmp CEq => as_val false (compare Eq a b w) | BCmp CNe => as_val true (compare Eq a b w)
  | BCmp CLt => as_val false (compare Lt a b w) | BCmp CLe => as_val false (compare Le a b w)
  | BCmp CGt => as_val false (compare Lt b a w) | BCmp CGe => as_val false (compare Le b a w)
  | BAnd | BOr => Ok (b, w)
  end.
Definition unary (o : unopr) (a : val) (w : W) : outcome (val * W) :=
  match o with
  | UArith o => exec_un W (tmun E) (OP_U o) a w
  | ULen => lenof E a w
  | UNot => Ok (Bool (negb (truthy a)), w)
  | UAssert c => bind (do_conv c a) (fun v => Ok (v, w))
  end.
(* the value of an expression: operands from left to right, 'and' and 'or' by truthiness *)
Fixpoint eval (x : expr) (l : nat -> val) (w : W) : outcome (val * W) :=
  match x with
  | ENil => Ok (Nil, w) | ETrue => Ok (Bool true, w) | EFalse => Ok (Bool false, w)
  | EInt i => Ok (I i, w) | EFlt f => Ok (F f, w) | EStr s => Ok (Str s, w)
  | ELocal r => Ok (l r, w) | EUpval u => Ok (getup E w u, w)
  | EGlobal u s => index (getup E w u) (Str s) w
  | EParen a => eval a l w
  | EIndex a b => bind (eval a l w) (fun '(t, w) => bind (eval b l w) (fun '(k, w) => index t k w))
  | EUn ULen a =>                     (* the length of a table, by its static type, is checked to be an integer *)
    bind (eval a l w) (fun '(v, w) =>
    if table_len (styp n lt ut a) then bind (lenof E v w) (fun '(v, w) => bind (do_conv CInt v) (fun v => Ok (v, w)))
    else lenof E v w)
  | EUn o a => bind (eval a l w) (fun '(v, w) => unary o v w)
  | EBin BAnd a b => bind (eval a l w) (fun '(v, w) => if truthy v then eval b l w else Ok (v, w))
  | EBin BOr a b => bind (eval a l w) (fun '(v, w) => if truthy v then Ok (v, w) else eval b l w)
  | EBin o a b => bind (eval a l w) (fun '(v, w) => bind (eval b l w) (fun '(v', w) => binary o v v' w))
  | ECall f args => bind (eval f l w) (fun '(v, w) => bind (evals args l w) (fun '(vs, w) => call E v vs w))
  end
with evals (x : args) (l : nat -> val) (w : W) : outcome (list val * W) :=
  match x with
  | ANil => Ok ([], w)
  | ACons a x => bind (eval a l w) (fun '(v, w) => bind (evals x l w) (fun '(vs, w) => Ok (v :: vs, w)))
  end.

(* the parameters behave: numbers have no metamethods, upvalues have their types, lengths of strings
   and arrays are integers, strings and numbers are concatenated to strings *)
Definition plain : Prop :=
  plain_numbers W (tmbin E) (tmun E) /\
  (forall w u, hast (ut u) (getup E w u)) /\
  (forall v w r w', hast T_LEN v -> lenof E v w = Ok (r, w') -> hast T_INT r) /\
  (forall a b w r w', hast T_CAT a -> hast T_CAT b -> concat E a b w = Ok (r, w') -> hast T_STR r).
End meaning.

Section tame.
Variable n : nat.
Variable lt ut : nat -> tmap.
(* the operand whose value an expression passes on: a literal, a local variable, a comparison or
   something that has to be computed into a register *)
Inductive shape := Lit | Loc | Jump | Temp.
Fixpoint shape_of (x : expr) : shape :=
  match x with
  | ENil | ETrue | EFalse | EInt _ | EFlt _ | EStr _ => Lit
  | ELocal _ => Loc
  | EParen a => shape_of a
  | EUn UNot a => match shape_of a with Lit => Lit | Jump => Jump | _ => Temp end
  | EUn (UAssert c) a => match shape_of a with Loc => Loc | _ => Temp end
  | EBin BAnd _ b | EBin BOr _ b => shape_of b
  | EBin (BCmp _) _ _ => Jump
  | _ => Temp
  end.
(* no 'and' or 'or' at the top *)
Fixpoint simple (x : expr) : bool :=
  match x with
  | EParen a | EUn UNot a => simple a
  | EBin BAnd _ _ | EBin BOr _ _ => false
  | _ => true
  end.
Definition literal_ok (f : flt) : bool := match f with S754_nan | S754_zero true => false | _ => true end.
(* the compiler does not leave out the test of a value that is in a temporary register *)
Definition tested (x : expr) (mask : tmap) : bool :=
  match shape_of x with Temp => negb (none_of (styp n lt ut x) mask) | _ => true end.
(* the expressions the code generator compiles correctly:
   - a type assertion is not applied to an 'and' or 'or', nor to a local variable it has to convert
   - the left operands of 'and' and 'or' are tested in the sense above
   - float literals are no negative zeros and no NaN (the lexer produces none)
   - local variables are in scope *)
Fixpoint tame (x : expr) : bool :=
  match x with
  | EFlt f => literal_ok f
  | ELocal r => r <? n
  | EParen a => tame a
  | EIndex a b => tame a && tame b
  | EUn (UAssert c) a => tame a && simple a && match shape_of a with Loc => nothing_to_do c (styp n lt ut a) | _ => true end
  | EUn _ a => tame a
  | EBin BAnd a b => tame a && tame b && tested a T_FALSISH
  | EBin BOr a b => tame a && tame b && tested a T_TRUISH
  | EBin _ a b => tame a && tame b
  | ECall f l => tame f && tames l
  | _ => true
  end
with tames (l : args) : bool := match l with ANil => true | ACons a l => tame a && tames l end.
End tame.

(* running code *)
Section running.
Variable W : Type.
Variable E : env W.
Inductive runs (P : prog) : config W -> config W -> Prop :=
| runs_here c : runs P c c
| runs_step c c1 c2 : step W E P c = Ok c1 -> runs P c1 c2 -> runs P c c2.
(* integer arithmetic by the specialised instructions overflows, which is undefined in C *)
Definition overflow_op (ks : list val) (s : state W) (o : vop) : Prop :=
  match o with
  | OBin oc x y => exists i j, rkval W ks s x = Ok (I i) /\ rkval W ks s y = Ok (I j) /\
      match oc with ADDII => ~ is_s64 (i + j) | SUBII => ~ is_s64 (i - j) | MULII => ~ is_s64 (i * j) | _ => False end
  | _ => False
  end.
Definition overflows (P : prog) (c : config W) : Prop :=
  exists p s a o, runs P c (p, s) /\ nth_error (text P) p = Some (Val a o) /\ overflow_op (consts P) s o.
(* the code at c does what o says: it comes to where 'final' holds, or stops like o; unless integer
   arithmetic overflows *)
Definition computes {A} (P : prog) (c : config W) (o : outcome (A * W)) (final : A -> W -> config W -> Prop) : Prop :=
  overflows P c \/
  match o with
  | Ok (v, w) => exists c1, runs P c c1 /\ final v w c1
  | Err e => exists c1, runs P c c1 /\ step W E P c1 = Err e
  | UB => exists c1, runs P c c1 /\ step W E P c1 = UB
  | OutOfFuel => exists c1, runs P c c1 /\ step W E P c1 = OutOfFuel
  end.
End running.
(* a place in a function where an expression may begin: n local variables in the first registers, of
   types lt; upvalues of types ut; no jump waits for the next instruction, the last instruction is no
   OP_TESTSET, and the constants are no NaN and no negative zero *)
Definition starts (n : nat) (lt ut : nat -> tmap) (fs : fstate) : Prop :=
  nactvar fs = n /\ n <= freereg fs /\ lty fs = lt /\ uty fs = ut /\ jpc fs = [] /\
  (forall f, In (F f) (ks fs) -> literal_ok f = true) /\
  (forall q a b c, S q = pc fs -> nth_error (code fs) q <> Some (TestSet a b c)).
Definition types_ok (n : nat) (lt ut : nat -> tmap) : Prop := (forall r, r < n -> lt r <> 0%Z) /\ (forall u, ut u <> 0%Z).
(* a program that goes on after the code generated so far *)
Definition goes_on (fs : fstate) (P : prog) : Prop :=
  (exists l, text P = code (dischargejpc fs) ++ l) /\ exists l, consts P = ks fs ++ l.
(* what the declared types of local variables demand of the values assigned to them; T_ANY demands nothing *)
Definition conv_of (t : tmap) : option conv :=
  if Z.eqb t T_INT then Some CInt else if Z.eqb t T_FLT then Some CFlt else if Z.eqb t T_IARR then Some CIArr
  else if Z.eqb t T_FARR then Some CFArr else if Z.eqb t T_TAB then Some CTab
  else if Z.eqb t T_STR_NIL then Some CStr else if Z.eqb t T_FUN_NIL then Some CFun else None.
Definition coerce (t : tmap) (v : val) : outcome val := match conv_of t with Some c => do_conv c v | None => Ok v end.
Definition declared (t : tmap) : Prop := t = T_ANY \/ conv_of t <> None.
(* the jumps in l are sent to d *)
Definition branches (fs : fstate) (l : list nat) (d : nat) (P : prog) : Prop :=
  (exists t, text P = patchlistaux (code (dischargejpc fs)) l d None (Some d) ++ t) /\ exists t, consts P = ks fs ++ t.
