(* The simplification of expressions in the compiler ravicomp.

   Modelled, from /repo/ravicomp/src/ast_simplify.c:
   - 172-185 luaV_idiv, 192-204 luaV_mod, 219-233 luaV_shiftl, 235-268 intarith,
     270-293 numarith, 322-332 luaV_tointegerns, 334-374 luaO_rawarith,
     376-391 walk_binary_expr, 394-415 flatten_concat_expression, 417-501
     process_expression, 503-508 process_expression_list
   - include/ravi_compiler.h:271-294, 300-304: the order of the operators

   Simplified:
   - an expression is a tree; suffixes are indexing by an expression and calls.
     Functions, names and builtins are opaque.  Types of nodes are left out.
   - the operations on floats are parameters (they are C's, as in lvm.c). *)

Require Import Verif.Base.
From Coq Require Import ZArith List Bool.
Import ListNotations.
Local Open Scope Z_scope.
Local Open Scope outcome_scope.

Inductive binop := BAdd | BSub | BMul | BMod | BPow | BDiv | BIdiv | BAnd_ | BOr_ | BXor | BShl | BShr
  | BConcat | BEq | BLt | BLe | BNe | BGt | BGe | BAnd | BOr.
Inductive unop := UMinus | UBnot | UNot | ULen.

(* the operators up to BINOPR_SHR *)
Definition arithmetic (op : binop) : bool :=
  match op with BConcat | BEq | BLt | BLe | BNe | BGt | BGe | BAnd | BOr => false | _ => true end.

Section M.
  Variable F : Type.                       (* lua_Number *)

  (* LiteralExpression; LOther: nil, true, false and strings *)
  Inductive literal := LInt (i : Z) | LFlt (f : F) | LOther (n : nat).

  Inductive expr :=
  | ELit (l : literal)
  | EName (n : nat)
  | EBin (op : binop) (a b : expr)
  | EUn (op : unop) (a : expr)
  | EConcat (l : exprs)
  | ESuffixed (a : expr) (s : suffixes)
  | ETable (l : exprs)
  with exprs := ENil | ECons (e : expr) (l : exprs)
  with suffixes := SNil | SIndex (k : expr) (s : suffixes) | SCall (args : exprs) (s : suffixes).

  (* C's double operations; numarith with op, int to double, double to int when
     it has an exact value (luaV_flttointeger with F2Ieq) *)
  Variable num1 : unop -> F -> F.
  Variable num2 : binop -> F -> F -> F.
  Variable i2f : Z -> F.
  Variable f2i : F -> option Z.

  (* 172-185; the signed operations are undefined when the result does not fit *)
  Definition luaV_idiv (m n : Z) : outcome Z :=
    if u64 (u64 n + 1) <=? 1 then
      if n =? 0 then Err EDivZero else c_signed (0 - m)
    else
      do q <- c_signed (Z.quot m n);
      if (Z.lxor m n <? 0) && negb (Z.rem m n =? 0) then c_signed (q - 1) else Ok q.

  (* 192-204 *)
  Definition luaV_mod (m n : Z) : outcome Z :=
    if u64 (u64 n + 1) <=? 1 then
      if n =? 0 then Err EModZero else Ok 0
    else
      do r <- c_signed (Z.rem m n);
      if negb (r =? 0) && (Z.lxor r n <? 0) then c_signed (r + n) else Ok r.

  (* 219-233 on signed integers: >> copies the sign, << of a negative number or of
     one that does not fit is undefined *)
  Definition luaV_shiftl (x y : Z) : outcome Z :=
    if y <? 0 then
      if y <=? -64 then Ok 0 else Ok (Z.shiftr x (- y))
    else
      if 64 <=? y then Ok 0
      else if x <? 0 then UB else c_signed (Z.shiftl x y).

  (* 235-268 *)
  Definition intarith2 (op : binop) (a b : Z) : outcome Z :=
    match op with
    | BAdd => c_signed (a + b)
    | BSub => c_signed (a - b)
    | BMul => c_signed (a * b)
    | BMod => luaV_mod a b
    | BIdiv => luaV_idiv a b
    | BAnd_ => Ok (Z.land a b)
    | BOr_ => Ok (Z.lor a b)
    | BXor => Ok (Z.lxor a b)
    | BShl => luaV_shiftl a b
    | BShr => do b' <- c_signed (- b); luaV_shiftl a b'
    | _ => UB
    end.

  Definition intarith1 (op : unop) (a : Z) : outcome Z :=
    match op with
    | UMinus => c_signed (0 - a)
    | UBnot => Ok (s64 (Z.lxor (two64 - 1) (u64 a)))
    | _ => UB
    end.

  (* tonumberns, tointegerns *)
  Definition tonumberns (l : literal) : option F :=
    match l with LFlt f => Some f | LInt i => Some (i2f i) | LOther _ => None end.
  Definition tointegerns (l : literal) : option Z :=
    match l with LInt i => Some i | LFlt f => f2i f | LOther _ => None end.

  (* 334-374; None: fails and leaves the expression alone *)
  Definition rawarith2 (op : binop) (p1 p2 : literal) : outcome (option literal) :=
    match op with
    | BAnd_ | BOr_ | BXor | BShl | BShr =>
        match tointegerns p1, tointegerns p2 with
        | Some i1, Some i2 => do i <- intarith2 op i1 i2; Ok (Some (LInt i))
        | _, _ => Ok None
        end
    | BDiv | BPow =>
        match tonumberns p1, tonumberns p2 with
        | Some n1, Some n2 => Ok (Some (LFlt (num2 op n1 n2)))
        | _, _ => Ok None
        end
    | _ =>
        match p1, p2 with
        | LInt i1, LInt i2 => do i <- intarith2 op i1 i2; Ok (Some (LInt i))
        | _, _ =>
            match tonumberns p1, tonumberns p2 with
            | Some n1, Some n2 => Ok (Some (LFlt (num2 op n1 n2)))
            | _, _ => Ok None
            end
        end
    end.

  Definition rawarith1 (op : unop) (p : literal) : outcome (option literal) :=
    match op with
    | UBnot =>
        match tointegerns p with
        | Some i => do r <- intarith1 op i; Ok (Some (LInt r))
        | None => Ok None
        end
    | _ =>
        match p with
        | LInt i => do r <- intarith1 op i; Ok (Some (LInt r))
        | LFlt f => Ok (Some (LFlt (num1 op f)))
        | LOther _ => Ok None
        end
    end.

  Fixpoint app (a b : exprs) : exprs :=
    match a with ENil => b | ECons e a' => ECons e (app a' b) end.

  (* 417-501; the second component are the operands of e as part of a
     concatenation, after processing (376-391 and 503-508).  An error leaves the
     compiler by longjmp (158-163) *)
  Fixpoint process (e : expr) : outcome expr * outcome exprs :=
    let e' :=
      match e with
      | ELit l => Ok e
      | EName n => Ok e
      | EBin BConcat a b =>
          do la <- snd (process a);
          do lb <- snd (process b);
          Ok (EConcat (app la lb))
      | EBin op a b =>
          do a' <- fst (process a);
          do b' <- fst (process b);
          match a', b' with
          | ELit l1, ELit l2 =>
              if arithmetic op then
                do r <- rawarith2 op l1 l2;
                match r with Some l => Ok (ELit l) | None => Ok (EBin op a' b') end
              else Ok (EBin op a' b')
          | _, _ => Ok (EBin op a' b')
          end
      | EUn op a =>
          do a' <- fst (process a);
          match a', op with
          | ELit l, UMinus | ELit l, UBnot =>
              do r <- rawarith1 op l;
              match r with Some l' => Ok (ELit l') | None => Ok (EUn op a') end
          | _, _ => Ok (EUn op a')
          end
      | EConcat l => do l' <- process_list l; Ok (EConcat l')
      | ESuffixed a s =>
          do a' <- fst (process a);
          do s' <- process_suffixes s;
          match s with
          | SNil => Ok a'
          | _ => Ok (ESuffixed a' s')
          end
      | ETable l => do l' <- process_list l; Ok (ETable l')
      end in
    (e', match e with
         | EBin BConcat a b =>
             do la <- snd (process a);
             do lb <- snd (process b);
             Ok (app la lb)
         | _ => do x <- e'; Ok (ECons x ENil)
         end)
  with process_list (l : exprs) : outcome exprs :=
    match l with
    | ENil => Ok ENil
    | ECons e l' =>
        do e1 <- fst (process e);
        do l1 <- process_list l';
        Ok (ECons e1 l1)
    end
  with process_suffixes (s : suffixes) : outcome suffixes :=
    match s with
    | SNil => Ok SNil
    | SIndex k s' =>
        do k1 <- fst (process k);
        do s1 <- process_suffixes s';
        Ok (SIndex k1 s1)
    | SCall l s' =>
        do l1 <- process_list l;
        do s1 <- process_suffixes s';
        Ok (SCall l1 s1)
    end.

  Definition process_expression (e : expr) : outcome expr := fst (process e).
End M.
