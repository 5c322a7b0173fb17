(* What an expression does when it is run (C67): the interpreter's arithmetic
   (IntArith_model, C02) on numbers, metamethods and everything else given. *)

Require Import Verif.Base Verif.IntArith_model Verif.Simp_model.
From Coq Require Import ZArith List Bool.
Import ListNotations.
Local Open Scope Z_scope.
Local Open Scope outcome_scope.

Section S.
  Variable F : Type.
  Variable num1 : unop -> F -> F.
  Variable num2 : binop -> F -> F -> F.
  Variable i2f : Z -> F.
  Variable f2i : F -> option Z.

  Inductive value := VInt (i : Z) | VFlt (f : F) | VOther (n : nat).

  Variable W : Type.                                     (* the state of the program *)
  Variable lit : nat -> nat.                             (* strings, nil, true, false *)
  Variable name : nat -> W -> outcome (value * W).       (* variables, functions, ... *)
  Variable other2 : binop -> value -> value -> W -> outcome (value * W).   (* metamethods, comparisons *)
  Variable other1 : unop -> value -> W -> outcome (value * W).
  Variable index : value -> value -> W -> outcome (value * W).
  Variable call : value -> list value -> W -> outcome (value * W).
  Variable table : list value -> W -> outcome (value * W).
  Variable truth : value -> bool.

  Definition to_number (v : value) : option F :=
    match v with VInt i => Some (i2f i) | VFlt f => Some f | VOther _ => None end.
  Definition to_integer (v : value) : option Z :=
    match v with VInt i => Some i | VFlt f => f2i f | VOther _ => None end.

  Definition on_floats (op : binop) (a b : value) : option (outcome value) :=
    match to_number a, to_number b with
    | Some x, Some y => Some (Ok (VFlt (num2 op x y)))
    | _, _ => None
    end.
  Definition on_integers (o : iop) (a b : value) : option (outcome value) :=
    match to_integer a, to_integer b with
    | Some x, Some y => Some (do r <- intarith o x y; Ok (VInt r))
    | _, _ => None
    end.
  Definition on_either (o : iop) (op : binop) (a b : value) : option (outcome value) :=
    match a, b with
    | VInt x, VInt y => Some (do r <- intarith o x y; Ok (VInt r))
    | _, _ => on_floats op a b
    end.

  (* arithmetic on numbers; None: no numbers *)
  Definition arith (op : binop) (a b : value) : option (outcome value) :=
    match op with
    | BAdd => on_either OpAdd op a b
    | BSub => on_either OpSub op a b
    | BMul => on_either OpMul op a b
    | BMod => on_either OpMod op a b
    | BIdiv => on_either OpIDiv op a b
    | BPow | BDiv => on_floats op a b
    | BAnd_ => on_integers OpBand a b
    | BOr_ => on_integers OpBor a b
    | BXor => on_integers OpBxor a b
    | BShl => on_integers OpShl a b
    | BShr => on_integers OpShr a b
    | _ => None
    end.

  Definition arith1 (op : unop) (a : value) : option (outcome value) :=
    match op, a with
    | UMinus, VInt x => Some (do r <- intarith OpUnm x x; Ok (VInt r))
    | UMinus, VFlt f => Some (Ok (VFlt (num1 UMinus f)))
    | UBnot, _ => on_integers OpBnot a a
    | _, _ => None
    end.

  Definition binary (op : binop) (a b : value) (w : W) : outcome (value * W) :=
    match arith op a b with
    | Some r => do v <- r; Ok (v, w)
    | None => other2 op a b w
    end.
  Definition unary (op : unop) (a : value) (w : W) : outcome (value * W) :=
    match arith1 op a with
    | Some r => do v <- r; Ok (v, w)
    | None => other1 op a w
    end.

  (* a .. b .. c: from the right *)
  Fixpoint concat_values (vs : list value) (w : W) : outcome (value * W) :=
    match vs with
    | [] => UB
    | [v] => Ok (v, w)
    | v :: vs' => do '(r, w1) <- concat_values vs' w; binary BConcat v r w1
    end.

  Fixpoint eval (e : expr F) (w : W) : outcome (value * W) :=
    match e with
    | ELit _ (LInt _ i) => Ok (VInt i, w)
    | ELit _ (LFlt _ f) => Ok (VFlt f, w)
    | ELit _ (LOther _ n) => Ok (VOther (lit n), w)
    | EName _ n => name n w
    | EBin _ BAnd a b => do '(v, w1) <- eval a w; if truth v then eval b w1 else Ok (v, w1)
    | EBin _ BOr a b => do '(v, w1) <- eval a w; if truth v then Ok (v, w1) else eval b w1
    | EBin _ op a b => do '(v, w1) <- eval a w; do '(u, w2) <- eval b w1; binary op v u w2
    | EUn _ op a => do '(v, w1) <- eval a w; unary op v w1
    | EConcat _ l => do '(vs, w1) <- evals l w; concat_values vs w1
    | ESuffixed _ a s => do '(v, w1) <- eval a w; follow v s w1
    | ETable _ l => do '(vs, w1) <- evals l w; table vs w1
    end
  with evals (l : exprs F) (w : W) : outcome (list value * W) :=
    match l with
    | ENil _ => Ok ([], w)
    | ECons _ e l' => do '(v, w1) <- eval e w; do '(vs, w2) <- evals l' w1; Ok (v :: vs, w2)
    end
  with follow (v : value) (s : suffixes F) (w : W) : outcome (value * W) :=
    match s with
    | SNil _ => Ok (v, w)
    | SIndex _ k s' => do '(u, w1) <- eval k w; do '(r, w2) <- index v u w1; follow r s' w2
    | SCall _ l s' => do '(us, w1) <- evals l w; do '(r, w2) <- call v us w1; follow r s' w2
    end.

  (* built of literals only *)
  Fixpoint constant (e : expr F) : bool :=
    match e with
    | ELit _ _ => true
    | EBin _ _ a b => constant a && constant b
    | EUn _ _ a => constant a
    | ESuffixed _ a (SNil _) => constant a
    | _ => false
    end.

  Definition nonneg (v : value) : Prop := forall i, to_integer v = Some i -> 0 <= i.

  (* expressions as the parser makes them (.. associates to the right, literals are
     64-bit integers), in which no constant negative number is shifted *)
  Fixpoint fine (e : expr F) : Prop :=
    match e with
    | ELit _ (LInt _ i) => is_s64 i
    | ELit _ _ => True
    | EName _ _ => True
    | EBin _ op a b => fine a /\ fine b /\
        match op with
        | BConcat => match a with EBin _ BConcat _ _ => False | _ => True end
        | BShl | BShr => constant a = true -> forall w v w', eval a w = Ok (v, w') -> nonneg v
        | _ => True
        end
    | EUn _ _ a => fine a
    | EConcat _ l => fines l
    | ESuffixed _ a s => fine a /\ finess s
    | ETable _ l => fines l
    end
  with fines (l : exprs F) : Prop :=
    match l with ENil _ => True | ECons _ e l' => fine e /\ fines l' end
  with finess (s : suffixes F) : Prop :=
    match s with
    | SNil _ => True
    | SIndex _ k s' => fine k /\ finess s'
    | SCall _ l s' => fines l /\ finess s'
    end.
End S.
