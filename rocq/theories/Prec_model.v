(* Model of the expression parser, lparser.c:1073-1250, 1393-1403, 1529-1820 (the parser of ravicomp/src/parser.c:830-1190
   has the same structure and the same table of priorities): which tree it builds from the tokens.  What it generates is
   not looked at. *)
Require Import ZArith List Bool.
From Verif Require Import Base.
Import ListNotations.
Open Scope Z_scope.

Definition name := list Z.
Inductive binop := OPR_ADD | OPR_SUB | OPR_MUL | OPR_MOD | OPR_POW | OPR_DIV | OPR_IDIV | OPR_BAND | OPR_BOR | OPR_BXOR | OPR_SHL | OPR_SHR
| OPR_CONCAT | OPR_EQ | OPR_LT | OPR_LE | OPR_NE | OPR_GT | OPR_GE | OPR_AND | OPR_OR.                    (* lcode.h:27-41 *)
(* OPR_CAST: OPR_TO_INTEGER .. OPR_TO_CLOSURE; OPR_TO_TYPE with the parts of the type name *)
Inductive unop := OPR_MINUS | OPR_BNOT | OPR_NOT | OPR_LEN | OPR_CAST (c : nat) | OPR_TO_TYPE (n : name) (ns : list name).

Inductive token :=
| TConst (c : Z)                  (* TK_FLT TK_INT TK_NIL TK_TRUE TK_FALSE TK_DOTS *)
| TString (s : name) | TName (n : name)
| TFunction (f : nat)             (* TK_FUNCTION with the body that follows it *)
| TLParen | TRParen | TLBrack | TRBrack | TLBrace | TRBrace | TDot | TColon | TComma | TSemi | TAssign
| TPlus | TMinus | TStar | TPercent | TCaret | TSlash | TIdiv | TAmp | TBar | TTilde | TShl | TShr | TConcat
| TNe | TEq | TLt | TLe | TGt | TGe | TAnd | TOr | TNot | THash | TCast (c : nat) | TAt (n : name)
| TEnd.                           (* any token that cannot be part of an expression *)

Inductive tree :=
| Const (c : Z) | Str (s : name) | Name (n : name) | Fun (f : nat) | Paren (a : tree)
| Field (a : tree) (n : name) | Index (a k : tree) | Call (f args : tree) | Method (o : tree) (n : name) (args : tree)
| Table (fields : tree) | Un (u : unop) (a : tree) | Bin (o : binop) (a b : tree)
| Nil | Cons (a l : tree)         (* lists of arguments and fields *)
| Pos (a : tree) | Named (n : name) (a : tree) | Keyed (k a : tree).

(* lparser.c:1702-1718; '@' is handled in subexpr *)
Definition getunopr (t : token) : option unop :=
  match t with
  | TNot => Some OPR_NOT | TMinus => Some OPR_MINUS | TTilde => Some OPR_BNOT | THash => Some OPR_LEN
  | TCast c => Some (OPR_CAST c) | TAt n => Some (OPR_TO_TYPE n []) | _ => None
  end.
(* lparser.c:1721-1746 *)
Definition getbinopr (t : token) : option binop :=
  match t with
  | TPlus => Some OPR_ADD | TMinus => Some OPR_SUB | TStar => Some OPR_MUL | TPercent => Some OPR_MOD | TCaret => Some OPR_POW
  | TSlash => Some OPR_DIV | TIdiv => Some OPR_IDIV | TAmp => Some OPR_BAND | TBar => Some OPR_BOR | TTilde => Some OPR_BXOR
  | TShl => Some OPR_SHL | TShr => Some OPR_SHR | TConcat => Some OPR_CONCAT | TNe => Some OPR_NE | TEq => Some OPR_EQ
  | TLt => Some OPR_LT | TLe => Some OPR_LE | TGt => Some OPR_GT | TGe => Some OPR_GE | TAnd => Some OPR_AND | TOr => Some OPR_OR
  | _ => None
  end.
(* lparser.c:1749-1763 *)
Definition priority (o : binop) : Z * Z :=
  match o with
  | OPR_ADD => (10, 10) | OPR_SUB => (10, 10) | OPR_MUL => (11, 11) | OPR_MOD => (11, 11) | OPR_POW => (14, 13)
  | OPR_DIV => (11, 11) | OPR_IDIV => (11, 11) | OPR_BAND => (6, 6) | OPR_BOR => (4, 4) | OPR_BXOR => (5, 5)
  | OPR_SHL => (7, 7) | OPR_SHR => (7, 7) | OPR_CONCAT => (9, 8)
  | OPR_EQ => (3, 3) | OPR_LT => (3, 3) | OPR_LE => (3, 3) | OPR_NE => (3, 3) | OPR_GT => (3, 3) | OPR_GE => (3, 3)
  | OPR_AND => (2, 2) | OPR_OR => (1, 1)
  end.
Definition UNARY_PRIORITY : Z := 12.                                                                    (* lparser.c:1765 *)

(* a syntax error is EFormat, "too many C levels" is EOverflow *)
Definition syntaxerror {A} : outcome A := Err EFormat.
Definition checknext (t : token -> bool) (ts : list token) : outcome (list token) :=
  match ts with x :: r => if t x then Ok r else syntaxerror | [] => syntaxerror end.
Definition isRParen t := match t with TRParen => true | _ => false end.
Definition isRBrack t := match t with TRBrack => true | _ => false end.
Definition isRBrace t := match t with TRBrace => true | _ => false end.
Definition isAssign t := match t with TAssign => true | _ => false end.
Definition isSep t := match t with TComma => true | TSemi => true | _ => false end.
(* lparser.c:355-361 *)
Definition str_checkname (ts : list token) : outcome (name * list token) :=
  match ts with TName n :: r => Ok (n, r) | _ => syntaxerror end.
(* the loop of lparser.c:1236-1246; the buffer has 128 bytes *)
Fixpoint typename_rest (len : Z) (ts : list token) : outcome (list name * list token) :=
  match ts with
  | TDot :: TName n :: r =>
    let newlen := len + Z.of_nat (length n) + 1 in
    if 128 <=? newlen then syntaxerror else
    bind (typename_rest newlen r) (fun '(ns, r) => Ok (n :: ns, r))
  | TDot :: _ => syntaxerror
  | _ => Ok ([], ts)
  end.
(* lparser.c:1225-1250 *)
Definition user_defined_type_name (n : name) (ts : list token) : outcome (list name * list token) :=
  match ts with
  | TDot :: _ => let len := Z.of_nat (length n) in if 128 <=? len then syntaxerror else typename_rest len ts
  | _ => Ok ([], ts)
  end.

(* the functions below subexpr, with the nested calls of expr as a parameter; loops run on fuel, one unit per token *)
Section level.
Variable expr : list token -> outcome (tree * list token).

(* lparser.c:1393-1403 *)
Fixpoint explist (fuel : nat) (ts : list token) : outcome (tree * list token) :=
  match fuel with
  | O => OutOfFuel
  | S fuel =>
    bind (expr ts) (fun '(a, r) =>
    match r with
    | TComma :: r => bind (explist fuel r) (fun '(l, r) => Ok (Cons a l, r))
    | _ => Ok (Cons a Nil, r)
    end)
  end.
(* lparser.c:1084-1090, after the '[' *)
Definition yindex (ts : list token) : outcome (tree * list token) :=
  bind (expr ts) (fun '(a, r) => bind (checknext isRBrack r) (fun r => Ok (a, r))).
(* lparser.c:1109-1128 and 1166-1185 *)
Definition field (ts : list token) : outcome (tree * list token) :=
  match ts with
  | TName n :: TAssign :: r => bind (expr r) (fun '(a, r) => Ok (Named n a, r))
  | TLBrack :: r => bind (yindex r) (fun '(k, r) => bind (checknext isAssign r) (fun r => bind (expr r) (fun '(a, r) => Ok (Keyed k a, r))))
  | _ => bind (expr ts) (fun '(a, r) => Ok (Pos a, r))
  end.
(* the loop of lparser.c:1202-1207 *)
Fixpoint fields (fuel : nat) (ts : list token) : outcome (tree * list token) :=
  match fuel with
  | O => OutOfFuel
  | S fuel =>
    match ts with
    | TRBrace :: _ => Ok (Nil, ts)
    | _ =>
      bind (field ts) (fun '(f, r) =>
      match r with
      | x :: r' => if isSep x then bind (fields fuel r') (fun '(l, r) => Ok (Cons f l, r)) else Ok (Cons f Nil, r)
      | [] => Ok (Cons f Nil, r)
      end)
    end
  end.
(* lparser.c:1188-1213, after the '{' *)
Definition constructor (ts : list token) : outcome (tree * list token) :=
  bind (fields (S (length ts)) ts) (fun '(l, r) => bind (checknext isRBrace r) (fun r => Ok (Table l, r))).
(* lparser.c:1529-1557 *)
Definition funcargs (ts : list token) : outcome (tree * list token) :=
  match ts with
  | TLParen :: TRParen :: r => Ok (Nil, r)
  | TLParen :: r => bind (explist (S (length r)) r) (fun '(l, r) => bind (checknext isRParen r) (fun r => Ok (l, r)))
  | TLBrace :: r => constructor r
  | TString s :: r => Ok (Str s, r)
  | _ => syntaxerror
  end.
(* lparser.c:1583-1602 *)
Definition primaryexp (ts : list token) : outcome (tree * list token) :=
  match ts with
  | TLParen :: r => bind (expr r) (fun '(a, r) => bind (checknext isRParen r) (fun r => Ok (Paren a, r)))
  | TName n :: r => Ok (Name n, r)
  | _ => syntaxerror
  end.
(* the loop of lparser.c:1611-1640 *)
Fixpoint suffixes (fuel : nat) (v : tree) (ts : list token) : outcome (tree * list token) :=
  match fuel with
  | O => OutOfFuel
  | S fuel =>
    match ts with
    | TDot :: r => bind (str_checkname r) (fun '(n, r) => suffixes fuel (Field v n) r)
    | TLBrack :: r => bind (yindex r) (fun '(k, r) => suffixes fuel (Index v k) r)
    | TColon :: r => bind (str_checkname r) (fun '(n, r) => bind (funcargs r) (fun '(a, r) => suffixes fuel (Method v n a) r))
    | TLParen :: _ | TString _ :: _ | TLBrace :: _ => bind (funcargs ts) (fun '(a, r) => suffixes fuel (Call v a) r)
    | _ => Ok (v, ts)
    end
  end.
(* lparser.c:1605-1641 *)
Definition suffixedexp (ts : list token) : outcome (tree * list token) :=
  bind (primaryexp ts) (fun '(v, r) => suffixes (S (length r)) v r).
(* lparser.c:1644-1699 *)
Definition simpleexp (ts : list token) : outcome (tree * list token) :=
  match ts with
  | TConst c :: r => Ok (Const c, r)
  | TString s :: r => Ok (Str s, r)
  | TLBrace :: r => constructor r
  | TFunction f :: r => Ok (Fun f, r)
  | _ => suffixedexp ts
  end.
End level.

Definition head_binopr (ts : list token) : option binop := match ts with t :: _ => getbinopr t | [] => None end.
(* the while loop of lparser.c:1799-1813; sub is subexpr one level down *)
Fixpoint binops (sub : Z -> list token -> outcome (option binop * tree * list token)) (fuel : nat) (limit : Z) (op : option binop) (v : tree) (ts : list token)
  : outcome (option binop * tree * list token) :=
  match fuel with
  | O => OutOfFuel
  | S fuel =>
    match op with
    | Some o =>
      if limit <? fst (priority o) then
        bind (sub (snd (priority o)) (tl ts)) (fun '(nextop, v2, r) => binops sub fuel limit nextop (Bin o v v2) r)
      else Ok (op, v, ts)
    | None => Ok (op, v, ts)
    end
  end.
(* lparser.c:1772-1815; lvl is the number of C levels left (LUAI_MAXCCALLS less L->nCcalls, llimits.h:202) *)
Fixpoint subexpr (lvl : nat) (limit : Z) (ts : list token) : outcome (option binop * tree * list token) :=
  match lvl with
  | O => Err EOverflow
  | S lvl =>
    let first :=
      match ts with
      | [] => syntaxerror
      | t :: r =>
        match getunopr t with
        | Some u =>
          bind (match u with OPR_TO_TYPE n _ => bind (user_defined_type_name n r) (fun '(ns, r) => Ok (OPR_TO_TYPE n ns, r)) | _ => Ok (u, r) end) (fun '(u, r) =>
          bind (subexpr lvl UNARY_PRIORITY r) (fun '(_, a, r) => Ok (Un u a, r)))
        | None => simpleexp (fun ts => bind (subexpr lvl 0 ts) (fun '(_, a, r) => Ok (a, r))) ts
        end
      end in
    bind first (fun '(v, r) => binops (subexpr lvl) (S (length r)) limit (head_binopr r) v r)
  end.
(* lparser.c:1818-1820 *)
Definition expr (lvl : nat) (ts : list token) : outcome (tree * list token) := bind (subexpr lvl 0 ts) (fun '(_, a, r) => Ok (a, r)).
