(* C50: operator precedence and associativity. *)
Require Import ZArith List Bool Lia.
From Verif Require Import Base Base_facts Prec_model Prec_spec Prec_proofs.
Import ListNotations.
Open Scope Z_scope.

(* the parser returns a tree exactly when the grammar of the manual gives that tree for the longest expression at the start of the input and it is not nested too deeply *)
Theorem C50_accepted : forall lvl ts t rest, expr lvl ts = Ok (t, rest) <-> parses ts t rest /\ (nesting t < lvl)%nat.
Proof. exact accepted. Qed.
Print Assumptions C50_accepted.

(* there is at most one such tree and one end of the expression *)
Theorem C50_unique : forall ts t rest t' rest', parses ts t rest -> parses ts t' rest' -> t = t' /\ rest = rest'.
Proof. exact parse_unique. Qed.
Print Assumptions C50_unique.

(* a sequence of tokens has at most one tree *)
Theorem C50_unique_tree : forall ts t t', G (E 1) t ts -> G (E 1) t' ts -> t = t'.
Proof. exact tree_unique. Qed.
Print Assumptions C50_unique_tree.

(* an expression nested too deeply is refused with the error for C levels *)
Theorem C50_too_deep : forall lvl ts t rest, parses ts t rest -> (lvl <= nesting t)%nat -> expr lvl ts = Err EOverflow.
Proof. exact too_deep. Qed.
Print Assumptions C50_too_deep.

(* what is not an expression is refused *)
Theorem C50_rejected : forall lvl ts, (forall t rest, ~ parses ts t rest) -> expr lvl ts = Err EFormat \/ expr lvl ts = Err EOverflow.
Proof. exact rejected. Qed.
Print Assumptions C50_rejected.

(* with at least as many levels as tokens, a syntax error is reported exactly when there is no expression *)
Theorem C50_syntax_error : forall lvl ts, (length ts < lvl)%nat -> (expr lvl ts = Err EFormat <-> forall t rest, ~ parses ts t rest).
Proof. exact syntax_error. Qed.
Print Assumptions C50_syntax_error.

Definition a := TName [97]. Definition b := TName [98]. Definition c := TName [99].
Definition va := Name [97]. Definition vb := Name [98]. Definition vc := Name [99].
(* a or b and not c == -a ^ -b ^ c .. a .. b + c * a - b *)
Example C50_witness : expr 125 [a; TOr; b; TAnd; TNot; c; TEq; TMinus; a; TCaret; TMinus; b; TCaret; c; TConcat; a; TConcat; b; TPlus; c; TStar; a; TMinus; b; TRParen]
  = Ok (Bin OPR_OR va (Bin OPR_AND vb (Bin OPR_EQ (Un OPR_NOT vc)
      (Bin OPR_CONCAT (Un OPR_MINUS (Bin OPR_POW va (Un OPR_MINUS (Bin OPR_POW vb vc))))
        (Bin OPR_CONCAT va (Bin OPR_SUB (Bin OPR_ADD vb (Bin OPR_MUL vc va)) vb))))), [TRParen]).
Proof. vm_compute. reflexivity. Qed.
(* @t.u a.b[c](a, {b, c = a; [a] = b}):c"s" << b & c ~ a | 1 *)
Example C50_witness_suffix : expr 125 [TAt [116]; TDot; TName [117]; a; TDot; b; TLBrack; c; TRBrack; TLParen; a; TComma; TLBrace; b; TComma; c; TAssign; a; TSemi; TLBrack; a; TRBrack; TAssign; b; TRBrace; TRParen; TColon; c; TString [115]; TShl; b; TAmp; c; TTilde; a; TBar; TConst 1]
  = Ok (Bin OPR_BOR (Bin OPR_BXOR (Bin OPR_BAND (Bin OPR_SHL
      (Un (OPR_TO_TYPE [116] [[117]]) (Method (Call (Index (Field va [98]) vc) (Cons va (Cons (Table (Cons (Pos vb) (Cons (Named [99] va) (Cons (Keyed va vb) Nil)))) Nil))) [99] (Str [115])))
      vb) vc) va) (Const 1), []).
Proof. vm_compute. reflexivity. Qed.
(* the tree of the grammar for a - b - c, and why the other one is not *)
Example C50_witness_grammar : parses [a; TMinus; b; TMinus; c] (Bin OPR_SUB (Bin OPR_SUB va vb) vc) [] /\ ~ parses [a; TMinus; b; TMinus; c] (Bin OPR_SUB va (Bin OPR_SUB vb vc)) []
  /\ expr 3 [TLParen; TLParen; a; TRParen; TRParen] = Ok (Paren (Paren va), []) /\ expr 2 [TLParen; TLParen; a; TRParen; TRParen] = Err EOverflow /\ expr 125 [a; TPlus; TStar; b] = Err EFormat.
Proof.
  assert (P : parses [a; TMinus; b; TMinus; c] (Bin OPR_SUB (Bin OPR_SUB va vb) vc) []) by (apply (accepted 125); vm_compute; reflexivity).
  split; [exact P|]. split; [intros Q; destruct (parse_unique _ _ _ _ _ P Q) as (W & _); discriminate W|]. split; [vm_compute; reflexivity|]. split; vm_compute; reflexivity.
Qed.
