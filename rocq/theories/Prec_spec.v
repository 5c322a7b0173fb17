(* C50: the grammar of expressions, with one level per line of the table of precedences in the manual (section 3.4.8). *)
Require Import ZArith List Bool.
From Verif Require Import Base Prec_model.
Import ListNotations.
Open Scope Z_scope.

(* from low to high; 11 is the level of the unary operators *)
Definition level (o : binop) : nat :=
  match o with
  | OPR_OR => 1
  | OPR_AND => 2
  | OPR_LT | OPR_GT | OPR_LE | OPR_GE | OPR_NE | OPR_EQ => 3
  | OPR_BOR => 4
  | OPR_BXOR => 5
  | OPR_BAND => 6
  | OPR_SHL | OPR_SHR => 7
  | OPR_CONCAT => 8
  | OPR_ADD | OPR_SUB => 9
  | OPR_MUL | OPR_DIV | OPR_IDIV | OPR_MOD => 10
  | OPR_POW => 12
  end.
Definition right_associative (o : binop) : bool := match o with OPR_CONCAT | OPR_POW => true | _ => false end.
(* how operators are written *)
Definition written (o : binop) : token :=
  match o with
  | OPR_OR => TOr | OPR_AND => TAnd | OPR_LT => TLt | OPR_GT => TGt | OPR_LE => TLe | OPR_GE => TGe | OPR_NE => TNe | OPR_EQ => TEq
  | OPR_BOR => TBar | OPR_BXOR => TTilde | OPR_BAND => TAmp | OPR_SHL => TShl | OPR_SHR => TShr | OPR_CONCAT => TConcat
  | OPR_ADD => TPlus | OPR_SUB => TMinus | OPR_MUL => TStar | OPR_DIV => TSlash | OPR_IDIV => TIdiv | OPR_MOD => TPercent | OPR_POW => TCaret
  end.
Definition type_length (n : name) (ns : list name) : nat := fold_left (fun l x => l + length x + 1)%nat ns (length n).
Inductive unary : unop -> list token -> Prop :=
| U_minus : unary OPR_MINUS [TMinus] | U_bnot : unary OPR_BNOT [TTilde] | U_not : unary OPR_NOT [TNot] | U_len : unary OPR_LEN [THash]
| U_cast : forall c, unary (OPR_CAST c) [TCast c]
(* @name.name...; a name with dots has at most 127 characters *)
| U_type : forall n ns, (ns <> [] -> type_length n ns < 128)%nat -> unary (OPR_TO_TYPE n ns) (TAt n :: flat_map (fun x => [TDot; TName x]) ns).

Inductive nonterminal := E (k : nat) | Simple | Suffixed | Args | ExpList | FieldList | AField.
(* the tree t is written ts *)
Inductive G : nonterminal -> tree -> list token -> Prop :=
| G_left : forall o a b ta tb, right_associative o = false -> G (E (level o)) a ta -> G (E (S (level o))) b tb -> G (E (level o)) (Bin o a b) (ta ++ written o :: tb)
| G_concat : forall a b ta tb, G (E 9) a ta -> G (E 8) b tb -> G (E 8) (Bin OPR_CONCAT a b) (ta ++ TConcat :: tb)
| G_unary : forall u tu a ta, unary u tu -> G (E 11) a ta -> G (E 11) (Un u a) (tu ++ ta)
(* the right operand of ^ may have unary operators: 2^-3 *)
| G_pow : forall a b ta tb, G Simple a ta -> G (E 11) b tb -> G (E 12) (Bin OPR_POW a b) (ta ++ TCaret :: tb)
| G_up : forall k a ta, (1 <= k < 12)%nat -> G (E (S k)) a ta -> G (E k) a ta
| G_simple : forall a ta, G Simple a ta -> G (E 12) a ta
| G_const : forall c, G Simple (Const c) [TConst c]
| G_string : forall s, G Simple (Str s) [TString s]
| G_function : forall f, G Simple (Fun f) [TFunction f]
| G_table : forall l tl, G FieldList l tl -> G Simple (Table l) (TLBrace :: tl ++ [TRBrace])
| G_suffixed : forall a ta, G Suffixed a ta -> G Simple a ta
| G_name : forall n, G Suffixed (Name n) [TName n]
| G_paren : forall a ta, G (E 1) a ta -> G Suffixed (Paren a) (TLParen :: ta ++ [TRParen])
| G_field : forall a ta n, G Suffixed a ta -> G Suffixed (Field a n) (ta ++ [TDot; TName n])
| G_index : forall a ta k tk, G Suffixed a ta -> G (E 1) k tk -> G Suffixed (Index a k) (ta ++ TLBrack :: tk ++ [TRBrack])
| G_call : forall a ta l tl, G Suffixed a ta -> G Args l tl -> G Suffixed (Call a l) (ta ++ tl)
| G_method : forall a ta n l tl, G Suffixed a ta -> G Args l tl -> G Suffixed (Method a n l) (ta ++ TColon :: TName n :: tl)
| G_noargs : G Args Nil [TLParen; TRParen]
| G_args : forall l tl, G ExpList l tl -> G Args l (TLParen :: tl ++ [TRParen])
| G_tablearg : forall l tl, G FieldList l tl -> G Args (Table l) (TLBrace :: tl ++ [TRBrace])
| G_stringarg : forall s, G Args (Str s) [TString s]
| G_one : forall a ta, G (E 1) a ta -> G ExpList (Cons a Nil) ta
| G_more : forall a ta l tl, G (E 1) a ta -> G ExpList l tl -> G ExpList (Cons a l) (ta ++ TComma :: tl)
| G_nofields : G FieldList Nil []
| G_lastfield : forall f tf, G AField f tf -> G FieldList (Cons f Nil) tf
| G_fields : forall f tf sep l tl, G AField f tf -> sep = TComma \/ sep = TSemi -> G FieldList l tl -> G FieldList (Cons f l) (tf ++ sep :: tl)
| G_pos : forall a ta, G (E 1) a ta -> G AField (Pos a) ta
| G_named : forall n a ta, G (E 1) a ta -> G AField (Named n a) (TName n :: TAssign :: ta)
| G_keyed : forall k tk a ta, G (E 1) k tk -> G (E 1) a ta -> G AField (Keyed k a) (TLBrack :: tk ++ TRBrack :: TAssign :: ta).

(* the expression ends here: no operator follows, and no suffix that could belong to its last operand *)
Fixpoint open_ended (t : tree) : bool :=
  match t with
  | Name _ | Paren _ | Field _ _ | Index _ _ | Call _ _ | Method _ _ _ => true
  | Un _ a => open_ended a | Bin _ _ b => open_ended b | _ => false
  end.
Definition suffix_token (t : token) : Prop := match t with TDot | TLBrack | TColon | TLParen | TString _ | TLBrace => True | _ => False end.
Definition ends (t : tree) (rest : list token) : Prop :=
  match rest with [] => True | x :: _ => (forall o, x <> written o) /\ (open_ended t = true -> ~ suffix_token x) end.

(* nesting, as the parser counts it: a left operand, the function of a call and the object of an index are not nested *)
Fixpoint nesting (t : tree) : nat :=
  match t with
  | Paren a => S (nesting a)
  | Field a _ => nesting a
  | Index a k => Nat.max (nesting a) (S (nesting k))
  | Call a l => Nat.max (nesting a) (nesting l)
  | Method a _ l => Nat.max (nesting a) (nesting l)
  | Table l => nesting l
  | Un _ a => S (nesting a)
  | Bin _ a b => Nat.max (nesting a) (S (nesting b))
  | Cons a l => Nat.max (match a with Pos _ | Named _ _ | Keyed _ _ => nesting a | _ => S (nesting a) end) (nesting l)
  | Pos a | Named _ a => S (nesting a)
  | Keyed k a => Nat.max (S (nesting k)) (S (nesting a))
  | _ => O
  end.
(* t is the expression at the start of ts *)
Definition parses (ts : list token) (t : tree) (rest : list token) : Prop := exists ts1, ts = ts1 ++ rest /\ G (E 1) t ts1 /\ ends t rest.
