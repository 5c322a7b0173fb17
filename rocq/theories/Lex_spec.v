(* The lexical grammar: what the tokens of a text are, and what string literals mean. *)
Require Import ZArith List Bool String Ascii.
From Verif Require Import Base Num_spec Utf8_spec.
Import ListNotations.
Open Scope Z_scope.

Definition text (s : string) : list Z := map (fun a => Z.of_nat (nat_of_ascii a)) (list_ascii_of_string s).

Definition digit (c : Z) : Prop := 48 <= c <= 57.
Definition xdigit (c : Z) : Prop := digit c \/ 65 <= c <= 70 \/ 97 <= c <= 102.
Definition letter (c : Z) : Prop := 65 <= c <= 90 \/ 97 <= c <= 122 \/ c = 95.
Definition alnum (c : Z) : Prop := letter c \/ digit c.
Definition newline (c : Z) : Prop := c = 10 \/ c = 13.
Definition white (c : Z) : Prop := c = 32 \/ c = 9 \/ c = 11 \/ c = 12.
(* the text does not start with a character in P *)
Definition stops (P : Z -> Prop) (i : list Z) : Prop := forall c r, i = c :: r -> ~ P c.
Definition xval (c : Z) : Z := if c <=? 57 then c - 48 else if c <=? 70 then c - 55 else c - 87.
Definition value (base : Z) (ds : list Z) : Z := fold_left (fun v c => v * base + xval c) ds 0.

(* one line break: \n, \r, \n\r or \r\n, as long as possible; lines are numbered below 2^31-1 *)
Inductive line_break : Z -> list Z -> list Z -> Z -> Prop :=
| lb_two : forall n a b r, newline a -> newline b -> a <> b -> n + 1 < 2147483647 -> line_break n (a :: b :: r) r (n + 1)
| lb_one : forall n a r, newline a -> stops (fun b => newline b /\ a <> b) r -> n + 1 < 2147483647 -> line_break n (a :: r) r (n + 1).

(* white space and line breaks, as long as possible *)
Inductive spaces : Z -> list Z -> list Z -> Z -> Prop :=
| sp_end : forall n i, stops (fun c => white c \/ newline c) i -> spaces n i i n
| sp_white : forall n c i i' n', white c -> spaces n i i' n' -> spaces n (c :: i) i' n'
| sp_line : forall n i i1 n1 i' n', line_break n i i1 n1 -> spaces n1 i1 i' n' -> spaces n i i' n'.

(* the escapes of one character and what they stand for *)
Definition escapes : list (Z * Z) :=
  [(97, 7); (98, 8); (102, 12); (110, 10); (114, 13); (116, 9); (118, 11); (92, 92); (34, 34); (39, 39)].

(* an escape sequence after its backslash: escape_seq n i e i' n' when the text i, on line n,
   starts with one that stands for the bytes e, and goes on with i' on line n' *)
Inductive escape_seq : Z -> list Z -> list Z -> list Z -> Z -> Prop :=
| e_char : forall n c e i, In (c, e) escapes -> escape_seq n (c :: i) [e] i n
| e_hex : forall n a b i, xdigit a -> xdigit b -> escape_seq n (120 :: a :: b :: i) [value 16 [a; b]] i n
| e_dec : forall n ds i, (1 <= List.length ds <= 3)%nat -> Forall digit ds -> (List.length ds = 3%nat \/ stops digit i) ->
    value 10 ds < 256 -> escape_seq n (ds ++ i) [value 10 ds] i n
| e_utf8 : forall n ds i, ds <> [] -> Forall xdigit ds -> value 16 ds < 2^31 ->
    escape_seq n (117 :: 123 :: ds ++ 125 :: i) (utf8 (value 16 ds)) i n
| e_line : forall n i i1 n1, line_break n i i1 n1 -> escape_seq n i [10] i1 n1
| e_zap : forall n i i1 n1, spaces n i i1 n1 -> escape_seq n (122 :: i) [] i1 n1.

(* the rest of a string literal closed by del: its contents s, the text i' behind it *)
Inductive body (del : Z) : Z -> list Z -> list Z -> list Z -> Z -> Prop :=
| b_end : forall n i, body del n (del :: i) [] i n
| b_char : forall n c i s i' n', c <> del -> ~ newline c -> c <> 92 -> body del n i s i' n' -> body del n (c :: i) (c :: s) i' n'
| b_escape : forall n i e i1 n1 s i' n', escape_seq n i e i1 n1 -> body del n1 i1 s i' n' -> body del n (92 :: i) (e ++ s) i' n'.

(* long brackets of level k *)
Definition opening (k : nat) : list Z := 91 :: repeat 61 k ++ [91].
Definition closing (k : nat) : list Z := 93 :: repeat 61 k ++ [93].
Definition begins (w i : list Z) : Prop := exists r, i = w ++ r.
Inductive long_body (k : nat) : Z -> list Z -> list Z -> list Z -> Z -> Prop :=
| l_end : forall n i, long_body k n (closing k ++ i) [] i n
| l_char : forall n c i s i' n', ~ newline c -> ~ begins (closing k) (c :: i) -> long_body k n i s i' n' -> long_body k n (c :: i) (c :: s) i' n'
| l_line : forall n i i1 n1 s i' n', line_break n i i1 n1 -> long_body k n1 i1 s i' n' -> long_body k n i (10 :: s) i' n'.
(* a line break right after the opening bracket is not part of the string *)
Inductive long (n : Z) : list Z -> list Z -> list Z -> Z -> Prop :=
| long_line : forall k i i1 n1 s i' n', line_break n i i1 n1 -> long_body k n1 i1 s i' n' -> long n (opening k ++ i) s i' n'
| long_plain : forall k i s i' n', stops newline i -> long_body k n i s i' n' -> long n (opening k ++ i) s i' n'.

(* the text taken as a numeral, before it is known to be one: digits, dots and exponents, and
   one letter that touches it *)
Inductive numeral_rest (expo : Z -> Prop) : list Z -> list Z -> list Z -> Prop :=
| n_sign : forall c g i w i', expo c -> g = 43 \/ g = 45 -> numeral_rest expo i w i' -> numeral_rest expo (c :: g :: i) (c :: g :: w) i'
| n_expo : forall c i w i', expo c -> stops (fun g => g = 43 \/ g = 45) i -> numeral_rest expo i w i' -> numeral_rest expo (c :: i) (c :: w) i'
| n_digit : forall c i w i', ~ expo c -> xdigit c \/ c = 46 -> numeral_rest expo i w i' -> numeral_rest expo (c :: i) (c :: w) i'
| n_letter : forall c i, ~ expo c -> ~ xdigit c -> letter c -> numeral_rest expo (c :: i) [c] i
| n_end : forall i, stops (fun c => expo c \/ xdigit c \/ c = 46 \/ letter c) i -> numeral_rest expo i [] i.
Inductive numeral_text : list Z -> list Z -> list Z -> Prop :=
| num_hex : forall x i w i', x = 120 \/ x = 88 -> numeral_rest (fun c => c = 80 \/ c = 112) i w i' -> numeral_text (48 :: x :: i) (48 :: x :: w) i'
| num_dec : forall c i w i', digit c -> (c = 48 -> stops (fun x => x = 120 \/ x = 88) i) -> numeral_rest (fun c => c = 69 \/ c = 101) i w i' -> numeral_text (c :: i) (c :: w) i'.

(* the token numbers of llex.h:26-44 *)
Definition reserved : list (list Z * Z) :=
  [(text "and", 257); (text "break", 258); (text "do", 259); (text "else", 260); (text "elseif", 261); (text "end", 262);
   (text "false", 263); (text "for", 264); (text "function", 265); (text "goto", 266); (text "if", 267); (text "in", 268);
   (text "local", 269); (text "defer", 270); (text "nil", 271); (text "not", 272); (text "or", 273); (text "repeat", 274);
   (text "return", 275); (text "then", 276); (text "true", 277); (text "until", 278); (text "while", 279)].
Definition symbols : list (list Z * Z) :=
  [(text "//", 280); (text "..", 281); (text "...", 282); (text "==", 283); (text ">=", 284); (text "<=", 285); (text "~=", 286);
   (text "<<", 287); (text ">>", 288); (text "::", 289)].
Definition T_EOS : Z := 290. Definition T_FLT : Z := 291. Definition T_INT : Z := 292. Definition T_NAME : Z := 293. Definition T_STRING : Z := 294.
Definition casts : list (list Z * Z) :=
  [(text "@integer", 295); (text "@number", 296); (text "@integer[]", 297); (text "@number[]", 298); (text "@table", 299);
   (text "@string", 300); (text "@closure", 301)].

(* what a numeral stands for; reading floats is left to readf *)
Definition integer_numeral (w : list Z) (n : Z) : Prop := decimal w n /\ is_s64 n \/ exists m, hexadecimal w m /\ n = s64 m.
Definition number_of {F sem : Type} (readf : list Z -> option F) (int : Z -> sem) (flt : F -> sem) (w : list Z) (tv : Z * sem) : Prop :=
  (exists n, integer_numeral w n /\ tv = (T_INT, int n)) \/
  ((forall n, ~ integer_numeral w n) /\ exists x, readf w = Some x /\ tv = (T_FLT, flt x)).

Section Tokens.
Context {sem : Type} (none : sem) (str : list Z -> sem) (number : list Z -> Z * sem -> Prop).
(* what the word of a cast, with its @, stands for *)
Context (cast : list Z -> Z * sem -> Prop).

(* tokens n i t v i' n': the first token of the text i, on line n, is t with the value v *)
Inductive tokens : Z -> list Z -> Z -> sem -> list Z -> Z -> Prop :=
| t_eos : forall n, tokens n [] T_EOS none [] n
| t_white : forall n c i t v i' n', white c -> tokens n i t v i' n' -> tokens n (c :: i) t v i' n'
| t_line : forall n i i1 n1 t v i' n', line_break n i i1 n1 -> tokens n1 i1 t v i' n' -> tokens n i t v i' n'
| t_comment : forall n com i t v i' n', (forall k, ~ begins (opening k) (com ++ i)) -> Forall (fun c => ~ newline c) com ->
    (i = [] \/ exists c r, i = c :: r /\ newline c) -> tokens n i t v i' n' -> tokens n (45 :: 45 :: com ++ i) t v i' n'
| t_long_comment : forall n i s i1 n1 t v i' n', long n i s i1 n1 -> tokens n1 i1 t v i' n' -> tokens n (45 :: 45 :: i) t v i' n'
| t_string : forall n q i s i' n', q = 34 \/ q = 39 -> body q n i s i' n' -> tokens n (q :: i) T_STRING (str s) i' n'
| t_long : forall n i s i' n', long n i s i' n' -> tokens n i T_STRING (str s) i' n'
| t_number : forall n i w t v i', numeral_text i w i' -> number w (t, v) -> tokens n i t v i' n
| t_dot_number : forall n c i w t v i', digit c -> numeral_text (c :: i) w i' -> number (46 :: w) (t, v) -> tokens n (46 :: c :: i) t v i' n
| t_reserved : forall n c w t i, letter c -> Forall alnum w -> stops alnum i -> In (c :: w, t) reserved ->
    tokens n (c :: w ++ i) t (str (c :: w)) i n
| t_name : forall n c w i, letter c -> Forall alnum w -> stops alnum i -> (forall t, ~ In (c :: w, t) reserved) ->
    tokens n (c :: w ++ i) T_NAME (str (c :: w)) i n
| t_symbol : forall n w t i, In (w, t) symbols -> (forall w' t', In (w', t') symbols -> begins w' (w ++ i) -> (List.length w' <= List.length w)%nat) ->
    tokens n (w ++ i) t none i n
| t_char : forall n c i, ~ white c -> ~ newline c -> ~ alnum c -> c <> 34 -> c <> 39 -> c <> 64 ->
    ~ begins (text "--") (c :: i) -> ~ begins (text "[=") (c :: i) -> ~ begins (text "[[") (c :: i) ->
    (c = 46 -> stops digit i) -> (forall w' t', In (w', t') symbols -> ~ begins w' (c :: i)) ->
    tokens n (c :: i) c none i n
| t_cast : forall n w b1 b2 i t v, Forall alnum w ->
    (b1 = [91] \/ b1 = [] /\ stops (fun c => c = 91) (b2 ++ i)) -> (b2 = [93] \/ b2 = [] /\ stops (fun c => c = 93) i) ->
    stops alnum (b1 ++ b2 ++ i) -> cast (64 :: w ++ b1 ++ b2) (t, v) -> tokens n (64 :: w ++ b1 ++ b2 ++ i) t v i n.

(* the tokens of a whole text, each with the line it ends on *)
Inductive stream : Z -> list Z -> list (Z * sem * Z) -> Prop :=
| st_end : forall n i v i' n', tokens n i T_EOS v i' n' -> stream n i [(T_EOS, v, n')]
| st_more : forall n i t v i' n' l, tokens n i t v i' n' -> t <> T_EOS -> stream n' i' l -> stream n i ((t, v, n') :: l).

(* a cast is one of the seven known ones, exactly, or a type name of the program *)
Definition exact_cast (w : list Z) (tv : Z * sem) : Prop :=
  In (w, fst tv) casts /\ snd tv = none \/ (forall t, ~ In (w, t) casts) /\ tv = (64, str (skipn 1 w)).
End Tokens.

(* a text that is handed over in blocks ends at the first empty block, or with the last one *)
Fixpoint joined (blocks : list (list Z)) : list Z :=
  match blocks with (c :: b) :: bs => c :: b ++ joined bs | _ => [] end.

(* the words of casts that the lexer takes: the first of these that starts with the word *)
Definition cast_order : list (list Z * Z) :=
  [(text "@integer", 295); (text "@integer[]", 297); (text "@number", 296); (text "@number[]", 298); (text "@table", 299);
   (text "@string", 300); (text "@closure", 301)].
Inductive first_match (w : list Z) : list (list Z * Z) -> option Z -> Prop :=
| fm_none : first_match w [] None
| fm_here : forall x t l, begins w x -> first_match w ((x, t) :: l) (Some t)
| fm_later : forall x t l r, ~ begins w x -> first_match w l r -> first_match w ((x, t) :: l) r.
Definition prefix_cast {sem : Type} (none : sem) (str : list Z -> sem) (w : list Z) (tv : Z * sem) : Prop :=
  (exists t, first_match w cast_order (Some t) /\ tv = (t, none)) \/ (first_match w cast_order None /\ tv = (64, str (skipn 1 w))).

(* newlines *)
Definition lines (s : list Z) : Z := Z.of_nat (count_occ Z.eq_dec s 10).
