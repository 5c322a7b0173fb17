(* Model of the lexer: llex.c with the input stream of lzio.h, and of addquoted and the
   integer case of addliteral in lstrlib.c.  The growth of the token buffer (llex.c:63-73) is
   left out: the buffer is a list.  Anchoring strings in the scanner table (llex.c:133-153) is
   left out: a string token carries its bytes.  All lexical errors are Err EFormat; too many
   lines is Err ETooLong.  lexer.c of ravicomp has the same structure. *)
Require Import ZArith List Bool String Ascii.
From Verif Require Import Base Str Ctype_model Num_model Num_spec Utf8_model.
Import ListNotations.
Open Scope Z_scope.

(* a C string literal *)
Definition bs (s : string) : list Z := map (fun a => Z.of_nat (nat_of_ascii a)) (list_ascii_of_string s).

(* llex.h:65-80 LexState, lzio.h:52-58 Zio.  zcur: the bytes of the reader's last block not
   read yet; zrest: the blocks the reader will still return (an empty one means the end);
   zend: luaZ_fill has returned EOZ, which leaves z->n at SIZE_MAX after the n-- of zgetc. *)
Record ls := mkls { current : Z; zcur : list Z; zrest : list (list Z); zend : bool; buf : list Z; line : Z }.
Definition EOZ : Z := -1.
Definition MAX_INT : Z := 2147483647.

(* llex.c:32 next, lzio.h:19 zgetc, lzio.c:23-35 luaZ_fill: after the end the next zgetc would
   read behind the block *)
Definition next (s : ls) : outcome ls :=
  match zcur s with
  | c :: t => Ok (mkls c t (zrest s) (zend s) (buf s) (line s))
  | [] =>
    if zend s then UB
    else match zrest s with
         | (c :: t) :: r => Ok (mkls c t r false (buf s) (line s))
         | _ => Ok (mkls EOZ [] [] true (buf s) (line s))
         end
  end.

(* llex.c:63-73 save *)
Definition save (s : ls) (c : Z) : ls := mkls (current s) (zcur s) (zrest s) (zend s) (buf s ++ [c]) (line s).
(* llex.c:57 save_and_next *)
Definition save_and_next (s : ls) : outcome ls := next (save s (current s)).
(* lzio.h:36 luaZ_buffremove *)
Definition buffremove (s : ls) (i : nat) : outcome ls :=
  if Nat.ltb (List.length (buf s)) i then UB
  else Ok (mkls (current s) (zcur s) (zrest s) (zend s) (firstn (List.length (buf s) - i) (buf s)) (line s)).
(* lzio.h:37 luaZ_resetbuffer *)
Definition resetbuffer (s : ls) : ls := mkls (current s) (zcur s) (zrest s) (zend s) [] (line s).

(* llex.c:36 currIsNewline *)
Definition isnewline (c : Z) : bool := (c =? 10) || (c =? 13).
(* llex.c:160-168 inclinenumber *)
Definition inclinenumber (s : ls) : outcome ls :=
  let old := current s in
  bind (next s) (fun s =>
  bind (if isnewline (current s) && negb (current s =? old) then next s else Ok s) (fun s =>
  let n := line s + 1 in
  if MAX_INT <=? n then Err ETooLong
  else Ok (mkls (current s) (zcur s) (zrest s) (zend s) (buf s) n))).

(* llex.c:195-201 check_next1 *)
Definition check_next1 (s : ls) (c : Z) : outcome (bool * ls) :=
  if current s =? c then bind (next s) (fun s => Ok (true, s)) else Ok (false, s).
(* llex.c:204-210 check_save_next1, 218-225 check_next2 *)
Definition check_save_next (s : ls) (a b : Z) : outcome (bool * ls) :=
  if (current s =? a) || (current s =? b) then bind (save_and_next s) (fun s => Ok (true, s)) else Ok (false, s).

Section Lexer.
(* lobject.c:264-292 l_str2d (strtod): external *)
Context {F : Type} (str2d : list Z -> option F).

Inductive sem := SNone | SInt (n : Z) | SFlt (x : F) | SStr (b : list Z).

(* lobject.c:333-347 luaO_str2num *)
Definition str2num (b : list Z) : option sem :=
  match str2int b with Some n => Some (SInt n) | None => match str2d b with Some x => Some (SFlt x) | None => None end end.

(* llex.h:26-44: the tokens after the reserved words *)
Definition FIRST_RESERVED : Z := 257.
(* llex.c:40-46 luaX_tokens, up to "while"; the others follow in the order of the enumeration *)
Definition luaX_reserved : list (list Z) :=
  [bs "and"; bs "break"; bs "do"; bs "else"; bs "elseif"; bs "end"; bs "false"; bs "for"; bs "function"; bs "goto"; bs "if";
   bs "in"; bs "local"; bs "defer"; bs "nil"; bs "not"; bs "or"; bs "repeat"; bs "return"; bs "then"; bs "true"; bs "until"; bs "while"].
Definition TK_IDIV : Z := 280. Definition TK_CONCAT : Z := 281. Definition TK_DOTS : Z := 282. Definition TK_EQ : Z := 283.
Definition TK_GE : Z := 284. Definition TK_LE : Z := 285. Definition TK_NE : Z := 286. Definition TK_SHL : Z := 287.
Definition TK_SHR : Z := 288. Definition TK_DBCOLON : Z := 289. Definition TK_EOS : Z := 290. Definition TK_FLT : Z := 291.
Definition TK_INT : Z := 292. Definition TK_NAME : Z := 293. Definition TK_STRING : Z := 294. Definition TK_TO_INTEGER : Z := 295.
Definition TK_TO_NUMBER : Z := 296. Definition TK_TO_INTARRAY : Z := 297. Definition TK_TO_NUMARRAY : Z := 298.
Definition TK_TO_TABLE : Z := 299. Definition TK_TO_STRING : Z := 300. Definition TK_TO_CLOSURE : Z := 301.

(* llex.c:75-85 luaX_init gives reserved word number i the mark i+1; lstring.h isreserved *)
Fixpoint position (w : list Z) (l : list (list Z)) (i : Z) : option Z :=
  match l with [] => None | x :: l => if list_eq_dec Z.eq_dec w x then Some i else position w l (i + 1) end.

(* llex.c:252-259: the loop of read_numeral *)
Fixpoint numeral_loop (fuel : nat) (s : ls) (e1 e2 : Z) : outcome ls :=
  match fuel with
  | O => OutOfFuel
  | S fuel =>
    bind (check_save_next s e1 e2) (fun '(b, s) =>
    if b then bind (check_save_next s 45 43) (fun '(_, s) => numeral_loop fuel s e1 e2)
    else if lisxdigit (current s) || (current s =? 46) then bind (save_and_next s) (fun s => numeral_loop fuel s e1 e2)
    else Ok s)
  end.
(* llex.c:241-276 read_numeral *)
Definition read_numeral (fuel : nat) (s : ls) : outcome (Z * sem * ls) :=
  let first := current s in
  bind (save_and_next s) (fun s =>
  bind (if first =? 48 then check_save_next s 120 88 else Ok (false, s)) (fun '(hex, s) =>
  bind (if hex then numeral_loop fuel s 80 112 else numeral_loop fuel s 69 101) (fun s =>
  bind (if lislalpha (current s) then save_and_next s else Ok s) (fun s =>
  match str2num (buf s) with
  | None => Err EFormat
  | Some (SInt n) => Ok (TK_INT, SInt n, save s 0)
  | Some v => Ok (TK_FLT, v, save s 0)
  end)))).

(* llex.c:278-291 skip_sep *)
Fixpoint sep_loop (fuel : nat) (s : ls) (count : Z) : outcome (Z * ls) :=
  match fuel with
  | O => OutOfFuel
  | S fuel => if current s =? 61 then bind (save_and_next s) (fun s => sep_loop fuel s (count + 1)) else Ok (count, s)
  end.
Definition skip_sep (fuel : nat) (s : ls) : outcome (Z * ls) :=
  let c := current s in
  bind (save_and_next s) (fun s =>
  bind (sep_loop fuel s 0) (fun '(count, s) =>
  Ok (if current s =? c then count + 2 else if count =? 0 then 1 else 0, s))).

(* llex.c:293-330 read_long_string; str: seminfo is not NULL *)
Fixpoint long_loop (fuel : nat) (s : ls) (sep : Z) (str : bool) : outcome ls :=
  match fuel with
  | O => OutOfFuel
  | S fuel =>
    if current s =? EOZ then Err EFormat
    else if current s =? 93 then
      bind (skip_sep fuel s) (fun '(n, s) =>
      if n =? sep then save_and_next s else long_loop fuel s sep str)
    else if isnewline (current s) then
      bind (inclinenumber (save s 10)) (fun s => long_loop fuel (if str then s else resetbuffer s) sep str)
    else bind (if str then save_and_next s else next s) (fun s => long_loop fuel s sep str)
  end.
Definition read_long_string (fuel : nat) (s : ls) (sep : Z) (str : bool) : outcome (sem * ls) :=
  bind (save_and_next s) (fun s =>
  bind (if isnewline (current s) then inclinenumber s else Ok s) (fun s =>
  bind (long_loop fuel s sep str) (fun s =>
  if str then
    if Z.of_nat (List.length (buf s)) <? 2 * sep then UB
    else Ok (SStr (firstn (Z.to_nat (Z.of_nat (List.length (buf s)) - 2 * sep)) (skipn (Z.to_nat sep) (buf s))), s)
  else Ok (SNone, s)))).

(* llex.c:332-338 esccheck: the error saves the current character first *)
Definition esccheck {A} (s : ls) (b : bool) (k : outcome A) : outcome A :=
  if b then k
  else bind (if current s =? EOZ then Ok s else save_and_next s) (fun _ => Err EFormat).
(* llex.c:341-345 gethexa *)
Definition gethexa (s : ls) : outcome (Z * ls) :=
  bind (save_and_next s) (fun s => esccheck s (lisxdigit (current s)) (Ok (hexavalue (current s), s))).
(* llex.c:348-353 readhexaesc *)
Definition readhexaesc (s : ls) : outcome (Z * ls) :=
  bind (gethexa s) (fun '(a, s) => bind (gethexa s) (fun '(b, s) => bind (buffremove s 2) (fun s => Ok (a * 16 + b, s)))).
(* llex.c:356-371 readutf8esc *)
Fixpoint utf8_loop (fuel : nat) (s : ls) (r : Z) (i : nat) : outcome (Z * nat * ls) :=
  match fuel with
  | O => OutOfFuel
  | S fuel =>
    bind (save_and_next s) (fun s =>
    if lisxdigit (current s) then esccheck s (r <=? 134217727) (utf8_loop fuel s (r * 16 + hexavalue (current s)) (S i))
    else Ok (r, i, s))
  end.
Definition readutf8esc (fuel : nat) (s : ls) : outcome (Z * ls) :=
  bind (save_and_next s) (fun s =>
  esccheck s (current s =? 123) (
  bind (gethexa s) (fun '(r, s) =>
  bind (utf8_loop fuel s r 4) (fun '(r, i, s) =>
  esccheck s (current s =? 125) (
  bind (next s) (fun s => bind (buffremove s i) (fun s => Ok (r, s)))))))).
(* llex.c:374-379 utf8esc *)
Definition utf8esc (fuel : nat) (s : ls) : outcome ls :=
  bind (readutf8esc fuel s) (fun '(r, s) => bind (luaO_utf8esc r) (fun b => Ok (fold_left save b s))).
(* llex.c:382-392 readdecesc *)
Fixpoint dec_esc (n : nat) (s : ls) (r : Z) (i : nat) : outcome (Z * nat * ls) :=
  match n with
  | O => Ok (r, i, s)
  | S n => if lisdigit (current s) then let r := 10 * r + current s - 48 in bind (save_and_next s) (fun s => dec_esc n s r (S i))
           else Ok (r, i, s)
  end.
Definition readdecesc (s : ls) : outcome (Z * ls) :=
  bind (dec_esc 3 s 0 0) (fun '(r, i, s) => esccheck s (r <=? 255) (bind (buffremove s i) (fun s => Ok (r, s)))).

(* llex.c:424-432: zap following span of spaces *)
Fixpoint zap_loop (fuel : nat) (s : ls) : outcome ls :=
  match fuel with
  | O => OutOfFuel
  | S fuel =>
    if lisspace (current s) then
      bind (if isnewline (current s) then inclinenumber s else next s) (zap_loop fuel)
    else Ok s
  end.

(* llex.c:407-414, 421: the escapes of one letter *)
Definition escape_char (c : Z) : option Z :=
  if c =? 97 then Some 7 else if c =? 98 then Some 8 else if c =? 102 then Some 12 else if c =? 110 then Some 10
  else if c =? 114 then Some 13 else if c =? 116 then Some 9 else if c =? 118 then Some 11
  else if (c =? 92) || (c =? 34) || (c =? 39) then Some c else None.

(* llex.c:404-448: one escape sequence; the backslash has been saved and skipped *)
Definition only_save (s : ls) (c : Z) : outcome ls := bind (buffremove s 1) (fun s => Ok (save s c)).
Definition read_save (s : ls) (c : Z) : outcome ls := bind (next s) (fun s => only_save s c).
Definition escape (fuel : nat) (s : ls) : outcome ls :=
  match escape_char (current s) with
  | Some c => read_save s c
  | None =>
    if current s =? 120 then bind (readhexaesc s) (fun '(c, s) => read_save s c)
    else if current s =? 117 then utf8esc fuel s
    else if isnewline (current s) then bind (inclinenumber s) (fun s => only_save s 10)
    else if current s =? EOZ then Ok s
    else if current s =? 122 then bind (buffremove s 1) (fun s => bind (next s) (zap_loop fuel))
    else esccheck s (lisdigit (current s)) (bind (readdecesc s) (fun '(c, s) => only_save s c))
  end.

(* llex.c:395-455 read_string *)
Fixpoint string_loop (fuel : nat) (s : ls) (del : Z) : outcome ls :=
  match fuel with
  | O => OutOfFuel
  | S fuel =>
    if current s =? del then Ok s
    else if (current s =? EOZ) || isnewline (current s) then Err EFormat
    else if current s =? 92 then bind (save_and_next s) (fun s => bind (escape fuel s) (fun s => string_loop fuel s del))
    else bind (save_and_next s) (fun s => string_loop fuel s del)
  end.
Definition read_string (fuel : nat) (s : ls) (del : Z) : outcome (sem * ls) :=
  bind (save_and_next s) (fun s =>
  bind (string_loop fuel s del) (fun s =>
  bind (save_and_next s) (fun s =>
  if Nat.ltb (List.length (buf s)) 2 then UB
  else Ok (SStr (firstn (List.length (buf s) - 2) (skipn 1 (buf s))), s)))).

(* strncmp(s, lit, n) == 0 where s holds at least n characters, none of them zero *)
Definition strncmp0 (s lit : list Z) : bool :=
  if list_eq_dec Z.eq_dec s (firstn (List.length s) lit) then true else false.
(* llex.c:461-490 casttoken *)
Definition casttoken (s : list Z) : Z * sem :=
  if strncmp0 s (bs "@integer") then (TK_TO_INTEGER, SNone)
  else if strncmp0 s (bs "@integer[]") then (TK_TO_INTARRAY, SNone)
  else if strncmp0 s (bs "@number") then (TK_TO_NUMBER, SNone)
  else if strncmp0 s (bs "@number[]") then (TK_TO_NUMARRAY, SNone)
  else if strncmp0 s (bs "@table") then (TK_TO_TABLE, SNone)
  else if strncmp0 s (bs "@string") then (TK_TO_STRING, SNone)
  else if strncmp0 s (bs "@closure") then (TK_TO_CLOSURE, SNone)
  else (64, SStr (skipn 1 s)).

(* while (lislalnum(ls->current)) save_and_next(ls); *)
Fixpoint alnum_loop (fuel : nat) (s : ls) : outcome ls :=
  match fuel with
  | O => OutOfFuel
  | S fuel => if lislalnum (current s) then bind (save_and_next s) (alnum_loop fuel) else Ok s
  end.
(* llex.c:523-524: skip a short comment *)
Fixpoint comment_loop (fuel : nat) (s : ls) : outcome ls :=
  match fuel with
  | O => OutOfFuel
  | S fuel => if negb (isnewline (current s)) && negb (current s =? EOZ) then bind (next s) (comment_loop fuel) else Ok s
  end.

Definition simple (t : Z) (s : ls) : outcome (Z * sem * ls) := Ok (t, SNone, s).
(* c followed by c2 is token t2, else token c *)
Definition two (s : ls) (c c2 t2 : Z) : outcome (Z * sem * ls) :=
  bind (next s) (fun s => bind (check_next1 s c2) (fun '(b, s) => if b then simple t2 s else simple c s)).
Definition three (s : ls) (c c2 t2 c3 t3 : Z) : outcome (Z * sem * ls) :=
  bind (next s) (fun s => bind (check_next1 s c2) (fun '(b, s) => if b then simple t2 s else
  bind (check_next1 s c3) (fun '(b, s) => if b then simple t3 s else simple c s))).

(* llex.c:492-626 llex: the loop *)
Fixpoint llex_loop (fuel : nat) (s : ls) : outcome (Z * sem * ls) :=
  match fuel with
  | O => OutOfFuel
  | S fuel =>
    let c := current s in
    if isnewline c then bind (inclinenumber s) (llex_loop fuel)
    else if (c =? 32) || (c =? 12) || (c =? 9) || (c =? 11) then bind (next s) (llex_loop fuel)
    else if c =? 45 then
      bind (next s) (fun s =>
      if negb (current s =? 45) then simple 45 s
      else
        bind (next s) (fun s =>
        let short s := bind (comment_loop fuel s) (llex_loop fuel) in
        if current s =? 91 then
          bind (skip_sep fuel s) (fun '(sep, s) =>
          let s := resetbuffer s in
          if 2 <=? sep then bind (read_long_string fuel s sep false) (fun '(_, s) => llex_loop fuel (resetbuffer s))
          else short s)
        else short s))
    else if c =? 91 then
      bind (skip_sep fuel s) (fun '(sep, s) =>
      if 2 <=? sep then bind (read_long_string fuel s sep true) (fun '(v, s) => Ok (TK_STRING, v, s))
      else if sep =? 0 then Err EFormat
      else simple 91 s)
    else if c =? 61 then two s 61 61 TK_EQ
    else if c =? 60 then three s 60 61 TK_LE 60 TK_SHL
    else if c =? 62 then three s 62 61 TK_GE 62 TK_SHR
    else if c =? 47 then two s 47 47 TK_IDIV
    else if c =? 126 then two s 126 61 TK_NE
    else if c =? 58 then two s 58 58 TK_DBCOLON
    else if (c =? 34) || (c =? 39) then bind (read_string fuel s c) (fun '(v, s) => Ok (TK_STRING, v, s))
    else if c =? 46 then
      bind (save_and_next s) (fun s =>
      bind (check_next1 s 46) (fun '(b, s) =>
      if b then bind (check_next1 s 46) (fun '(b, s) => if b then simple TK_DOTS s else simple TK_CONCAT s)
      else if negb (lisdigit (current s)) then simple 46 s
      else read_numeral fuel s))
    else if (48 <=? c) && (c <=? 57) then read_numeral fuel s
    else if c =? EOZ then simple TK_EOS s
    else if c =? 64 then
      bind (save_and_next s) (fun s =>
      bind (alnum_loop fuel s) (fun s =>
      bind (check_save_next s 91 91) (fun '(_, s) =>
      bind (check_save_next s 93 93) (fun '(_, s) =>
      let '(t, v) := casttoken (buf s) in
      bind (buffremove s (List.length (buf s))) (fun s => Ok (t, v, s))))))
    else if lislalpha c then
      bind (save_and_next s) (fun s =>
      bind (alnum_loop fuel s) (fun s =>
      match position (buf s) luaX_reserved FIRST_RESERVED with
      | Some t => Ok (t, SStr (buf s), s)
      | None => Ok (TK_NAME, SStr (buf s), s)
      end))
    else bind (next s) (simple c)
  end.

(* llex.c:492-494 *)
Definition llex (fuel : nat) (s : ls) : outcome (Z * sem * ls) := llex_loop fuel (resetbuffer s).
(* llex.c:622-630 luaX_next, as the parser calls it until TK_EOS: the tokens with the line
   number behind each.  The one token of look-ahead (llex.c:633-637) does not change them. *)
Fixpoint tokenize (n fuel : nat) (s : ls) : outcome (list (Z * sem * Z)) :=
  match n with
  | O => OutOfFuel
  | S n =>
    bind (llex fuel s) (fun '(t, v, s) =>
    if t =? TK_EOS then Ok [(t, v, line s)] else bind (tokenize n fuel s) (fun l => Ok ((t, v, line s) :: l)))
  end.
End Lexer.

(* llex.c:171-186 luaX_setinput with the first character already read (ldo.c:881-884 f_parser:
   int c = zgetc(p->z)) *)
Definition setinput (blocks : list (list Z)) : outcome ls := next (mkls 0 [] blocks false [] 1).

(* ** string.format("%q") *)
(* iscntrl depends on the locale: a parameter.  isdigit does not (C11 7.4.1.5). *)
Section Quote.
Context (iscntrl : Z -> bool).
(* sprintf of "\\%d" and "\\%03d" for a byte *)
Definition dec3 (c : Z) : list Z := [48 + c / 100; 48 + c / 10 mod 10; 48 + c mod 10].
(* lstrlib.c:1101-1121 addquoted: the loop; at the end of the string *(s+1) is the terminator *)
Fixpoint quote_loop (s : list Z) : list Z :=
  match s with
  | [] => []
  | c :: t =>
    (if (c =? 34) || (c =? 92) || (c =? 10) then [92; c]
     else if iscntrl c then
       if negb (isdigit (hd 0 t)) then 92 :: int2str c else 92 :: dec3 c
     else [c]) ++ quote_loop t
  end.
Definition addquoted (s : list Z) : list Z := [34] ++ quote_loop s ++ [34].
End Quote.

(* sprintf("0x%llx") *)
Definition hexdigit (d : Z) : Z := if d <? 10 then 48 + d else 87 + d.
Fixpoint xdigits (fuel : nat) (n : Z) : list Z :=
  match fuel with
  | O => []
  | S f => if n <? 16 then [hexdigit n] else xdigits f (n / 16) ++ [hexdigit (n mod 16)]
  end.
(* lstrlib.c:1167-1173 addliteral for an integer *)
Definition quoteint (n : Z) : list Z := if n =? minint then [48; 120] ++ xdigits 16 (n mod two64) else int2str n.
