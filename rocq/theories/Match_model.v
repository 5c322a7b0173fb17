(* Model of pattern matching, lstrlib.c:345-1000: find, match, gmatch, gsub. Positions are indices into
   the subject and the pattern, both followed by a zero byte. Character classes as in the "C" locale. *)
Require Import ZArith List Bool.
From Verif Require Import Base Str Strlib_model.
Import ListNotations.
Open Scope Z_scope.

Definition MAXCAPTURES : Z := 32.                (* LUA_MAXCAPTURES, luaconf.h *)
Definition MAXCCALLS : nat := 200.               (* lstrlib.c:375 *)
Definition CAP_UNFINISHED : Z := -1.
Definition CAP_POSITION : Z := -2.

(* ctype.h in the "C" locale *)
Definition isdigit (c : Z) : bool := (48 <=? c) && (c <=? 57).
Definition isupper (c : Z) : bool := (65 <=? c) && (c <=? 90).
Definition islower (c : Z) : bool := (97 <=? c) && (c <=? 122).
Definition isalpha (c : Z) : bool := isupper c || islower c.
Definition isalnum (c : Z) : bool := isalpha c || isdigit c.
Definition isgraph (c : Z) : bool := (33 <=? c) && (c <=? 126).
Definition ispunct (c : Z) : bool := isgraph c && negb (isalnum c).
Definition iscntrl (c : Z) : bool := ((0 <=? c) && (c <=? 31)) || (c =? 127).
Definition isspace (c : Z) : bool := (c =? 32) || ((9 <=? c) && (c <=? 13)).
Definition isxdigit (c : Z) : bool := isdigit c || ((65 <=? c) && (c <=? 70)) || ((97 <=? c) && (c <=? 102)).
Definition tolower (c : Z) : Z := if isupper c then c + 32 else c.

(* 423-441 match_class *)
Definition match_class (c cl : Z) : bool :=
  let signed res := if islower cl then res else negb res in
  let l := tolower cl in
  if l =? 97 then signed (isalpha c)
  else if l =? 99 then signed (iscntrl c)
  else if l =? 100 then signed (isdigit c)
  else if l =? 103 then signed (isgraph c)
  else if l =? 108 then signed (islower c)
  else if l =? 112 then signed (ispunct c)
  else if l =? 115 then signed (isspace c)
  else if l =? 117 then signed (isupper c)
  else if l =? 119 then signed (isalnum c)
  else if l =? 120 then signed (isxdigit c)
  else if l =? 122 then signed (c =? 0)
  else cl =? c.

(* the captures below ms->level: start and length *)
Notation capture := (Z * Z)%type.
(* a position after the match or NULL, and the captures *)
Definition mres : Type := outcome (option Z * list capture).

Section MATCH.
Variables src pat : list Z.
Definition src_end : Z := slen src.
Definition p_end : Z := slen pat.

(* 383-388; the errors of luaL_error *)
Definition check_capture (cap : list capture) (l : Z) : outcome Z :=
  let l := l - 49 in
  if (l <? 0) || (Z.of_nat (length cap) <=? l) || (snd (nth (Z.to_nat l) cap (0, 0)) =? CAP_UNFINISHED) then Err EFormat else Ok l.
(* 391-396: the loop over level, downwards *)
Fixpoint to_close (cap : list capture) (level : nat) : outcome nat :=
  match level with
  | O => Err EFormat
  | S l => if snd (nth l cap (0, 0)) =? CAP_UNFINISHED then Ok l else to_close cap l
  end.
Definition capture_to_close (cap : list capture) : outcome nat := to_close cap (length cap).

(* 399-420 *)
Fixpoint classend_loop (fuel : nat) (p : Z) : outcome Z :=
  match fuel with
  | O => OutOfFuel
  | S fuel =>
    if p =? p_end then Err EFormat
    else
      bind (sbyte pat p) (fun c =>
      let p := p + 1 in
      let p := if (c =? 37) && (p <? p_end) then p + 1 else p in
      bind (sbyte pat p) (fun c => if negb (c =? 93) then classend_loop fuel p else Ok (p + 1)))
  end.
Definition classend (p : Z) : outcome Z :=
  bind (sbyte pat p) (fun c =>
  let p := p + 1 in
  if c =? 37 then if p =? p_end then Err EFormat else Ok (p + 1)
  else if c =? 91 then bind (sbyte pat p) (fun c => classend_loop (S (length pat)) (if c =? 94 then p + 1 else p))
  else Ok p).

(* 444-464 *)
Fixpoint bracket_loop (fuel : nat) (c p ec : Z) (sig : bool) : outcome bool :=
  match fuel with
  | O => OutOfFuel
  | S fuel =>
    let p := p + 1 in
    if negb (p <? ec) then Ok (negb sig)
    else
      bind (sbyte pat p) (fun x =>
      if x =? 37 then
        let p := p + 1 in
        bind (sbyte pat p) (fun y => if match_class c y then Ok sig else bracket_loop fuel c p ec sig)
      else
        bind (sbyte pat (p + 1)) (fun y =>
        if (y =? 45) && (p + 2 <? ec) then
          let p := p + 2 in
          bind (sbyte pat (p - 2)) (fun lo => bind (sbyte pat p) (fun hi =>
          if (lo <=? c) && (c <=? hi) then Ok sig else bracket_loop fuel c p ec sig))
        else if x =? c then Ok sig else bracket_loop fuel c p ec sig))
  end.
Definition matchbracketclass (c p ec : Z) : outcome bool :=
  bind (sbyte pat (p + 1)) (fun x =>
  if x =? 94 then bracket_loop (S (length pat)) c (p + 1) ec false else bracket_loop (S (length pat)) c p ec true).

(* 467-480 *)
Definition singlematch (s p ep : Z) : outcome bool :=
  if src_end <=? s then Ok false
  else
    bind (sbyte src s) (fun c =>
    bind (sbyte pat p) (fun x =>
    if x =? 46 then Ok true
    else if x =? 37 then bind (sbyte pat (p + 1)) (fun cl => Ok (match_class c cl))
    else if x =? 91 then matchbracketclass c p (ep - 1)
    else Ok (x =? c))).

(* 483-502 *)
Fixpoint balance_loop (fuel : nat) (s b e cont : Z) : outcome (option Z) :=
  match fuel with
  | O => OutOfFuel
  | S fuel =>
    let s := s + 1 in
    if s <? src_end then
      bind (sbyte src s) (fun x =>
      if x =? e then let cont := cont - 1 in if cont =? 0 then Ok (Some (s + 1)) else balance_loop fuel s b e cont
      else if x =? b then balance_loop fuel s b e (cont + 1)
      else balance_loop fuel s b e cont)
    else Ok None
  end.
Definition matchbalance (s p : Z) : outcome (option Z) :=
  if p_end - 1 <=? p then Err EFormat
  else
    bind (sbyte src s) (fun x =>
    bind (sbyte pat p) (fun b =>
    if negb (x =? b) then Ok None
    else bind (sbyte pat (p + 1)) (fun e => balance_loop (S (length src)) s b e 1))).

(* 558-567; memcmp compares len bytes, a negative len is a huge size_t *)
Definition match_capture (cap : list capture) (s l : Z) : outcome (option Z) :=
  bind (check_capture cap l) (fun l =>
  let '(init, len) := nth (Z.to_nat l) cap (0, 0) in
  let len := u64 len in
  if len <=? src_end - s then bind (memeq src init src s (Z.to_nat len)) (fun b => Ok (if b then Some (s + len) else None))
  else Ok None).

Section REC.
(* match one level deeper *)
Variable rec : list capture -> Z -> Z -> mres.

(* 505-518 *)
Fixpoint count (fuel : nat) (s p ep : Z) (i : nat) : outcome nat :=
  match fuel with
  | O => OutOfFuel
  | S fuel => bind (singlematch (s + Z.of_nat i) p ep) (fun m => if m then count fuel s p ep (S i) else Ok i)
  end.
(* k is i + 1 *)
Fixpoint max_loop (k : nat) (cap : list capture) (s ep : Z) : mres :=
  match k with
  | O => Ok (None, cap)
  | S i => bind (rec cap (s + Z.of_nat i) (ep + 1)) (fun '(r, cap) => match r with Some e => Ok (Some e, cap) | None => max_loop i cap s ep end)
  end.
Definition max_expand (cap : list capture) (s p ep : Z) : mres :=
  bind (count (S (length src)) s p ep 0) (fun i => max_loop (S i) cap s ep).
(* 521-531 *)
Fixpoint min_expand (fuel : nat) (cap : list capture) (s p ep : Z) : mres :=
  match fuel with
  | O => OutOfFuel
  | S fuel =>
    bind (rec cap s (ep + 1)) (fun '(r, cap) =>
    match r with
    | Some e => Ok (Some e, cap)
    | None => bind (singlematch s p ep) (fun m => if m then min_expand fuel cap (s + 1) p ep else Ok (None, cap))
    end)
  end.
(* 534-545 *)
Definition start_capture (cap : list capture) (s p what : Z) : mres :=
  if MAXCAPTURES <=? Z.of_nat (length cap) then Err EFormat
  else bind (rec (cap ++ [(s, what)]) s p) (fun '(r, cap) => match r with Some e => Ok (Some e, cap) | None => Ok (None, removelast cap) end).
(* 548-555 *)
Definition set_len (cap : list capture) (l : nat) (len : Z) : list capture :=
  firstn l cap ++ match skipn l cap with (init, _) :: r => (init, len) :: r | [] => [] end.
Definition end_capture (cap : list capture) (s p : Z) : mres :=
  bind (capture_to_close cap) (fun l =>
  bind (rec (set_len cap l (s - fst (nth l cap (0, 0)))) s p) (fun '(r, cap) =>
  match r with Some e => Ok (Some e, cap) | None => Ok (None, set_len cap l CAP_UNFINISHED) end)).

(* 570-666: the body of match; "goto init" is a further round of the loop *)
Definition dflt (again : list capture -> Z -> Z -> mres) (cap : list capture) (s p : Z) : mres :=
  bind (classend p) (fun ep =>
  bind (singlematch s p ep) (fun m =>
  bind (sbyte pat ep) (fun x =>
  if negb m then
    if (x =? 42) || (x =? 63) || (x =? 45) then again cap s (ep + 1) else Ok (None, cap)
  else if x =? 63 then
    bind (rec cap (s + 1) (ep + 1)) (fun '(r, cap) => match r with Some e => Ok (Some e, cap) | None => again cap s (ep + 1) end)
  else if x =? 43 then max_expand cap (s + 1) p ep
  else if x =? 42 then max_expand cap s p ep
  else if x =? 45 then min_expand (S (length src)) cap s p ep
  else again cap (s + 1) ep))).
Fixpoint init_loop (fuel : nat) (cap : list capture) (s p : Z) : mres :=
  match fuel with
  | O => OutOfFuel
  | S fuel =>
    let again := init_loop fuel in
    if p =? p_end then Ok (Some s, cap)
    else
      bind (sbyte pat p) (fun x =>
      if x =? 40 then
        bind (sbyte pat (p + 1)) (fun y => if y =? 41 then start_capture cap s (p + 2) CAP_POSITION else start_capture cap s (p + 1) CAP_UNFINISHED)
      else if x =? 41 then end_capture cap s (p + 1)
      else if (x =? 36) && (p + 1 =? p_end) then Ok (if s =? src_end then Some s else None, cap)
      else if x =? 37 then
        bind (sbyte pat (p + 1)) (fun y =>
        if y =? 98 then
          bind (matchbalance s (p + 2)) (fun r => match r with Some s => again cap s (p + 4) | None => Ok (None, cap) end)
        else if y =? 102 then
          let p := p + 2 in
          bind (sbyte pat p) (fun z =>
          if negb (z =? 91) then Err EFormat
          else
            bind (classend p) (fun ep =>
            bind (if s =? 0 then Ok 0 else sbyte src (s - 1)) (fun previous =>
            bind (matchbracketclass previous p (ep - 1)) (fun b1 =>
            if b1 then Ok (None, cap)
            else
              bind (sbyte src s) (fun current =>
              bind (matchbracketclass current p (ep - 1)) (fun b2 => if b2 then again cap s ep else Ok (None, cap)))))))
        else if isdigit y then
          bind (match_capture cap s y) (fun r => match r with Some s => again cap s (p + 2) | None => Ok (None, cap) end)
        else dflt again cap s p)
      else dflt again cap s p)
  end.
End REC.

(* match with matchdepth = d *)
Fixpoint match_ (d : nat) (cap : list capture) (s p : Z) : mres :=
  match d with
  | O => Err ELoop
  | S d => init_loop (match_ d) (S (length pat)) cap s p
  end.
End MATCH.

(* results on the Lua stack *)
Inductive val := VNil | VInt (n : Z) | VStr (s : list Z).

(* 693-722; s is None for NULL. Pushing strings copies capl bytes *)
Definition get_onecapture (src : list Z) (cap : list capture) (i : Z) (s : option Z) (e : Z) : outcome val :=
  if Z.of_nat (length cap) <=? i then
    if negb (i =? 0) then Err EFormat
    else match s with Some s => bind (sread src s (Z.to_nat (e - s))) (fun l => Ok (VStr l)) | None => UB end
  else
    let '(init, capl) := nth (Z.to_nat i) cap (0, 0) in
    if capl =? CAP_UNFINISHED then Err EFormat
    else if capl =? CAP_POSITION then Ok (VInt (init + 1))
    else if capl <? 0 then UB
    else bind (sread src init (Z.to_nat capl)) (fun l => Ok (VStr l)).
(* 725-733 *)
Fixpoint push_loop (src : list Z) (cap : list capture) (s : option Z) (e i : Z) (n : nat) : outcome (list val) :=
  match n with
  | O => Ok []
  | S n => bind (get_onecapture src cap i s e) (fun v => bind (push_loop src cap s e (i + 1) n) (fun l => Ok (v :: l)))
  end.
Definition push_captures (src : list Z) (cap : list capture) (s : option Z) (e : Z) : outcome (list val) :=
  let nlevels := match cap, s with [], Some _ => 1%nat | _, _ => length cap end in
  push_loop src cap s e 0 nlevels.

(* 769-815 str_find_aux *)
Fixpoint find_loop (fuel : nat) (src pat : list Z) (find anchor : bool) (s1 p : Z) : outcome (list val) :=
  match fuel with
  | O => OutOfFuel
  | S fuel =>
    bind (match_ src pat MAXCCALLS [] s1 p) (fun '(r, cap) =>
    match r with
    | Some e =>
      if find then bind (push_captures src cap None 0) (fun l => Ok (VInt (s1 + 1) :: VInt e :: l))
      else push_captures src cap (Some s1) e
    | None => if (s1 <? slen src) && negb anchor then find_loop fuel src pat find anchor (s1 + 1) p else Ok [VNil]
    end)
  end.
Definition str_find_aux (src pat : list Z) (init : option Z) (plain find : bool) : outcome (list val) :=
  let i := u64 (posrelatI (match init with Some i => i | None => 1 end) (slen src) - 1) in
  if slen src <? i then Ok [VNil]
  else
    bind (if find then str_find_plain src pat init plain else Ok None) (fun o =>
    match o with
    | Some (Some (a, b)) => Ok [VInt a; VInt b]
    | Some None => Ok [VNil]
    | None =>
      bind (sbyte pat 0) (fun x =>
      let anchor := x =? 94 in
      find_loop (S (length src)) src pat find anchor i (if anchor then 1 else 0))
    end).

(* 834-848 gmatch_aux: the loop over src; gm->src and gm->lastmatch *)
Fixpoint gmatch_loop (fuel : nat) (s pat : list Z) (src : Z) (lastmatch : option Z) : outcome (option (list val * Z)) :=
  match fuel with
  | O => OutOfFuel
  | S fuel =>
    if negb (src <=? slen s) then Ok None
    else
      bind (match_ s pat MAXCCALLS [] src 0) (fun '(r, cap) =>
      match r with
      | Some e =>
        if match lastmatch with Some l => negb (e =? l) | None => true end
        then bind (push_captures s cap (Some src) e) (fun l => Ok (Some (l, e)))
        else gmatch_loop fuel s pat (src + 1) lastmatch
      | None => gmatch_loop fuel s pat (src + 1) lastmatch
      end)
  end.
Definition gmatch_aux (s pat : list Z) (st : Z * option Z) : outcome (option (list val) * (Z * option Z)) :=
  let '(src, last) := st in
  bind (gmatch_loop (S (S (length s))) s pat src last) (fun r =>
  match r with Some (l, e) => Ok (Some l, (e, Some e)) | None => Ok (None, (src, last)) end).
(* 851-867 *)
Definition gmatch (s pat : list Z) (init : option Z) : Z * option Z :=
  let i := u64 (posrelatI (match init with Some i => i | None => 1 end) (slen s) - 1) in
  (if slen s <? i then slen s + 1 else i, None).
(* the calls a generic for makes *)
Fixpoint gmatch_all (fuel : nat) (s pat : list Z) (st : Z * option Z) : outcome (list (list val)) :=
  match fuel with
  | O => OutOfFuel
  | S fuel => bind (gmatch_aux s pat st) (fun '(o, st) =>
      match o with Some l => bind (gmatch_all fuel s pat st) (fun r => Ok (l :: r)) | None => Ok [] end)
  end.

Section GSUB.
(* a position capture added to the buffer as a string, luaL_addvalue *)
Variable tostr : Z -> list Z.
(* 870-896 add_s. news from position q on, l bytes left *)
Fixpoint add_s_loop (fuel : nat) (src : list Z) (cap : list capture) (news : list Z) (q l s e : Z) (b : list Z) : outcome (list Z) :=
  match fuel with
  | O => OutOfFuel
  | S fuel =>
    bind (memchr news q 37 (Z.to_nat l)) (fun o =>
    match o with
    | None => bind (sread news q (Z.to_nat l)) (fun r => Ok (b ++ r))
    | Some p =>
      bind (sread news q (Z.to_nat (p - q))) (fun r =>
      let b := b ++ r in
      let p := p + 1 in
      bind (sbyte news p) (fun x =>
      bind (if x =? 37 then Ok (b ++ [37])
            else if x =? 48 then bind (sread src s (Z.to_nat (e - s))) (fun r => Ok (b ++ r))
            else if isdigit x then
              bind (get_onecapture src cap (x - 49) (Some s) e) (fun v => Ok (b ++ match v with VStr t => t | VInt n => tostr n | VNil => [] end))
            else Err EFormat) (fun b =>
      add_s_loop fuel src cap news (p + 1) (l - (p + 1 - q)) s e b)))
    end)
  end.
Definition add_s (src : list Z) (cap : list capture) (news : list Z) (s e : Z) (b : list Z) : outcome (list Z) :=
  add_s_loop (S (length news)) src cap news 0 (slen news) s e b.

(* the replacement: a string, or a function or table; what a call or an index access gives is
   None for nil or false, the string for a string or number, an error otherwise *)
Inductive repl := RString (news : list Z) | RCall (f : list val -> outcome (option (list Z))) | RIndex (f : val -> outcome (option (list Z))).
(* 904-939 *)
Definition add_value (src : list Z) (cap : list capture) (tr : repl) (s e : Z) (b : list Z) : outcome (list Z * bool) :=
  let finish v :=
    match v with
    | None => bind (sread src s (Z.to_nat (e - s))) (fun r => Ok (b ++ r, false))
    | Some r => Ok (b ++ r, true)
    end in
  match tr with
  | RCall f => bind (push_captures src cap (Some s) e) (fun l => bind (f l) finish)
  | RIndex f => bind (get_onecapture src cap 0 (Some s) e) (fun v => bind (f v) finish)
  | RString news => bind (add_s src cap news s e b) (fun b => Ok (b, true))
  end.
(* 942-986: the loop, giving the buffer, src, n and changed *)
Fixpoint gsub_loop (fuel : nat) (s pat : list Z) (tr : repl) (max_s : Z) (anchor : bool) (p src : Z) (lastmatch : option Z) (n : Z) (changed : bool) (b : list Z) : outcome (list Z * Z * Z * bool) :=
  match fuel with
  | O => OutOfFuel
  | S fuel =>
    if negb (n <? max_s) then Ok (b, src, n, changed)
    else
      bind (match_ s pat MAXCCALLS [] src p) (fun '(r, cap) =>
      let skip (_ : unit) :=
        if src <? slen s then
          bind (sbyte s src) (fun c =>
          let b := b ++ [c] in
          let src := src + 1 in
          if anchor then Ok (b, src, n, changed) else gsub_loop fuel s pat tr max_s anchor p src lastmatch n changed b)
        else Ok (b, src, n, changed) in
      match r with
      | Some e =>
        if match lastmatch with Some l => negb (e =? l) | None => true end then
          let n := n + 1 in
          bind (add_value s cap tr src e b) (fun '(b, ch) =>
          let changed := ch || changed in
          if anchor then Ok (b, e, n, changed) else gsub_loop fuel s pat tr max_s anchor p e (Some e) n changed b)
        else skip tt
      | None => skip tt
      end)
  end.
Definition str_gsub (s pat : list Z) (tr : repl) (max_s : option Z) : outcome (list Z * Z) :=
  let max_s := match max_s with Some m => m | None => s64 (u64 (slen s + 1)) end in
  bind (sbyte pat 0) (fun x =>
  let anchor := x =? 94 in
  bind (gsub_loop (2 * (length s + 2)) s pat tr max_s anchor (if anchor then 1 else 0) 0 None 0 false []) (fun '(b, src, n, changed) =>
  if negb changed then Ok (s, n)
  else bind (sread s src (Z.to_nat (slen s - src))) (fun r => Ok (b ++ r, n)))).
End GSUB.
