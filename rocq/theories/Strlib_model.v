(* Model of the elementary string functions of lstrlib.c and of plain searching.
   size_t is 64 bits wide, int 32. *)
Require Import ZArith List Bool.
From Verif Require Import Base Str.
Import ListNotations.
Open Scope Z_scope.

Definition INT_MAX : Z := two31 - 1.
Definition MAXSIZE : Z := INT_MAX.                     (* lstrlib.c:49-50 *)

(* lstrlib.c:70-78 posrelatI *)
Definition posrelatI (pos len : Z) : Z :=
  if 0 <? pos then u64 pos
  else if pos =? 0 then 1
  else if pos <? - len then 1
  else u64 (u64 (len + u64 pos) + 1).

(* lstrlib.c:86-96 getendpos, with the argument already defaulted *)
Definition getendpos (pos len : Z) : Z :=
  if len <? pos then len
  else if 0 <=? pos then u64 pos
  else if pos <? - len then 0
  else u64 (u64 (len + u64 pos) + 1).

(* lstrlib.c:99-108 str_sub *)
Definition str_sub (s : list Z) (i j : Z) : outcome (list Z) :=
  let l := slen s in
  let start := posrelatI i l in
  let en := getendpos j l in
  if start <=? en then sread s (start - 1) (Z.to_nat (u64 (u64 (en - start) + 1))) else Ok [].

(* lstrlib.c:111-120 str_reverse: the loop over i *)
Fixpoint rev_loop (s : list Z) (l i : Z) (n : nat) : outcome (list Z) :=
  match n with
  | O => Ok []
  | S k => bind (sbyte s (l - i - 1)) (fun b => bind (rev_loop s l (i + 1) k) (fun r => Ok (b :: r)))
  end.
Definition str_reverse (s : list Z) : outcome (list Z) := rev_loop s (slen s) 0 (length s).

(* lstrlib.c:149-173 str_rep: writes beyond the totallen bytes of the buffer are undefined *)
Definition put (totallen : Z) (out s : list Z) : outcome (list Z) :=
  if totallen <? slen out + slen s then UB else Ok (out ++ s).
Fixpoint rep_loop (k : nat) (totallen : Z) (s sep out : list Z) : outcome (list Z) :=
  match k with
  | O => put totallen out s
  | S k' =>
    bind (put totallen out s) (fun out1 =>
    bind (if 0 <? slen sep then put totallen out1 sep else Ok out1) (fun out2 =>
    rep_loop k' totallen s sep out2))
  end.
Definition str_rep (s : list Z) (n : Z) (sep : list Z) : outcome (list Z) :=
  let l := slen s in
  let lsep := slen sep in
  if n <=? 0 then Ok []
  else if (u64 (l + lsep) <? l) || (MAXSIZE / n <? u64 (l + lsep)) then Err ETooLong
  else
    let totallen := u64 (u64 (n * l) + u64 ((n - 1) * lsep)) in
    bind (rep_loop (Z.to_nat (n - 1)) totallen s sep []) (fun out =>
    (* luaL_pushresultsize takes totallen bytes of the buffer, written or not *)
    if slen out =? totallen then Ok out else UB).

(* lstrlib.c:176-191 str_byte; avail = free stack slots, beyond which checkstack raises *)
Fixpoint bytes_loop (s : list Z) (p : Z) (n : nat) : outcome (list Z) :=
  match n with
  | O => Ok []
  | S k => bind (sbyte s p) (fun b => bind (bytes_loop s (p + 1) k) (fun r => Ok (b :: r)))
  end.
Definition str_byte (avail : Z) (s : list Z) (pi pj : option Z) : outcome (list Z) :=
  let l := slen s in
  let pi := match pi with Some i => i | None => 1 end in
  let posi := posrelatI pi l in
  let pose := getendpos (match pj with Some j => j | None => pi end) l in
  if pose <? posi then Ok []
  else if INT_MAX <=? u64 (pose - posi) then Err ETooLong
  else
    let n := s32 (pose - posi) + 1 in
    if avail <? n then Err ETooLong
    else bytes_loop s (posi - 1) (Z.to_nat n).

(* lstrlib.c:194-206 str_char *)
Fixpoint str_char (args : list Z) : outcome (list Z) :=
  match args with
  | [] => Ok []
  | c :: r => if 255 <? u64 c then Err EArg else bind (str_char r) (fun t => Ok (u64 c :: t))
  end.

(* memchr over n bytes from position p of s (positions relative to the start of s) *)
Fixpoint memchr (s : list Z) (p : Z) (c : Z) (n : nat) : outcome (option Z) :=
  match n with
  | O => Ok None
  | S k => bind (sbyte s p) (fun b => if b =? c then Ok (Some p) else memchr s (p + 1) c k)
  end.
(* memcmp(...) == 0 over n bytes *)
Fixpoint memeq (s : list Z) (p : Z) (t : list Z) (q : Z) (n : nat) : outcome bool :=
  match n with
  | O => Ok true
  | S k => bind (sbyte s p) (fun a => bind (sbyte t q) (fun b =>
           if a =? b then memeq s (p + 1) t (q + 1) k else Ok false))
  end.

(* lstrlib.c:678-687, the loop of lmemfind; s1 is a position in s *)
Fixpoint lmemfind_loop (fuel : nat) (s : list Z) (s1 l1 : Z) (s2 : list Z) (l2 : Z) : outcome (option Z) :=
  if negb (0 <? l1) then Ok None else
  match fuel with
  | O => OutOfFuel
  | S f =>
    bind (sbyte s2 0) (fun c =>
    bind (memchr s s1 c (Z.to_nat l1)) (fun o =>
    match o with
    | None => Ok None
    | Some init =>
      let init := init + 1 in
      bind (memeq s init s2 1 (Z.to_nat l2)) (fun e =>
      if e then Ok (Some (init - 1))
      else lmemfind_loop f s init (u64 (l1 - (init - s1))) s2 l2)
    end))
  end.
(* lstrlib.c:670-690 lmemfind(s + s1, l1, s2, l2) *)
Definition lmemfind (s : list Z) (s1 l1 : Z) (s2 : list Z) : outcome (option Z) :=
  let l2 := slen s2 in
  if l2 =? 0 then Ok (Some s1)
  else if l1 <? l2 then Ok None
  else let l2 := l2 - 1 in lmemfind_loop (S (length s)) s s1 (l1 - l2) s2 l2.

(* lstrlib.c:348 SPECIALS = "^$*+?.([%-" *)
Definition SPECIALS : list Z := [94; 36; 42; 43; 63; 46; 40; 91; 37; 45].
(* strpbrk(p + q, SPECIALS) != NULL: scans up to a zero byte *)
Fixpoint strpbrk (fuel : nat) (p : list Z) (q : Z) : outcome bool :=
  match fuel with
  | O => OutOfFuel
  | S f => bind (sbyte p q) (fun c =>
           if c =? 0 then Ok false
           else if existsb (Z.eqb c) SPECIALS then Ok true else strpbrk f p (q + 1))
  end.
(* strlen(p + q) + q *)
Fixpoint strend (fuel : nat) (p : list Z) (q : Z) : outcome Z :=
  match fuel with
  | O => OutOfFuel
  | S f => bind (sbyte p q) (fun c => if c =? 0 then Ok q else strend f p (q + 1))
  end.
(* lstrlib.c:742-750 nospecials *)
Fixpoint nospecials_loop (fuel : nat) (p : list Z) (upto : Z) : outcome bool :=
  match fuel with
  | O => OutOfFuel
  | S f =>
    bind (strpbrk (S (length p)) p upto) (fun sp =>
    if sp then Ok false else
    bind (strend (S (length p)) p upto) (fun e =>
    let upto := e + 1 in
    if upto <=? slen p then nospecials_loop f p upto else Ok true))
  end.
Definition nospecials (p : list Z) : outcome bool := nospecials_loop (S (length p)) p 0.

(* lstrlib.c:769-788 the plain branch of str_find_aux: start and end, or nil (None);
   "use the pattern matcher" is the result None of the outer option *)
Definition str_find_plain (s p : list Z) (init : option Z) (plain : bool) : outcome (option (option (Z * Z))) :=
  let ls := slen s in
  let lp := slen p in
  let init := u64 (posrelatI (match init with Some i => i | None => 1 end) ls - 1) in
  if ls <? init then Ok (Some None) else
  bind (if plain then Ok true else nospecials p) (fun b =>
  if b then
    bind (lmemfind s init (ls - init) p) (fun o =>
    match o with
    | Some s2 => Ok (Some (Some (s2 + 1, s2 + lp)))
    | None => Ok (Some None)
    end)
  else Ok None).
