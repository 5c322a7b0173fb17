(* Model of the UTF-8 encoder (lobject.c) and of the utf8 library (lutf8lib.c). *)
Require Import ZArith List Bool.
From Verif Require Import Base Str.
Import ListNotations.
Open Scope Z_scope.

Definition MAXUNICODE : Z := 1114111.      (* lutf8lib.c:24, 0x10FFFF *)
Definition MAXUTF : Z := 2147483647.       (* lutf8lib.c:26, 0x7FFFFFFF *)
Definition UTF8BUFFSZ : Z := 8.            (* lobject.h:866 *)

(* lobject.c:355-359: the loop adding continuation bytes backwards; acc holds the bytes
   already written.  x is an unsigned long, mfb an unsigned int. *)
Fixpoint esc_loop (fuel : nat) (x mfb : Z) (acc : list Z) : outcome (Z * Z * list Z) :=
  match fuel with
  | O => OutOfFuel
  | S f =>
    let acc' := Z.lor 128 (Z.land x 63) :: acc in
    let x' := Z.shiftr x 6 in
    let mfb' := Z.shiftr mfb 1 in
    if UTF8BUFFSZ <=? Z.of_nat (length acc') then UB    (* write outside buff *)
    else if mfb' <? x' then esc_loop f x' mfb' acc' else Ok (x', mfb', acc')
  end.

(* lobject.c:348-363 luaO_utf8esc: the bytes buff[UTF8BUFFSZ-n .. UTF8BUFFSZ-1].  The first
   byte is cast_char((~mfb << 1) | x), computed in 64 bits and truncated to 8. *)
Definition luaO_utf8esc (x : Z) : outcome (list Z) :=
  if x <? 128 then Ok [x]
  else bind (esc_loop 8 x 63 []) (fun '(x', mfb, acc) =>
       Ok ((Z.lor (u32 (2 * (two32 - 1 - mfb))) x') mod 256 :: acc)).

(* lutf8lib.c:38 *)
Definition iscont (b : Z) : bool := Z.land b 192 =? 128.

(* lutf8lib.c:43-47 u_posrelat *)
Definition u_posrelat (pos len : Z) : outcome Z :=
  if 0 <=? pos then Ok pos
  else if len <? u64 (0 - u64 pos) then Ok 0
  else bind (c_signed (s64 len + pos)) (fun t => c_signed (t + 1)).

(* lutf8lib.c:66-71: reads the continuation bytes; c is an unsigned int, res a utfint
   (32 bits). None = invalid sequence. *)
Fixpoint dec_loop (fuel : nat) (s : list Z) (p c res count : Z) : outcome (option (Z * Z * Z)) :=
  if Z.land c 64 =? 0 then Ok (Some (c, res, count)) else
  match fuel with
  | O => OutOfFuel
  | S f =>
    let count' := count + 1 in
    bind (sbyte s (p + count')) (fun cc =>
    if negb (Z.land cc 192 =? 128) then Ok None
    else dec_loop f s p (u32 (Z.shiftl c 1)) (Z.lor (u32 (Z.shiftl res 6)) (Z.land cc 63)) count')
  end.

(* lutf8lib.c:58-59 limits *)
Definition dec_limit (count : Z) : Z :=
  nth (Z.to_nat count) [4294967295; 128; 2048; 65536; 2097152; 67108864] 0.

(* lutf8lib.c:57-84 utf8_decode at position p: value and next position, or None. A shift of
   a 32-bit value by 32 or more is undefined. *)
Definition utf8_decode (s : list Z) (p : Z) (strict : bool) : outcome (option (Z * Z)) :=
  let fin res next :=
    if strict && ((MAXUNICODE <? res) || ((55296 <=? res) && (res <=? 57343))) then Ok None
    else Ok (Some (res, next + 1)) in
  bind (sbyte s p) (fun c =>
  if c <? 128 then fin c p
  else
    bind (dec_loop 8 s p c 0 0) (fun r =>
    match r with
    | None => Ok None
    | Some (c', res, count) =>
      if 32 <=? count * 5 then UB else
      let res' := Z.lor res (u32 (Z.shiftl (Z.land c' 127) (count * 5))) in
      if (5 <? count) || (MAXUTF <? res') || (res' <? dec_limit count) then Ok None
      else fin res' (p + count)
    end)).

(* lutf8lib.c:103-113: the counting loop *)
Fixpoint utflen_loop (fuel : nat) (s : list Z) (posi posj n : Z) (lax : bool)
  : outcome (Z + Z) :=                       (* inl count | inr position of the error *)
  if posj <? posi then Ok (inl n) else
  match fuel with
  | O => OutOfFuel
  | S f =>
    bind (utf8_decode s posi (negb lax)) (fun r =>
    match r with
    | None => Ok (inr (posi + 1))
    | Some (_, next) => utflen_loop f s next posj (n + 1) lax
    end)
  end.

(* lutf8lib.c:92-115 utflen, with i and j as given by the caller (defaults 1 and -1) *)
Definition utflen (s : list Z) (i j : Z) (lax : bool) : outcome (Z + Z) :=
  bind (u_posrelat i (slen s)) (fun posi =>
  bind (u_posrelat j (slen s)) (fun posj =>
  if negb ((1 <=? posi) && (posi - 1 <=? slen s)) then Err EArg
  else if negb (posj - 1 <? slen s) then Err EArg
  else utflen_loop (S (length s)) s (posi - 1) (posj - 1) 0 lax)).

(* lutf8lib.c:139-146 *)
Fixpoint codepoint_loop (fuel : nat) (s : list Z) (p se : Z) (lax : bool) (acc : list Z)
  : outcome (list Z) :=
  if negb (p <? se) then Ok (rev acc) else
  match fuel with
  | O => OutOfFuel
  | S f =>
    bind (utf8_decode s p (negb lax)) (fun r =>
    match r with
    | None => Err EFormat
    | Some (code, next) => codepoint_loop f s next se lax (code :: acc)
    end)
  end.

(* lutf8lib.c:122-148 codepoint; [maxstack] is the number of free stack slots that
   luaL_checkstack can provide. j has already been defaulted to i. *)
Definition codepoint (maxstack : Z) (s : list Z) (i j : Z) (lax : bool) : outcome (list Z) :=
  bind (u_posrelat i (slen s)) (fun posi =>
  bind (u_posrelat j (slen s)) (fun pose =>
  if negb (1 <=? posi) then Err EArg
  else if negb (pose <=? slen s) then Err EArg
  else if pose <? posi then Ok []
  else if two31 - 1 <=? pose - posi then Err ETooLong
  else if maxstack <? pose - posi + 1 then Err ETooLong
  else codepoint_loop (S (length s)) s (posi - 1) pose lax [])).

(* lutf8lib.c:151-176 utfchar *)
Fixpoint utfchar (codes : list Z) : outcome (list Z) :=
  match codes with
  | [] => Ok []
  | c :: r => if MAXUTF <? u64 c then Err EArg
              else bind (luaO_utf8esc (u64 c)) (fun b => bind (utfchar r) (fun t => Ok (b ++ t)))
  end.

(* lutf8lib.c:193: while (posi > 0 && iscont(s + posi)) posi-- *)
Fixpoint back_cont (fuel : nat) (s : list Z) (posi : Z) : outcome Z :=
  if negb (0 <? posi) then Ok posi else
  match fuel with
  | O => OutOfFuel
  | S f => bind (sbyte s posi) (fun b => if iscont b then back_cont f s (posi - 1) else Ok posi)
  end.

(* lutf8lib.c:199-204: move back *)
Fixpoint move_back (fuel : nat) (s : list Z) (n posi : Z) : outcome (Z * Z) :=
  if negb ((n <? 0) && (0 <? posi)) then Ok (n, posi) else
  match fuel with
  | O => OutOfFuel
  | S f => bind (back_cont (length s) s (posi - 1)) (fun p' => move_back f s (n + 1) p')
  end.

(* lutf8lib.c:209-211 and 232: while (iscont(s + posi)) posi++ *)
Fixpoint fwd_cont (fuel : nat) (s : list Z) (posi : Z) : outcome Z :=
  match fuel with
  | O => OutOfFuel
  | S f => bind (sbyte s posi) (fun b => if iscont b then fwd_cont f s (posi + 1) else Ok posi)
  end.

(* lutf8lib.c:208-213: move forward *)
Fixpoint move_fwd (fuel : nat) (s : list Z) (n posi : Z) : outcome (Z * Z) :=
  if negb ((0 <? n) && (posi <? slen s)) then Ok (n, posi) else
  match fuel with
  | O => OutOfFuel
  | S f => bind (fwd_cont (S (length s)) s (posi + 1)) (fun p' => move_fwd f s (n - 1) p')
  end.

(* lutf8lib.c:183-221 byteoffset; i = None means the default starting position *)
Definition byteoffset (s : list Z) (n : Z) (i : option Z) : outcome (option Z) :=
  let i0 := match i with Some x => x | None => if 0 <=? n then 1 else slen s + 1 end in
  bind (u_posrelat i0 (slen s)) (fun posi1 =>
  if negb ((1 <=? posi1) && (posi1 - 1 <=? slen s)) then Err EArg else
  let posi := posi1 - 1 in
  bind (if n =? 0 then bind (back_cont (length s) s posi) (fun p => Ok (0, p))
        else bind (sbyte s posi) (fun b =>
             if iscont b then Err EFormat
             else if n <? 0 then move_back (length s) s n posi
             else move_fwd (length s) s (n - 1) posi)) (fun '(n', p) =>
  Ok (if n' =? 0 then Some (p + 1) else None))).

(* lutf8lib.c:224-245 iter_aux: [prev] is the control value; None = iteration ends *)
Definition iter_aux (s : list Z) (prev : Z) (strict : bool) : outcome (option (Z * Z)) :=
  bind (c_signed (prev - 1)) (fun n0 =>
  bind (if n0 <? 0 then Ok 0
        else if n0 <? slen s then fwd_cont (S (length s)) s (n0 + 1)
        else Ok n0) (fun n =>
  if slen s <=? n then Ok None
  else bind (utf8_decode s n strict) (fun r =>
       match r with
       | None => Err EFormat
       | Some (code, _) => Ok (Some (n + 1, code))
       end))).

(* The generic for loop over utf8.codes(s): iter_codes (lutf8lib.c:257-264) starts with
   control value 0. Returns the visited (position, code) pairs. *)
Fixpoint codes_loop (fuel : nat) (s : list Z) (prev : Z) (strict : bool) : outcome (list (Z * Z)) :=
  match fuel with
  | O => OutOfFuel
  | S f =>
    bind (iter_aux s prev strict) (fun r =>
    match r with
    | None => Ok []
    | Some (p, c) => bind (codes_loop f s p strict) (fun t => Ok ((p, c) :: t))
    end)
  end.
Definition codes (s : list Z) (strict : bool) : outcome (list (Z * Z)) :=
  codes_loop (S (length s)) s 0 strict.
