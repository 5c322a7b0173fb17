(* Model of the buffered streams of lzio.c.  A reader returns one piece after the other;
   an empty piece (or NULL) marks the end. *)
Require Import ZArith List Bool.
From Verif Require Import Base.
Import ListNotations.
Open Scope Z_scope.

(* lzio.h:58-64 struct Zio: zn = bytes still unread, zp = what is readable from p on,
   zrest = the pieces the reader will still return (no piece left = NULL) *)
Record zio : Type := mkZ { zn : Z; zp : list Z; zrest : list (list Z) }.

Definition EOZ : Z := -1.              (* lzio.h:16 *)

(* the reader call of luaZ_fill *)
Definition reader (rest : list (list Z)) : list Z * list (list Z) :=
  match rest with [] => ([], []) | b :: r => (b, r) end.

(* lzio.c:24-36 luaZ_fill *)
Definition luaZ_fill (z : zio) : zio * Z :=
  let '(buff, rest) := reader (zrest z) in
  match buff with
  | [] => (mkZ (zn z) (zp z) rest, EOZ)
  | c :: b => (mkZ (Z.of_nat (length b)) b rest, c)
  end.

(* lzio.c:39-45 luaZ_init *)
Definition luaZ_init (pieces : list (list Z)) : zio := mkZ 0 [] pieces.

(* lzio.h:21 zgetc: n is decremented (size_t) before the test of its old value *)
Definition zgetc (z : zio) : outcome (zio * Z) :=
  let n' := u64 (zn z - 1) in
  if 0 <? zn z then
    match zp z with
    | [] => UB                        (* read beyond the piece *)
    | c :: p => Ok (mkZ n' p (zrest z), c)
    end
  else Ok (luaZ_fill (mkZ n' (zp z) (zrest z))).

(* lzio.c:49-68 luaZ_read: the bytes copied to b, and the number of missing bytes *)
Fixpoint luaZ_read (fuel : nat) (z : zio) (n : Z) (b : list Z) : outcome (zio * list Z * Z) :=
  if n =? 0 then Ok (z, b, 0) else
  match fuel with
  | O => OutOfFuel
  | S f =>
    let cont (z : zio) :=
      let m := if n <=? zn z then n else zn z in
      if Z.of_nat (length (zp z)) <? m then UB       (* memcpy beyond the piece *)
      else luaZ_read f (mkZ (zn z - m) (skipn (Z.to_nat m) (zp z)) (zrest z)) (n - m)
                     (b ++ firstn (Z.to_nat m) (zp z)) in
    if zn z =? 0 then
      let '(z1, c) := luaZ_fill z in
      if c =? EOZ then Ok (z1, b, n)
      else cont (mkZ (zn z1 + 1) (c :: zp z1) (zrest z1))     (* put the byte back *)
    else cont z
  end.

(* A consumer of the stream: asks for one byte, or for n bytes at once, and stops at the
   end of the input, as the lexer (llex.c) and the undumper (lundump.c:37-40) do. *)
Inductive consumer (R : Type) : Type :=
| Done (r : R)
| Getc (k : Z -> consumer R) (eof : R)
| Read (n : Z) (k : list Z -> consumer R) (eof : list Z -> R).
Arguments Done {R} r.
Arguments Getc {R} k eof.
Arguments Read {R} n k eof.

Fixpoint consume {R} (c : consumer R) (z : zio) : outcome R :=
  match c with
  | Done r => Ok r
  | Getc k eof => bind (zgetc z) (fun '(z', x) => if x =? EOZ then Ok eof else consume (k x) z')
  | Read n k eof => bind (luaZ_read (S (Z.to_nat n)) z n []) (fun '(z', b, missing) =>
                    if missing =? 0 then consume (k b) z' else Ok (eof b))
  end.
