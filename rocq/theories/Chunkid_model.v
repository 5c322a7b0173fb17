(* The name of a chunk in messages.

   Modelled: /repo/src/lobject.c:571-614 luaO_chunkid.

   Simplified: the source is a list of bytes ended by a zero byte; out is written
   from its start on without gaps, so that the bytes written so far are a list.
   A read outside the source and a write outside the buffer of bufflen bytes are
   undefined behaviour.  size_t wraps around. *)

Require Import Verif.Base.
From Coq Require Import ZArith List Bool.
Import ListNotations.
Local Open Scope Z_scope.
Local Open Scope outcome_scope.

Definition zlen (l : list Z) : Z := Z.of_nat (length l).

(* "...", "[string \"", "\"]" *)
Definition RETS : list Z := [46; 46; 46].
Definition PRE : list Z := [91; 115; 116; 114; 105; 110; 103; 32; 34].
Definition POS : list Z := [34; 93].

(* memcpy(out, src + off, n), out += n *)
Definition addstr (room : Z) (out src : list Z) (off n : Z) : outcome (list Z) :=
  if (0 <=? off) && (0 <=? n) && (off + n <=? zlen src) && (zlen out + n <=? room) then
    Ok (out ++ firstn (Z.to_nat n) (skipn (Z.to_nat off) src))
  else UB.

(* strchr(source, '\n') - source *)
Fixpoint newline (s : list Z) (i : Z) : option Z :=
  match s with [] => None | c :: s' => if c =? 10 then Some i else newline s' (i + 1) end.

(* s: the source without its zero byte *)
Definition luaO_chunkid (s : list Z) (bufflen : Z) : outcome (list Z) :=
  let src := s ++ [0] in
  let room := bufflen in
  let l := zlen s in
  let c := hd 0 src in
  if c =? 61 then                                              (* '=' *)
    if l <=? bufflen then addstr room [] src 1 l
    else
      do out <- addstr room [] src 1 (u64 (bufflen - 1));
      addstr room out [0] 0 1
  else if c =? 64 then                                         (* '@' *)
    if l <=? bufflen then addstr room [] src 1 l
    else
      do out <- addstr room [] RETS 0 3;
      let bufflen := u64 (bufflen - 3) in
      addstr room out src (1 + l - bufflen) bufflen
  else
    let nl := newline s 0 in
    do out <- addstr room [] PRE 0 9;
    let bufflen := u64 (bufflen - 15) in
    do out <- (if (l <? bufflen) && match nl with None => true | Some _ => false end then addstr room out src 0 l
               else
                 let l := match nl with Some i => i | None => l end in
                 let l := if bufflen <? l then bufflen else l in
                 do out <- addstr room out src 0 l;
                 addstr room out RETS 0 3);
    addstr room out (POS ++ [0]) 0 3.
