(* The string buffers of the auxiliary library.

   Modelled, from /repo/src/lauxlib.c:
   - 461-473 resizebox, 482-492 newbox, 499 buffonstack, 505-525 luaL_prepbuffsize,
     528-534 luaL_addlstring, 542-549 luaL_pushresult, 558-566 luaL_addvalue,
     569-574 luaL_buffinit
   and from /repo/include/lauxlib.h:179-183 luaL_addchar, luaL_addsize.

   Simplified:
   - the stack is a list of slots, the top first; a slot is a string or a box (the
     userdata with the block; its header is in the slot).
   - blocks have a number; every allocation and every move gets a new number and the
     old one is dead, so that every use of an old pointer is undefined behaviour.
   - whether the allocator succeeds and what is in fresh memory are parameters.
   - luaL_addvalue is used on strings; the metatable of boxes and the room on the
     Lua stack are left out.
   - the size of the first buffer (luaconf.h:784-786) is a parameter.
   - ETooLong is "buffer too large", EResize "not enough memory for buffer
     allocation". *)

Require Import Verif.Base.
From Coq Require Import ZArith List Bool.
Import ListNotations.
Local Open Scope Z_scope.
Local Open Scope outcome_scope.

Definition len (l : list Z) : Z := Z.of_nat (length l).

Inductive slot := Str (s : list Z) | Box (p : option nat) (bsize : Z).
Inductive ptr := PInit | PBlk (id : nat).

(* lua_State (stack and heap) and luaL_Buffer (lauxlib.h:170-176) *)
Record state := mk {
  stk : list slot;
  heap : nat -> option (list Z);
  next : nat;                  (* the next block *)
  bptr : ptr;                  (* B->b *)
  bn : Z;                      (* B->n *)
  bsz : Z;                     (* B->size *)
  initb : list Z
}.

Section M.
  Variable bufsize : Z.                  (* LUAL_BUFFERSIZE *)
  Variable alloc : nat -> Z -> bool.     (* does the allocation of that block succeed? *)
  Variable junk : nat -> Z.              (* what is in fresh memory *)

  Definition set {A} (h : nat -> A) (i : nat) (x : A) : nat -> A :=
    fun j => if Nat.eqb j i then x else h j.

  (* realloc: the contents up to the smaller size *)
  Definition moved (old : list Z) (id : nat) (newsize : Z) : list Z :=
    let k := Z.to_nat newsize in
    firstn k old ++ repeat (junk id) (k - length old).

  (* the slot with index -1 - i replaced *)
  Fixpoint replace (l : list slot) (i : nat) (x : slot) : list slot :=
    match l, i with
    | [], _ => []
    | _ :: l', O => x :: l'
    | y :: l', S i' => y :: replace l' i' x
    end.

  (* 461-473; the index is -1 - i *)
  Definition resizebox (i : nat) (newsize : Z) (s : state) : outcome state :=
    match nth_error (stk s) i with
    | Some (Box p bsize) =>
        do old <- match p with
                  | None => Ok []
                  | Some id => match heap s id with Some b => if bsize =? len b then Ok b else UB | None => UB end
                  end;
        let h := match p with None => heap s | Some id => set (heap s) id None end in
        if newsize =? 0 then
          Ok (mk (replace (stk s) i (Box None 0)) h (next s) (bptr s) (bn s) (bsz s) (initb s))
        else if alloc (next s) newsize then
          Ok (mk (replace (stk s) i (Box (Some (next s)) newsize))
                 (set h (next s) (Some (moved old (next s) newsize)))
                 (S (next s)) (bptr s) (bn s) (bsz s) (initb s))
        else Err EResize
    | _ => UB
    end.

  (* 482-492 *)
  Definition newbox (newsize : Z) (s : state) : outcome state :=
    resizebox 0 newsize (mk (Box None 0 :: stk s) (heap s) (next s) (bptr s) (bn s) (bsz s) (initb s)).

  (* the block of the box with index -1 *)
  Definition boxptr (s : state) : outcome ptr :=
    match stk s with Box (Some id) _ :: _ => Ok (PBlk id) | _ => UB end.

  (* 499 *)
  Definition buffonstack (s : state) : bool := match bptr s with PInit => false | PBlk _ => true end.

  Definition block (p : ptr) (s : state) : outcome (list Z) :=
    match p with
    | PInit => Ok (initb s)
    | PBlk id => match heap s id with Some b => Ok b | None => UB end
    end.

  Definition read (p : ptr) (n : Z) (s : state) : outcome (list Z) :=
    do b <- block p s;
    if (0 <=? n) && (n <=? len b) then Ok (firstn (Z.to_nat n) b) else UB.

  Definition splice (b : list Z) (off : Z) (d : list Z) : list Z :=
    firstn (Z.to_nat off) b ++ d ++ skipn (Z.to_nat off + length d) b.

  Definition write (p : ptr) (off : Z) (d : list Z) (s : state) : outcome state :=
    do b <- block p s;
    if (0 <=? off) && (off + len d <=? len b) then
      Ok match p with
         | PInit => mk (stk s) (heap s) (next s) (bptr s) (bn s) (bsz s) (splice b off d)
         | PBlk id => mk (stk s) (set (heap s) id (Some (splice b off d))) (next s) (bptr s) (bn s) (bsz s) (initb s)
         end
    else UB.

  (* 505-525 *)
  Definition prepbuffsize (sz : Z) (s : state) : outcome state :=
    if u64 (bsz s - bn s) <? sz then
      let newsize := u64 (bsz s * 2) in
      let newsize := if u64 (newsize - bn s) <? sz then u64 (bn s + sz) else newsize in
      if (newsize <? bn s) || (u64 (newsize - bn s) <? sz) then Err ETooLong
      else
        do s1 <- (if buffonstack s then resizebox 0 newsize s
                  else
                    do s1 <- newbox newsize s;
                    do p <- boxptr s1;
                    do old <- read (bptr s) (bn s) s1;
                    write p 0 old s1);
        do p <- boxptr s1;
        Ok (mk (stk s1) (heap s1) (next s1) p (bn s1) newsize (initb s1))
    else Ok s.

  (* lauxlib.h:183 *)
  Definition addsize (k : Z) (s : state) : state :=
    mk (stk s) (heap s) (next s) (bptr s) (u64 (bn s + k)) (bsz s) (initb s).

  (* 528-534 *)
  Definition addlstring (d : list Z) (s : state) : outcome state :=
    if 0 <? len d then
      do s1 <- prepbuffsize (len d) s;
      do s2 <- write (bptr s1) (bn s1) d s1;
      Ok (addsize (len d) s2)
    else Ok s.

  (* lauxlib.h:179-181 *)
  Definition addchar (c : Z) (s : state) : outcome state :=
    do s1 <- (if bn s <? bsz s then Ok s else prepbuffsize 1 s);
    do s2 <- write (bptr s1) (bn s1) [c] s1;
    Ok (addsize 1 s2).

  Definition with_stack (l : list slot) (s : state) : state :=
    mk l (heap s) (next s) (bptr s) (bn s) (bsz s) (initb s).

  (* lua_remove(L, -2) and lua_remove(L, -1); lua_insert(L, -2) *)
  Definition remove2 (s : state) : outcome state :=
    match stk s with x :: _ :: l => Ok (with_stack (x :: l) s) | _ => UB end.
  Definition remove1 (s : state) : outcome state :=
    match stk s with _ :: l => Ok (with_stack l s) | _ => UB end.
  Definition insert2 (s : state) : outcome state :=
    match stk s with x :: y :: l => Ok (with_stack (y :: x :: l) s) | _ => UB end.

  (* 558-566 *)
  Definition addvalue (s : state) : outcome state :=
    match stk s with
    | Str d :: _ =>
        do s1 <- (if buffonstack s then insert2 s else Ok s);
        do s2 <- addlstring d s1;
        if buffonstack s2 then remove2 s2 else remove1 s2
    | _ => UB
    end.

  (* 542-549 *)
  Definition pushresult (s : state) : outcome state :=
    do d <- read (bptr s) (bn s) s;
    let s1 := with_stack (Str d :: stk s) s in
    if buffonstack s1 then
      do s2 <- resizebox 1 0 s1;
      remove2 s2
    else Ok s1.

  (* 569-574 *)
  Definition buffinit (l : list slot) (h : nat -> option (list Z)) (nx : nat) (ib : list Z) : state :=
    mk l h nx PInit 0 bufsize ib.

  (* what library functions do with a buffer: luaL_addlstring, luaL_addchar, push a
     string and luaL_addvalue, luaL_prepbuffsize(k) then write d and luaL_addsize *)
  Inductive op := OAdd (d : list Z) | OChar (c : Z) | OValue (d : list Z) | OPrep (k : Z) (d : list Z).

  Definition step (o : op) (s : state) : outcome state :=
    match o with
    | OAdd d => addlstring d s
    | OChar c => addchar c s
    | OValue d => addvalue (with_stack (Str d :: stk s) s)
    | OPrep k d =>
        do s1 <- prepbuffsize k s;
        do s2 <- write (bptr s1) (bn s1) d s1;
        Ok (addsize (len d) s2)
    end.

  Fixpoint steps (l : list op) (s : state) : outcome state :=
    match l with
    | [] => Ok s
    | o :: l' => do s1 <- step o s; steps l' s1
    end.

  Definition build (l : list op) (s0 : list slot) (h : nat -> option (list Z)) (nx : nat) (ib : list Z) : outcome state :=
    do s <- steps l (buffinit s0 h nx ib);
    pushresult s.
End M.
