(* Name resolution in the parser: lparser.c new_localvar, getlocvar, raviY_get_register_typeinfo,
   adjustlocalvars, removevars, searchupvalue, newupvalue, searchvar, markupval, singlevaraux, singlevar,
   enterblock, leaveblock, open_func, close_func, mainfunc, localfunc (the part for defer). *)
Require Import ZArith List Bool Arith.
From Verif Require Import Base.
Import ListNotations.
Local Open Scope nat_scope.
Local Open Scope outcome_scope.

(* a TString *: short strings are interned, eqstr is equality of pointers (lstring.h) *)
Definition name := Z.
(* ravi_type_map *)
Definition typ := Z.
Definition T_ANY : typ := (-1)%Z.

(* lparser.c:41, lfunc.h:29 *)
Definition MAXVARS := 125.
Definition MAXUPVAL := 125.
Definition cast_byte (n : nat) : nat := n mod 256.

(* lobject.h Upvaldesc *)
Record upvd := mkU { uname : name; uinstack : bool; uidx : nat; utype : typ }.
(* lparser.c BlockCnt: nactvar and upval *)
Record blk := mkB { bnact : nat; bupval : bool }.
(* lparser.h FuncState; blks is the list bl, bl->previous, .. *)
Record func := mkF { firstlocal : nat; nactvar : nat; ups : list upvd; blks : list blk }.
(* Dyndata.actvar (an entry stands for the LocVar its idx denotes) and the list ls->fs, fs->prev, .. *)
Record pstate := mkP { actvar : list (name * typ); funs : list func }.

(* expdesc: k and u.info *)
Inductive expk := VVoid | VLocal (r : nat) | VUpval (i : nat).
(* luaX_syntaxerror "too many .." (lparser.c errorlimit) *)
Notation lim := (Err ETooLong).

(* lparser.c:445-454 getlocvar *)
Definition getlocvar (av : list (name * typ)) (f : func) (i : nat) : option (name * typ) := nth_error av (firstlocal f + i).
(* lparser.c:472-489 raviY_get_register_typeinfo *)
Definition get_register_typeinfo (av : list (name * typ)) (f : func) (r : nat) : typ :=
  if nactvar f <=? r then T_ANY else if length av <=? firstlocal f + r then T_ANY else match getlocvar av f r with Some (_, t) => t | None => T_ANY end.
(* lparser.c:524-531 searchupvalue *)
Fixpoint searchupvalue_from (us : list upvd) (n : name) (i : nat) : option nat :=
  match us with [] => None | u :: us => if Z.eqb (uname u) n then Some i else searchupvalue_from us n (S i) end.
Definition searchupvalue (f : func) (n : name) : option nat := searchupvalue_from (ups f) n 0.
(* lparser.c:534-551 newupvalue; the index returned is fs->nups before *)
Definition newupvalue (f : func) (n : name) (e : expk) (t : typ) : outcome (func * nat) :=
  if MAXUPVAL <? length (ups f) + 1 then lim else
  let u := match e with
           | VLocal r => mkU n true (cast_byte r) t
           | VUpval i => mkU n false (cast_byte i) t
           | VVoid => mkU n false 0 t
           end in
  Ok (mkF (firstlocal f) (nactvar f) (ups f ++ [u]) (blks f), length (ups f)).
(* lparser.c:556-563 searchvar: for (i = nactvar - 1; i >= 0; i--) *)
Fixpoint searchvar_from (av : list (name * typ)) (f : func) (n : name) (i : nat) : option nat :=
  match i with
  | O => None
  | S i => match getlocvar av f i with
           | Some (m, _) => if Z.eqb n m then Some i else searchvar_from av f n i
           | None => searchvar_from av f n i
           end
  end.
Definition searchvar (av : list (name * typ)) (f : func) (n : name) : option nat := searchvar_from av f n (nactvar f).
(* lparser.c:570-575 markupval; running off the list is the access to a null pointer *)
Fixpoint markblk (bs : list blk) (level : nat) : outcome (list blk) :=
  match bs with
  | [] => UB
  | b :: bs => if level <? bnact b then do bs <- markblk bs level; Ok (b :: bs) else Ok (mkB (bnact b) true :: bs)
  end.
Definition markupval (f : func) (level : nat) : outcome func :=
  do bs <- markblk (blks f) level; Ok (mkF (firstlocal f) (nactvar f) (ups f) bs).
(* lparser.c:582-607 singlevaraux *)
Fixpoint singlevaraux (av : list (name * typ)) (fs : list func) (n : name) (base : bool) : outcome (expk * typ * list func) :=
  match fs with
  | [] => Ok (VVoid, T_ANY, [])
  | f :: r =>
    match searchvar av f n with
    | Some v =>
      let t := get_register_typeinfo av f v in
      if base then Ok (VLocal v, t, f :: r) else do f <- markupval f v; Ok (VLocal v, t, f :: r)
    | None =>
      match searchupvalue f n with
      | Some i => match nth_error (ups f) i with Some u => Ok (VUpval i, utype u, f :: r) | None => UB end
      | None =>
        do '((e, t), r) <- singlevaraux av r n false;
        match e with
        | VVoid => Ok (VVoid, T_ANY, f :: r)
        | _ =>
          do '(f, i) <- newupvalue f n e t;
          match nth_error (ups f) i with Some u => Ok (VUpval i, utype u, f :: r) | None => UB end
        end
      end
    end
  end.

(* what the parser does for the events of the source text *)
Inductive op :=
| New (n : name) (t : typ)     (* new_localvar *)
| Activate (k : nat)           (* adjustlocalvars *)
| Enter                        (* enterblock *)
| Leave                        (* leaveblock of an inner block *)
| Open                         (* open_func *)
| Finish                       (* close_func of an inner function *)
| Defer                        (* markupval in localfunc for a deferred function *)
| Use (n : name).              (* singlevar *)
(* what it emits: the operand of a variable; the level of a jump that closes upvalues; the upvalues
   of a prototype, from which OP_CLOSURE makes the closure *)
Inductive event :=
| Quiet
| Variable_ (e : expk) (t : typ)
| Global_ (e : expk)           (* a field of the variable e *)
| CloseAt (level : option nat)
| Proto_ (us : list upvd).

Section parser.
(* ls->envn, the name "_ENV" *)
Variable envn : name.

(* lparser.c:612-625 singlevar *)
Definition singlevar (p : pstate) (n : name) : outcome (pstate * event) :=
  do '((e, t), fs) <- singlevaraux (actvar p) (funs p) n true;
  match e with
  | VVoid =>
    do '((e, t), fs) <- singlevaraux (actvar p) fs envn true;
    match e with VVoid => UB | _ => Ok (mkP (actvar p) fs, Global_ e) end
  | _ => Ok (mkP (actvar p) fs, Variable_ e t)
  end.
(* lparser.c:419-435 new_localvar *)
Definition new_localvar (p : pstate) (n : name) (t : typ) : outcome pstate :=
  match funs p with
  | f :: _ => if MAXVARS <? length (actvar p) + 1 - firstlocal f then lim else Ok (mkP (actvar p ++ [(n, t)]) (funs p))
  | [] => UB
  end.
(* lparser.c:496-503 adjustlocalvars; the access to the variable is asserted to be valid *)
Definition adjustlocalvars (p : pstate) (k : nat) : outcome pstate :=
  match funs p with
  | f :: r =>
    let n := cast_byte (nactvar f + k) in
    if length (actvar p) <? firstlocal f + n then UB else Ok (mkP (actvar p) (mkF (firstlocal f) n (ups f) (blks f) :: r))
  | [] => UB
  end.
(* lparser.c:883-894 enterblock *)
Definition enterblock (p : pstate) : outcome pstate :=
  match funs p with
  | f :: r => Ok (mkP (actvar p) (mkF (firstlocal f) (nactvar f) (ups f) (mkB (nactvar f) false :: blks f) :: r))
  | [] => UB
  end.
(* lparser.c:921-941 leaveblock with removevars (lparser.c:509-514) *)
Definition leaveblock (p : pstate) : outcome (pstate * option nat) :=
  match funs p with
  | f :: r =>
    match blks f with
    | b :: bs =>
      let close := match bs with [] => None | _ :: _ => if bupval b then Some (bnact b) else None end in
      let n := length (actvar p) - (nactvar f - bnact b) in
      Ok (mkP (firstn n (actvar p)) (mkF (firstlocal f) (Nat.min (nactvar f) (bnact b)) (ups f) bs :: r), close)
    | [] => UB
    end
  | [] => UB
  end.
(* lparser.c:989-1011 open_func *)
Definition open_func (p : pstate) : outcome pstate :=
  enterblock (mkP (actvar p) (mkF (length (actvar p)) 0 [] [] :: funs p)).
(* lparser.c:1013-1037 close_func *)
Definition close_func (p : pstate) : outcome (pstate * list upvd) :=
  do '(p, _) <- leaveblock p;
  match funs p with f :: r => Ok (mkP (actvar p) r, ups f) | [] => UB end.
(* lparser.c:2268-2272 localfunc *)
Definition defer_mark (p : pstate) : outcome pstate :=
  match funs p with f :: r => do f <- markupval f (nactvar f); Ok (mkP (actvar p) (f :: r)) | [] => UB end.

Definition step (p : pstate) (o : op) : outcome (pstate * event) :=
  match o with
  | New n t => do p <- new_localvar p n t; Ok (p, Quiet)
  | Activate k => do p <- adjustlocalvars p k; Ok (p, Quiet)
  | Enter => do p <- enterblock p; Ok (p, Quiet)
  | Leave => do '(p, c) <- leaveblock p; Ok (p, CloseAt c)
  | Open => do p <- open_func p; Ok (p, Quiet)
  | Finish => do '(p, us) <- close_func p; Ok (p, Proto_ us)
  | Defer => do p <- defer_mark p; Ok (p, Quiet)
  | Use n => singlevar p n
  end.
(* lparser.c:2497-2506 mainfunc: the main function has the upvalue _ENV *)
Definition init : pstate := mkP [] [mkF 0 0 [mkU envn true 0 T_ANY] [mkB 0 false]].
Fixpoint steps (p : pstate) (os : list op) : outcome pstate :=
  match os with [] => Ok p | o :: os => do '(p, _) <- step p o; steps p os end.
End parser.
