(* Model of ldump.c (binary chunks), lundump.c and the buffered reader of lzio.c. Sizes as on LP64.
   Memory errors, the garbage collector and the C stack are left out. *)
Require Import ZArith List Bool.
From Verif Require Import Base Str Pack_model.
Import ListNotations.
Open Scope Z_scope.

(* Prototypes, lobject.h:477-546. Strings by their contents, None for NULL. Left out: the closure
   cache and the JIT state, which are not dumped. samesrc: the pointer in source equals the one in the
   enclosing function (NULL for a main function). *)
Inductive const := KNil | KBool (b : Z) | KFlt (bits : Z) | KInt (n : Z) | KStr (s : list Z).
Record upv := mkUp { u_name : option (list Z); u_user : option (list Z); u_type : Z; u_instack : Z; u_idx : Z }.
Record locv := mkLoc { l_name : option (list Z); l_user : option (list Z); l_start : Z; l_end : Z; l_type : Z }.
Inductive proto := Proto (source : option (list Z)) (samesrc : bool) (linedefined lastlinedefined numparams is_vararg maxstacksize : Z)
  (code : list Z) (k : list const) (upvalues : list upv) (p : list proto) (lineinfo : list Z) (locvars : list locv).
Definition psource (f : proto) : option (list Z) := let (s, _, _, _, _, _, _, _, _, _, _, _, _) := f in s.
Definition pupvalues (f : proto) : list upv := let (_, _, _, _, _, _, _, _, _, u, _, _, _) := f in u.

Definition ANY : Z := 4294967295.                      (* RAVI_TM_ANY, lobject.h *)
Definition MAXSHORTLEN : Z := 40.                      (* llimits.h:227 *)
Definition LUAC_INT : Z := 22136.                      (* 0x5678, lundump.h *)
Definition LUAC_NUM : Z := 4645225521121067008.        (* the bits of 370.5 *)
Definition LUAC_VERSION : Z := 83.                     (* 5 * 16 + 3 *)
Definition LUAC_FORMAT : Z := 1.
Definition SIGNATURE : list Z := [27; 82; 97; 118; 105].        (* "\x1bRavi", lua.h:31 *)
Definition LUAC_DATA : list Z := [25; 147; 13; 10; 26; 10].

Definition num {A} (l : list A) : Z := Z.of_nat (length l).

Section NATIVE.
Variable native_little : bool.
Notation mem := (in_memory native_little).

(* ---- ldump.c. The blocks passed to the writer, in order ---- *)
(* DumpBlock, 45-51, while the status is 0 *)
Definition blk (b : list Z) : list (list Z) := match b with [] => [] | _ => [b] end.
Definition DumpByte (y : Z) : list (list Z) := blk [y mod 256].                   (* 57-60 *)
Definition DumpInt (x : Z) : list (list Z) := blk (mem (u32 x) 4).                (* 63-65 *)
Definition DumpNumber (x : Z) : list (list Z) := blk (mem x 8).                   (* 68-70 *)
Definition DumpInteger (x : Z) : list (list Z) := blk (mem (u64 x) 8).            (* 73-75 *)
(* 78-92 *)
Definition DumpString (s : option (list Z)) : list (list Z) :=
  match s with
  | None => DumpByte 0
  | Some s =>
    let size := u64 (slen s + 1) in
    (if size <? 255 then DumpByte size else DumpByte 255 ++ blk (mem size 8)) ++ blk s
  end.
(* DumpVector of 4-byte elements *)
Definition words (l : list Z) : list Z := flat_map (fun w => mem (u32 w) 4) l.
Definition DumpCode (code : list Z) : list (list Z) := DumpInt (slen code) ++ blk (words code).   (* 95-98 *)
(* ttype: the tag with its variant *)
Definition tag (c : const) : Z :=
  match c with KNil => 0 | KBool _ => 1 | KFlt _ => 3 | KInt _ => 19 | KStr s => if slen s <=? MAXSHORTLEN then 4 else 20 end.
(* 103-132 *)
Definition DumpConstant (c : const) : list (list Z) :=
  DumpByte (tag c) ++
  match c with KNil => [] | KBool b => DumpByte b | KFlt x => DumpNumber x | KInt n => DumpInteger n | KStr s => DumpString (Some s) end.
Definition DumpConstants (k : list const) : list (list Z) := DumpInt (num k) ++ flat_map DumpConstant k.
(* 144-151 *)
Definition DumpUpvalues (l : list upv) : list (list Z) := DumpInt (num l) ++ flat_map (fun u => DumpByte (u_instack u) ++ DumpByte (u_idx u)) l.
(* 161-164 and 178-181: the loop downwards, then i + 1 *)
Fixpoint last_typed (types : list Z) (i : nat) : nat :=
  match i with O => O | S j => if nth j types ANY =? ANY then last_typed types j else S j end.
(* 153-190 *)
Definition DumpDebug (strip : bool) (lineinfo : list Z) (locvars : list locv) (upvalues : list upv) : list (list Z) :=
  let li := if strip then [] else lineinfo in
  let n := if strip then last_typed (map l_type locvars) (length locvars) else length locvars in
  let m := if strip then last_typed (map u_type upvalues) (length upvalues) else length upvalues in
  DumpInt (slen li) ++ blk (words li) ++
  DumpInt (Z.of_nat n) ++
  flat_map (fun v => DumpString (if strip then None else l_name v) ++ DumpInt (l_start v) ++ DumpInt (l_end v) ++ DumpInt (l_type v) ++ DumpString (l_user v)) (firstn n locvars) ++
  DumpInt (Z.of_nat m) ++
  flat_map (fun u => DumpString (if strip then None else u_name u) ++ DumpInt (u_type u) ++ DumpString (u_user u)) (firstn m upvalues).
(* 193-208 with DumpProtos, 135-141 *)
Fixpoint DumpFunction (strip : bool) (f : proto) : list (list Z) :=
  let (source, samesrc, line, lastline, np, va, ms, code, k, ups, ps, li, lv) := f in
  (if strip || samesrc then DumpString None else DumpString source) ++
  DumpInt line ++ DumpInt lastline ++ DumpByte np ++ DumpByte va ++ DumpByte ms ++
  DumpCode code ++ DumpConstants k ++ DumpUpvalues ups ++
  (DumpInt (num ps) ++ flat_map (DumpFunction strip) ps) ++
  DumpDebug strip li lv ups.
(* 211-223 *)
Definition DumpHeader : list (list Z) :=
  blk SIGNATURE ++ DumpByte LUAC_VERSION ++ DumpByte LUAC_FORMAT ++ blk LUAC_DATA ++
  DumpByte 4 ++ DumpByte 8 ++ DumpByte 4 ++ DumpByte 8 ++ DumpByte 8 ++ DumpInteger LUAC_INT ++ DumpNumber LUAC_NUM.
Definition dump_blocks (strip : bool) (f : proto) : list (list Z) := DumpHeader ++ DumpByte (num (pupvalues f)) ++ DumpFunction strip f.
(* the writer is a function on some state; nothing is written after it failed (45-51, 229-241) *)
Section WRITER.
Variable W : Type.
Variable writer : W -> list Z -> W * Z.
Fixpoint write_blocks (w : W) (bs : list (list Z)) : W * Z :=
  match bs with
  | [] => (w, 0)
  | b :: bs => let '(w, status) := writer w b in if status =? 0 then write_blocks w bs else (w, status)
  end.
Definition luaU_dump (w : W) (strip : bool) (f : proto) : W * Z := write_blocks w (dump_blocks strip f).
End WRITER.
(* string.dump, lstrlib.c:221-242: the buffer takes every block; its limit is left out *)
Definition str_dump (f : proto) (strip : bool) : list Z := fst (luaU_dump (list Z) (fun w b => (w ++ b, 0)) [] strip f).

(* ---- lzio.c: the unread bytes of the current piece and the pieces the reader will still return.
   An empty piece stands for "no more data" as well. ---- *)
Definition zio : Type := (list Z * list (list Z))%type.
(* luaZ_read, 48-67; None when bytes are missing *)
Fixpoint zread (buf : list Z) (pieces : list (list Z)) (n : Z) : option (list Z * zio) :=
  if n =? 0 then Some ([], (buf, pieces))
  else if n <=? slen buf then Some (firstn (Z.to_nat n) buf, (skipn (Z.to_nat n) buf, pieces))
  else
    match pieces with
    | [] => None
    | [] :: _ => None
    | p :: ps => match zread p ps (n - slen buf) with Some (l, z) => Some (buf ++ l, z) | None => None end
    end.
(* zgetc, lzio.h:20 and luaZ_fill, 23-35; None is EOZ *)
Definition zgetc (z : zio) : option (Z * zio) :=
  match z with
  | (c :: buf, pieces) => Some (c, (buf, pieces))
  | ([], (c :: buf) :: pieces) => Some (c, (buf, pieces))
  | _ => None
  end.

(* ---- lundump.c ---- *)
Definition reader (A : Type) : Type := zio -> outcome (A * zio).
Definition ret {A} (a : A) : reader A := fun z => Ok (a, z).
Definition fail {A} (e : error) : reader A := fun _ => Err e.
Definition undef {A} : reader A := fun _ => UB.
Definition rbind {A B} (m : reader A) (k : A -> reader B) : reader B := fun z => bind (m z) (fun '(a, z) => k a z).
Notation "'load' x <- m ; k" := (rbind m (fun x => k)) (at level 200, x name, m at level 100, k at level 200).
(* 56-59 *)
Definition LoadBlock (size : Z) : reader (list Z) := fun z => match zread (fst z) (snd z) size with Some r => Ok r | None => Err ETruncated end.
Definition LoadByte : reader Z := load b <- LoadBlock 1; ret (of_memory native_little b).            (* 65-69 *)
Definition LoadInt : reader Z := load b <- LoadBlock 4; ret (s32 (of_memory native_little b)).       (* 72-76 *)
Definition LoadNumber : reader Z := load b <- LoadBlock 8; ret (of_memory native_little b).          (* 79-83 *)
Definition LoadInteger : reader Z := load b <- LoadBlock 8; ret (s64 (of_memory native_little b)).   (* 86-90 *)
(* 93-109. For long strings the size of the object, sizeof(UTString) = 24 bytes and a zero byte more,
   may wrap: the block is then too small for the data *)
Definition LoadString : reader (option (list Z)) :=
  load size <- LoadByte;
  load size <- (if size =? 255 then LoadNumber else ret size);
  if size =? 0 then ret None
  else
    let size := size - 1 in
    if size <=? MAXSHORTLEN then load s <- LoadBlock size; ret (Some s)
    else if two64 <=? size + 25 then undef
    else load s <- LoadBlock size; ret (Some s).
(* luaM_newvector(L, n, t): a negative n asks for almost 2^64 bytes, which cannot be allocated *)
Definition newvector (n : Z) : reader unit := if n <? 0 then fail ETooLong else ret tt.
Fixpoint split_words (l : list Z) : list Z :=
  match l with
  | a :: b :: c :: d :: l => of_memory native_little [a; b; c; d] :: split_words l
  | _ => []
  end.
Fixpoint times {A} (n : nat) (m : reader A) : reader (list A) :=
  match n with O => ret [] | S n => load a <- m; load l <- times n m; ret (a :: l) end.
(* 112-117 *)
Definition LoadWords : reader (list Z) :=
  load n <- LoadInt; load _ <- newvector n; load b <- LoadBlock (n * 4); ret (split_words b).
(* 130-153; a string that is NULL is dereferenced by setsvalue2n *)
Definition LoadConstant : reader const :=
  load t <- LoadByte;
  if t =? 0 then ret KNil
  else if t =? 1 then load b <- LoadByte; ret (KBool b)
  else if t =? 3 then load x <- LoadNumber; ret (KFlt x)
  else if t =? 19 then load n <- LoadInteger; ret (KInt n)
  else if (t =? 4) || (t =? 20) then load s <- LoadString; match s with None => undef | Some s => ret (KStr s) end
  else ret KNil.
(* 123-154 *)
Definition LoadConstants : reader (list const) :=
  load n <- LoadInt; load _ <- newvector n; times (Z.to_nat n) LoadConstant.
(* 171-186 *)
Definition LoadUpvalues : reader (list upv) :=
  load n <- LoadInt; load _ <- newvector n;
  times (Z.to_nat n) (load i <- LoadByte; load x <- LoadByte; ret (mkUp None None ANY i x)).
(* 188-203 *)
Definition old_type (t : Z) : Z :=
  if t =? 1 then 8 else if t =? 2 then 16 else if t =? 3 then 32 else if t =? 4 then 64 else if t =? 5 then 513
  else if t =? 6 then 128 else if t =? 7 then 257 else if t =? 8 then 1 else if t =? 9 then 7 else if t =? 10 then 1025 else ANY.
Definition LoadType (version : Z) : reader Z :=
  if version =? 0 then load t <- LoadByte; ret (old_type t) else load t <- LoadInt; ret (u32 t).
(* 214-224 *)
Definition LoadLocvar (version : Z) : reader locv :=
  load nm <- LoadString; load st <- LoadInt; load en <- LoadInt; load ty <- LoadType version; load us <- LoadString; ret (mkLoc nm us st en ty).
(* 225-230; an index beyond the upvalues is written outside the block *)
Fixpoint LoadUpvalNames (version : Z) (n : nat) (ups : list upv) : reader (list upv) :=
  match n with
  | O => ret ups
  | S n =>
    match ups with
    | [] => undef
    | u :: ups =>
      load nm <- LoadString; load ty <- LoadType version; load us <- LoadString;
      load r <- LoadUpvalNames version n ups; ret (mkUp nm us ty (u_instack u) (u_idx u) :: r)
    end
  end.
(* 234-248 with LoadProtos, 157-168, and LoadDebug, 205-231. fuel bounds the depth of nested functions *)
Fixpoint LoadFunction (fuel : nat) (version : Z) (parent : option (list Z)) : reader proto :=
  match fuel with
  | O => fun _ => OutOfFuel
  | S fuel =>
    load s <- LoadString;
    let source := match s with None => parent | Some s => Some s end in
    load line <- LoadInt; load lastline <- LoadInt; load np <- LoadByte; load va <- LoadByte; load ms <- LoadByte;
    load code <- LoadWords;
    load k <- LoadConstants;
    load ups <- LoadUpvalues;
    load n <- LoadInt; load _ <- newvector n;
    load ps <- times (Z.to_nat n) (LoadFunction fuel version source);
    load li <- LoadWords;
    load n <- LoadInt; load _ <- newvector n;
    load lv <- times (Z.to_nat n) (LoadLocvar version);
    load n <- LoadInt;
    load ups <- LoadUpvalNames version (Z.to_nat n) ups;
    ret (Proto source (match s with None => true | Some _ => false end) line lastline np va ms code k ups ps (map s32 li) lv)
  end.
(* 251-257 *)
Definition checkliteral (s : list Z) : reader unit :=
  load b <- LoadBlock (slen s); if list_eq_dec Z.eq_dec s b then ret tt else fail EFormat.
(* 260-263 *)
Definition checksize (n : Z) : reader unit := load b <- LoadByte; if b =? n then ret tt else fail EFormat.
(* 268-285; the number is compared as a float *)
Definition checkHeader : reader Z :=
  load _ <- checkliteral (tl SIGNATURE);
  load v <- LoadByte;
  if negb (v =? LUAC_VERSION) then fail EFormat
  else
    load version <- LoadByte;
    if LUAC_FORMAT <? version then fail EFormat
    else
      load _ <- checkliteral LUAC_DATA;
      load _ <- checksize 4; load _ <- checksize 8; load _ <- checksize 4; load _ <- checksize 8; load _ <- checksize 8;
      load i <- LoadInteger;
      if negb (i =? LUAC_INT) then fail EFormat
      else
        load x <- LoadNumber;
        if negb (x =? LUAC_NUM) then fail EFormat else ret version.
(* 291-311: the number of upvalues of the closure and its prototype *)
Definition luaU_undump (fuel : nat) : reader (Z * proto) :=
  load version <- checkHeader;
  load n <- LoadByte;
  load f <- LoadFunction fuel version None;
  ret (n, f).
(* f_parser, ldo.c:872-895. mode: None for NULL *)
Inductive loaded := Binary (nupvalues : Z) (f : proto) | Text.
Definition allows (mode : option (list Z)) (c : Z) : bool := match mode with None => true | Some m => existsb (Z.eqb c) m end.
Definition f_parser (fuel : nat) (mode : option (list Z)) : zio -> outcome (loaded) := fun z =>
  match zgetc z with
  | Some (27, z) => if allows mode 98 then bind (luaU_undump fuel z) (fun '((n, f), _) => Ok (Binary n f)) else Err EFormat
  | _ => if allows mode 116 then Ok Text else Err EFormat
  end.
End NATIVE.
