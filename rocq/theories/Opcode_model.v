(* Model of the instruction encoding (lopcodes.h) and of the jump lists and the
   LOADNIL peephole of the code generator (lcode.c). *)
Require Import ZArith List Bool.
From Verif Require Import Base.
Import ListNotations.
Open Scope Z_scope.

(* lopcodes.h:52-56 *)
Definition MAXARG_A : Z := 127.
Definition MAXARG_B : Z := 255.
Definition MAXARG_C : Z := 255.
Definition MAXARG_Bx : Z := 65535.
Definition MAXARG_sBx : Z := 32768.     (* lopcodes.h:65 *)
Definition NO_REG : Z := MAXARG_A.      (* lopcodes.h:112 *)

(* lopcodes.h:58-64 field readers; an Instruction is a 32-bit unsigned word *)
Definition GET_OPCODE (i : Z) : Z := Z.land i 255.
Definition GETARG_A (i : Z) : Z := Z.land (Z.shiftr i 8) 127.
Definition GETARG_B (i : Z) : Z := Z.shiftr i 24.
Definition GETARG_C (i : Z) : Z := Z.land (Z.shiftr i 16) 255.
Definition GETARG_Bx (i : Z) : Z := Z.shiftr i 16.
Definition GETARG_Ax (i : Z) : Z := Z.shiftr i 8.
Definition GETARG_sBx (i : Z) : Z := GETARG_Bx i - MAXARG_sBx.

(* lopcodes.h:67-68 setbc_byte: store byte x at byte offset ofs of the word (byte 0 is
   the least significant one, on either endianness). *)
Definition setbc_byte (p x ofs : Z) : Z :=
  Z.lor (Z.land p (Z.lnot (Z.shiftl 255 (8 * ofs)))) (Z.shiftl (x mod 256) (8 * ofs)).

(* lopcodes.h:70-77 *)
Definition SET_OPCODE (p x : Z) : Z := setbc_byte p x 0.
Definition SETARG_A (p x : Z) : Z := setbc_byte p (Z.land x 127) 1.
Definition SETARG_B (p x : Z) : Z := setbc_byte p x 3.
Definition SETARG_C (p x : Z) : Z := setbc_byte p x 2.
(* store of the upper unsigned short *)
Definition SETARG_Bx (p x : Z) : Z :=
  Z.lor (Z.land p 65535) (Z.shiftl (x mod 65536) 16).
Definition SETARG_sBx (p x : Z) : Z := SETARG_Bx p (u32 (u32 x + MAXARG_sBx)).

(* lopcodes.h:80-90 *)
Definition CREATE_ABC (o a b c : Z) : Z :=
  Z.lor (Z.lor (Z.lor (u32 o) (u32 (Z.shiftl (u32 a) 8))) (u32 (Z.shiftl (u32 b) 24)))
        (u32 (Z.shiftl (u32 c) 16)).
Definition CREATE_ABx (o a bc : Z) : Z :=
  Z.lor (Z.lor (u32 o) (u32 (Z.shiftl (u32 a) 8))) (u32 (Z.shiftl (u32 bc) 16)).
Definition CREATE_Ax (o a : Z) : Z := Z.lor (u32 o) (u32 (Z.shiftl (u32 a) 8)).

(* lopcodes.h:93-106: register-or-constant operands *)
Definition BITRK : Z := 128.
Definition ISK (x : Z) : bool := negb (Z.land x BITRK =? 0).
Definition INDEXK (r : Z) : Z := Z.land r (Z.lnot BITRK).
Definition RKASK (x : Z) : Z := Z.lor x BITRK.

(* lopcodes.h:126ff enum OpCode: numbers of the opcodes used here *)
Definition OP_LOADNIL : Z := 4.
Definition OP_JMP : Z := 30.
Definition OP_TEST : Z := 34.
Definition OP_TESTSET : Z := 35.
(* lopcodes.c:176ff luaP_opmodes: the opcodes with the 't' flag (next instruction is a
   jump): EQ LT LE TEST TESTSET and the typed comparisons EQ_II .. LE_FF *)
Definition testTMode (o : Z) : bool :=
  ((31 <=? o) && (o <=? 35)) || ((101 <=? o) && (o <=? 106)).

(* Function state: code array, list of pending jumps to the next instruction, last
   label (lparser.h FuncState: f->code[0..pc), jpc, lasttarget). *)
Record fstate : Type := mkFS { code : list Z; jpc : Z; lasttarget : Z }.
Definition pc (fs : fstate) : Z := Z.of_nat (length (code fs)).
Definition NO_JUMP : Z := -1.           (* lcode.h:20 *)

Definition code_at (fs : fstate) (p : Z) : option Z :=
  if p <? 0 then None else nth_error (code fs) (Z.to_nat p).
Definition set_code (fs : fstate) (p : Z) (i : Z) : fstate :=
  mkFS (upd (code fs) (Z.to_nat p) i) (jpc fs) (lasttarget fs).

(* lcode.c:97-103 getjump (an access outside the code array is undefined) *)
Definition getjump (fs : fstate) (p : Z) : outcome Z :=
  match code_at fs p with
  | None => UB
  | Some i => let offset := GETARG_sBx i in
              if offset =? NO_JUMP then Ok NO_JUMP else Ok (p + 1 + offset)
  end.

(* lcode.c:110-117 fixjump *)
Definition fixjump (fs : fstate) (p dest : Z) : outcome fstate :=
  match code_at fs p with
  | None => UB
  | Some i => let offset := dest - (p + 1) in
              if MAXARG_sBx <? Z.abs offset then Err ETooLong
              else Ok (set_code fs p (SETARG_sBx i offset))
  end.

(* lcode.c:127-129: find the last element of a list *)
Fixpoint last_jump (fuel : nat) (fs : fstate) (list : Z) : outcome Z :=
  match fuel with
  | O => OutOfFuel
  | S f => bind (getjump fs list) (fun next =>
           if next =? NO_JUMP then Ok list else last_jump f fs next)
  end.

(* lcode.c:123-134 luaK_concat; returns the state and the new head of l1.  A jump list has
   no repeated element, so the length of the code is enough fuel. *)
Definition luaK_concat (fs : fstate) (l1 l2 : Z) : outcome (fstate * Z) :=
  if l2 =? NO_JUMP then Ok (fs, l1)
  else if l1 =? NO_JUMP then Ok (fs, l2)
  else bind (last_jump (S (length (code fs))) fs l1) (fun last =>
       bind (fixjump fs last l2) (fun fs' => Ok (fs', l1))).

(* lcode.c:188-194 getjumpcontrol: position of the controlling instruction *)
Definition getjumpcontrol (fs : fstate) (p : Z) : Z :=
  match code_at fs (p - 1) with
  | Some i => if (1 <=? p) && testTMode (GET_OPCODE i) then p - 1 else p
  | None => p
  end.

(* lcode.c:204-220 patchtestreg: returns whether the control is a TESTSET *)
Definition patchtestreg (fs : fstate) (node reg : Z) : outcome (fstate * bool) :=
  let p := getjumpcontrol fs node in
  match code_at fs p with
  | None => UB
  | Some i =>
    if negb (GET_OPCODE i =? OP_TESTSET) then Ok (fs, false)
    else if negb (reg =? NO_REG) && negb (reg =? GETARG_B i)
         then Ok (set_code fs p (SETARG_A i reg), true)
         else Ok (set_code fs p (CREATE_ABC OP_TEST (GETARG_B i) 0 (GETARG_C i)), true)
  end.

(* lcode.c:237-247 patchlistaux *)
Fixpoint patchlistaux (fuel : nat) (fs : fstate) (list vtarget reg dtarget : Z)
  : outcome fstate :=
  if list =? NO_JUMP then Ok fs else
  match fuel with
  | O => OutOfFuel
  | S f =>
    bind (getjump fs list) (fun next =>
    bind (patchtestreg fs list reg) (fun '(fs1, isset) =>
    bind (fixjump fs1 list (if isset then vtarget else dtarget)) (fun fs2 =>
    patchlistaux f fs2 next vtarget reg dtarget)))
  end.

(* lcode.c:255-258 dischargejpc *)
Definition dischargejpc (fs : fstate) : outcome fstate :=
  bind (patchlistaux (length (code fs)) fs (jpc fs) (pc fs) NO_REG (pc fs)) (fun fs' =>
  Ok (mkFS (code fs') NO_JUMP (lasttarget fs'))).

(* lcode.c:304-317 luaK_code (line information and array growth left out); returns the
   position of the new instruction *)
Definition luaK_code (fs : fstate) (i : Z) : outcome (fstate * Z) :=
  bind (dischargejpc fs) (fun fs' =>
  Ok (mkFS (code fs' ++ [i]) (jpc fs') (lasttarget fs'), pc fs')).

(* lcode.c:336-341 luaK_codeABx; luaK_codeAsBx (lcode.h) passes sBx + MAXARG_sBx *)
Definition luaK_codeAsBx (fs : fstate) (o a sbx : Z) : outcome (fstate * Z) :=
  luaK_code fs (CREATE_ABx o a (sbx + MAXARG_sBx)).
Definition luaK_codeABC (fs : fstate) (o a b c : Z) : outcome (fstate * Z) :=
  luaK_code fs (CREATE_ABC o a b c).

(* lcode.c:143-150 luaK_jump *)
Definition luaK_jump (fs : fstate) : outcome (fstate * Z) :=
  let saved := jpc fs in
  let fs0 := mkFS (code fs) NO_JUMP (lasttarget fs) in
  bind (luaK_codeAsBx fs0 OP_JMP 0 NO_JUMP) (fun '(fs1, j) =>
  luaK_concat fs1 j saved).

(* lcode.c:175-178 luaK_getlabel *)
Definition luaK_getlabel (fs : fstate) : fstate * Z :=
  (mkFS (code fs) (jpc fs) (pc fs), pc fs).

(* lcode.c:265-268 luaK_patchtohere *)
Definition luaK_patchtohere (fs : fstate) (list : Z) : outcome fstate :=
  let fs0 := fst (luaK_getlabel fs) in
  bind (luaK_concat fs0 (jpc fs0) list) (fun '(fs1, l) =>
  Ok (mkFS (code fs1) l (lasttarget fs1))).

(* lcode.c:276-283 luaK_patchlist *)
Definition luaK_patchlist (fs : fstate) (list target : Z) : outcome fstate :=
  if target =? pc fs then luaK_patchtohere fs list
  else patchlistaux (length (code fs)) fs list target NO_REG target.

(* lcode.c:69-91 luaK_nil *)
Definition luaK_nil (fs : fstate) (from n : Z) : outcome fstate :=
  let l := from + n - 1 in
  let emit := bind (luaK_codeABC fs OP_LOADNIL from (n - 1) 0) (fun '(fs', _) => Ok fs') in
  if lasttarget fs <? pc fs then
    match code_at fs (pc fs - 1) with
    | None => UB
    | Some previous =>
      if GET_OPCODE previous =? OP_LOADNIL then
        let pfrom := GETARG_A previous in
        let pl := pfrom + GETARG_B previous in
        if ((pfrom <=? from) && (from <=? pl + 1)) || ((from <=? pfrom) && (pfrom <=? l + 1)) then
          let from' := if pfrom <? from then pfrom else from in
          let l' := if l <? pl then pl else l in
          let p1 := SETARG_A previous from' in
          Ok (set_code fs (pc fs - 1) (SETARG_B p1 (l' - from')))
        else emit
      else emit
    end
  else emit.
