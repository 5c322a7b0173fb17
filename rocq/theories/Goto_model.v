(* Gotos and labels in the parser: lparser.c closegoto, findlabel, newlabelentry, findgotos, movegotosout,
   enterblock, breaklabel, leaveblock, gotostat, checkrepeated, labelstat; lcode.c luaK_patchclose.
   The parser runs over the tree of the statements; what matters of them are the blocks, the declarations of
   locals, the labels, the gotos and the number of instructions. *)
Require Import List Bool Arith.
From Verif Require Import Base.
Import ListNotations.
Local Open Scope nat_scope.
Local Open Scope outcome_scope.

(* a TString *: label names are interned; BREAK is the string "break" *)
Definition name := nat.
Definition BREAK : name := 0.

(* SLocal c: a local becomes active, c tells whether some inner function uses it; SCode: one instruction is emitted;
   SBlock loop b: enterblock(fs, bl, loop), b, leaveblock; SFunc: open_func, b, close_func.
   while c do b end  is  SBlock true [SCode; SBlock false b; SCode], repeat b until c  is
   SBlock true [SBlock false (b, SCode)], a for loop is SBlock true [three locals; SBlock false [locals; SBlock false b]; SCode] *)
Inductive stmt := SLocal (c : bool) | SLabel (n : name) | SVoid | SCode | SGoto (n : name) | SBlock (loop : bool) (b : block) | SFunc (b : block)
with block := BNil | BCons (s : stmt) (b : block).

(* lparser.h Labeldesc without the line; for gotos also the operand A of the jump at pc, which no one else changes *)
Record label := mkL { lname : name; lpc : nat; lnact : nat }.
Record goto := mkG { gname : name; gpc : nat; gnact : nat; gA : nat }.
(* lparser.c:57-65 BlockCnt *)
Record blk := mkB { bnact : nat; firstlabel : nat; firstgoto : nat; upval : bool; isloop : bool }.
(* fs->pc (not restarted for inner functions, so that jumps of different functions can be told apart), fs->nactvar,
   dyd->gt, dyd->label, the list fs->bl, bl->previous, .., and the jumps whose target is set: pc, target, A *)
Record st := mkS { pc : nat; nact : nat; gts : list goto; labs : list label; bls : list blk; log : list (nat * nat * nat) }.

(* lcode.c:288-297 luaK_patchclose for the one jump of a goto *)
Definition patchclose (level : nat) (g : goto) : goto := mkG (gname g) (gpc g) (gnact g) (level + 1).

(* lparser.c:784-803 closegoto *)
Definition closegoto (s : st) (g : nat) (lb : label) : outcome st :=
  match nth_error (gts s) g with
  | None => UB
  | Some gt =>
    if gnact gt <? lnact lb then Err EFormat (* jumps into the scope of local *)
    else Ok (mkS (pc s) (nact s) (firstn g (gts s) ++ skipn (S g) (gts s)) (labs s) (bls s) (log s ++ [(gpc gt, lpc lb, gA gt)]))
  end.

Definition set_goto (s : st) (g : nat) (gt : goto) : st :=
  mkS (pc s) (nact s) (firstn g (gts s) ++ gt :: skipn (S g) (gts s)) (labs s) (bls s) (log s).

(* lparser.c:809-827 findlabel *)
Definition findlabel (s : st) (g : nat) : outcome (st * bool) :=
  match bls s, nth_error (gts s) g with
  | bl :: _, Some gt =>
    match find (fun lb => lname lb =? gname gt) (skipn (firstlabel bl) (labs s)) with
    | Some lb =>
      let s := if (lnact lb <? gnact gt) && (upval bl || (firstlabel bl <? length (labs s))) then set_goto s g (patchclose (lnact lb) gt) else s in
      do s <- closegoto s g lb; Ok (s, true)
    | None => Ok (s, false)
    end
  | _, _ => UB
  end.

(* lparser.c:848-857 findgotos, the loop from index i on; fuel: the number of gotos *)
Fixpoint findgotos (fuel : nat) (s : st) (i : nat) (lb : label) : outcome st :=
  if length (gts s) <=? i then Ok s
  else match fuel with
  | 0 => OutOfFuel
  | S f =>
    match nth_error (gts s) i with
    | None => UB
    | Some gt => if gname gt =? lname lb then do s <- closegoto s i lb; findgotos f s i lb else findgotos f s (S i) lb
    end
  end.

(* lparser.c:866-881 movegotosout, the loop from index i on *)
Fixpoint movegotosout (fuel : nat) (s : st) (i : nat) (bl : blk) : outcome st :=
  if length (gts s) <=? i then Ok s
  else match fuel with
  | 0 => OutOfFuel
  | S f =>
    match nth_error (gts s) i with
    | None => UB
    | Some gt =>
      let gt' := if bnact bl <? gnact gt then let g := if upval bl then patchclose (bnact bl) gt else gt in mkG (gname g) (gpc g) (bnact bl) (gA g) else gt in
      do '(s, found) <- findlabel (set_goto s i gt') i;
      movegotosout f s (if found : bool then i else S i) bl
    end
  end.

(* lparser.c:884-894 enterblock *)
Definition enterblock (s : st) (loop : bool) : st :=
  mkS (pc s) (nact s) (gts s) (labs s) (mkB (nact s) (length (labs s)) (length (gts s)) false loop :: bls s) (log s).

(* newlabelentry for labels, then findgotos (lparser.c:830-841, 848) *)
Definition new_label (s : st) (fg : nat) (lb : label) : outcome st :=
  findgotos (length (gts s)) (mkS (pc s) (nact s) (gts s) (labs s ++ [lb]) (bls s) (log s)) fg lb.

(* lparser.c:917-937 leaveblock; lparser.c:900-904 breaklabel *)
Definition leaveblock (s : st) : outcome st :=
  match bls s with
  | [] => UB
  | bl :: prev =>
    let inner := match prev with [] => false | _ => true end in
    let s := if inner && upval bl then mkS (pc s + 1) (nact s) (gts s) (labs s) (bls s) (log s) else s in
    do s <- (if isloop bl then new_label s (firstgoto bl) (mkL BREAK (pc s) (nact s)) else Ok s);
    let s := mkS (pc s) (bnact bl) (gts s) (firstn (firstlabel bl) (labs s)) prev (log s) in
    if inner then movegotosout (length (gts s)) s (firstgoto bl) bl
    else if firstgoto bl <? length (gts s) then Err EFormat (* no visible label *) else Ok s
  end.

(* lparser.c:1947-1960 gotostat, after the jump has been emitted (lparser.c:2030, 2040) *)
Definition gotostat (s : st) (n : name) : outcome st :=
  do '(s, _) <- findlabel (mkS (pc s + 1) (nact s) (gts s ++ [mkG n (pc s) (nact s) 0]) (labs s) (bls s) (log s)) (length (gts s)); Ok s.

(* lparser.c:1964-1996 checkrepeated, labelstat. last: only no-op statements follow in the block (skipnoopstat, block_follow).
   In the code the labels among these are entered before the gotos to this one are resolved, here after; they have other names,
   or it is an error *)
Definition labelstat (s : st) (n : name) (last : bool) : outcome st :=
  match bls s with
  | [] => UB
  | bl :: _ =>
    if existsb (fun lb => lname lb =? n) (skipn (firstlabel bl) (labs s)) then Err EFormat (* label already defined *)
    else new_label s (firstgoto bl) (mkL n (pc s) (if last then bnact bl else nact s))
  end.

(* only no-op statements up to the end of the block: lparser.c:1978 skipnoopstat, 1050 block_follow *)
Fixpoint noops (b : block) : bool := match b with BNil => true | BCons (SLabel _) b | BCons SVoid b => noops b | _ => false end.

(* a local becomes active (adjustlocalvars); its block is marked (markupval, here at once instead of when the variable is used:
   the mark is read only when the block is left) *)
Definition local_active (s : st) (c : bool) : outcome st :=
  match bls s with
  | [] => UB
  | bl :: prev => Ok (mkS (pc s) (nact s + 1) (gts s) (labs s) (mkB (bnact bl) (firstlabel bl) (firstgoto bl) (upval bl || c) (isloop bl) :: prev) (log s))
  end.

(* lparser.c:1061 statlist, 2002 statement, 1110 block, 983 open_func, 1016 close_func *)
Fixpoint gstat (s : st) (x : stmt) (last : bool) : outcome st :=
  match x with
  | SLocal c => local_active s c
  | SLabel n => labelstat s n last
  | SVoid => Ok s
  | SCode => Ok (mkS (pc s + 1) (nact s) (gts s) (labs s) (bls s) (log s))
  | SGoto n => gotostat s n
  | SBlock loop b => do s <- gblock (enterblock s loop) b; leaveblock s
  | SFunc b =>
    do t <- gblock (enterblock (mkS (pc s) 0 (gts s) (labs s) [] (log s)) false) b;
    do t <- leaveblock t;
    Ok (mkS (pc t) (nact s) (gts t) (labs t) (bls s) (log t))
  end
with gblock (s : st) (b : block) : outcome st :=
  match b with
  | BNil => Ok s
  | BCons x b => do s <- gstat s x (noops b); gblock s b
  end.

(* lparser.c:2245 mainfunc: the jumps with their targets and the levels to which they close upvalues *)
Definition compile_gotos (b : block) : outcome (list (nat * nat * nat)) :=
  do s <- gstat (mkS 0 0 [] [] [] []) (SFunc b) false; Ok (log s).
