(* Model of the parser for statements (lparser.c) on top of the code generator for expressions.
   Modelled: assignments to local variables, calls, declarations of one local variable, do, if, while,
   repeat and break.  Not modelled: assignments to other variables and to several variables, for,
   return, goto, functions and therefore upvalues of the blocks (luaK_patchclose).  A call whose result
   is not used keeps one result (C = 2 instead of 1), in a register that is free afterwards. *)
Require Import ZArith List Bool Arith.
From Verif Require Import Base Float_model Op_model Gen_model Gen_spec.
Import ListNotations.
Local Open Scope nat_scope.

(* Local variables are numbers, the register of the variable: a declaration introduces the next one.
   The clauses of an if statement begin with CThen. *)
Inductive stat :=
| SAssign (r : nat) (x : expr) | SCall (f : expr) (l : args) | SLocal (t : tmap) (x : expr)
| SDo (b : block) | SWhile (x : expr) (b : block) | SRepeat (b : block) (x : expr) | SIf (c : clauses) | SBreak
with block := BNil | BCons (s : stat) (b : block)
with clauses := CEnd | CElse (b : block) | CThen (x : expr) (b : block) (c : clauses).

(* lparser.c:945-966 leaveblock, removevars: the variables of the block are out of scope *)
Definition leave (fs0 fs : fstate) : fstate := mkfs (code fs) (jpc fs) (ks fs) (nactvar fs0) (nactvar fs0) (lty fs0) (uty fs).
(* lparser.c:2495 the end of statement: the registers of temporary values are free *)
Definition endstat (fs : fstate) : fstate := with_free fs (nactvar fs).
(* lcode.c:275-283 luaK_patchlist with a target before the current position (luaK_jumpto) *)
Definition patchback (fs : fstate) (l : list nat) (d : nat) : fstate :=
  if Nat.eqb d (pc fs) then patchtohere fs l else with_code fs (patchlistaux (code fs) l d None (Some d)).
(* lparser.c:626-646 ravi_code_typecoersion *)
Definition typecoersion (fs : fstate) (r : nat) (t : tmap) : fstate :=
  match conv_of t with Some c => emit fs (Conv r c) | None => fs end.
(* lparser.c:1405-1508 ravi_typecheck for one variable; table constructors are not modelled (v->pc < 0).
   is_call: v->k == VCALL *)
Definition is_call (x : expr) : bool := match x with ECall _ _ => true | _ => false end.
Definition typecheck (fs : fstate) (t : tmap) (call : bool) (e : expdesc) : outcome (fstate * expdesc) :=
  let tv := vindexed_ty e in
  let convert := let '(fs, e) := exp2nextreg fs e in Ok (typecoersion fs (reg_of e) t, e) in
  let scalar := match conv_of t with Some _ => true | None => false end in
  if within tv t then Ok (fs, e)
  else if call then if scalar then Ok (typecoersion fs (reg_of e) t, e) else if Z.eqb tv T_ANY then convert else Err EType
  else if (Z.eqb t T_FARR || Z.eqb t T_IARR) && match ek e with VNonreloc _ => true | _ => false end then Err EType
  else if Z.eqb t T_STR_NIL || Z.eqb t T_FUN_NIL then convert
  else if Z.eqb tv T_ANY then convert
  else Err EType.
(* lparser.c:2296-2329 localstat: one variable and one expression; 713-746 localvar_adjust_assign;
   adjustlocalvars *)
Definition declare (fs : fstate) (t : tmap) : fstate :=
  mkfs (code fs) (jpc fs) (ks fs) (freereg fs) (S (nactvar fs)) (fun r => if r =? nactvar fs then t else lty fs r) (uty fs).

Section gen.
Variable fmod fpow : flt -> flt -> flt.
Notation gen := (gen fmod fpow).
Definition localstat (fs : fstate) (t : tmap) (x : expr) : outcome fstate :=
  bind (gen fs x) (fun '(fs, e) =>
  bind (typecheck fs t (is_call x) e) (fun '(fs, e) =>
  Ok (declare (fst (exp2nextreg fs e)) t))).
(* lparser.c:2230-2235 an escape jump is needed if another part of the if statement follows *)
Definition escape (fs : fstate) (c : clauses) : fstate * list nat := match c with CEnd => (fs, []) | _ => luaK_jump fs end.
(* The results are the state and the breaks that wait for the end of the loop (the pending gotos of
   Dyndata with the name "break", lparser.c:921-928 breaklabel); for clauses also the escape list.
   lparser.c:2399-2497 statement, 1995-2015 whilestat, 2017-2039 repeatstat, 2212-2262 test_then_block, ifstat,
   1939-1950 gotostat *)
Fixpoint gstat (fs : fstate) (s : stat) : outcome (fstate * list nat) :=
  match s with
  | SAssign r x => bind (gen fs x) (fun '(fs, e) => bind (storelocal fs r e) (fun fs => Ok (endstat fs, [])))
  | SCall f l => bind (gen fs (ECall f l)) (fun '(fs, e) => Ok (endstat fs, []))
  | SLocal t x => bind (localstat fs t x) (fun fs => Ok (endstat fs, []))
  | SDo b => bind (gblock fs b) (fun '(fs1, bl) => Ok (leave fs fs1, bl))
  | SWhile x b =>
    bind (gen fs x) (fun '(fs1, e) =>
    let '(fs2, lf) := cond fs1 e in
    bind (gblock fs2 b) (fun '(fs3, bl) =>
    let '(fs4, j) := luaK_jump (leave fs fs3) in
    let fs5 := patchback fs4 j (pc fs) in
    Ok (endstat (patchtohere (patchtohere fs5 bl) lf), [])))
  | SRepeat b x =>
    bind (gblock fs b) (fun '(fs1, bl) =>
    bind (gen fs1 x) (fun '(fs2, e) =>
    let '(fs3, lf) := cond fs2 e in
    Ok (patchtohere (patchback (leave fs fs3) lf (pc fs)) bl, [])))
  | SIf c => bind (gclauses fs c) (fun '(fs1, bl, esc) => Ok (endstat (patchtohere fs1 esc), bl))
  | SBreak => let '(fs, j) := luaK_jump fs in Ok (fs, j)
  end
with gblock (fs : fstate) (b : block) : outcome (fstate * list nat) :=
  match b with
  | BNil => Ok (fs, [])
  | BCons s b => bind (gstat fs s) (fun '(fs, bl) => bind (gblock fs b) (fun '(fs, bl') => Ok (fs, bl ++ bl')))
  end
with gclauses (fs : fstate) (c : clauses) : outcome (fstate * list nat * list nat) :=
  match c with
  | CEnd => Ok (fs, [], [])
  | CElse b => bind (gblock fs b) (fun '(fs1, bl) => Ok (leave fs fs1, bl, []))
  | CThen x b c =>
    bind (gen fs x) (fun '(fs1, e) =>
    let rest fs0 jf bl0 '(fs3, bl) :=
      let '(fs4, j) := escape (leave fs0 fs3) c in
      bind (gclauses (patchtohere fs4 jf) c) (fun '(fs5, bl', esc) => Ok (fs5, bl0 ++ bl ++ bl', j ++ esc)) in
    match b with
    | BCons SBreak BNil =>
      let '(fs2, e) := goiffalse fs1 e in
      bind (gclauses (leave fs fs2) c) (fun '(fs3, bl, esc) => Ok (fs3, et e ++ bl, esc))
    | BCons SBreak b =>
      let '(fs2, e) := goiffalse fs1 e in
      let '(fs3, jf) := luaK_jump fs2 in
      bind (gblock fs3 b) (rest fs jf (et e))
    | _ =>
      let '(fs2, e) := goiftrue fs1 e in
      bind (gblock fs2 b) (rest fs (ef e) [])
    end)
  end.
(* the body of a function: lparser.c:963-966, a break that is in no loop is an error (undefgoto) *)
Definition gbody (fs : fstate) (b : block) : outcome fstate :=
  bind (gblock fs b) (fun '(fs, bl) => match bl with [] => Ok fs | _ => Err EType end).
End gen.
