(* Model of table constructors: the code generated for the list items (lparser.c, lcode.c) and its
   execution (lvm.c OP_SETLIST; raviV_op_setlist, 2807-2860, is the same code for the JIT).
   Registers are counted from the register ra of the new table; registers from the first free one on
   may be changed by the evaluation of an expression (the functions g). Record fields are assumed to
   assign to keys which are no list positions, so that only their use of registers matters. *)
Require Import ZArith List Bool.
From Verif Require Import Base Opcode_model.
Import ListNotations.
Open Scope Z_scope.

Section SETLIST.
Variable V : Type.
Inductive instr :=
| LOAD (r : Z) (v : V) (g : Z -> V)            (* an expression is put into register r *)
| LOADM (r : Z) (vs : list V) (g : Z -> V)     (* a call or ... leaves its values from r on and sets top *)
| SCRATCH (r : Z) (g : Z -> V)                 (* a record field *)
| SETLIST (b c : Z) | EXTRAARG (ax : Z).

(* the items of a constructor; the last may have several values *)
Inductive item := Exp (v : V) (g : Z -> V) | Rec (g : Z -> V).
Inductive last := Single | Multi (vs : list V) (g : Z -> V).
(* lparser.c:1099-1106 struct ConsControl; the first free register *)
Record cons := mkCons { pending : option (V * (Z -> V)); na : Z; tostore : Z; free : Z }.

Definition LFIELDS_PER_FLUSH : Z := 50.            (* lopcodes.h:347 *)
Definition MAXARG_Ax : Z := 16777215.              (* lopcodes.h:56 *)
(* lcode.c:1778-1791; tostore None is LUA_MULTRET *)
Definition luaK_setlist (nelems : Z) (tostore : option Z) : outcome (list instr) :=
  let c := (nelems - 1) / LFIELDS_PER_FLUSH + 1 in
  let b := match tostore with None => 0 | Some n => n end in
  if c <=? MAXARG_C then Ok [SETLIST b c]
  else if c <=? MAXARG_Ax then Ok [SETLIST b 0; EXTRAARG c]
  else Err ETooLong.
(* lparser.c:1131-1139 *)
Definition closelistfield (cc : cons) : outcome (cons * list instr) :=
  match pending cc with
  | None => Ok (cc, [])
  | Some (v, g) =>
    if tostore cc =? LFIELDS_PER_FLUSH then
      bind (luaK_setlist (na cc) (Some (tostore cc))) (fun code =>
      Ok (mkCons None (na cc) 0 1, LOAD (free cc) v g :: code))
    else Ok (mkCons None (na cc) (tostore cc) (free cc + 1), [LOAD (free cc) v g])
  end.
(* lparser.c:1142-1154 *)
Definition lastlistfield (cc : cons) : outcome (list instr) :=
  if tostore cc =? 0 then Ok []
  else bind (luaK_setlist (na cc) (Some (tostore cc))) (fun code =>
       Ok (match pending cc with Some (v, g) => [LOAD (free cc) v g] | None => [] end ++ code)).
(* lparser.c:1202-1209 *)
Fixpoint constructor (cc : cons) (l : list item) (e : last) : outcome (list instr) :=
  match l with
  | Exp v g :: r =>
    bind (closelistfield cc) (fun '(cc, code) =>
    if two31 - 1 <=? na cc then Err ETooLong      (* checklimit, 1160 *)
    else bind (constructor (mkCons (Some (v, g)) (na cc + 1) (tostore cc + 1) (free cc)) r e) (fun code' => Ok (code ++ code')))
  | Rec g :: r =>
    bind (closelistfield cc) (fun '(cc, code) =>
    bind (constructor cc r e) (fun code' => Ok (code ++ SCRATCH (free cc) g :: code')))
  | [] =>
    match e with
    | Single => lastlistfield cc
    | Multi vs g =>
      bind (closelistfield cc) (fun '(cc, code) =>
      if two31 - 1 <=? na cc then Err ETooLong
      else bind (luaK_setlist (na cc + 1) None) (fun code' => Ok (code ++ LOADM (free cc) vs g :: code')))
    end
  end.
Definition start : cons := mkCons None 0 0 1.

(* execution; O is the kind of object being filled, flush the body of OP_SETLIST *)
Section EXEC.
Variable O : Type.
Variable flush : (Z -> V) -> Z -> Z -> O -> outcome O.
Definition load (regs : Z -> V) (r : Z) (vs : list V) (g : Z -> V) : Z -> V := fun x =>
  if x <? r then regs x else match nth_error vs (Z.to_nat (x - r)) with Some v => v | None => g x end.
(* lvm.c:1960-1982, 2026: top is reset to the end of the frame *)
Fixpoint exec (code : list instr) (regs : Z -> V) (top : Z) (o : O) : outcome O :=
  match code with
  | [] => Ok o
  | LOAD r v g :: k => exec k (load regs r [v] g) top o
  | LOADM r vs g :: k => exec k (load regs r vs g) (r + Z.of_nat (length vs)) o
  | SCRATCH r g :: k => exec k (load regs r [] g) top o
  | SETLIST b c :: k =>
    let n := if b =? 0 then top - 1 else b in
    if c =? 0 then
      match k with
      | EXTRAARG ax :: k => bind (flush regs n (u32 ((ax - 1) * LFIELDS_PER_FLUSH + n)) o) (fun o => exec k regs top o)
      | _ => UB
      end
    else bind (flush regs n (u32 ((c - 1) * LFIELDS_PER_FLUSH + n)) o) (fun o => exec k regs top o)
  | EXTRAARG _ :: _ => UB
  end.
End EXEC.

(* lvm.c:1983-1987 for Lua tables, as maps of integer keys *)
Fixpoint flush_table (n : nat) (regs : Z -> V) (last : Z) (t : Z -> V) : Z -> V :=
  match n with
  | O => t
  | S m => flush_table m regs (last - 1) (fun x => if x =? last then regs (Z.of_nat n) else t x)
  end.
Definition table_flush (regs : Z -> V) (n last : Z) (t : Z -> V) : outcome (Z -> V) := Ok (flush_table (Z.to_nat n) regs last t).

(* lvm.c:1990-2024 for integer[] and number[]: elements 1.. of the array; conv is the conversion of
   a value to the element type *)
Variable E : Type.
Variable conv : V -> option E.
Definition arr_set (a : list E) (i : Z) (x : E) : outcome (list E) :=
  if (1 <=? i) && (i <=? Z.of_nat (length a)) then Ok (upd a (Z.to_nat (i - 1)) x)
  else if i =? Z.of_nat (length a) + 1 then Ok (a ++ [x])
  else Err EBounds.
Fixpoint flush_array (k : nat) (regs : Z -> V) (i : Z) (a : list E) : outcome (list E) :=
  match k with
  | O => Ok a
  | S k => match conv (regs i) with
           | Some x => bind (arr_set a i x) (fun a => flush_array k regs (i + 1) a)
           | None => Err EType
           end
  end.
Definition array_flush (regs : Z -> V) (n last : Z) (a : list E) : outcome (list E) :=
  flush_array (Z.to_nat n) regs (last - n + 1) a.

(* { items } evaluated with junk in the registers *)
Definition make_table (l : list item) (e : last) (regs t : Z -> V) : outcome (Z -> V) :=
  bind (constructor start l e) (fun code => exec (Z -> V) table_flush code regs 0 t).
Definition make_array (l : list item) (e : last) (regs : Z -> V) (a : list E) : outcome (list E) :=
  bind (constructor start l e) (fun code => exec (list E) array_flush code regs 0 a).
End SETLIST.
