(* Where a goto leads: to the label of that name in the innermost block around the goto that has one, anywhere in the
   block, in the same function; a break leads behind the innermost loop. *)
Require Import List Bool Arith.
From Verif Require Import Goto_model.
Import ListNotations.
Local Open Scope nat_scope.

(* declares the block a local that is used by inner functions? *)
Fixpoint captures (b : block) : bool := match b with BNil => false | BCons (SLocal c) b => c || captures b | BCons _ b => captures b end.
(* number of instructions; a block with captured variables ends with one that closes them *)
Fixpoint size (x : stmt) : nat :=
  match x with SCode | SGoto _ => 1 | SBlock _ b => bsize b + (if captures b then 1 else 0) | SFunc b => bsize b | _ => 0 end
with bsize (b : block) : nat := match b with BNil => 0 | BCons x b => size x + bsize b end.
(* number of locals a statement brings into scope in its block *)
Definition vars (x : stmt) : nat := match x with SLocal _ => 1 | _ => 0 end.
Fixpoint bvars (b : block) : nat := match b with BNil => 0 | BCons x b => vars x + bvars b end.
(* the captured ones among the variables in scope, the statement being at a point with n variables *)
Definition capt (x : stmt) (n : nat) (c : list nat) : list nat := match x with SLocal true => n :: c | _ => c end.

(* nothing but labels and empty statements up to the end of the block *)
Fixpoint at_end (b : block) : bool := match b with BNil => true | BCons x r => match x with SLabel _ | SVoid => at_end r | _ => false end end.

(* a label: its position, the variables in scope there and the ones a goto to it needs: at the end of a block the locals
   of the block count as out of scope *)
Record target := mkT { tname : name; tpc : nat; tneeds : nat; tvars : nat }.
Fixpoint labels (base : nat) (b : block) (p n : nat) : list target :=
  match b with
  | BNil => []
  | BCons x r => match x with SLabel l => [mkT l p (if at_end r then base else n) n] | _ => [] end ++ labels base r (p + size x) (n + vars x)
  end.
(* all labels of a block of which the first instruction is at p, with n variables around it *)
Definition targets (loop : bool) (b : block) (p n : nat) : list target :=
  labels n b p n ++ (if loop then [mkT BREAK (p + bsize b + (if captures b then 1 else 0)) (n + bvars b) (n + bvars b)] else []).

(* a goto: its position, the number of variables of the block in question (and around) in scope there, the captured
   variables in scope *)
Record source := mkSrc { sname : name; spc : nat; svars : nat; scapt : list nat }.
Definition resolve (T : list target) (u : source) : option target := find (fun t => tname t =? sname u) T.
Definition unresolved (T : list target) (u : source) : bool := match resolve T u with Some _ => false | None => true end.
(* a goto with its label: the jump goes from jfrom to jto; jkeep variables are in scope at both ends *)
Record jump := mkJ { jfrom : nat; jto : nat; jkeep : nat; jcapt : list nat }.
Definition resolved (T : list target) (us : list source) : list jump :=
  flat_map (fun u => match resolve T u with Some t => [mkJ (spc u) (tpc t) (min (svars u) (tvars t)) (scapt u)] | None => [] end) us.
(* no goto leads into the scope of a local *)
Definition allowed (T : list target) (us : list source) : bool :=
  forallb (fun u => match resolve T u with Some t => tneeds t <=? svars u | None => true end) us.
Fixpoint distinct (l : list nat) : bool := match l with [] => true | x :: l => negb (existsb (Nat.eqb x) l) && distinct l end.

(* the gotos of a statement, block without a label inside it *)
Fixpoint open (x : stmt) (p n : nat) (c : list nat) : list source :=
  match x with
  | SGoto l => [mkSrc l p n c]
  | SBlock loop b => map (fun u => mkSrc (sname u) (spc u) n (scapt u)) (filter (unresolved (targets loop b p n)) (bopen b p n c))
  | _ => []
  end
with bopen (b : block) (p n : nat) (c : list nat) : list source :=
  match b with BNil => [] | BCons x r => open x p n c ++ bopen r (p + size x) (n + vars x) (capt x n c) end.

(* the gotos of a statement, block with their labels, in it *)
Fixpoint jumps (x : stmt) (p n : nat) (c : list nat) : list jump :=
  match x with
  | SBlock loop b => bjumps b p n c ++ resolved (targets loop b p n) (bopen b p n c)
  | SFunc b => bjumps b p 0 [] ++ resolved (targets false b p 0) (bopen b p 0 [])
  | _ => []
  end
with bjumps (b : block) (p n : nat) (c : list nat) : list jump :=
  match b with BNil => [] | BCons x r => jumps x p n c ++ bjumps r (p + size x) (n + vars x) (capt x n c) end.

(* the rules: labels of a block differ, gotos do not lead into the scope of a local, a function has all labels it uses *)
Fixpoint legal (x : stmt) (p n : nat) (c : list nat) : bool :=
  match x with
  | SBlock loop b => blegal b p n c && distinct (map tname (labels n b p n)) && allowed (targets loop b p n) (bopen b p n c)
  | SFunc b => blegal b p 0 [] && distinct (map tname (labels 0 b p 0)) && allowed (targets false b p 0) (bopen b p 0 []) &&
               forallb (fun u => negb (unresolved (targets false b p 0) u)) (bopen b p 0 [])
  | _ => true
  end
with blegal (b : block) (p n : nat) (c : list nat) : bool :=
  match b with BNil => true | BCons x r => legal x p n c && blegal r (p + size x) (n + vars x) (capt x n c) end.

(* the positions of all gotos *)
Fixpoint gotos (x : stmt) (p : nat) : list nat := match x with SGoto _ => [p] | SBlock _ b | SFunc b => bgotos b p | _ => [] end
with bgotos (b : block) (p : nat) : list nat := match b with BNil => [] | BCons x r => gotos x p ++ bgotos r (p + size x) end.

(* a jump instruction at f to t with operand A (close the variables from A - 1 on, none if A is 0) does what is asked for:
   variables in scope at both ends stay open, captured ones whose scope is left are closed *)
Definition does (e : nat * nat * nat) (j : jump) : Prop :=
  let '(f, t, A) := e in
  f = jfrom j /\ t = jto j /\ (A = 0 \/ jkeep j < A) /\ forall r, In r (jcapt j) -> jkeep j <= r -> 0 < A <= r + 1.
(* the instructions are those for the gotos *)
Definition implement (log : list (nat * nat * nat)) (js : list jump) : Prop :=
  (forall e, In e log -> exists j, In j js /\ does e j) /\ (forall j, In j js -> exists e, In e log /\ does e j).
