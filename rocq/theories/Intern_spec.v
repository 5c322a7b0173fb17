(* What interning guarantees, in terms of the strings that exist. *)
Require Import ZArith List Bool.
From Verif Require Import Base Str Intern_model.
Import ListNotations.
Open Scope Z_scope.

(* the string object at an address *)
Definition holds (s : st) (a : Z) (str : list Z) : Prop := exists o, s_heap s a = Some o /\ t_str o = str.
Definition free_at (s : st) (a : Z) : Prop := a <> 0 /\ s_heap s a = None.
(* the collector has decided to free it *)
Definition dead (s : st) (a : Z) : Prop := exists o, s_heap s a = Some o /\ isdead (s_white s) (t_marked o) = true.
(* what may happen next: new objects get unused addresses; the collector handles existing objects;
   memerrmsg is on no list that is swept; sweepgen only meets white objects that are dead (its assertion) *)
Definition legal (s : st) (o : op) : Prop :=
  match o with
  | New str a => wf_str str /\ slen str <= maxint /\ free_at s a
  | NewC str _ a => wf_str str /\ slen str <= maxint /\ free_at s a
  | Gray a | Black a => s_heap s a <> None
  | Sweep a => s_heap s a <> None /\ a <> s_memerr s
  | SweepGen a => a <> s_memerr s /\ exists t, s_heap s a = Some t /\ (is_white (t_marked t) = true -> dead s a)
  | Flip | CheckSizes => True
  end.
(* no string changes or goes away, but the dead one that is swept *)
Definition keeps (s : st) (o : op) (s' : st) : Prop := forall a str, holds s a str -> holds s' a str \/ ((o = Sweep a \/ o = SweepGen a) /\ dead s a).
(* everything that can be reached from the start *)
Inductive reachable (seed : Z) : st -> Prop :=
| reach_init : forall a s, a <> 0 -> luaS_init seed a = Ok s -> reachable seed s
| reach_step : forall s o s', reachable seed s -> legal s o -> step seed s o = Ok s' -> reachable seed s'.
