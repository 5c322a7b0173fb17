(* What must stay the same when a stack is moved (C66): everything is described by its
   distance from the bottom of the stack. *)

Require Import Verif.Base Verif.Stack_model.
From Coq Require Import ZArith List Bool.
Import ListNotations.
Local Open Scope Z_scope.

Section S.
  Variable V : Type.

  (* p in s and p' in s' point to the same place *)
  Definition same_place (s s' : state V) (p p' : Z) : Prop := p' - stack V s' = p - stack V s.

  Definition same_call (s s' : state V) (c c' : callinfo) : Prop :=
    same_place s s' (ci_top c) (ci_top c') /\ same_place s s' (ci_func c) (ci_func c') /\
    is_lua c' = is_lua c /\
    (is_lua c = true -> same_place s s' (ci_u c) (ci_u c')) /\
    (is_lua c = false -> ci_u c' = ci_u c).

  (* the first k slots and everything that points into the stack *)
  Definition same_view (k : Z) (s s' : state V) : Prop :=
    same_place s s' (top V s) (top V s') /\
    Forall2 (same_place s s') (openupval V s) (openupval V s') /\
    Forall2 (same_call s s') (cis V s) (cis V s') /\
    forall i, 0 <= i < k -> get V s' (stack V s' + i) = get V s (stack V s + i).

  (* a stack between two instructions *)
  Definition proper (s : state V) : Prop :=
    10 <= stacksize V s /\ (stacksize V s <= 1000000 \/ stacksize V s = 1000200) /\
    stack_last V s = stack V s + stacksize V s - 5 /\
    stack V s <= top V s <= stack_last V s /\
    cis V s <> [] /\
    Forall (fun p => stack V s <= p < top V s) (openupval V s) /\
    Forall (fun c => stack V s <= ci_func c < ci_top c /\ ci_top c <= stack_last V s /\
                     (is_lua c = true -> ci_func c < ci_u c <= ci_top c)) (cis V s).

  Definition free_slots (s : state V) : Z := stack_last V s - top V s.
End S.
