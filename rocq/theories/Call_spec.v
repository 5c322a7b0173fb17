(* What callers and callees see of a call: lists of values. *)
Require Import ZArith List Bool Arith.
From Verif Require Import Base Call_model.
Import ListNotations.
Local Open Scope nat_scope.

Section calls.
Variable V : Type.
Variable nil : V.
Variable kind_of : V -> kind V.
(* a list of values made to have n elements: surplus values are dropped, missing ones are nil *)
Definition adjust (n : nat) (l : list V) : list V := firstn n (l ++ repeat nil n).
Definition adjust_to (wanted : Z) (l : list V) : list V := if Z.eqb wanted LUA_MULTRET then l else adjust (Z.to_nat wanted) l.
Definition cells (s : stack V) (i n : nat) : list V := map s (seq i n).
(* the values from i on are l *)
Definition holds (s : stack V) (i : nat) (l : list V) : Prop := cells s i (length l) = l.
(* the frame c runs the function v, called with the arguments args: its parameters are in its registers;
   the arguments that are not parameters are between the function and the registers *)
Definition runs (s : stack V) (c : ci) (v : V) (args : list V) : Prop :=
  s (cfunc c) = v /\
  exists np va fsize, kind_of v = KLua V np va fsize /\ holds s (cbase c) (adjust np args) /\ ctop c = cbase c + fsize /\
    if va : bool then cbase c = cfunc c + 1 + length args /\ holds s (cbase c - (length args - np)) (skipn np args)
    else cbase c = cfunc c + 1.
(* which function runs when v is called with args: v itself, or its __call metamethod, with v as an argument *)
Definition callee (v : V) (args : list V) (v' : V) (args' : list V) : Prop :=
  (exists np va fsize, kind_of v' = KLua V np va fsize) /\ (v' = v /\ args' = args \/ kind_of v = KOther V (Some v') /\ args' = v :: args).
(* the operands of an instruction that takes the values from register ra on: B = 0 stands for all up to the top *)
Definition operands (s : stack V) (tp ra b : nat) (l : list V) : Prop := holds s ra l /\ (b = length l + 1 \/ b = 0 /\ tp = ra + length l).
(* nothing changes below i *)
Definition kept_below (i : nat) (s s' : stack V) : Prop := forall j, j < i -> s' j = s j.
End calls.
