(* The values of a constructor. *)
Require Import ZArith List Bool.
From Verif Require Import Base Setlist_model.
Import ListNotations.
Open Scope Z_scope.

Fixpoint values {V} (l : list (item V)) : list V := match l with [] => [] | Exp _ v _ :: r => v :: values r | Rec _ _ :: r => values r end.
Definition all_values {V} (l : list (item V)) (e : last V) : list V := values l ++ match e with Single _ => [] | Multi _ vs _ => vs end.
(* the number of expressions written as list items *)
Definition count {V} (l : list (item V)) (e : last V) : Z := Z.of_nat (length (values l)) + match e with Single _ => 0 | Multi _ _ _ => 1 end.
