(* What a buffer is for (C68): the strings added, one after the other. *)

Require Import Verif.Base Verif.Buffer_model.
From Coq Require Import ZArith List Bool.
Import ListNotations.
Local Open Scope Z_scope.

Definition added (o : op) : list Z :=
  match o with OAdd d => d | OChar c => [c] | OValue d => d | OPrep _ d => d end.

(* the room that was asked for *)
Definition asked (o : op) : Z :=
  match o with OAdd d => len d | OChar _ => 1 | OValue d => len d | OPrep k _ => k end.

Fixpoint text (l : list op) : list Z :=
  match l with [] => [] | o :: l' => added o ++ text l' end.

(* the most that was asked for at any time, above what was there *)
Fixpoint demand (n : Z) (l : list op) : Z :=
  match l with [] => n | o :: l' => Z.max (n + asked o) (demand (n + len (added o)) l') end.

(* a size_t; nobody writes more than what was asked for *)
Definition proper (o : op) : Prop :=
  match o with
  | OPrep k d => len d <= k < two64
  | OAdd d | OValue d => len d < two64
  | OChar _ => True
  end.
