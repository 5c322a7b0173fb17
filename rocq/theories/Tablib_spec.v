(* Lists held in tables. *)
Require Import ZArith List Bool.
From Verif Require Import Base.
Import ListNotations.
Open Scope Z_scope.

(* t holds the list l at 1.. *)
Definition holds {V} (t : Z -> V) (l : list V) : Prop := forall i v, nth_error l i = Some v -> t (Z.of_nat i + 1) = v.
(* t and t' agree outside lo..up *)
Definition same_outside {V} (lo up : Z) (t t' : Z -> V) : Prop := forall i, ~ lo <= i <= up -> t' i = t i.
(* the values at i, i+1, ..., i+k-1 *)
Fixpoint slice {V} (t : Z -> V) (i : Z) (k : nat) : list V := match k with O => [] | S k => t i :: slice t (i + 1) k end.
Fixpoint join {A} (sep : list A) (l : list (list A)) : list A :=
  match l with [] => [] | [x] => x | x :: r => x ++ sep ++ join sep r end.
