(* What sorting means. *)
Require Import ZArith List Bool Permutation.
From Verif Require Import Base Sort_model.
Import ListNotations.
Open Scope Z_scope.

(* lo, lo+1, ..., lo+k-1 *)
Fixpoint zseq (lo : Z) (k : nat) : list Z := match k with O => [] | S k => lo :: zseq (lo + 1) k end.
(* the values at 1..n *)
Definition contents {V} (n : Z) (a : Z -> V) : list V := map a (zseq 1 (Z.to_nat n)).
(* the same values at 1..n in some order, and the rest unchanged *)
Definition rearranged {V} (n : Z) (a b : Z -> V) : Prop :=
  Permutation (contents n a) (contents n b) /\ forall i, ~ 1 <= i <= n -> b i = a i.
Definition strict_weak_order {V} (lt : V -> V -> bool) : Prop :=
  (forall x, lt x x = false) /\ (forall x y z, lt x y = true -> lt y z = true -> lt x z = true) /\
  (forall x y z, lt x z = true -> lt x y = true \/ lt y z = true).
(* the comparison function always answers according to lt *)
Definition answers {V St} (cmp : St -> V -> V -> option (bool * St)) (lt : V -> V -> bool) : Prop :=
  forall s x y, exists s', cmp s x y = Some (lt x y, s').
(* no element is less than an earlier one *)
Definition sorted {V} (lt : V -> V -> bool) (lo up : Z) (a : Z -> V) : Prop :=
  forall i j, lo <= i -> i < j -> j <= up -> lt (a j) (a i) = false.
