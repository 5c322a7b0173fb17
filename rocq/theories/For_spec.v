(* What a numeric for loop over integers should do. *)
Require Import ZArith QArith List Bool.
From Verif Require Import Base Float_model Float_spec.
Import ListNotations.
Open Scope Z_scope.

(* x is not beyond the limit, in the direction of the step *)
Definition within (lim : num) (step x : Z) : Prop :=
  if 0 <? step then both ele (NInt x) lim else both ele lim (NInt x).

(* the first n members of the progression *)
Fixpoint progression (a s : Z) (n : nat) : list Z :=
  match n with O => [] | S k => a :: progression (a + s) s k end.

(* the loop runs n times: all n values are within the limit and the next one is not *)
Definition trip (a : Z) (lim : num) (s : Z) (n : nat) : Prop :=
  (forall k, 0 <= k < Z.of_nat n -> within lim s (a + k * s)) /\ ~ within lim s (a + Z.of_nat n * s).
