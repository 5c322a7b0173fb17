(* Vocabulary for the bit libraries: words as functions from bit numbers to bits. *)
Require Import ZArith List Bool.
From Verif Require Import Base.
Import ListNotations.
Open Scope Z_scope.

(* bit i of x as a 32-bit word (false outside 0..31) *)
Definition bitof (x i : Z) : bool := (0 <=? i) && (i <? 32) && Z.testbit x i.

(* a 32-bit word given by its bits *)
Definition is_word (r : Z) (f : Z -> bool) : Prop :=
  0 <= r < two32 /\ forall i, 0 <= i < 32 -> Z.testbit r i = f i.

Definition parity (l : list Z) (i : Z) : bool := fold_right (fun x b => xorb (Z.testbit x i) b) false l.

(* a signed result standing for a 32-bit word *)
Definition is_sword (r : Z) (f : Z -> bool) : Prop :=
  - two31 <= r < two31 /\ forall i, 0 <= i < 32 -> Z.testbit r i = f i.

(* the value of a string of hexadecimal digits *)
Definition hexval (c : Z) : Z := if c <? 58 then c - 48 else if c <? 71 then c - 55 else c - 87.

Fixpoint hexnum (acc : Z) (s : list Z) : Z := match s with [] => acc | c :: r => hexnum (16 * acc + hexval c) r end.

Definition is_hex (upper : bool) (c : Z) : Prop :=
  48 <= c <= 57 \/ (if upper then 65 <= c <= 70 else 97 <= c <= 102).
