(* Integer numerals: what they look like and what they mean. *)
Require Import ZArith List Bool.
From Verif Require Import Base.
Import ListNotations.
Open Scope Z_scope.

Definition space (c : Z) : Prop := 9 <= c <= 13 \/ c = 32.
(* c is a digit of value d *)
Definition digit_val (c d : Z) : Prop :=
  48 <= c <= 57 /\ d = c - 48 \/ 97 <= c <= 122 /\ d = c - 87 \/ 65 <= c <= 90 /\ d = c - 55.

(* ds is a non-empty string of digits in the base, of value v *)
Inductive numeral (base : Z) : list Z -> Z -> Prop :=
| num_one : forall c d, digit_val c d -> d < base -> numeral base [c] d
| num_more : forall ds v c d, numeral base ds v -> digit_val c d -> d < base -> numeral base (ds ++ [c]) (v * base + d).

Inductive signed_of : list Z -> Z -> Z -> Prop :=
| sign_none : forall v, signed_of [] v v
| sign_plus : forall v, signed_of [43] v v
| sign_minus : forall v, signed_of [45] v (- v).

(* a decimal integer: spaces, sign, digits, spaces; of value n *)
Definition decimal (s : list Z) (n : Z) : Prop :=
  exists sp1 sg ds sp2 v, s = sp1 ++ sg ++ ds ++ sp2 /\ Forall space sp1 /\ Forall space sp2 /\ numeral 10 ds v /\ signed_of sg v n.
(* a hexadecimal integer *)
Definition hexadecimal (s : list Z) (n : Z) : Prop :=
  exists sp1 sg x ds sp2 v, s = sp1 ++ sg ++ [48; x] ++ ds ++ sp2 /\ (x = 120 \/ x = 88) /\
  Forall space sp1 /\ Forall space sp2 /\ numeral 16 ds v /\ signed_of sg v n.
(* digits in some base *)
Definition in_base (base : Z) (s : list Z) (n : Z) : Prop :=
  exists sp1 sg ds sp2 v, s = sp1 ++ sg ++ ds ++ sp2 /\ Forall space sp1 /\ Forall space sp2 /\ numeral base ds v /\ signed_of sg v n.

(* lobject.c:379, luaconf.h:544 sprintf("%lld"): the shortest decimal numeral *)
Fixpoint udigits (fuel : nat) (n : Z) : list Z :=
  match fuel with
  | O => []
  | S f => if n <? 10 then [48 + n] else udigits f (n / 10) ++ [48 + n mod 10]
  end.
Definition int2str (n : Z) : list Z := if n <? 0 then 45 :: udigits 20 (- n) else udigits 20 n.
