(* What the manual says about string positions, substrings and occurrences. *)
Require Import ZArith List Bool.
From Verif Require Import Base Str.
Import ListNotations.
Open Scope Z_scope.

(* "negative indices count from the end" *)
Definition translate (len i : Z) : Z := if i <? 0 then len + i + 1 else i.
(* "after the translation i less than 1 is corrected to 1, j greater than the length is
   corrected to that length" *)
Definition first_pos (len i : Z) : Z := Z.max 1 (translate len i).
Definition last_pos (len j : Z) : Z := Z.min len (translate len j).

(* r consists of the bytes at the 1-based positions a..b *)
Definition bytes_between (s : list Z) (a b : Z) (r : list Z) : Prop :=
  slen r = Z.max 0 (b - a + 1) /\
  forall k, 0 <= k < slen r -> nth_error r (Z.to_nat k) = nth_error s (Z.to_nat (a - 1 + k)).

(* n copies of s, sep between consecutive ones *)
Inductive copies (s sep : list Z) : Z -> list Z -> Prop :=
| copies_one : copies s sep 1 s
| copies_more : forall n r, copies s sep n r -> copies s sep (n + 1) (s ++ sep ++ r).

(* p occurs in s at the 1-based position a *)
Definition occurs (s p : list Z) (a : Z) : Prop :=
  1 <= a /\ exists u v, s = u ++ p ++ v /\ slen u = a - 1.

(* the characters which can start something other than themselves in a pattern: ^ $ ( % . [ * + - ? *)
Definition magic (c : Z) : Prop :=
  c = 94 \/ c = 36 \/ c = 40 \/ c = 37 \/ c = 46 \/ c = 91 \/ c = 42 \/ c = 43 \/ c = 45 \/ c = 63.
