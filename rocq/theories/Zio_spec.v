(* A stream is just a byte string. *)
Require Import ZArith List Bool.
From Verif Require Import Base Zio_model.
Import ListNotations.
Open Scope Z_scope.

(* the pieces before the first empty one, joined *)
Fixpoint contents (pieces : list (list Z)) : list Z :=
  match pieces with
  | [] => []
  | [] :: _ => []
  | p :: r => p ++ contents r
  end.

(* running a consumer on a string *)
Fixpoint eats {R} (c : consumer R) (s : list Z) : R :=
  match c with
  | Done r => r
  | Getc k eof => match s with [] => eof | x :: r => eats (k x) r end
  | Read n k eof => if n <=? Z.of_nat (length s) then eats (k (firstn (Z.to_nat n) s)) (skipn (Z.to_nat n) s)
                    else eof s
  end.

Fixpoint reads_ok {R} (c : consumer R) : Prop :=       (* sizes are size_t *)
  match c with
  | Done _ => True
  | Getc k _ => forall x, reads_ok (k x)
  | Read n k _ => 0 <= n /\ forall b, reads_ok (k b)
  end.
