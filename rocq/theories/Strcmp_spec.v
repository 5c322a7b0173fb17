(* Strings as sequences of zero-free segments, and lexicographic orders. *)
Require Import ZArith List Bool.
From Verif Require Import Base Str.
Import ListNotations.
Open Scope Z_scope.

Fixpoint segs (s : list Z) : list (list Z) :=
  match s with
  | [] => [[]]
  | c :: t => if c =? 0 then [] :: segs t
              else match segs t with h :: r => (c :: h) :: r | [] => [[c]] end
  end.

(* lexicographic order over an order of the elements *)
Inductive lex {A : Type} (lt : A -> A -> Prop) : list A -> list A -> Prop :=
| lex_nil : forall y b, lex lt [] (y :: b)
| lex_lt : forall x y a b, lt x y -> lex lt (x :: a) (y :: b)
| lex_eq : forall x a b, lex lt a b -> lex lt (x :: a) (x :: b).

(* what is required of the collation: a strict order whose equivalence is equality *)
Record collation (coll : list Z -> list Z -> Z) : Prop := mkColl {
  coll_eq : forall a b, coll a b = 0 <-> a = b;
  coll_anti : forall a b, coll a b < 0 <-> 0 < coll b a;
  coll_trans : forall a b c, coll a b < 0 -> coll b c < 0 -> coll a c < 0
}.
Definition collt (coll : list Z -> list Z -> Z) (a b : list Z) : Prop := coll a b < 0.
