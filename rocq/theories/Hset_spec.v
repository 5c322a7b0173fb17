(* Finite maps whose keys are compared by key_equals. *)
Require Import ZArith List Bool.
From Verif Require Import Base Hset_model.
Import ListNotations.
Open Scope Z_scope.

Section S.
Variables K D : Type.
Variable key_equals : K -> K -> bool.
Variable hash_function : K -> Z.
(* what hash_table.h asks of the two functions *)
Definition keys_ok : Prop :=
  (forall x, key_equals x x = true) /\ (forall x y, key_equals x y = true -> key_equals y x = true) /\
  (forall x y z, key_equals x y = true -> key_equals y z = true -> key_equals x z = true) /\
  (forall x y, key_equals x y = true -> hash_function x = hash_function y) /\ (forall x, is_u32 (hash_function x)).
(* the key and data found for a key *)
Definition fmap := K -> option (K * D).
Definition meffect (m : fmap) (o : hop K D) : fmap :=
  match o with
  | HInsert _ _ k d => fun x => if key_equals x k then Some (k, d) else m x
  | HRemove _ _ k => fun x => if key_equals x k then None else m x
  | _ => m
  end.
Definition lists (m : fmap) (l : list (K * D)) : Prop :=
  (forall k d, In (k, d) l <-> m k = Some (k, d)) /\
  ForallOrdPairs (fun a b => key_equals (fst a) (fst b) = false) l.
Definition manswer (m : fmap) (o : hop K D) (a : hans K D) : Prop :=
  match o, a with
  | HInsert _ _ _ _, HNone _ _ | HRemove _ _ _, HNone _ _ => True
  | HSearch _ _ k, HFound _ _ r => r = m k
  | HList _ _, HEntries _ _ l => lists m l
  | HCount _ _, HNum _ _ n => exists l, lists m l /\ n = Z.of_nat (length l)
  | _, _ => False
  end.
Fixpoint manswers (m : fmap) (l : list (hop K D)) (r : list (hans K D)) : Prop :=
  match l, r with
  | [], [] => True
  | o :: l, a :: r => manswer m o a /\ manswers (meffect m o) l r
  | _, _ => False
  end.
Definition mempty : fmap := fun _ => None.
End S.
