(* What a Lua table is: a map from keys to values under raw equality. *)
Require Import ZArith List Bool.
From Coq Require Import Floats.SpecFloat.
From Verif Require Import Base Float_model Float_spec Table_model.
Import ListNotations.
Open Scope Z_scope.

Definition as_num (k : key) : option num := match k with KI i => Some (NInt i) | KF f => Some (NFlt f) | _ => None end.
(* raw equality: numbers by their mathematical value, other values by identity *)
Definition keq (a b : key) : Prop :=
  match as_num a, as_num b with
  | Some x, Some y => both eeq x y
  | None, None => a = b
  | _, _ => False
  end.
Definition wfkey (k : key) : Prop := match as_num k with Some n => wfnum n | None => True end.
Definition is_nan (k : key) : Prop := k = KF S754_nan.

(* a hash function gives positions in range *)
Definition hash_ok (mainpos : Z -> key -> Z) : Prop := forall l k, 0 <= l -> 0 <= mainpos l k < 2 ^ l.

(* m of the numbers 1..n have the property P *)
Definition uses (P : Z -> Prop) (n m : Z) : Prop := exists l, NoDup l /\ Z.of_nat (length l) = m /\ forall i, In i l <-> 1 <= i <= n /\ P i.
(* n is the largest power of two, or zero, more than half of whose numbers 1..n have the property *)
Definition optimal (P : Z -> Prop) (n : Z) : Prop :=
  (n = 0 \/ exists j, 0 <= j <= 31 /\ n = 2 ^ j /\ exists m, uses P n m /\ n / 2 < m) /\
  forall j, 0 <= j <= 31 -> n < 2 ^ j -> exists m, uses P (2 ^ j) m /\ m <= 2 ^ j / 2.

Section S.
Variable V : Type.
(* an assignment t[k] = v, an enlargement of the array part to n slots, the collector dropping the
   key of node i *)
Inductive op := OSet (k : option key) (v : option V) | OArr (n : Z) | OKill (i : Z).

Definition wfop (o : op) : Prop := match o with OSet (Some k) _ => wfkey k | _ => True end.

(* the value of t[k] after the operations in h, latest first *)
Inductive after : list op -> key -> option V -> Prop :=
| af_start : forall k, after [] k None
| af_hit : forall h k k' v, keq k k' -> after (OSet (Some k') v :: h) k v
| af_miss : forall h k k' v v', ~ keq k k' -> after h k v -> after (OSet (Some k') v' :: h) k v
| af_nil : forall h k v v', after h k v -> after (OSet None v' :: h) k v
| af_arr : forall h k v n, after h k v -> after (OArr n :: h) k v
| af_kill : forall h k v i, after h k v -> after (OKill i :: h) k v.

(* a border of a map of integer keys *)
Definition border (f : Z -> option V) (n : Z) : Prop :=
  0 <= n <= maxint /\ (n = 0 \/ f n <> None) /\ (n = maxint \/ f (n + 1) = None).

Variable mainpos : Z -> key -> Z.
Notation table := (table V).
(* the program runs the operation; an error raised by an assignment is caught and leaves the table *)
Definition step (t : table) (o : op) : outcome table :=
  match o with
  | OSet k v => match set V mainpos t k v with Err _ => Ok t | r => r end
  | OArr n => if (sizearray V t <? n) && (n <=? MAXASIZE) then resizearray V mainpos t n else Ok t
  | OKill i => if (0 <=? i) && (i <? Z.of_nat (length (nodes V t))) then kill V t i else Ok t
  end.
Fixpoint run (t : table) (h : list op) : outcome table :=      (* latest first *)
  match h with [] => Ok t | o :: r => bind (run t r) (fun t => step t o) end.
(* a table some program can have *)
Definition reachable (h : list op) (t : table) : Prop :=
  exists narr nrec t0, 0 <= narr <= MAXASIZE /\ 0 <= nrec <= 2 ^ 30 /\ Z.of_nat (length h) <= 2 ^ 30 /\
  createtable V mainpos narr nrec = Ok t0 /\ run t0 h = Ok t.

(* changes allowed while a traversal is going on: assignments to existing fields, and the collector *)
Inductive touch : table -> table -> Prop :=
| to_refl : forall t, touch t t
| to_set : forall t k v w t1 t2, wfkey k -> get V mainpos t (Some k) = Ok (Some w) -> set V mainpos t (Some k) v = Ok t1 -> touch t1 t2 -> touch t t2
| to_kill : forall t i t1 t2, kill V t i = Ok t1 -> touch t1 t2 -> touch t t2.
(* a traversal from control key c: the keys and values delivered, each with the table it was read
   from, up to table t' and control key c' *)
Inductive walk : table -> option key -> list (table * key * V) -> table -> option key -> Prop :=
| wa_refl : forall t c, walk t c [] t c
| wa_step : forall t c k v t1 l t2 c2, luaH_next V mainpos t c = Ok (Some (k, v)) -> touch t t1 -> walk t1 (Some k) l t2 c2 -> walk t c ((t, k, v) :: l) t2 c2.
Definition visited (l : list (table * key * V)) : list key := map (fun x => snd (fst x)) l.
End S.
