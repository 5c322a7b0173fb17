(* The mathematical value of a number, in the rationals with two infinities. *)
Require Import ZArith QArith Bool.
From Coq Require Import Floats.SpecFloat.
From Verif Require Import Base Float_model.
Open Scope Z_scope.

(* m * 2^e *)
Definition dyadic (m e : Z) : Q :=
  if 0 <=? e then inject_Z (m * 2 ^ e) else Qmake m (Z.to_pos (2 ^ (- e))).

Inductive ext := MinusInf | Fin (q : Q) | PlusInf.
Definition fval (f : spec_float) : option ext :=
  match f with
  | S754_nan => None
  | S754_infinity true => Some MinusInf
  | S754_infinity false => Some PlusInf
  | S754_zero _ => Some (Fin 0)
  | S754_finite s m e => Some (Fin (dyadic (if s then Z.neg m else Z.pos m) e))
  end.
Definition nval (v : num) : option ext :=
  match v with NInt i => Some (Fin (inject_Z i)) | NFlt f => fval f end.

Definition elt (a b : ext) : Prop :=
  match a, b with
  | MinusInf, MinusInf => False
  | MinusInf, _ => True
  | Fin _, MinusInf => False
  | Fin p, Fin q => (p < q)%Q
  | Fin _, PlusInf => True
  | PlusInf, _ => False
  end.
Definition eeq (a b : ext) : Prop :=
  match a, b with
  | MinusInf, MinusInf => True
  | PlusInf, PlusInf => True
  | Fin p, Fin q => (p == q)%Q
  | _, _ => False
  end.
Definition ele (a b : ext) : Prop := elt a b \/ eeq a b.

(* n is a number of the language: a 64-bit integer or a valid float *)
Definition wfnum (v : num) : Prop :=
  match v with NInt i => is_s64 i | NFlt f => valid f end.

(* r holds of the values, and both are not NaN *)
Definition both (r : ext -> ext -> Prop) (a b : num) : Prop :=
  exists x y, nval a = Some x /\ nval b = Some y /\ r x y.

(* z is the floor (ceiling) of the value of f *)
Definition is_floor (f : spec_float) (z : Z) : Prop :=
  exists q, fval f = Some (Fin q) /\ (inject_Z z <= q)%Q /\ (q < inject_Z (z + 1))%Q.
Definition is_ceil (f : spec_float) (z : Z) : Prop :=
  exists q, fval f = Some (Fin q) /\ (inject_Z (z - 1) < q)%Q /\ (q <= inject_Z z)%Q.
Definition is_exact (f : spec_float) (z : Z) : Prop :=
  exists q, fval f = Some (Fin q) /\ (q == inject_Z z)%Q.

(* z is the result of converting f in the given mode *)
Definition fzval (f : spec_float) (mode : F2Imod) (z : Z) : Prop :=
  match mode with F2Ieq => is_exact f z | F2Ifloor => is_floor f z | F2Iceil => is_ceil f z end.
Definition num_is (v : num) (z : Z) : Prop := exists q, nval v = Some (Fin q) /\ (q == inject_Z z)%Q.
Definition not_nan (a : num) : Prop := a <> NFlt S754_nan.
Definition holds (o : outcome bool) : Prop := o = Ok true.
