(* What the operators of the language mean, independent of opcodes. *)
Require Import ZArith List Bool.
From Coq Require Import Floats.SpecFloat.
From Verif Require Import Base IntArith_spec Float_model Float_spec Op_model.
Import ListNotations.
Open Scope Z_scope.

(* the type of a value, as a set of types: v has type t *)
Definition tag (v : val) : Z :=
  match v with
  | Nil => 0 | Bool false => 1 | Bool true => 2 | Num (NInt _) => 3 | Num (NFlt _) => 4
  | IArr _ => 5 | FArr _ => 6 | Tab _ => 7 | Str _ => 8 | Fun _ => 9 | UData _ => 10 | Oth _ => 11
  end.
Definition hast (t : tmap) (v : val) : Prop := Z.testbit t (tag v) = true.
(* numbers of the language *)
Definition wfval (v : val) : Prop := match v with Num n => wfnum n | _ => True end.

(* the value as an integer, if it is a number with an integral value that fits *)
Definition int_val (v : val) (z : Z) : Prop :=
  match v with Num n => num_is n z /\ is_s64 z | _ => False end.
(* the value as a float: integers are rounded to the nearest float *)
Definition flt_val (v : val) (f : flt) : Prop :=
  match v with Num (NInt i) => f = cast_num i | Num (NFlt g) => f = g | _ => False end.
Definition is_num (v : val) : Prop := exists n, v = Num n.

Section spec.
Variable W : Type.
Variable fmod fpow : flt -> flt -> flt.
Variable tmbin : bop -> val -> val -> W -> outcome (val * W).
Variable tmun : uop -> val -> W -> outcome (val * W).
Variable tmcmp : cop -> val -> val -> W -> outcome (bool * W).

Definition fop (o : bop) (x y : flt) : flt :=
  match o with
  | Add => SFadd 53 1024 x y | Sub => SFsub 53 1024 x y | Mul => SFmul 53 1024 x y | Div => SFdiv 53 1024 x y
  | Pow => fpow x y
  | IDiv => l_floor (SFdiv 53 1024 x y)
  | Mod => if SFltb (SFmul 53 1024 (fmod x y) y) (S754_zero false) then SFadd 53 1024 (fmod x y) y else fmod x y
  | _ => S754_nan
  end.
Definition bits (f : bool -> bool -> bool) (x y z : Z) : Prop :=
  is_s64 z /\ forall i, 0 <= i < 64 -> Z.testbit z i = f (Z.testbit x i) (Z.testbit y i).
(* integer operators on integers *)
Definition iresult (o : bop) (x y : Z) (w : W) (r : outcome (val * W)) : Prop :=
  match o with
  | Add => exists z, r = Ok (I z, w) /\ wraps_to (x + y) z
  | Sub => exists z, r = Ok (I z, w) /\ wraps_to (x - y) z
  | Mul => exists z, r = Ok (I z, w) /\ wraps_to (x * y) z
  | IDiv => (y = 0 -> r = Err EDivZero) /\
            (y <> 0 -> exists q z m, r = Ok (I z, w) /\ floor_quot_rem x y q m /\ wraps_to q z)
  | Mod => (y = 0 -> r = Err EModZero) /\
           (y <> 0 -> exists q m, r = Ok (I m, w) /\ floor_quot_rem x y q m)
  | Band => exists z, r = Ok (I z, w) /\ bits andb x y z
  | Bor => exists z, r = Ok (I z, w) /\ bits orb x y z
  | Bxor => exists z, r = Ok (I z, w) /\ bits xorb x y z
  | Shl => exists z, r = Ok (I z, w) /\ shift_spec x y z
  | Shr => y <> minint -> exists z, r = Ok (I z, w) /\ shift_spec x (- y) z
  | Div | Pow => False
  end.
(* r is the result of the operator on the operands *)
Definition means (o : bop) (b c : val) (w : W) (r : outcome (val * W)) : Prop :=
  match o with
  | Band | Bor | Bxor | Shl | Shr =>
    (forall x y, int_val b x -> int_val c y -> iresult o x y w r) /\
    ((forall x, ~ int_val b x) \/ (forall y, ~ int_val c y) -> r = tmbin o b c w)
  | Div | Pow =>
    (forall x y, flt_val b x -> flt_val c y -> r = Ok (F (fop o x y), w)) /\
    (~ is_num b \/ ~ is_num c -> r = tmbin o b c w)
  | _ =>
    (forall x y, b = I x -> c = I y -> iresult o x y w r) /\
    (forall x y, ~ ((exists i, b = I i) /\ (exists j, c = I j)) -> flt_val b x -> flt_val c y -> r = Ok (F (fop o x y), w)) /\
    (~ is_num b \/ ~ is_num c -> r = tmbin o b c w)
  end.
Definition means1 (o : uop) (b : val) (w : W) (r : outcome (val * W)) : Prop :=
  match o with
  | Unm => (forall x, b = I x -> exists z, r = Ok (I z, w) /\ wraps_to (- x) z) /\
           (forall x, b = F x -> r = Ok (F (SFopp x), w)) /\ (~ is_num b -> r = tmun Unm b w)
  | Bnot => (forall x, int_val b x -> exists z, r = Ok (I z, w) /\ bits (fun p _ => negb p) x 0 z) /\
            ((forall x, ~ int_val b x) -> r = tmun Bnot b w)
  end.
(* comparisons of numbers are those of their values *)
Definition cresult (o : cop) (x y : num) : Prop :=
  match o with Eq => both eeq x y | Lt => both elt x y | Le => both ele x y end.
Definition meansc (o : cop) (b c : val) (w : W) (r : outcome (bool * W)) : Prop :=
  (forall x y, b = Num x -> c = Num y -> exists z, r = Ok (z, w) /\ (z = true <-> cresult o x y)) /\
  (~ is_num b \/ ~ is_num c -> r = tmcmp o b c w).

(* the operands of the specialised integer additions do not overflow *)
Definition in_range (o : bop) (b c : val) : Prop :=
  match b, c with
  | Num (NInt x), Num (NInt y) =>
    match o with Add => is_s64 (x + y) | Sub => is_s64 (x - y) | Mul => is_s64 (x * y) | _ => True end
  | _, _ => True
  end.
(* numbers have no metamethods for the bitwise operators (they have none unless set with the debug
   library) *)
Definition plain_numbers : Prop :=
  (forall o x y w v w', tmbin o (Num x) (Num y) w <> Ok (v, w')) /\ (forall o x w v w', tmun o (Num x) w <> Ok (v, w')).
End spec.
