(* C03, C04: comparing numbers and converting floats to integers. *)
Require Import ZArith List Bool Lia.
From Verif Require Import Base Float_model Float_spec Float_facts Float_proofs.
Import ListNotations.
Open Scope Z_scope.

From Coq Require Import QArith Floats.SpecFloat.
Open Scope Z_scope.

(* a < b is the order of the exact values, false if one is NaN *)
Theorem C03_lt : forall a b, wfnum a -> wfnum b -> exists r, LTnum a b = Ok r /\ (r = true <-> both elt a b).
Proof. exact LTnum_ok. Qed.
Print Assumptions C03_lt.

(* a <= b *)
Theorem C03_le : forall a b, wfnum a -> wfnum b -> exists r, LEnum a b = Ok r /\ (r = true <-> both ele a b).
Proof. exact LEnum_ok. Qed.
Print Assumptions C03_le.

(* a == b *)
Theorem C03_eq : forall a b, wfnum a -> wfnum b -> exists r, EQnum a b = Ok r /\ (r = true <-> both eeq a b).
Proof. exact EQnum_ok. Qed.
Print Assumptions C03_eq.

(* the three operators form a total order on numbers which are not NaN *)
Theorem C03_order : forall a b c, wfnum a -> wfnum b -> wfnum c -> not_nan a -> not_nan b -> not_nan c ->
  (* exactly one of a < b, a == b, b < a *)
  (holds (LTnum a b) \/ holds (EQnum a b) \/ holds (LTnum b a)) /\
  ~ (holds (LTnum a b) /\ holds (LTnum b a)) /\ ~ (holds (LTnum a b) /\ holds (EQnum a b)) /\
  (holds (LEnum a b) <-> holds (LTnum a b) \/ holds (EQnum a b)) /\
  (holds (LEnum a b) <-> ~ holds (LTnum b a)) /\
  (holds (LTnum a b) -> holds (LTnum b c) -> holds (LTnum a c)) /\
  (holds (EQnum a b) -> holds (EQnum b c) -> holds (EQnum a c)) /\
  (holds (EQnum a b) <-> holds (EQnum b a)) /\ holds (EQnum a a) /\
  (holds (EQnum a b) -> (holds (LTnum a c) <-> holds (LTnum b c)) /\ (holds (LTnum c a) <-> holds (LTnum c b))).
Proof. exact number_order. Qed.
Print Assumptions C03_order.

(* comparisons with NaN are false *)
Theorem C03_nan : forall a b, wfnum a -> wfnum b -> (~ not_nan a \/ ~ not_nan b) ->
  LTnum a b = Ok false /\ LEnum a b = Ok false /\ EQnum a b = Ok false.
Proof. exact nan_order. Qed.
Print Assumptions C03_nan.

(* 2^53 and 2^53+1 differ although they round to the same float; 2^63 exceeds every integer *)
Definition p53 : flt := S754_finite false 4503599627370496 1.
Definition p63 : flt := S754_finite false 4503599627370496 11.
Example C03_witness : valid p53 /\ valid p63 /\ LTnum (NFlt p53) (NInt 9007199254740993) = Ok true /\
  EQnum (NFlt p53) (NInt 9007199254740993) = Ok false /\ EQnum (NFlt p53) (NInt 9007199254740992) = Ok true /\
  LTnum (NInt maxint) (NFlt p63) = Ok true /\ EQnum (NInt maxint) (NFlt p63) = Ok false /\ LEnum (NFlt p63) (NInt maxint) = Ok false /\
  cast_num maxint = p63 /\ LEnum (NFlt (fneg p63)) (NInt minint) = Ok true /\ LTnum (NFlt S754_nan) (NInt 0) = Ok false.
Proof. vm_compute. repeat split; reflexivity. Qed.

(* the conversion succeeds with z exactly if z is the value (floor, ceiling) and fits *)
Theorem C04_convert : forall f mode, valid f ->
  exists o, flttointeger f mode = Ok o /\ forall z, o = Some z <-> fzval f mode z /\ is_s64 z.
Proof. exact flttointeger_ok. Qed.
Print Assumptions C04_convert.

(* math.floor: the floor, as an integer whenever it fits *)
Theorem C04_floor : forall f z, valid f -> is_floor f z ->
  exists v, math_floor (NFlt f) = Ok v /\ wfnum v /\ num_is v z /\ (is_s64 z -> v = NInt z).
Proof. exact math_floor_ok. Qed.
Print Assumptions C04_floor.

(* math.ceil *)
Theorem C04_ceil : forall f z, valid f -> is_ceil f z ->
  exists v, math_ceil (NFlt f) = Ok v /\ wfnum v /\ num_is v z /\ (is_s64 z -> v = NInt z).
Proof. exact math_ceil_ok. Qed.
Print Assumptions C04_ceil.

(* infinities and NaN are returned as they are *)
Theorem C04_special : forall f, valid f -> (forall q, fval f <> Some (Fin q)) ->
  math_floor (NFlt f) = Ok (NFlt f) /\ math_ceil (NFlt f) = Ok (NFlt f).
Proof. exact math_floor_special. Qed.
Print Assumptions C04_special.

(* every finite float has a floor and a ceiling, so the theorems above cover all floats *)
Theorem C04_exist : forall f q, valid f -> fval f = Some (Fin q) -> (exists z, is_floor f z) /\ (exists z, is_ceil f z).
Proof. exact floor_ceil_exist. Qed.
Print Assumptions C04_exist.

Definition m2_5 : flt := S754_finite true 5629499534213120 (-51).
Example C04_witness : valid m2_5 /\ flttointeger m2_5 F2Ieq = Ok None /\ flttointeger m2_5 F2Ifloor = Ok (Some (-3)) /\ flttointeger m2_5 F2Iceil = Ok (Some (-2)) /\
  flttointeger p63 F2Ieq = Ok None /\ flttointeger (fneg p63) F2Ieq = Ok (Some minint) /\ math_floor (NFlt p63) = Ok (NFlt p63) /\
  math_floor (NFlt m2_5) = Ok (NInt (-3)) /\ math_ceil (NFlt m2_5) = Ok (NInt (-2)).
Proof. vm_compute. repeat split; reflexivity. Qed.
