(* C05: numeric for loops over integers. *)
Require Import ZArith List Bool Lia.
From Verif Require Import Base Float_model Float_spec Float_facts Float_proofs For_model For_spec For_proofs.
Import ListNotations.
Open Scope Z_scope.

From Coq Require Import QArith Floats.SpecFloat.
Open Scope Z_scope.

(* the generic loop visits exactly the progression, whatever number the limit is. Missing for the full claim: loops whose first value beyond the limit does not fit 64 bits, and a NaN limit with a negative step *)
Theorem C05_generic_partial : forall init lim step n fuel, is_s64 init -> wfnum lim -> is_s64 step -> step <> 0 ->
  (step < 0 -> not_nan lim) ->
  trip init lim step n -> is_s64 (init + Z.of_nat n * step) -> (n < fuel)%nat ->
  run_for fuel Generic init lim step = Ok (progression init step n).
Proof. exact for_generic. Qed.
Print Assumptions C05_generic_partial.

(* the specialised loops do the same. Missing: as above, and initial values for which init - step overflows *)
Theorem C05_special_partial : forall v init limit step n fuel, (v = IP /\ 0 < step \/ v = I1 /\ step = 1) ->
  is_s64 init -> is_s64 (init - step) ->
  trip init (NInt limit) step n -> is_s64 (init + Z.of_nat n * step) -> (n < fuel)%nat ->
  run_for fuel v init (NInt limit) step = Ok (progression init step n).
Proof. exact for_special. Qed.
Print Assumptions C05_special_partial.

(* the number of iterations is determined by the specification *)
Theorem C05_trip_unique : forall a lim s n m, trip a lim s n -> trip a lim s m -> n = m.
Proof. exact trip_unique. Qed.
Print Assumptions C05_trip_unique.

(* and is the usual quotient for integer limits *)
Theorem C05_trip_count : forall a b s, 0 < s -> trip a (NInt b) s (Z.to_nat ((b - a) / s + 1)).
Proof. exact trip_count. Qed.
Print Assumptions C05_trip_count.

(* a specialised form is chosen only where it is right. Missing: literal steps outside int *)
Theorem C05_variant_partial : forall i l s step, literal s = Some step -> -two31 <= step < two31 ->
  match fornum_variant i l s with IP => 0 < step | I1 => step = 1 | Generic => True end.
Proof. exact variant_sound. Qed.
Print Assumptions C05_variant_partial.

(* a loop up to math.maxinteger does not end (generic form) or overflows (specialised form); so does a specialised loop from math.mininteger *)
Theorem C05_end_refuted : trip maxint (NInt maxint) 1 1 /\ (forall fuel, run_for fuel Generic maxint (NInt maxint) 1 = OutOfFuel) /\
  run_for 10 I1 maxint (NInt maxint) 1 = UB /\ run_for 10 I1 minint (NInt 0) 1 = UB.
Proof. exact loop_end_refuted. Qed.
Print Assumptions C05_end_refuted.

(* a NaN limit with a negative step counts as math.mininteger *)
Theorem C05_nan_limit_refuted : trip 3 (NFlt S754_nan) (-1) 0 /\
  exists r, visits 3 Generic (s64 (u64 3 - u64 (-1))) minint (-1) = OutOfFuel /\
  forprep Generic 3 (NFlt S754_nan) (-1) = Ok (s64 (u64 3 - u64 (-1)), minint) /\
  forloop Generic (s64 (u64 3 - u64 (-1))) minint (-1) = Ok (Some r) /\ r = 3.
Proof. exact nan_limit_refuted. Qed.
Print Assumptions C05_nan_limit_refuted.

(* a literal step of 2^32+1 is taken as 1 *)
Theorem C05_const_step_refuted : fornum_variant (lit 1) (lit 10000000000) (lit 4294967297) = I1 /\
  fornum_variant (lit 1) (lit 3) (lit 4294967297) = I1 /\
  trip 1 (NInt 3) 4294967297 1 /\ run_for 9 I1 1 (NInt 3) 4294967297 = Ok [1; 2; 3] /\
  fornum_variant (lit 1) (lit 3) (lit 2147483648) = Generic.
Proof. exact const_step_refuted. Qed.
Print Assumptions C05_const_step_refuted.

(* for i = 1, #t/2 is an error when #t is odd *)
Theorem C05_hash_limit_refuted : valid three_halves /\ trip 1 (NFlt three_halves) 1 1 /\
  exp1_value (mkExp false None true) (NFlt three_halves) = Err EType /\
  run_for 3 Generic 1 (NFlt three_halves) 1 = Ok [1].
Proof. exact hash_limit_refuted. Qed.
Print Assumptions C05_hash_limit_refuted.

Example C05_witness : run_for 9 Generic 10 (NInt 1) (-3) = Ok [10; 7; 4; 1] /\ run_for 9 IP 1 (NInt 10) 4 = Ok [1; 5; 9] /\
  run_for 9 I1 5 (NInt 4) 1 = Ok [] /\ run_for 9 Generic (maxint - 5) (NInt maxint) 4 = OutOfFuel /\
  run_for 9 Generic (maxint - 5) (NInt (maxint - 3)) 2 = Ok [maxint - 5; maxint - 3] /\
  run_for 9 Generic 1 (NFlt (S754_infinity true)) 1 = Ok [] /\ run_for 9 Generic minint (NFlt (S754_infinity true)) 1 = Ok [] /\
  run_for 9 Generic 0 (NFlt (S754_infinity false)) 4611686018427387904 = OutOfFuel /\
  fornum_variant (lit 1) (lit 10) (lit 1) = I1 /\ fornum_variant (lit 1) (lit 10) (lit 4) = IP /\ fornum_variant (lit 1) (lit 10) (lit (-1)) = Generic.
Proof. vm_compute. repeat split; reflexivity. Qed.
