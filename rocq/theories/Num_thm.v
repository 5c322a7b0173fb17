(* C29: reading and writing integers. *)
Require Import ZArith List Bool Lia.
From Verif Require Import Base Str Ctype_model Ctype_proofs Num_model Num_spec Num_proofs.
Import ListNotations.
Open Scope Z_scope.

(* exactly the decimal numerals in range and all hexadecimal ones (modulo 2^64) are read as integers *)
Theorem C29_integer_numerals : forall s n, wf_str s ->
  (str2int s = Some n <-> (decimal s n /\ is_s64 n) \/ (exists m, hexadecimal s m /\ n = s64 m)).
Proof. exact str2int_iff. Qed.
Print Assumptions C29_integer_numerals.

(* a decimal numeral is read exactly or, out of range, left to the float reader *)
Theorem C29_decimal_range : forall s n, wf_str s -> decimal s n -> str2int s = if (minint <=? n) && (n <=? maxint) then Some n else None.
Proof. exact str2int_decimal. Qed.
Print Assumptions C29_decimal_range.

(* writing an integer and reading it back *)
Theorem C29_roundtrip : forall n, is_s64 n -> str2int (int2str n) = Some n.
Proof. exact int2str_roundtrip. Qed.
Print Assumptions C29_roundtrip.

(* tonumber(s, base) *)
Theorem C29_base : forall s base n, 2 <= base <= 36 ->
  exists o, tonumber_base s base = Ok o /\ (o = Some n <-> exists m, in_base base s m /\ n = s64 m).
Proof. exact tonumber_base_iff. Qed.
Print Assumptions C29_base.

(* bases outside 2..36 are refused *)
Theorem C29_base_bad : forall s base, ~ (2 <= base <= 36) -> tonumber_base s base = Err EArg.
Proof. exact tonumber_base_bad. Qed.
Print Assumptions C29_base_bad.

Example C29_witness : str2int [32; 45; 57; 50; 50; 51; 51; 55; 50; 48; 51; 54; 56; 53; 52; 55; 55; 53; 56; 48; 56; 10] = Some minint /\
  str2int [57; 50; 50; 51; 51; 55; 50; 48; 51; 54; 56; 53; 52; 55; 55; 53; 56; 48; 56] = None /\
  str2int [48; 120; 102; 102; 102; 102; 102; 102; 102; 102; 102; 102; 102; 102; 102; 102; 102; 102] = Some (-1) /\
  str2int [49; 0] = None /\ str2int [] = None /\ str2int [45; 32; 49] = None /\ tonumber_base [122; 90] 36 = Ok (Some 1295) /\ tonumber_base [50] 2 = Ok None.
Proof. vm_compute. repeat split; reflexivity. Qed.
