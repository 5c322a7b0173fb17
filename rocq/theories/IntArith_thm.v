(* Properties C01 (arithmetic) and C02 (shifts). *)
Require Import ZArith Lia.
From Verif Require Import Base Base_facts IntArith_model IntArith_spec IntArith_proofs.
Open Scope Z_scope.

(* C01: +, -, * and unary minus wrap around. *)
Theorem C01_add_sub_mul_unm_wrap : forall a b,
  wraps_to (a + b) (int_add a b) /\ wraps_to (a - b) (int_sub a b) /\
  wraps_to (a * b) (int_mul a b) /\ wraps_to (- a) (int_unm a).
Proof.
  exact (fun a b => conj (int_add_spec a b) (conj (int_sub_spec a b)
          (conj (int_mul_spec a b) (int_unm_spec a)))).
Qed.
Print Assumptions C01_add_sub_mul_unm_wrap.

Example C01_wrap_witness :
  int_add maxint 1 = minint /\ int_mul minint (-1) = minint /\ int_unm minint = minint.
Proof. vm_compute. repeat split. Qed.

(* C01: // is the (wrapped) floor of the exact quotient and % its remainder, without
   undefined behaviour, also for minint // -1. *)
Theorem C01_idiv_mod_floor : forall m n, is_s64 m -> is_s64 n -> n <> 0 ->
  exists q r qr, luaV_idiv m n = Ok qr /\ luaV_mod m n = Ok r /\
    floor_quot_rem m n q r /\ wraps_to q qr.
Proof. exact idiv_mod_ok. Qed.
Print Assumptions C01_idiv_mod_floor.

Example C01_idiv_mod_witness :
  is_s64 (-7) /\ is_s64 2 /\ 2 <> 0 /\ luaV_idiv (-7) 2 = Ok (-4) /\ luaV_mod (-7) 2 = Ok 1 /\
  luaV_idiv minint (-1) = Ok minint /\ luaV_mod 5 (-3) = Ok (-1).
Proof. unfold_consts. vm_compute. intuition congruence. Qed.

Theorem C01_division_by_zero_is_an_error : forall m,
  luaV_idiv m 0 = Err EDivZero /\ luaV_mod m 0 = Err EModZero.
Proof. exact idiv_mod_zero. Qed.
Print Assumptions C01_division_by_zero_is_an_error.

(* C01 (bitwise operators): each bit of the 64-bit result is the operator on the bits. *)
Theorem C01_bitwise : forall a b,
  (is_s64 (int_band a b) /\ forall i, 0 <= i < 64 ->
     Z.testbit (int_band a b) i = andb (Z.testbit a i) (Z.testbit b i)) /\
  (is_s64 (int_bor a b) /\ forall i, 0 <= i < 64 ->
     Z.testbit (int_bor a b) i = orb (Z.testbit a i) (Z.testbit b i)) /\
  (is_s64 (int_bxor a b) /\ forall i, 0 <= i < 64 ->
     Z.testbit (int_bxor a b) i = xorb (Z.testbit a i) (Z.testbit b i)) /\
  (is_s64 (int_bnot a) /\ forall i, 0 <= i < 64 ->
     Z.testbit (int_bnot a) i = negb (Z.testbit a i)).
Proof.
  exact (fun a b => conj (int_band_spec a b) (conj (int_bor_spec a b)
          (conj (int_bxor_spec a b) (int_bnot_spec a)))).
Qed.
Print Assumptions C01_bitwise.

Example C01_bitwise_witness :
  int_band (-1) 255 = 255 /\ int_bnot 0 = -1 /\ int_bxor 5 (-1) = -6 /\ int_bor minint 1 = minint + 1.
Proof. vm_compute. repeat split. Qed.

(* C01: the operator dispatch used by constant folding and lua_arith. *)
Theorem C01_dispatch : forall a b, is_s64 a -> is_s64 b ->
  (exists r, intarith OpAdd a b = Ok r /\ wraps_to (a + b) r) /\
  (exists r, intarith OpSub a b = Ok r /\ wraps_to (a - b) r) /\
  (exists r, intarith OpMul a b = Ok r /\ wraps_to (a * b) r) /\
  (exists r, intarith OpUnm a b = Ok r /\ wraps_to (- a) r) /\
  (b <> 0 -> exists q r qr, intarith OpIDiv a b = Ok qr /\ intarith OpMod a b = Ok r /\
     floor_quot_rem a b q r /\ wraps_to q qr) /\
  (exists r, intarith OpShl a b = Ok r /\ shift_spec a b r) /\
  (b <> minint -> exists r, intarith OpShr a b = Ok r /\ shift_spec a (- b) r) /\
  (exists r, intarith OpBand a b = Ok r /\ is_s64 r /\ forall i, 0 <= i < 64 ->
     Z.testbit r i = andb (Z.testbit a i) (Z.testbit b i)) /\
  (exists r, intarith OpBor a b = Ok r /\ is_s64 r /\ forall i, 0 <= i < 64 ->
     Z.testbit r i = orb (Z.testbit a i) (Z.testbit b i)) /\
  (exists r, intarith OpBxor a b = Ok r /\ is_s64 r /\ forall i, 0 <= i < 64 ->
     Z.testbit r i = xorb (Z.testbit a i) (Z.testbit b i)) /\
  (exists r, intarith OpBnot a b = Ok r /\ is_s64 r /\ forall i, 0 <= i < 64 ->
     Z.testbit r i = negb (Z.testbit a i)).
Proof. exact intarith_spec. Qed.
Print Assumptions C01_dispatch.

(* C02: << by any count (negative counts shift right). *)
Theorem C02_shl : forall x n, is_s64 n -> exists r, op_shl x n = Ok r /\ shift_spec x n r.
Proof. exact shl_spec. Qed.
Print Assumptions C02_shl.

Example C02_shl_witness : is_s64 63 /\ op_shl 1 63 = Ok minint /\ op_shl (-1) (-60) = Ok 15 /\
  op_shl 1 64 = Ok 0 /\ op_shl 3 minint = Ok 0.
Proof. unfold_consts. vm_compute. intuition congruence. Qed.

(* C02: >> by any count except the minimum integer.  The full statement (every count)
   fails, see C02_shr_refuted: -n overflows in C. *)
Theorem C02_shr_partial : forall x n, is_s64 n -> n <> minint ->
  exists r, op_shr x n = Ok r /\ shift_spec x (- n) r.
Proof. exact shr_spec. Qed.
Print Assumptions C02_shr_partial.

Example C02_shr_witness : is_s64 4 /\ 4 <> minint /\ op_shr (-1) 60 = Ok 15 /\ op_shr 1 (-62) = Ok (2^62).
Proof. unfold_consts. vm_compute. intuition congruence. Qed.

(* shifting right by math.mininteger negates it, which overflows *)
Theorem C02_shr_refuted : exists x n, is_s64 x /\ is_s64 n /\ op_shr x n = UB.
Proof. exact shr_refuted. Qed.
Print Assumptions C02_shr_refuted.
