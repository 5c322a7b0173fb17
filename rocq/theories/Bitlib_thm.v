(* C44: the bit32 and bit libraries. *)
Require Import ZArith List Bool Lia.
From Verif Require Import Base Bitlib_model Bitlib_spec Bitlib_proofs.
Import ListNotations.
Open Scope Z_scope.

(* bit32.band: every argument has the bit *)
Theorem C44_band : forall l, is_word (b_and l) (fun i => forallb (fun x => Z.testbit x i) l).
Proof. exact band_ok. Qed.
Print Assumptions C44_band.

(* bit32.btest *)
Theorem C44_btest : forall l, b_test l = negb (b_and l =? 0).
Proof. exact btest_ok. Qed.
Print Assumptions C44_btest.

(* bit32.bor: some argument has the bit *)
Theorem C44_bor : forall l, is_word (b_or l) (fun i => existsb (fun x => Z.testbit x i) l).
Proof. exact bor_ok. Qed.
Print Assumptions C44_bor.

(* bit32.bxor: an odd number of arguments have the bit *)
Theorem C44_bxor : forall l, is_word (b_xor l) (parity l).
Proof. exact bxor_ok. Qed.
Print Assumptions C44_bxor.

(* bit32.bnot *)
Theorem C44_bnot : forall x, is_word (b_not x) (fun i => negb (Z.testbit x i)).
Proof. exact bnot_ok. Qed.
Print Assumptions C44_bnot.

(* bit32.lshift: negative counts shift right, counts of 32 or more give 0; the count math.mininteger is excluded (see C44_minint_refuted) *)
Theorem C44_lshift_partial : forall x d, minint < d <= maxint -> exists r, b_lshift x d = Ok r /\ is_word r (fun i => bitof x (i - d)).
Proof. exact lshift_ok. Qed.
Print Assumptions C44_lshift_partial.

(* bit32.rshift *)
Theorem C44_rshift_partial : forall x d, minint < d <= maxint -> exists r, b_rshift x d = Ok r /\ is_word r (fun i => bitof x (i + d)).
Proof. exact rshift_ok. Qed.
Print Assumptions C44_rshift_partial.

(* bit32.arshift: copies of bit 31 come in from the left *)
Theorem C44_arshift_partial : forall x d, minint < d <= maxint -> exists r, b_arshift x d = Ok r /\
  is_word r (fun i => if 32 <=? i + d then if 0 <=? d then Z.testbit x 31 else false else bitof x (i + d)).
Proof. exact arshift_ok. Qed.
Print Assumptions C44_arshift_partial.

(* bit32.lrotate, all counts *)
Theorem C44_lrotate : forall x d, exists r, b_lrot x d = Ok r /\ is_word r (fun i => Z.testbit x ((i - d) mod 32)).
Proof. exact lrot_ok. Qed.
Print Assumptions C44_lrotate.

(* bit32.rrotate *)
Theorem C44_rrotate_partial : forall x d, minint < d <= maxint -> exists r, b_rrot x d = Ok r /\ is_word r (fun i => Z.testbit x ((i + d) mod 32)).
Proof. exact rrot_ok. Qed.
Print Assumptions C44_rrotate_partial.

(* bit32.extract *)
Theorem C44_extract : forall x f w, 0 <= f -> 1 <= w -> f + w <= 32 -> exists r, b_extract x f w = Ok r /\
  is_word r (fun i => (i <? w) && Z.testbit x (i + f)).
Proof. exact extract_ok. Qed.
Print Assumptions C44_extract.

(* bit32.replace *)
Theorem C44_replace : forall x v f w, 0 <= f -> 1 <= w -> f + w <= 32 -> exists r, b_replace x v f w = Ok r /\
  is_word r (fun i => if (f <=? i) && (i <? f + w) then Z.testbit v (i - f) else Z.testbit x i).
Proof. exact replace_ok. Qed.
Print Assumptions C44_replace.

(* fields outside 0..31 are refused, as long as f + w does not overflow *)
Theorem C44_field_partial : forall x v f w, is_s64 f -> is_s64 w -> f + w <= maxint -> ~ (0 <= f /\ 1 <= w /\ f + w <= 32) ->
  b_extract x f w = Err EArg /\ b_replace x v f w = Err EArg.
Proof. exact field_bad. Qed.
Print Assumptions C44_field_partial.

(* bit.tobit *)
Theorem C44_tobit : forall x, is_sword (bit_tobit x) (Z.testbit x).
Proof. exact tobit_ok. Qed.
Print Assumptions C44_tobit.

(* bit.bnot *)
Theorem C44_bit_bnot : forall x, is_sword (bit_bnot x) (fun i => negb (Z.testbit x i)).
Proof. exact bnot_s_ok. Qed.
Print Assumptions C44_bit_bnot.

(* bit.band *)
Theorem C44_bit_band : forall x l, is_sword (bit_band x l) (fun i => forallb (fun y => Z.testbit y i) (x :: l)).
Proof. exact bit_band_ok. Qed.
Print Assumptions C44_bit_band.

(* bit.bor *)
Theorem C44_bit_bor : forall x l, is_sword (bit_bor x l) (fun i => existsb (fun y => Z.testbit y i) (x :: l)).
Proof. exact bit_bor_ok. Qed.
Print Assumptions C44_bit_bor.

(* bit.bxor *)
Theorem C44_bit_bxor : forall x l, is_sword (bit_bxor x l) (parity (x :: l)).
Proof. exact bit_bxor_ok. Qed.
Print Assumptions C44_bit_bxor.

(* bit.lshift: the count is taken modulo 32 *)
Theorem C44_bit_lshift : forall x n, exists r, bit_lshift x n = Ok r /\ is_sword r (fun i => bitof x (i - n mod 32)).
Proof. exact bit_lshift_ok. Qed.
Print Assumptions C44_bit_lshift.

(* bit.rshift *)
Theorem C44_bit_rshift : forall x n, exists r, bit_rshift x n = Ok r /\ is_sword r (fun i => bitof x (i + n mod 32)).
Proof. exact bit_rshift_ok. Qed.
Print Assumptions C44_bit_rshift.

(* bit.arshift *)
Theorem C44_bit_arshift : forall x n, exists r, bit_arshift x n = Ok r /\
  is_sword r (fun i => if 32 <=? i + n mod 32 then Z.testbit x 31 else Z.testbit x (i + n mod 32)).
Proof. exact bit_arshift_ok. Qed.
Print Assumptions C44_bit_arshift.

(* bit.rol, for counts which are not multiples of 32 *)
Theorem C44_bit_rol_partial : forall x n, n mod 32 <> 0 -> exists r, bit_rol x n = Ok r /\ is_sword r (fun i => Z.testbit x ((i - n) mod 32)).
Proof. exact bit_rol_ok. Qed.
Print Assumptions C44_bit_rol_partial.

(* bit.ror *)
Theorem C44_bit_ror_partial : forall x n, n mod 32 <> 0 -> exists r, bit_ror x n = Ok r /\ is_sword r (fun i => Z.testbit x ((i + n) mod 32)).
Proof. exact bit_ror_ok. Qed.
Print Assumptions C44_bit_ror_partial.

(* every rotation by a multiple of 32 shifts a 32-bit operand by 32, which is undefined *)
Theorem C44_rotate_refuted : forall x n, n mod 32 = 0 -> bit_rol x n = UB /\ bit_ror x n = UB.
Proof. exact rot_by_zero. Qed.
Print Assumptions C44_rotate_refuted.

(* bit.bswap reverses the four bytes *)
Theorem C44_bswap : forall x, is_sword (bit_bswap x) (fun i => Z.testbit x (8 * (3 - i / 8) + i mod 8)).
Proof. exact bswap_ok. Qed.
Print Assumptions C44_bswap.

(* bit.tohex(x, n): |n| (at most 8) digits of the low part of x, upper case for negative n; n = -2^31 is excluded (see C44_minint_refuted) *)
Theorem C44_tohex_partial : forall x n, - two31 < n < two31 -> exists s, bit_tohex x (Some n) = Ok s /\
  Z.of_nat (length s) = Z.min 8 (Z.abs n) /\ Forall (is_hex (n <? 0)) s /\
  hexnum 0 s = x mod 16^(Z.min 8 (Z.abs n)).
Proof. exact tohex_ok. Qed.
Print Assumptions C44_tohex_partial.

(* the counts and widths excluded above are undefined *)
Theorem C44_minint_refuted : (forall x, b_lshift x minint = UB /\ b_rshift x minint = UB /\ b_arshift x minint = UB /\ b_rrot x minint = UB) /\
  (forall x v, b_extract x 1 maxint = UB /\ b_replace x v 1 maxint = UB) /\ (forall x, bit_tohex x (Some (- two31)) = UB).
Proof. exact minint_undefined. Qed.
Print Assumptions C44_minint_refuted.

Example C44_witness :
  b_and [-1; 4294967295; 255 + 2^40] = 255 /\ b_or [] = 0 /\ b_lshift 1 31 = Ok 2147483648 /\ b_lshift (-1) (-4) = Ok 268435455 /\
  b_rshift (-1) 31 = Ok 1 /\ b_arshift 2147483648 4 = Ok 4160749568 /\ b_lrot 305419896 4 = Ok 591751041 /\ b_rrot 1 1 = Ok 2147483648 /\
  b_extract 305419896 4 8 = Ok 103 /\ b_replace 0 (-1) 8 4 = Ok 3840 /\ b_extract 1 30 3 = Err EArg /\
  bit_tobit 4294967295 = -1 /\ bit_rol 305419896 12 = Ok 1164411171 /\ bit_bswap 305419896 = 2018915346 /\
  bit_tohex (-1) (Some (-4)) = Ok [70; 70; 70; 70].
Proof. vm_compute. repeat split; reflexivity. Qed.

(* without a second argument tohex gives eight digits *)
Theorem C44_tohex_default : forall x, bit_tohex x None = bit_tohex x (Some 8).
Proof. exact (fun x => eq_refl). Qed.
Print Assumptions C44_tohex_default.
