(* Property C49: size hints of constructors. *)
Require Import ZArith Lia List.
From Verif Require Import Base Base_facts Size_model Size_proofs.
Open Scope Z_scope.

(* The size stored in the instruction fits in one byte, is not smaller than the requested
   size, and overestimates it by at most one eighth.  The full statement (every unsigned
   size) is false, see C49_size_hint_refuted: above 15*2^27 the decoder's shift overflows. *)
Theorem C49_size_hint_partial : forall x, 0 <= x <= 15 * 2^27 ->
  exists b y, luaO_int2fb x = Ok b /\ 0 <= b < 256 /\ luaO_fb2int b = Ok y /\
    x <= y /\ 8 * (y - x) <= x.
Proof. exact fb_roundtrip. Qed.
Print Assumptions C49_size_hint_partial.

Example C49_size_hint_witness : 0 <= 1000 <= 15 * 2^27 /\
  luaO_int2fb 1000 = Ok 64 /\ luaO_fb2int 64 = Ok 1024.
Proof. split; [lia|]. vm_compute. auto. Qed.

(* a size hint near 2^31 decodes to a number beyond int *)
Theorem C49_size_hint_refuted : exists x b, 0 <= x < two31 /\
  luaO_int2fb x = Ok b /\ luaO_fb2int b = UB.
Proof. exact fb_roundtrip_refuted. Qed.
Print Assumptions C49_size_hint_refuted.

(* The logarithm used for table sizes is the exact ceiling for every unsigned int. *)
Theorem C49_ceillog2 : forall x, 1 <= x < two32 ->
  exists l, luaO_ceillog2 x = Ok l /\ 0 <= l /\ x <= 2^l /\
    forall k, 0 <= k -> x <= 2^k -> l <= k.
Proof. exact ceillog2_ok. Qed.
Print Assumptions C49_ceillog2.

Example C49_ceillog2_witness : 1 <= 1025 < two32 /\ luaO_ceillog2 1025 = Ok 11 /\ luaO_ceillog2 1024 = Ok 10.
Proof. split; [unfold_consts; lia|]. vm_compute. auto. Qed.
