(* Property C30: instruction operands. *)
Require Import ZArith Lia List.
From Verif Require Import Base Base_facts Opcode_model Opcode_proofs.
Open Scope Z_scope.

Theorem C30_abc_roundtrip : forall o a b c, 0 <= o < 256 -> 0 <= a <= 127 ->
  0 <= b <= 255 -> 0 <= c <= 255 ->
  let i := CREATE_ABC o a b c in
  is_u32 i /\ GET_OPCODE i = o /\ GETARG_A i = a /\ GETARG_B i = b /\ GETARG_C i = c.
Proof. exact abc_roundtrip. Qed.
Print Assumptions C30_abc_roundtrip.

Example C30_abc_witness : let i := CREATE_ABC 35 7 200 1 in
  GET_OPCODE i = 35 /\ GETARG_A i = 7 /\ GETARG_B i = 200 /\ GETARG_C i = 1.
Proof. vm_compute. auto. Qed.

Theorem C30_abx_roundtrip : forall o a bx, 0 <= o < 256 -> 0 <= a <= 127 -> 0 <= bx <= 65535 ->
  let i := CREATE_ABx o a bx in
  is_u32 i /\ GET_OPCODE i = o /\ GETARG_A i = a /\ GETARG_Bx i = bx.
Proof. exact abx_roundtrip. Qed.
Print Assumptions C30_abx_roundtrip.

Theorem C30_ax_roundtrip : forall o ax, 0 <= o < 256 -> 0 <= ax <= 16777215 ->
  let i := CREATE_Ax o ax in
  is_u32 i /\ GET_OPCODE i = o /\ GETARG_Ax i = ax.
Proof. exact ax_roundtrip. Qed.
Print Assumptions C30_ax_roundtrip.

(* Each setter changes its own field only, whatever the instruction. *)
Theorem C30_set_opcode : forall p x, is_u32 p -> 0 <= x < 256 ->
  let q := SET_OPCODE p x in
  is_u32 q /\ GET_OPCODE q = x /\ GETARG_A q = GETARG_A p /\ GETARG_B q = GETARG_B p /\ GETARG_C q = GETARG_C p.
Proof. exact set_opcode. Qed.
Print Assumptions C30_set_opcode.

Theorem C30_set_A : forall p x, is_u32 p -> 0 <= x <= 127 ->
  let q := SETARG_A p x in
  is_u32 q /\ GETARG_A q = x /\ GET_OPCODE q = GET_OPCODE p /\ GETARG_B q = GETARG_B p /\ GETARG_C q = GETARG_C p.
Proof. exact set_A. Qed.
Print Assumptions C30_set_A.

Theorem C30_set_B : forall p x, is_u32 p -> 0 <= x <= 255 ->
  let q := SETARG_B p x in
  is_u32 q /\ GETARG_B q = x /\ GET_OPCODE q = GET_OPCODE p /\ GETARG_A q = GETARG_A p /\ GETARG_C q = GETARG_C p.
Proof. exact set_B. Qed.
Print Assumptions C30_set_B.

Theorem C30_set_C : forall p x, is_u32 p -> 0 <= x <= 255 ->
  let q := SETARG_C p x in
  is_u32 q /\ GETARG_C q = x /\ GET_OPCODE q = GET_OPCODE p /\ GETARG_A q = GETARG_A p /\ GETARG_B q = GETARG_B p.
Proof. exact set_C. Qed.
Print Assumptions C30_set_C.

Theorem C30_set_Bx : forall p x, is_u32 p -> 0 <= x <= 65535 ->
  let q := SETARG_Bx p x in
  is_u32 q /\ GETARG_Bx q = x /\ GET_OPCODE q = GET_OPCODE p /\ GETARG_A q = GETARG_A p.
Proof. exact set_Bx. Qed.
Print Assumptions C30_set_Bx.

(* Signed operands: the setter is exact on -2^15 .. 2^15-1.  The code's own limit
   MAXARG_sBx = 2^15 is not representable: see C30_set_sBx_refuted. *)
Theorem C30_set_sBx_partial : forall p x, is_u32 p -> -32768 <= x < 32768 ->
  let q := SETARG_sBx p x in
  is_u32 q /\ GETARG_sBx q = x /\ GET_OPCODE q = GET_OPCODE p /\ GETARG_A q = GETARG_A p.
Proof. exact set_sBx. Qed.
Print Assumptions C30_set_sBx_partial.

Example C30_set_witness : let q := SETARG_sBx (CREATE_ABx 30 5 0) (-32768) in
  GETARG_sBx q = -32768 /\ GET_OPCODE q = 30 /\ GETARG_A q = 5 /\
  GETARG_sBx (SETARG_sBx q 32767) = 32767.
Proof. vm_compute. auto. Qed.

(* MAXARG_sBx = 32768, the limit fixjump accepts, does not fit the field: it reads back as -32768 *)
Theorem C30_set_sBx_refuted : exists x, - MAXARG_sBx <= x <= MAXARG_sBx /\
  forall p, is_u32 p -> GETARG_sBx (SETARG_sBx p x) <> x.
Proof.
  exists MAXARG_sBx. split; [unfold MAXARG_sBx; lia|].
  intros p Hp. rewrite (set_sBx_max p Hp). unfold MAXARG_sBx. lia.
Qed.
Print Assumptions C30_set_sBx_refuted.

(* Register-or-constant operands: constant k and register k never share an encoding, and
   the index is recovered. *)
Theorem C30_rk : forall x, 0 <= x <= 127 ->
  ISK (RKASK x) = true /\ INDEXK (RKASK x) = x /\ ISK x = false /\ 0 <= RKASK x <= 255.
Proof. exact rk_spec. Qed.
Print Assumptions C30_rk.

Example C30_rk_witness : RKASK 5 = 133 /\ INDEXK 133 = 5 /\ ISK 133 = true /\ ISK 5 = false.
Proof. vm_compute. auto. Qed.
