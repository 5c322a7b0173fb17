Require Import ZArith Lia Bool List.
From Verif Require Import Base Base_facts Bits_facts Opcode_model.
Import ListNotations.
Open Scope Z_scope.

Definition byte (p j : Z) : Z := Z.land (Z.shiftr p (8 * j)) 255.

Lemma byte_range : forall p j, 0 <= byte p j < 256.
Proof.
  intros. unfold byte. change 255 with (Z.ones 8). rewrite Z.land_ones by lia.
  apply Z.mod_pos_bound. lia.
Qed.

Lemma byte_testbit : forall p j n, 0 <= j -> 0 <= n ->
  Z.testbit (byte p j) n = Z.testbit p (n + 8 * j) && (n <? 8).
Proof.
  intros. unfold byte. rewrite Z.land_spec, Z.shiftr_spec by lia.
  change 255 with (Z.ones 8). destruct (Z.ltb_spec n 8).
  - rewrite Z.ones_spec_low by lia. reflexivity.
  - rewrite Z.ones_spec_high by lia. reflexivity.
Qed.

Lemma byte_setbc : forall p x k j, 0 <= k -> 0 <= j ->
  byte (setbc_byte p x k) j = if j =? k then x mod 256 else byte p j.
Proof.
  intros p x k j Hk Hj. apply Z.bits_inj'. intros n Hn.
  rewrite byte_testbit by lia. unfold setbc_byte.
  rewrite Z.lor_spec, Z.land_spec, Z.lnot_spec, !Z.shiftl_spec by lia.
  change 255 with (Z.ones 8). change 256 with (2^8).
  destruct (Z.ltb_spec n 8).
  - rewrite andb_true_r. destruct (Z.eqb_spec j k).
    + subst. replace (n + 8 * k - 8 * k) with n by lia.
      rewrite Z.ones_spec_low by lia. simpl. rewrite andb_false_r. reflexivity.
    + rewrite byte_testbit by lia. replace (n <? 8) with true by (symmetry; apply Z.ltb_lt; lia).
      rewrite andb_true_r.
      destruct (Z_lt_le_dec (n + 8*j - 8*k) 0).
      * rewrite (Z.testbit_neg_r (Z.ones 8)), (Z.testbit_neg_r (x mod 2^8)) by lia.
        simpl. rewrite andb_true_r, orb_false_r. reflexivity.
      * rewrite Z.ones_spec_high by lia. rewrite Z.mod_pow2_bits_high by lia.
        simpl. rewrite andb_true_r, orb_false_r. reflexivity.
  - rewrite andb_false_r. destruct (Z.eqb_spec j k).
    + rewrite Z.mod_pow2_bits_high by lia. reflexivity.
    + rewrite byte_testbit by lia. destruct (Z.ltb_spec n 8); [lia|]. symmetry. apply andb_false_r.
Qed.

Lemma u32_bits : forall p, 0 <= p -> (forall n, 32 <= n -> Z.testbit p n = false) -> is_u32 p.
Proof.
  intros p Hp H. unfold_consts. split; [assumption|].
  destruct (Z.eq_dec p 0); [lia|].
  change 4294967296 with (2^32). apply Z.log2_lt_pow2; [lia|].
  destruct (Z_lt_le_dec (Z.log2 p) 32); [assumption|].
  specialize (H (Z.log2 p) l). rewrite Z.bit_log2 in H by lia. discriminate.
Qed.

Lemma setbc_range : forall p x k, is_u32 p -> 0 <= k <= 3 -> is_u32 (setbc_byte p x k).
Proof.
  intros p x k Hp Hk. apply u32_bits.
  - unfold setbc_byte. apply Z.lor_nonneg. split.
    + apply Z.land_nonneg. left. unfold is_u32 in Hp. lia.
    + apply Z.shiftl_nonneg. apply Z.mod_pos_bound. lia.
  - intros n Hn. unfold setbc_byte.
    rewrite Z.lor_spec, Z.land_spec, Z.shiftl_spec by lia.
    rewrite (testbit_small p 32 n) by (unfold is_u32, two32 in Hp; lia).
    change 256 with (2^8). rewrite Z.mod_pow2_bits_high by lia. reflexivity.
Qed.

(* word = four bytes *)
Lemma word_bytes : forall p, is_u32 p ->
  p = byte p 0 + 256 * byte p 1 + 65536 * byte p 2 + 16777216 * byte p 3.
Proof.
  intros p H. unfold byte. change 255 with (Z.ones 8). rewrite !Z.land_ones by lia.
  rewrite !Z.shiftr_div_pow2 by lia.
  change (2^(8*0)) with 1. change (2^(8*1)) with 256. change (2^(8*2)) with 65536.
  change (2^(8*3)) with 16777216. change (2^8) with 256. unfold_consts.
  Z.div_mod_to_equations. lia.
Qed.

Lemma opcode_byte : forall p, GET_OPCODE p = byte p 0.
Proof. intros. unfold GET_OPCODE, byte. rewrite Z.shiftr_0_r. reflexivity. Qed.
Lemma A_byte : forall p, GETARG_A p = byte p 1 mod 128.
Proof.
  intros. unfold GETARG_A, byte. change 255 with (Z.ones 8). change 127 with (Z.ones 7).
  rewrite !Z.land_ones by lia. change (8*1) with 8. change (2^8) with 256. change (2^7) with 128.
  Z.div_mod_to_equations. lia.
Qed.
Lemma C_byte : forall p, GETARG_C p = byte p 2.
Proof. reflexivity. Qed.
Lemma B_byte : forall p, is_u32 p -> GETARG_B p = byte p 3.
Proof.
  intros p H. unfold GETARG_B, byte. change 255 with (Z.ones 8). rewrite Z.land_ones by lia.
  change (8*3) with 24. rewrite Z.mod_small; [reflexivity|].
  rewrite Z.shiftr_div_pow2 by lia. change (2^24) with 16777216. unfold_consts.
  Z.div_mod_to_equations. lia.
Qed.
Lemma Bx_bytes : forall p, is_u32 p -> GETARG_Bx p = byte p 2 + 256 * byte p 3.
Proof.
  intros p H. rewrite (word_bytes p H) at 1. unfold GETARG_Bx.
  pose proof (byte_range p 0). pose proof (byte_range p 1). pose proof (byte_range p 2).
  pose proof (byte_range p 3). rewrite Z.shiftr_div_pow2 by lia. change (2^16) with 65536.
  Z.div_mod_to_equations. lia.
Qed.
Lemma Ax_bytes : forall p, is_u32 p -> GETARG_Ax p = byte p 1 + 256 * byte p 2 + 65536 * byte p 3.
Proof.
  intros p H. rewrite (word_bytes p H) at 1. unfold GETARG_Ax.
  pose proof (byte_range p 0). pose proof (byte_range p 1). pose proof (byte_range p 2).
  pose proof (byte_range p 3). rewrite Z.shiftr_div_pow2 by lia. change (2^8) with 256.
  Z.div_mod_to_equations. lia.
Qed.

Lemma bytes_of_sum : forall b0 b1 b2 b3, 0 <= b0 < 256 -> 0 <= b1 < 256 -> 0 <= b2 < 256 -> 0 <= b3 < 256 ->
  let p := b0 + 256 * b1 + 65536 * b2 + 16777216 * b3 in
  is_u32 p /\ byte p 0 = b0 /\ byte p 1 = b1 /\ byte p 2 = b2 /\ byte p 3 = b3.
Proof.
  intros b0 b1 b2 b3 H0 H1 H2 H3 p. unfold p, byte. change 255 with (Z.ones 8).
  rewrite !Z.land_ones by lia. rewrite !Z.shiftr_div_pow2 by lia.
  change (2^(8*0)) with 1. change (2^(8*1)) with 256. change (2^(8*2)) with 65536.
  change (2^(8*3)) with 16777216. change (2^8) with 256. unfold_consts.
  repeat split; Z.div_mod_to_equations; lia.
Qed.

Lemma create_abc_sum : forall o a b c, 0 <= o < 256 -> 0 <= a < 256 -> 0 <= b < 256 -> 0 <= c < 256 ->
  CREATE_ABC o a b c = o + 256 * a + 65536 * c + 16777216 * b.
Proof.
  intros o a b c Ho Ha Hb Hc. unfold CREATE_ABC.
  rewrite !Z.shiftl_mul_pow2 by lia.
  change (2^8) with 256. change (2^16) with 65536. change (2^24) with 16777216.
  rewrite !(u32_id) by (rewrite ?u32_id by (unfold_consts; lia); unfold_consts; lia).
  replace (Z.lor o (a * 256)) with (o + 256 * a).
  2:{ change 256 with (2^8) at 2. rewrite <- Z.shiftl_mul_pow2 by lia. rewrite lor_shl_add by lia. lia. }
  rewrite <- Z.lor_assoc. rewrite (Z.lor_comm (b * 16777216)).
  replace (Z.lor (c * 65536) (b * 16777216)) with (65536 * (c + 256 * b)).
  2:{ change 16777216 with (2^24). rewrite <- Z.shiftl_mul_pow2 by lia.
      rewrite lor_shl_add by (change (2^24) with 16777216; lia). change (2^24) with 16777216. lia. }
  replace (65536 * (c + 256 * b)) with (Z.shiftl (c + 256*b) 16) by (rewrite Z.shiftl_mul_pow2 by lia; change (2^16) with 65536; ring).
  rewrite lor_shl_add by (change (2^16) with 65536; lia). change (2^16) with 65536. lia.
Qed.

Lemma create_abx_sum : forall o a bc, 0 <= o < 256 -> 0 <= a < 256 -> 0 <= bc < 65536 ->
  CREATE_ABx o a bc = o + 256 * a + 65536 * bc.
Proof.
  intros o a bc Ho Ha Hb. unfold CREATE_ABx.
  rewrite !Z.shiftl_mul_pow2 by lia.
  change (2^8) with 256. change (2^16) with 65536.
  rewrite !(u32_id) by (rewrite ?u32_id by (unfold_consts; lia); unfold_consts; lia).
  replace (Z.lor o (a * 256)) with (o + 256 * a).
  2:{ change 256 with (2^8) at 2. rewrite <- Z.shiftl_mul_pow2 by lia. rewrite lor_shl_add by lia. lia. }
  change 65536 with (2^16). rewrite <- Z.shiftl_mul_pow2 by lia.
  rewrite lor_shl_add by (change (2^16) with 65536; lia). change (2^16) with 65536. lia.
Qed.

Lemma create_ax_sum : forall o a, 0 <= o < 256 -> 0 <= a < 16777216 ->
  CREATE_Ax o a = o + 256 * a.
Proof.
  intros o a Ho Ha. unfold CREATE_Ax.
  rewrite !Z.shiftl_mul_pow2 by lia. change (2^8) with 256.
  rewrite !(u32_id) by (rewrite ?u32_id by (unfold_consts; lia); unfold_consts; lia).
  change 256 with (2^8) at 1. rewrite <- Z.shiftl_mul_pow2 by lia.
  rewrite lor_shl_add by (change (2^8) with 256; lia). change (2^8) with 256. lia.
Qed.

Lemma abc_roundtrip : forall o a b c, 0 <= o < 256 -> 0 <= a <= MAXARG_A ->
  0 <= b <= MAXARG_B -> 0 <= c <= MAXARG_C ->
  let i := CREATE_ABC o a b c in
  is_u32 i /\ GET_OPCODE i = o /\ GETARG_A i = a /\ GETARG_B i = b /\ GETARG_C i = c.
Proof.
  intros o a b c Ho Ha Hb Hc i. unfold MAXARG_A, MAXARG_B, MAXARG_C in *. unfold i.
  rewrite create_abc_sum by lia.
  destruct (bytes_of_sum o a c b) as (R & B0 & B1 & B2 & B3); try lia.
  split; [assumption|]. rewrite opcode_byte, A_byte, B_byte, C_byte by assumption.
  rewrite B0, B1, B2, B3. rewrite Z.mod_small by lia. auto.
Qed.

Lemma split_bx : forall bc, 0 <= bc < 65536 ->
  exists b2 b3, bc = b2 + 256 * b3 /\ 0 <= b2 < 256 /\ 0 <= b3 < 256.
Proof.
  intros bc H. exists (bc mod 256), (bc / 256). Z.div_mod_to_equations. lia.
Qed.

Lemma abx_roundtrip : forall o a bx, 0 <= o < 256 -> 0 <= a <= MAXARG_A -> 0 <= bx <= MAXARG_Bx ->
  let i := CREATE_ABx o a bx in
  is_u32 i /\ GET_OPCODE i = o /\ GETARG_A i = a /\ GETARG_Bx i = bx.
Proof.
  intros o a bx Ho Ha Hb i. unfold MAXARG_A, MAXARG_Bx in *. unfold i.
  rewrite create_abx_sum by lia.
  destruct (split_bx bx) as (b2 & b3 & E & H2 & H3); [lia|]. subst bx.
  replace (o + 256 * a + 65536 * (b2 + 256 * b3)) with (o + 256 * a + 65536 * b2 + 16777216 * b3) by lia.
  destruct (bytes_of_sum o a b2 b3) as (R & B0 & B1 & B2 & B3); try lia.
  split; [assumption|]. rewrite opcode_byte, A_byte, Bx_bytes by assumption.
  rewrite B0, B1, B2, B3. rewrite Z.mod_small by lia. auto.
Qed.

Lemma ax_roundtrip : forall o ax, 0 <= o < 256 -> 0 <= ax <= 16777215 ->
  let i := CREATE_Ax o ax in
  is_u32 i /\ GET_OPCODE i = o /\ GETARG_Ax i = ax.
Proof.
  intros o ax Ho Ha i. unfold i. rewrite create_ax_sum by lia.
  assert (E : exists b1 b2 b3, ax = b1 + 256 * b2 + 65536 * b3 /\ 0 <= b1 < 256 /\ 0 <= b2 < 256 /\ 0 <= b3 < 256).
  { exists (ax mod 256), (ax / 256 mod 256), (ax / 65536). Z.div_mod_to_equations. lia. }
  destruct E as (b1 & b2 & b3 & E & H1 & H2 & H3). subst ax.
  replace (o + 256 * (b1 + 256 * b2 + 65536 * b3)) with (o + 256 * b1 + 65536 * b2 + 16777216 * b3) by lia.
  destruct (bytes_of_sum o b1 b2 b3) as (R & B0 & B1 & B2 & B3); try lia.
  split; [assumption|]. rewrite opcode_byte, Ax_bytes by assumption.
  rewrite B0, B1, B2, B3. auto.
Qed.

Lemma mod256_id : forall x, 0 <= x < 256 -> x mod 256 = x.
Proof. intros. apply Z.mod_small. assumption. Qed.

Lemma land127 : forall x, 0 <= x <= 127 -> Z.land x 127 = x.
Proof. intros. change 127 with (Z.ones 7). rewrite Z.land_ones by lia. apply Z.mod_small. change (2^7) with 128. lia. Qed.

(* setters change exactly their field *)
Lemma set_A : forall p x, is_u32 p -> 0 <= x <= MAXARG_A ->
  let q := SETARG_A p x in
  is_u32 q /\ GETARG_A q = x /\ GET_OPCODE q = GET_OPCODE p /\ GETARG_B q = GETARG_B p /\ GETARG_C q = GETARG_C p.
Proof.
  intros p x Hp Hx q. unfold MAXARG_A in *.
  assert (Hq : is_u32 q) by (apply setbc_range; [assumption|lia]).
  split; [assumption|]. rewrite !opcode_byte, A_byte, !B_byte, !C_byte by assumption.
  unfold q, SETARG_A. rewrite !byte_setbc by lia. simpl (_ =? _).
  rewrite land127 by lia. rewrite (mod256_id x) by lia. rewrite Z.mod_small by lia. auto.
Qed.

Lemma set_opcode : forall p x, is_u32 p -> 0 <= x < 256 ->
  let q := SET_OPCODE p x in
  is_u32 q /\ GET_OPCODE q = x /\ GETARG_A q = GETARG_A p /\ GETARG_B q = GETARG_B p /\ GETARG_C q = GETARG_C p.
Proof.
  intros p x Hp Hx q.
  assert (Hq : is_u32 q) by (apply setbc_range; [assumption|lia]).
  split; [assumption|]. rewrite !opcode_byte, !A_byte, !B_byte, !C_byte by assumption.
  unfold q, SET_OPCODE. rewrite !byte_setbc by lia. simpl (_ =? _).
  rewrite (mod256_id x) by lia. auto.
Qed.

Lemma set_B : forall p x, is_u32 p -> 0 <= x <= MAXARG_B ->
  let q := SETARG_B p x in
  is_u32 q /\ GETARG_B q = x /\ GET_OPCODE q = GET_OPCODE p /\ GETARG_A q = GETARG_A p /\ GETARG_C q = GETARG_C p.
Proof.
  intros p x Hp Hx q. unfold MAXARG_B in *.
  assert (Hq : is_u32 q) by (apply setbc_range; [assumption|lia]).
  split; [assumption|]. rewrite !opcode_byte, !A_byte, !B_byte, !C_byte by assumption.
  unfold q, SETARG_B. rewrite !byte_setbc by lia. simpl (_ =? _).
  rewrite (mod256_id x) by lia. auto.
Qed.

Lemma set_C : forall p x, is_u32 p -> 0 <= x <= MAXARG_C ->
  let q := SETARG_C p x in
  is_u32 q /\ GETARG_C q = x /\ GET_OPCODE q = GET_OPCODE p /\ GETARG_A q = GETARG_A p /\ GETARG_B q = GETARG_B p.
Proof.
  intros p x Hp Hx q. unfold MAXARG_C in *.
  assert (Hq : is_u32 q) by (apply setbc_range; [assumption|lia]).
  split; [assumption|]. rewrite !opcode_byte, !A_byte, !B_byte, !C_byte by assumption.
  unfold q, SETARG_C. rewrite !byte_setbc by lia. simpl (_ =? _).
  rewrite (mod256_id x) by lia. auto.
Qed.

Lemma set_Bx_sum : forall p x, is_u32 p ->
  SETARG_Bx p x = byte p 0 + 256 * byte p 1 + 65536 * (x mod 65536).
Proof.
  intros p x Hp. unfold SETARG_Bx.
  assert (E : Z.land p 65535 = byte p 0 + 256 * byte p 1).
  { change 65535 with (Z.ones 16). rewrite Z.land_ones by lia. change (2^16) with 65536.
    pose proof (word_bytes p Hp). pose proof (byte_range p 0). pose proof (byte_range p 1).
    pose proof (byte_range p 2). pose proof (byte_range p 3). Z.div_mod_to_equations. lia. }
  rewrite E. pose proof (byte_range p 0). pose proof (byte_range p 1).
  rewrite lor_shl_add by (change (2^16) with 65536; lia). change (2^16) with 65536. lia.
Qed.

Lemma set_Bx_mod : forall p x, is_u32 p ->
  let q := SETARG_Bx p x in
  is_u32 q /\ GETARG_Bx q = x mod 65536 /\ GET_OPCODE q = GET_OPCODE p /\ GETARG_A q = GETARG_A p.
Proof.
  intros p x Hp q. unfold q. rewrite set_Bx_sum by assumption.
  pose proof (Z.mod_pos_bound x 65536 ltac:(lia)).
  destruct (split_bx (x mod 65536)) as (b2 & b3 & E & H2 & H3); [lia|]. rewrite E.
  pose proof (byte_range p 0). pose proof (byte_range p 1).
  replace (byte p 0 + 256 * byte p 1 + 65536 * (b2 + 256 * b3)) with
    (byte p 0 + 256 * byte p 1 + 65536 * b2 + 16777216 * b3) by lia.
  destruct (bytes_of_sum (byte p 0) (byte p 1) b2 b3) as (R & B0 & B1 & B2 & B3); try lia.
  split; [assumption|]. rewrite !opcode_byte, !A_byte, Bx_bytes by assumption.
  rewrite B0, B1, B2, B3. auto.
Qed.

Lemma set_Bx : forall p x, is_u32 p -> 0 <= x <= MAXARG_Bx ->
  let q := SETARG_Bx p x in
  is_u32 q /\ GETARG_Bx q = x /\ GET_OPCODE q = GET_OPCODE p /\ GETARG_A q = GETARG_A p.
Proof.
  intros p x Hp Hx q. unfold MAXARG_Bx in *. destruct (set_Bx_mod p x Hp) as (R & B & O & A).
  rewrite Z.mod_small in B by lia. auto.
Qed.

Lemma sbx_value : forall x, - MAXARG_sBx <= x <= MAXARG_sBx ->
  u32 (u32 x + MAXARG_sBx) = x + MAXARG_sBx.
Proof.
  unfold MAXARG_sBx. intros x H. destruct (u32_eqm x) as [k E]. rewrite E.
  destruct (u32_eqm (x + k * two32 + 32768)) as [k' E'].
  pose proof (u32_range (x + k * two32 + 32768)). unfold_consts. nia.
Qed.

Lemma set_sBx : forall p x, is_u32 p -> - MAXARG_sBx <= x < MAXARG_sBx ->
  let q := SETARG_sBx p x in
  is_u32 q /\ GETARG_sBx q = x /\ GET_OPCODE q = GET_OPCODE p /\ GETARG_A q = GETARG_A p.
Proof.
  intros p x Hp Hx q. unfold q, SETARG_sBx. rewrite sbx_value by lia.
  destruct (set_Bx p (x + MAXARG_sBx) Hp) as (R & B & O & A); [unfold MAXARG_sBx, MAXARG_Bx in *; lia|].
  unfold GETARG_sBx. rewrite B. repeat split; auto; try apply R. lia.
Qed.

Lemma set_sBx_max : forall p, is_u32 p -> GETARG_sBx (SETARG_sBx p MAXARG_sBx) = - MAXARG_sBx.
Proof.
  intros p Hp. unfold SETARG_sBx. rewrite sbx_value by (unfold MAXARG_sBx; lia).
  destruct (set_Bx_mod p (MAXARG_sBx + MAXARG_sBx) Hp) as (R & B & O & A).
  unfold GETARG_sBx. rewrite B. reflexivity.
Qed.

Lemma rk_spec : forall x, 0 <= x <= 127 ->
  ISK (RKASK x) = true /\ INDEXK (RKASK x) = x /\ ISK x = false /\ 0 <= RKASK x <= MAXARG_C.
Proof.
  intros x H. unfold ISK, INDEXK, RKASK, BITRK, MAXARG_C.
  assert (E : Z.lor x 128 = x + 128).
  { change 128 with (Z.shiftl 1 7). rewrite lor_shl_add by (change (2^7) with 128; lia). reflexivity. }
  assert (E0 : Z.land x 128 = 0).
  { change 128 with (Z.shiftl 1 7). apply land_shl_small; [lia|change (2^7) with 128; lia]. }
  rewrite Z.land_lor_distr_l, E0. change (Z.lor 0 (Z.land 128 128)) with 128.
  rewrite Z.land_lor_distr_l. change (Z.land 128 (Z.lnot 128)) with 0. rewrite Z.lor_0_r.
  split; [reflexivity|]. split.
  - change 128 with (Z.shiftl (Z.ones 1) 7). rewrite ldiff_field by lia.
    change (2^7) with 128. change (2^1) with 2. Z.div_mod_to_equations. lia.
  - split; [reflexivity|]. rewrite E. lia.
Qed.
