Require Import ZArith List Bool Lia.
From Verif Require Import Base Base_facts Bits_facts Str Str_facts Utf8_model Utf8_spec.
Import ListNotations.
Open Scope Z_scope.

(* --- encoder --- *)
Ltac small_consts :=
  change (2^7) with 128 in *; change (2^11) with 2048 in *; change (2^16) with 65536 in *;
  change (2^21) with 2097152 in *; change (2^26) with 67108864 in *; change (2^31) with 2147483648 in *;
  change (64^2) with 4096 in *; change (64^3) with 262144 in *; change (64^4) with 16777216 in *;
  change (64^5) with 1073741824 in *.

Lemma cont_byte : forall x, Z.lor 128 (Z.land x 63) = 128 + x mod 64.
Proof.
  intros x. change 63 with (Z.ones 6). rewrite Z.land_ones by lia. change (2^6) with 64.
  pose proof (Z.mod_pos_bound x 64 ltac:(lia)).
  rewrite Z.lor_comm. change 128 with (Z.shiftl 1 7) at 1.
  rewrite lor_shl_add by (change (2^7) with 128; lia). change (2^7) with 128. lia.
Qed.

Lemma shr6 : forall x, Z.shiftr x 6 = x / 64.
Proof. intros. rewrite Z.shiftr_div_pow2 by lia. reflexivity. Qed.

Lemma lead_byte : forall k x, 1 <= k <= 5 -> 0 <= x < 2^(6-k) ->
  Z.lor (u32 (2 * (two32 - 1 - (2^(6-k) - 1)))) x mod 256 = (256 - 2^(7-k)) + x.
Proof.
  intros k x Hk Hx.
  assert (C : k = 1 \/ k = 2 \/ k = 3 \/ k = 4 \/ k = 5) by lia.
  assert (G : forall h m, 0 <= m <= 7 -> 0 <= x < 2^m -> Z.lor (Z.shiftl h m) x = h * 2^m + x).
  { intros h m Hm Hx'. rewrite Z.lor_comm. rewrite lor_shl_add by lia. lia. }
  destruct C as [-> | [-> | [-> | [-> | ->]]]].
  - change (u32 (2 * (two32 - 1 - (2 ^ (6 - 1) - 1)))) with (Z.shiftl 67108863 6).
    change (2^(6-1)) with 32 in *. change (2^(7-1)) with 64.
    rewrite G by (change (2^6) with 64; lia). change (2^6) with 64. Z.div_mod_to_equations; lia.
  - change (u32 (2 * (two32 - 1 - (2 ^ (6 - 2) - 1)))) with (Z.shiftl 134217727 5).
    change (2^(6-2)) with 16 in *. change (2^(7-2)) with 32.
    rewrite G by (change (2^5) with 32; lia). change (2^5) with 32. Z.div_mod_to_equations; lia.
  - change (u32 (2 * (two32 - 1 - (2 ^ (6 - 3) - 1)))) with (Z.shiftl 268435455 4).
    change (2^(6-3)) with 8 in *. change (2^(7-3)) with 16.
    rewrite G by (change (2^4) with 16; lia). change (2^4) with 16. Z.div_mod_to_equations; lia.
  - change (u32 (2 * (two32 - 1 - (2 ^ (6 - 4) - 1)))) with (Z.shiftl 536870911 3).
    change (2^(6-4)) with 4 in *. change (2^(7-4)) with 8.
    rewrite G by (change (2^3) with 8; lia). change (2^3) with 8. Z.div_mod_to_equations; lia.
  - change (u32 (2 * (two32 - 1 - (2 ^ (6 - 5) - 1)))) with (Z.shiftl 1073741823 2).
    change (2^(6-5)) with 2 in *. change (2^(7-5)) with 4.
    rewrite G by (change (2^2) with 4; lia). change (2^2) with 4. Z.div_mod_to_equations; lia.
Qed.

Lemma div_div64 : forall x a b, 0 < a -> 0 < b -> x / a / b = x / (a * b).
Proof. intros. apply Z.div_div; lia. Qed.

Ltac esc_step :=
  cbn [esc_loop]; rewrite cont_byte, shr6;
  match goal with |- context [UTF8BUFFSZ <=? ?l] => change (UTF8BUFFSZ <=? l) with false end; cbv iota.

Theorem utf8esc_ok : forall x, 0 <= x < 2^31 -> luaO_utf8esc x = Ok (utf8 x).
Proof.
  intros x Hx. unfold luaO_utf8esc, utf8. small_consts.
  destruct (Z.ltb_spec x 128); [reflexivity|].
  assert (D2 : x / 64 / 64 = x / 4096) by (apply div_div64; lia).
  assert (D3 : x / 4096 / 64 = x / 262144) by (apply div_div64; lia).
  assert (D4 : x / 262144 / 64 = x / 16777216) by (apply div_div64; lia).
  assert (D5 : x / 16777216 / 64 = x / 1073741824) by (apply div_div64; lia).
  esc_step. change (Z.shiftr 63 1) with 31.
  destruct (Z.ltb_spec x 2048).
  { destruct (Z.ltb_spec 31 (x / 64)); [Z.div_mod_to_equations; lia|]. cbn [bind].
    change 31 with (2^(6-1) - 1) at 1.
    rewrite (lead_byte 1) by (change (2^(6-1)) with 32; Z.div_mod_to_equations; lia). reflexivity. }
  destruct (Z.ltb_spec 31 (x / 64)); [|Z.div_mod_to_equations; lia].
  esc_step. change (Z.shiftr 31 1) with 15. rewrite D2.
  destruct (Z.ltb_spec x 65536).
  { destruct (Z.ltb_spec 15 (x / 4096)); [Z.div_mod_to_equations; lia|]. cbn [bind].
    change 15 with (2^(6-2) - 1) at 1.
    rewrite (lead_byte 2) by (change (2^(6-2)) with 16; Z.div_mod_to_equations; lia). reflexivity. }
  destruct (Z.ltb_spec 15 (x / 4096)); [|Z.div_mod_to_equations; lia].
  esc_step. change (Z.shiftr 15 1) with 7. rewrite D3.
  destruct (Z.ltb_spec x 2097152).
  { destruct (Z.ltb_spec 7 (x / 262144)); [Z.div_mod_to_equations; lia|]. cbn [bind].
    change 7 with (2^(6-3) - 1) at 1.
    rewrite (lead_byte 3) by (change (2^(6-3)) with 8; Z.div_mod_to_equations; lia). reflexivity. }
  destruct (Z.ltb_spec 7 (x / 262144)); [|Z.div_mod_to_equations; lia].
  esc_step. change (Z.shiftr 7 1) with 3. rewrite D4.
  destruct (Z.ltb_spec x 67108864).
  { destruct (Z.ltb_spec 3 (x / 16777216)); [Z.div_mod_to_equations; lia|]. cbn [bind].
    change 3 with (2^(6-4) - 1) at 1.
    rewrite (lead_byte 4) by (change (2^(6-4)) with 4; Z.div_mod_to_equations; lia). reflexivity. }
  destruct (Z.ltb_spec 3 (x / 16777216)); [|Z.div_mod_to_equations; lia].
  esc_step. change (Z.shiftr 3 1) with 1. rewrite D5.
  destruct (Z.ltb_spec 1 (x / 1073741824)); [Z.div_mod_to_equations; lia|]. cbn [bind].
  change 1 with (2^(6-5) - 1) at 1.
  rewrite (lead_byte 5) by (change (2^(6-5)) with 2; Z.div_mod_to_equations; lia). reflexivity.
Qed.

Lemma utf8_len : forall x, 1 <= slen (utf8 x) <= 6.
Proof.
  intros x. unfold utf8. repeat (match goal with |- context [if ?b then _ else _] => destruct b end);
  unfold slen; simpl; lia.
Qed.

Lemma utf8_wf : forall x, 0 <= x < 2^31 -> wf_str (utf8 x).
Proof.
  intros x H. unfold utf8, wf_str, is_byte. small_consts.
  repeat (match goal with |- context [?a <? ?b] => destruct (Z.ltb_spec a b) end);
  repeat constructor; Z.div_mod_to_equations; lia.
Qed.

(* --- decoder --- *)
(* number of continuation bytes announced by a lead byte *)
Definition lc (c : Z) : Z :=
  if c <? 192 then 0 else if c <? 224 then 1 else if c <? 240 then 2 else if c <? 248 then 3
  else if c <? 252 then 4 else if c <? 254 then 5 else if c <? 255 then 6 else 7.

Definition lead_check (c : Z) : bool :=
  forallb (fun j => Bool.eqb (Z.land (c * 2^(Z.of_nat j)) 64 =? 0) (Z.of_nat j =? lc c))
          (seq 0 (Z.to_nat (lc c) + 1)) &&
  ((5 <? lc c) ||
   (Z.land (c * 2^(lc c)) 127 * 2^(5 * lc c) =? (c mod 2^(6 - lc c)) * 2^(6 * lc c))).

Lemma lead_checked : forallb (fun n => lead_check (Z.of_nat n)) (seq 128 128) = true.
Proof. vm_compute. reflexivity. Qed.

Lemma lead_ok : forall c, 128 <= c < 256 -> lead_check c = true.
Proof.
  intros c H. pose proof lead_checked as L. rewrite forallb_forall in L.
  specialize (L (Z.to_nat c)). rewrite Z2Nat.id in L by lia. apply L. apply in_seq. lia.
Qed.

Lemma lc_range : forall c, 0 <= lc c <= 7.
Proof.
  intros c. unfold lc. repeat (match goal with |- context [?a <? ?b] => destruct (Z.ltb_spec a b) end); lia.
Qed.

Lemma lead_bit : forall c j, 128 <= c < 256 -> 0 <= j <= lc c ->
  (Z.land (c * 2^j) 64 =? 0) = (j =? lc c).
Proof.
  intros c j H Hj. pose proof (lead_ok c H) as L. unfold lead_check in L.
  apply andb_prop in L. destruct L as [L _]. rewrite forallb_forall in L.
  specialize (L (Z.to_nat j)). rewrite Z2Nat.id in L by lia.
  apply Bool.eqb_prop. apply L. apply in_seq. lia.
Qed.

Lemma lead_val : forall c, 128 <= c < 256 -> lc c <= 5 ->
  Z.land (c * 2^(lc c)) 127 * 2^(5 * lc c) = (c mod 2^(6 - lc c)) * 2^(6 * lc c).
Proof.
  intros c H Hl. pose proof (lead_ok c H) as L. unfold lead_check in L.
  apply andb_prop in L. destruct L as [_ L]. apply orb_prop in L. destruct L as [L|L].
  - apply Z.ltb_lt in L. lia.
  - apply Z.eqb_eq. assumption.
Qed.

Lemma iscont_byte : forall b, is_byte b -> iscont b = (128 <=? b) && (b <? 192).
Proof.
  intros b Hb. unfold iscont, is_byte in *.
  assert (C : forallb (fun n => Bool.eqb (Z.land (Z.of_nat n) 192 =? 128)
     ((128 <=? Z.of_nat n) && (Z.of_nat n <? 192))) (seq 0 256) = true) by (vm_compute; reflexivity).
  rewrite forallb_forall in C. specialize (C (Z.to_nat b)). rewrite Z2Nat.id in C by lia.
  apply Bool.eqb_prop. apply C. apply in_seq. lia.
Qed.

(* reading k continuation bytes from a list *)
Fixpoint rc (k : nat) (t : list Z) (res : Z) : option Z :=
  match k with
  | O => Some res
  | S k' => match t with
            | [] => None
            | b :: t' => if iscont b then rc k' t' (u32 (res * 64) + b mod 64) else None
            end
  end.

Lemma add_low6 : forall r b, Z.lor (u32 (Z.shiftl r 6)) (Z.land b 63) = u32 (r * 64) + b mod 64.
Proof.
  intros r b. change 63 with (Z.ones 6). rewrite Z.land_ones by lia. change (2^6) with 64.
  rewrite Z.shiftl_mul_pow2 by lia. change (2^6) with 64.
  assert (E : u32 (r * 64) = Z.shiftl (u32 (r * 64) / 64) 6).
  { rewrite Z.shiftl_mul_pow2 by lia. change (2^6) with 64. unfold u32, two32. Z.div_mod_to_equations. lia. }
  rewrite E at 1. rewrite Z.lor_comm. rewrite lor_shl_add.
  - change (2^6) with 64. rewrite Z.shiftl_mul_pow2 in E by lia. change (2^6) with 64 in E. lia.
  - lia.
  - apply Z.mod_pos_bound. lia.
Qed.

Lemma dec_loop_rc : forall k fuel s p c res j t, 128 <= c < 256 -> 0 <= j -> j + Z.of_nat k = lc c ->
  (k <= fuel)%nat -> 0 <= p + j + 1 <= slen s -> skipn (Z.to_nat (p + j + 1)) s = t ->
  dec_loop fuel s p (c * 2^j) res j =
    Ok (match rc k t res with None => None | Some r => Some (c * 2^(lc c), r, lc c) end).
Proof.
  induction k; intros fuel s p c res j t Hc Hj Hk Hf Hp Ht.
  - assert (E : j = lc c) by lia. destruct fuel; cbn [dec_loop]; rewrite lead_bit by lia;
      rewrite E, Z.eqb_refl; reflexivity.
  - destruct fuel; [lia|]. cbn [dec_loop]. rewrite lead_bit by lia.
    destruct (Z.eqb_spec j (lc c)); [lia|].
    replace (p + (j + 1)) with (p + j + 1 + 0) by lia. rewrite <- sbyte_skipn by lia. rewrite Ht.
    destruct t as [|b t'].
    + cbn [rc]. cbn. reflexivity.
    + rewrite sbyte_cons0. cbn [bind]. fold (iscont b). cbn [rc].
      destruct (iscont b); [|reflexivity]. cbn [negb].
      destruct (skipn_cons_Z _ _ _ _ (proj1 Hp) Ht) as [E2 L2].
      rewrite add_low6. rewrite Z.shiftl_mul_pow2 by lia.
      assert (X : u32 (c * 2 ^ j * 2 ^ 1) = c * 2^(j+1)).
      { rewrite Z.pow_add_r by lia. rewrite Z.mul_assoc. apply u32_id.
        pose proof (lc_range c). assert (2^j <= 2^7) by (apply Z.pow_le_mono_r; lia).
        assert (0 < 2^j) by (apply Z.pow_pos_nonneg; lia). change (2^7) with 128 in *. change (2^1) with 2.
        unfold is_u32, two32. nia. }
      rewrite X. apply IHk; try lia.
      replace (p + (j + 1) + 1) with (p + j + 1 + 1) by lia. assumption.
Qed.

Lemma rc_bound : forall k t res j r, 0 <= j -> (Z.of_nat k + j <= 5) -> 0 <= res < 64^j -> rc k t res = Some r ->
  0 <= r < 64^(j + Z.of_nat k).
Proof.
  induction k; intros t res j r Hj Hk Hr H.
  - cbn [rc] in H. inversion H; subst. replace (j + Z.of_nat 0) with j by lia. assumption.
  - cbn [rc] in H. destruct t; [discriminate|]. destruct (iscont z); [|discriminate].
    replace (j + Z.of_nat (S k)) with ((j + 1) + Z.of_nat k) by lia.
    eapply IHk; [| |  |exact H]; try lia.
    pose proof (Z.mod_pos_bound z 64 ltac:(lia)).
    rewrite Z.pow_add_r by lia. change (64^1) with 64.
    assert (64^j <= 64^4) by (apply Z.pow_le_mono_r; lia). change (64^4) with 16777216 in *.
    rewrite u32_id by (unfold is_u32, two32; lia). lia.
Qed.

Definition fin (strict : bool) (res next : Z) : outcome (option (Z * Z)) :=
  if strict && ((MAXUNICODE <? res) || ((55296 <=? res) && (res <=? 57343))) then Ok None
  else Ok (Some (res, next + 1)).

Lemma decode_unfold : forall s p strict c t, 0 <= p < slen s -> skipn (Z.to_nat p) s = c :: t -> is_byte c ->
  utf8_decode s p strict =
  if c <? 128 then fin strict c p
  else match rc (Z.to_nat (lc c)) t 0 with
       | None => Ok None
       | Some r =>
         if lc c =? 7 then UB else if lc c =? 6 then Ok None else
         let res := r + (c mod 2^(6 - lc c)) * 2^(6 * lc c) in
         if res <? dec_limit (lc c) then Ok None else fin strict res (p + lc c)
       end.
Proof.
  intros s p strict c t Hp Ht Hc. unfold utf8_decode.
  replace (sbyte s p) with (Ok c).
  2:{ replace p with (p + 0) by lia. rewrite <- sbyte_skipn by lia. rewrite Ht. reflexivity. }
  cbn [bind]. destruct (Z.ltb_spec c 128); [reflexivity|].
  unfold is_byte in Hc. pose proof (lc_range c) as Hl.
  destruct (skipn_cons_Z _ _ _ _ (proj1 Hp) Ht) as [E2 L2].
  replace c with (c * 2^0) at 1 by (change (2^0) with 1; lia).
  rewrite (dec_loop_rc (Z.to_nat (lc c)) 8 s p c 0 0 t); try lia.
  2:{ replace (p + 0 + 1) with (p + 1) by lia. assumption. }
  cbn [bind]. destruct (rc (Z.to_nat (lc c)) t 0) as [r|] eqn:R; [|reflexivity].
  destruct (Z.eqb_spec (lc c) 7) as [E7|N7].
  { rewrite E7. reflexivity. }
  destruct (Z.leb_spec 32 (lc c * 5)); [lia|].
  destruct (Z.eqb_spec (lc c) 6) as [E6|N6].
  { rewrite E6. reflexivity. }
  destruct (Z.ltb_spec 5 (lc c)); [lia|].
  assert (B : 0 <= r < 64^(0 + Z.of_nat (Z.to_nat (lc c)))).
  { eapply rc_bound; [| | |exact R]; try lia. }
  rewrite Z2Nat.id in B by lia. rewrite Z.add_0_l in B.
  assert (P64 : 64^(lc c) = 2^(6 * lc c)).
  { rewrite Z.pow_mul_r by lia. reflexivity. }
  rewrite P64 in B.
  assert (V : u32 (Z.shiftl (Z.land (c * 2 ^ lc c) 127) (lc c * 5)) = (c mod 2^(6 - lc c)) * 2^(6 * lc c)).
  { rewrite Z.shiftl_mul_pow2 by lia. replace (lc c * 5) with (5 * lc c) by lia.
    rewrite lead_val by lia. apply u32_id.
    pose proof (Z.mod_pos_bound c (2^(6 - lc c)) ltac:(apply Z.pow_pos_nonneg; lia)).
    assert (2^(6 - lc c) * 2^(6 * lc c) = 2^(6 + 5 * lc c)).
    { rewrite <- Z.pow_add_r by lia. f_equal. lia. }
    assert (2^(6 + 5 * lc c) <= 2^31) by (apply Z.pow_le_mono_r; lia).
    assert (0 < 2^(6 * lc c)) by (apply Z.pow_pos_nonneg; lia).
    change (2^31) with 2147483648 in *. unfold is_u32, two32. nia. }
  rewrite V.
  assert (O : Z.lor r ((c mod 2 ^ (6 - lc c)) * 2 ^ (6 * lc c)) = r + (c mod 2 ^ (6 - lc c)) * 2 ^ (6 * lc c)).
  { rewrite <- Z.shiftl_mul_pow2 by lia. rewrite lor_shl_add by lia.
    rewrite Z.shiftl_mul_pow2 by lia. reflexivity. }
  rewrite O. cbn zeta. cbn [orb].
  assert (M : r + (c mod 2 ^ (6 - lc c)) * 2 ^ (6 * lc c) <= MAXUTF).
  { pose proof (Z.mod_pos_bound c (2^(6 - lc c)) ltac:(apply Z.pow_pos_nonneg; lia)).
    assert (2^(6 - lc c) * 2^(6 * lc c) = 2^(6 + 5 * lc c)).
    { rewrite <- Z.pow_add_r by lia. f_equal. lia. }
    assert (2^(6 + 5 * lc c) <= 2^31) by (apply Z.pow_le_mono_r; lia).
    assert (0 < 2^(6 * lc c)) by (apply Z.pow_pos_nonneg; lia).
    change (2^31) with 2147483648 in *. unfold MAXUTF. nia. }
  destruct (Z.ltb_spec MAXUTF (r + (c mod 2 ^ (6 - lc c)) * 2 ^ (6 * lc c))); [lia|]. cbn [orb].
  reflexivity.
Qed.

Lemma fin_code_ok : forall strict x next r, 0 <= x < 2^31 -> fin strict x next = Ok r ->
  (r = None /\ ~ code_ok strict x) \/ (r = Some (x, next + 1) /\ code_ok strict x).
Proof.
  intros strict x next r Hx H. unfold fin, MAXUNICODE in H. unfold code_ok.
  destruct strict; cbn [andb] in H.
  - destruct (Z.ltb_spec 1114111 x); cbn [orb] in H.
    + inversion H. left. split; [reflexivity|]. intros [_ C]. specialize (C eq_refl). lia.
    + destruct (Z.leb_spec 55296 x); destruct (Z.leb_spec x 57343); cbn [andb] in H; inversion H.
      * left. split; [reflexivity|]. intros [_ C]. specialize (C eq_refl). lia.
      * right. split; [reflexivity|]. split; [assumption|]. intros _. lia.
      * right. split; [reflexivity|]. split; [assumption|]. intros _. lia.
      * right. split; [reflexivity|]. split; [assumption|]. intros _. lia.
  - inversion H. right. split; [reflexivity|]. split; [assumption|]. discriminate.
Qed.

Lemma fin_ok : forall strict x next, code_ok strict x -> fin strict x next = Ok (Some (x, next + 1)).
Proof.
  intros strict x next [Hx Hs]. destruct (fin strict x next) eqn:E; unfold fin in E;
   destruct (strict && ((MAXUNICODE <? x) || ((55296 <=? x) && (x <=? 57343)))) eqn:C; try discriminate.
  - exfalso. apply andb_prop in C. destruct C as [-> C]. specialize (Hs eq_refl). unfold MAXUNICODE in C.
    apply orb_prop in C. rewrite andb_true_iff, Z.ltb_lt, !Z.leb_le in C. lia.
  - congruence.
Qed.

Lemma lc_cases : forall c, 128 <= c < 256 ->
  (lc c = 0 /\ c < 192) \/ (lc c = 1 /\ 192 <= c < 224) \/ (lc c = 2 /\ 224 <= c < 240) \/
  (lc c = 3 /\ 240 <= c < 248) \/ (lc c = 4 /\ 248 <= c < 252) \/ (lc c = 5 /\ 252 <= c < 254) \/
  (lc c = 6 /\ c = 254) \/ (lc c = 7 /\ c = 255).
Proof.
  intros c H. unfold lc. repeat (match goal with |- context [?a <? ?b] => destruct (Z.ltb_spec a b) end); lia.
Qed.

(* one continuation byte *)
Lemma rc_step : forall k t res r, wf_str t -> 0 <= res < 67108864 -> rc (S k) t res = Some r ->
  exists b t', t = b :: t' /\ 128 <= b < 192 /\ wf_str t' /\ rc k t' (res * 64 + (b - 128)) = Some r.
Proof.
  intros k t res r W Hr H. cbn [rc] in H. destruct t as [|b t']; [discriminate|].
  inversion W; subst. rewrite iscont_byte in H by assumption.
  destruct (Z.leb_spec 128 b); destruct (Z.ltb_spec b 192); cbn [andb] in H; try discriminate.
  exists b, t'. repeat (split; [auto; lia|]).
  rewrite u32_id in H by (unfold is_u32, two32; lia).
  replace (b - 128) with (b mod 64) by (Z.div_mod_to_equations; lia). assumption.
Qed.

Lemma rc_step_ok : forall k b t res, 128 <= b < 192 -> 0 <= res < 67108864 ->
  rc (S k) (b :: t) res = rc k t (res * 64 + (b - 128)).
Proof.
  intros k b t res Hb Hr. cbn [rc]. rewrite iscont_byte by (unfold is_byte; lia).
  destruct (Z.leb_spec 128 b); [|lia]. destruct (Z.ltb_spec b 192); [|lia]. cbn [andb].
  rewrite u32_id by (unfold is_u32, two32; lia). f_equal. Z.div_mod_to_equations; lia.
Qed.

Ltac dm := Z.div_mod_to_equations; lia.

Lemma divs64 : forall b0 b1 b2 b3 b4 b5 x, 0 <= b0 -> 0 <= b1 < 64 -> 0 <= b2 < 64 -> 0 <= b3 < 64 -> 0 <= b4 < 64 -> 0 <= b5 < 64 ->
  x = ((((b0 * 64 + b1) * 64 + b2) * 64 + b3) * 64 + b4) * 64 + b5 ->
  x mod 64 = b5 /\ x / 64 mod 64 = b4 /\ x / 4096 mod 64 = b3 /\ x / 262144 mod 64 = b2 /\
  x / 16777216 mod 64 = b1 /\ x / 1073741824 = b0 /\
  x / 64 = (((b0 * 64 + b1) * 64 + b2) * 64 + b3) * 64 + b4 /\
  x / 4096 = ((b0 * 64 + b1) * 64 + b2) * 64 + b3 /\
  x / 262144 = (b0 * 64 + b1) * 64 + b2 /\ x / 16777216 = b0 * 64 + b1.
Proof.
  intros b0 b1 b2 b3 b4 b5 x H0 H1 H2 H3 H4 H5 E.
  assert (Q1 : x / 64 = (((b0 * 64 + b1) * 64 + b2) * 64 + b3) * 64 + b4) by (symmetry; apply (Z.div_unique x 64 _ b5); lia).
  assert (Q2 : x / 4096 = ((b0 * 64 + b1) * 64 + b2) * 64 + b3) by (symmetry; apply (Z.div_unique x 4096 _ (b4 * 64 + b5)); lia).
  assert (Q3 : x / 262144 = (b0 * 64 + b1) * 64 + b2) by (symmetry; apply (Z.div_unique x 262144 _ (b3 * 4096 + b4 * 64 + b5)); lia).
  assert (Q4 : x / 16777216 = b0 * 64 + b1) by (symmetry; apply (Z.div_unique x 16777216 _ (b2 * 262144 + b3 * 4096 + b4 * 64 + b5)); lia).
  assert (Q5 : x / 1073741824 = b0) by (symmetry; apply (Z.div_unique x 1073741824 _ (b1 * 16777216 + b2 * 262144 + b3 * 4096 + b4 * 64 + b5)); lia).
  rewrite Q1, Q2, Q3, Q4, Q5.
  assert (M : forall q r, 0 <= r < 64 -> (q * 64 + r) mod 64 = r).
  { intros q r Hr. symmetry. apply (Z.mod_unique _ 64 q r); lia. }
  rewrite !M by assumption. rewrite E, M by assumption. repeat split.
Qed.

Lemma ltb_f : forall a b, b <= a -> (a <? b) = false.
Proof. intros. apply Z.ltb_ge. assumption. Qed.
Lemma ltb_t : forall a b, a < b -> (a <? b) = true.
Proof. intros. apply Z.ltb_lt. assumption. Qed.

Ltac utf8_norm x :=
  unfold utf8; small_consts;
  repeat (match goal with
          | |- context [x <? ?b] => first [rewrite (ltb_f x b) by lia | rewrite (ltb_t x b) by lia]
          end).

Theorem decode_sound : forall s p strict x next, wf_str s -> 0 <= p < slen s ->
  utf8_decode s p strict = Ok (Some (x, next)) ->
  char_at strict s p x /\ next = p + slen (utf8 x).
Proof.
  intros s p strict x next W Hp H.
  destruct (skipn (Z.to_nat p) s) as [|c t] eqn:Ht.
  { pose proof (slen_skipn s p). rewrite Ht, slen_nil in H0. lia. }
  assert (Wt : wf_str (c :: t)) by (rewrite <- Ht; apply wf_skipn; assumption).
  inversion Wt as [|? ? Hc Wt']; subst.
  rewrite (decode_unfold s p strict c t Hp Ht Hc) in H. unfold is_byte in Hc.
  unfold char_at. rewrite Ht.
  destruct (Z.ltb_spec c 128) as [Lc|Lc].
  { destruct (fin_code_ok strict c p _ ltac:(small_consts; lia) H) as [[D _]|[D C]]; [discriminate|].
    inversion D; subst. split.
    - split; [lia|]. split; [assumption|]. exists t. utf8_norm c. reflexivity.
    - utf8_norm c. reflexivity. }
  assert (C8 := lc_cases c ltac:(lia)).
  destruct (rc (Z.to_nat (lc c)) t 0) as [r|] eqn:R; [|discriminate].
  assert (K : forall X, ((if X <? dec_limit (lc c) then Ok None else fin strict X (p + lc c)) = Ok (Some (x, next)) ->
     0 <= X < 2^31 -> dec_limit (lc c) <= X /\ x = X /\ next = p + lc c + 1 /\ code_ok strict X)).
  { intros X HX RX. destruct (Z.ltb_spec X (dec_limit (lc c))); [discriminate|].
    destruct (fin_code_ok strict X _ _ RX HX) as [[D _]|[D C]]; [discriminate|].
    inversion D; subst. auto. }
  destruct C8 as [[E Rg]|[[E Rg]|[[E Rg]|[[E Rg]|[[E Rg]|[[E Rg]|[[E Rg]|[E Rg]]]]]]]];
    rewrite E in *; cbn [Z.eqb] in H; try discriminate;
    [change (0 =? 7) with false in H; change (0 =? 6) with false in H
    |change (1 =? 7) with false in H; change (1 =? 6) with false in H
    |change (2 =? 7) with false in H; change (2 =? 6) with false in H
    |change (3 =? 7) with false in H; change (3 =? 6) with false in H
    |change (4 =? 7) with false in H; change (4 =? 6) with false in H
    |change (5 =? 7) with false in H; change (5 =? 6) with false in H];
    cbv iota in H; cbn zeta in H.
  - (* no continuation byte *)
    exfalso. cbn [rc] in R. change (Z.to_nat 0) with O in R. cbn [rc] in R. inversion R; subst.
    change (2^(6-0)) with 64 in H. change (2^(6*0)) with 1 in H. change (dec_limit 0) with 4294967295 in *.
    destruct (Z.ltb_spec (0 + c mod 64 * 1) 4294967295); [discriminate|].
    pose proof (Z.mod_pos_bound c 64). lia.
  - change (Z.to_nat 1) with 1%nat in R.
    apply rc_step in R; [|assumption|lia]. destruct R as (b1 & t1 & -> & B1 & W1 & R).
    cbn [rc] in R. inversion R; subst r.
    change (2^(6-1)) with 32 in H. change (2^(6*1)) with 64 in H. change (dec_limit 1) with 128 in *.
    replace (c mod 32) with (c - 192) in H by dm.
    destruct (K _ H) as (L & X & N & C); [small_consts; lia|].
    destruct (divs64 0 0 0 0 (c - 192) (b1 - 128) x) as (Q0 & Q1 & Q2 & Q3 & Q4 & Q5 & F1 & F2 & F3 & F4); try lia.
    split.
    + split; [lia|]. split; [rewrite X; assumption|]. exists t1. utf8_norm x. rewrite Q0, F1. cbn [app]. repeat f_equal; lia.
    + utf8_norm x. unfold slen. cbn [length]. lia.
  - change (Z.to_nat 2) with 2%nat in R.
    apply rc_step in R; [|assumption|lia]. destruct R as (b1 & t1 & -> & B1 & W1 & R).
    apply rc_step in R; [|assumption|lia]. destruct R as (b2 & t2 & -> & B2 & W2 & R).
    cbn [rc] in R. inversion R; subst r.
    change (2^(6-2)) with 16 in H. change (2^(6*2)) with 4096 in H. change (dec_limit 2) with 2048 in *.
    replace (c mod 16) with (c - 224) in H by dm.
    destruct (K _ H) as (L & X & N & C); [small_consts; lia|].
    destruct (divs64 0 0 0 (c - 224) (b1 - 128) (b2 - 128) x) as (Q0 & Q1 & Q2 & Q3 & Q4 & Q5 & F1 & F2 & F3 & F4); try lia.
    split.
    + split; [lia|]. split; [rewrite X; assumption|]. exists t2. utf8_norm x. rewrite Q0, Q1, F2. cbn [app]. repeat f_equal; lia.
    + utf8_norm x. unfold slen. cbn [length]. lia.
  - change (Z.to_nat 3) with 3%nat in R.
    apply rc_step in R; [|assumption|lia]. destruct R as (b1 & t1 & -> & B1 & W1 & R).
    apply rc_step in R; [|assumption|lia]. destruct R as (b2 & t2 & -> & B2 & W2 & R).
    apply rc_step in R; [|assumption|lia]. destruct R as (b3 & t3 & -> & B3 & W3 & R).
    cbn [rc] in R. inversion R; subst r.
    change (2^(6-3)) with 8 in H. change (2^(6*3)) with 262144 in H. change (dec_limit 3) with 65536 in *.
    replace (c mod 8) with (c - 240) in H by dm.
    destruct (K _ H) as (L & X & N & C); [small_consts; lia|].
    destruct (divs64 0 0 (c - 240) (b1 - 128) (b2 - 128) (b3 - 128) x) as (Q0 & Q1 & Q2 & Q3 & Q4 & Q5 & F1 & F2 & F3 & F4); try lia.
    split.
    + split; [lia|]. split; [rewrite X; assumption|]. exists t3. utf8_norm x. rewrite Q0, Q1, Q2, F3. cbn [app]. repeat f_equal; lia.
    + utf8_norm x. unfold slen. cbn [length]. lia.
  - change (Z.to_nat 4) with 4%nat in R.
    apply rc_step in R; [|assumption|lia]. destruct R as (b1 & t1 & -> & B1 & W1 & R).
    apply rc_step in R; [|assumption|lia]. destruct R as (b2 & t2 & -> & B2 & W2 & R).
    apply rc_step in R; [|assumption|lia]. destruct R as (b3 & t3 & -> & B3 & W3 & R).
    apply rc_step in R; [|assumption|lia]. destruct R as (b4 & t4 & -> & B4 & W4 & R).
    cbn [rc] in R. inversion R; subst r.
    change (2^(6-4)) with 4 in H. change (2^(6*4)) with 16777216 in H. change (dec_limit 4) with 2097152 in *.
    replace (c mod 4) with (c - 248) in H by dm.
    destruct (K _ H) as (L & X & N & C); [small_consts; lia|].
    destruct (divs64 0 (c - 248) (b1 - 128) (b2 - 128) (b3 - 128) (b4 - 128) x) as (Q0 & Q1 & Q2 & Q3 & Q4 & Q5 & F1 & F2 & F3 & F4); try lia.
    split.
    + split; [lia|]. split; [rewrite X; assumption|]. exists t4. utf8_norm x. rewrite Q0, Q1, Q2, Q3, F4. cbn [app]. repeat f_equal; lia.
    + utf8_norm x. unfold slen. cbn [length]. lia.
  - change (Z.to_nat 5) with 5%nat in R.
    apply rc_step in R; [|assumption|lia]. destruct R as (b1 & t1 & -> & B1 & W1 & R).
    apply rc_step in R; [|assumption|lia]. destruct R as (b2 & t2 & -> & B2 & W2 & R).
    apply rc_step in R; [|assumption|lia]. destruct R as (b3 & t3 & -> & B3 & W3 & R).
    apply rc_step in R; [|assumption|lia]. destruct R as (b4 & t4 & -> & B4 & W4 & R).
    apply rc_step in R; [|assumption|lia]. destruct R as (b5 & t5 & -> & B5 & W5 & R).
    cbn [rc] in R. inversion R; subst r.
    change (2^(6-5)) with 2 in H. change (2^(6*5)) with 1073741824 in H. change (dec_limit 5) with 67108864 in *.
    replace (c mod 2) with (c - 252) in H by dm.
    destruct (K _ H) as (L & X & N & C); [small_consts; lia|].
    destruct (divs64 (c - 252) (b1 - 128) (b2 - 128) (b3 - 128) (b4 - 128) (b5 - 128) x) as (Q0 & Q1 & Q2 & Q3 & Q4 & Q5 & F1 & F2 & F3 & F4); try lia.
    split.
    + split; [lia|]. split; [rewrite X; assumption|]. exists t5. utf8_norm x. rewrite Q0, Q1, Q2, Q3, Q4, Q5. cbn [app]. repeat f_equal; lia.
    + utf8_norm x. unfold slen. cbn [length]. lia.
Qed.

Lemma lc_val : forall c n, 128 <= c < 256 ->
  (n = 1 /\ 192 <= c < 224) \/ (n = 2 /\ 224 <= c < 240) \/ (n = 3 /\ 240 <= c < 248) \/
  (n = 4 /\ 248 <= c < 252) \/ (n = 5 /\ 252 <= c < 254) -> lc c = n.
Proof. intros c n H K. pose proof (lc_cases c H). lia. Qed.

Theorem decode_complete : forall s p strict x, char_at strict s p x ->
  utf8_decode s p strict = Ok (Some (x, p + slen (utf8 x))).
Proof.
  intros s p strict x (Hp & Hx & rest & Ht).
  assert (Hx' := Hx). destruct Hx' as [Rx _]. small_consts.
  assert (Lp : p < slen s).
  { destruct (Z_lt_le_dec p (slen s)); [assumption|]. rewrite skipn_all2 in Ht by (unfold slen in *; lia).
    pose proof (utf8_len x). destruct (utf8 x); [unfold slen in *; simpl in *; lia|discriminate]. }
  assert (HR : 0 <= p < slen s) by lia.
  assert (Q1 := Z.div_mod x 64 ltac:(lia)). assert (M1 := Z.mod_pos_bound x 64 ltac:(lia)).
  assert (Q2 := Z.div_mod (x/64) 64 ltac:(lia)). assert (M2 := Z.mod_pos_bound (x/64) 64 ltac:(lia)).
  rewrite div_div64 in Q2 by lia. change (64*64) with 4096 in Q2.
  assert (Q3 := Z.div_mod (x/4096) 64 ltac:(lia)). assert (M3 := Z.mod_pos_bound (x/4096) 64 ltac:(lia)).
  rewrite div_div64 in Q3 by lia. change (4096*64) with 262144 in Q3.
  assert (Q4 := Z.div_mod (x/262144) 64 ltac:(lia)). assert (M4 := Z.mod_pos_bound (x/262144) 64 ltac:(lia)).
  rewrite div_div64 in Q4 by lia. change (262144*64) with 16777216 in Q4.
  assert (Q5 := Z.div_mod (x/16777216) 64 ltac:(lia)). assert (M5 := Z.mod_pos_bound (x/16777216) 64 ltac:(lia)).
  rewrite div_div64 in Q5 by lia. change (16777216*64) with 1073741824 in Q5.
  unfold utf8 in *. small_consts.
  destruct (Z.ltb_spec x 128).
  { rewrite (decode_unfold s p strict x rest HR Ht) by (unfold is_byte; lia).
    rewrite ltb_t by lia. rewrite fin_ok by assumption. reflexivity. }
  destruct (Z.ltb_spec x 2048).
  { cbn [app] in Ht.
    rewrite (decode_unfold s p strict _ _ HR Ht) by (unfold is_byte; lia).
    rewrite ltb_f by lia. rewrite (lc_val (192 + x/64) 1) by lia. change (Z.to_nat 1) with 1%nat.
    rewrite rc_step_ok by lia. cbn [rc]. cbn zeta.
    change (1 =? 7) with false; change (1 =? 6) with false; cbv iota.
    change (2^(6-1)) with 32. change (2^(6*1)) with 64. change (dec_limit 1) with 128.
    replace ((192 + x/64) mod 32) with (x/64) by dm.
    match goal with |- context [fin _ ?a _] => replace a with x by lia end.
    rewrite ltb_f by lia. rewrite fin_ok by assumption. unfold slen; cbn [length]. do 3 f_equal. lia. }
  destruct (Z.ltb_spec x 65536).
  { cbn [app] in Ht.
    rewrite (decode_unfold s p strict _ _ HR Ht) by (unfold is_byte; lia).
    rewrite ltb_f by lia. rewrite (lc_val (224 + x/4096) 2) by lia. change (Z.to_nat 2) with 2%nat.
    rewrite !rc_step_ok by lia. cbn [rc]. cbn zeta.
    change (2 =? 7) with false; change (2 =? 6) with false; cbv iota.
    change (2^(6-2)) with 16. change (2^(6*2)) with 4096. change (dec_limit 2) with 2048.
    replace ((224 + x/4096) mod 16) with (x/4096) by (apply (Z.mod_unique _ 16 14); lia).
    match goal with |- context [fin _ ?a _] => replace a with x by lia end.
    rewrite ltb_f by lia. rewrite fin_ok by assumption. unfold slen; cbn [length]. do 3 f_equal. lia. }
  destruct (Z.ltb_spec x 2097152).
  { cbn [app] in Ht.
    rewrite (decode_unfold s p strict _ _ HR Ht) by (unfold is_byte; lia).
    rewrite ltb_f by lia. rewrite (lc_val (240 + x/262144) 3) by lia. change (Z.to_nat 3) with 3%nat.
    rewrite !rc_step_ok by lia. cbn [rc]. cbn zeta.
    change (3 =? 7) with false; change (3 =? 6) with false; cbv iota.
    change (2^(6-3)) with 8. change (2^(6*3)) with 262144. change (dec_limit 3) with 65536.
    replace ((240 + x/262144) mod 8) with (x/262144) by (apply (Z.mod_unique _ 8 30); lia).
    match goal with |- context [fin _ ?a _] => replace a with x by lia end.
    rewrite ltb_f by lia. rewrite fin_ok by assumption. unfold slen; cbn [length]. do 3 f_equal. lia. }
  destruct (Z.ltb_spec x 67108864).
  { cbn [app] in Ht.
    rewrite (decode_unfold s p strict _ _ HR Ht) by (unfold is_byte; lia).
    rewrite ltb_f by lia. rewrite (lc_val (248 + x/16777216) 4) by lia. change (Z.to_nat 4) with 4%nat.
    rewrite !rc_step_ok by lia. cbn [rc]. cbn zeta.
    change (4 =? 7) with false; change (4 =? 6) with false; cbv iota.
    change (2^(6-4)) with 4. change (2^(6*4)) with 16777216. change (dec_limit 4) with 2097152.
    replace ((248 + x/16777216) mod 4) with (x/16777216) by (apply (Z.mod_unique _ 4 62); lia).
    match goal with |- context [fin _ ?a _] => replace a with x by lia end.
    rewrite ltb_f by lia. rewrite fin_ok by assumption. unfold slen; cbn [length]. do 3 f_equal. lia. }
  cbn [app] in Ht.
  rewrite (decode_unfold s p strict _ _ HR Ht) by (unfold is_byte; lia).
  rewrite ltb_f by lia. rewrite (lc_val (252 + x/1073741824) 5) by lia. change (Z.to_nat 5) with 5%nat.
  rewrite !rc_step_ok by lia. cbn [rc]. cbn zeta.
  change (5 =? 7) with false; change (5 =? 6) with false; cbv iota.
  change (2^(6-5)) with 2. change (2^(6*5)) with 1073741824. change (dec_limit 5) with 67108864.
  replace ((252 + x/1073741824) mod 2) with (x/1073741824) by (apply (Z.mod_unique _ 2 126); lia).
  match goal with |- context [fin _ ?a _] => replace a with x by lia end.
  rewrite ltb_f by lia. rewrite fin_ok by assumption. unfold slen; cbn [length]. do 3 f_equal. lia.
Qed.

(* the only undefined case: byte 255 followed by seven continuation bytes *)
Definition bad_ff (s : list Z) (p : Z) : Prop :=
  exists a b c d e f g rest, skipn (Z.to_nat p) s = [255; a; b; c; d; e; f; g] ++ rest /\
    Forall (fun x => 128 <= x < 192) [a; b; c; d; e; f; g].

Lemma rc_conts : forall k t res r, wf_str t -> rc k t res = Some r ->
  exists l rest, t = l ++ rest /\ length l = k /\ Forall (fun x => 128 <= x < 192) l.
Proof.
  induction k; intros t res r W H.
  - exists [], t. auto.
  - cbn [rc] in H. destruct t as [|b t']; [discriminate|]. inversion W; subst.
    rewrite iscont_byte in H by assumption.
    destruct (Z.leb_spec 128 b); destruct (Z.ltb_spec b 192); cbn [andb] in H; try discriminate.
    destruct (IHk _ _ _ H3 H) as (l & rest & -> & L & F).
    exists (b :: l), rest. split; [reflexivity|]. split; [simpl; lia|]. constructor; auto.
Qed.

Theorem decode_total : forall s p strict, wf_str s -> 0 <= p < slen s ->
  (exists r, utf8_decode s p strict = Ok r) \/ (utf8_decode s p strict = UB /\ bad_ff s p).
Proof.
  intros s p strict W Hp.
  destruct (skipn (Z.to_nat p) s) as [|c t] eqn:Ht.
  { pose proof (slen_skipn s p). rewrite Ht, slen_nil in H. lia. }
  assert (Wt : wf_str (c :: t)) by (rewrite <- Ht; apply wf_skipn; assumption).
  inversion Wt as [|? ? Hc Wt']; subst.
  rewrite (decode_unfold s p strict c t Hp Ht Hc).
  assert (F : forall a b, exists r, fin strict a b = Ok r).
  { intros a b. unfold fin. destruct (_ && _); eauto. }
  destruct (Z.ltb_spec c 128); [left; apply F|].
  destruct (rc (Z.to_nat (lc c)) t 0) as [r|] eqn:R; [|left; eauto].
  destruct (Z.eqb_spec (lc c) 7) as [E|N].
  - right. split; [reflexivity|]. unfold is_byte in Hc. pose proof (lc_cases c ltac:(lia)).
    assert (c = 255) by lia. subst c. rewrite E in R. change (Z.to_nat 7) with 7%nat in R.
    destruct (rc_conts _ _ _ _ Wt' R) as (l & rest & -> & L & FA).
    do 8 (destruct l as [|? l]; try (simpl in L; discriminate)).
    unfold bad_ff. rewrite Ht. do 8 eexists. split; [reflexivity|assumption].
  - left. destruct (lc c =? 6); [eauto|]. cbn zeta.
    match goal with |- context [if ?b then _ else _] => destruct b end; eauto.
Qed.

Theorem decode_none : forall s p strict, wf_str s -> 0 <= p < slen s ->
  utf8_decode s p strict = Ok None -> forall x, ~ char_at strict s p x.
Proof. intros s p strict W Hp H x C. rewrite (decode_complete _ _ _ _ C) in H. discriminate. Qed.

Theorem decode_bad_ff : forall s p strict, bad_ff s p -> 0 <= p < slen s -> utf8_decode s p strict = UB.
Proof.
  intros s p strict (a & b & c & d & e & f & g & rest & E & F) Hp.
  rewrite (decode_unfold s p strict 255 ([a;b;c;d;e;f;g] ++ rest) Hp E) by (unfold is_byte; lia).
  change (255 <? 128) with false. cbv iota. change (Z.to_nat (lc 255)) with 7%nat.
  assert (R : exists r, rc 7 ([a; b; c; d; e; f; g] ++ rest) 0 = Some r).
  { assert (G : forall l res, Forall (fun x => 128 <= x < 192) l -> exists r, rc (length l) (l ++ rest) res = Some r).
    { induction l; intros res H; [exists res; reflexivity|]. inversion H; subst. cbn [length app rc].
      rewrite iscont_byte by (unfold is_byte; lia).
      destruct (Z.leb_spec 128 a0); [|lia]. destruct (Z.ltb_spec a0 192); [|lia]. cbn [andb]. apply IHl. assumption. }
    apply (G [a;b;c;d;e;f;g] 0 F). }
  destruct R as [r R]. rewrite R. reflexivity.
Qed.

(* prefix freedom *)
Theorem utf8_prefix_free : forall x y r1 r2, code_ok false x -> code_ok false y ->
  utf8 x ++ r1 = utf8 y ++ r2 -> x = y /\ r1 = r2.
Proof.
  intros x y r1 r2 Hx Hy E.
  assert (Cx : char_at false (utf8 x ++ r1) 0 x) by (split; [lia|]; split; [assumption|]; exists r1; reflexivity).
  assert (Cy : char_at false (utf8 x ++ r1) 0 y) by (split; [lia|]; split; [assumption|]; exists r2; exact E).
  apply decode_complete in Cx. apply decode_complete in Cy. rewrite Cx in Cy.
  inversion Cy; subst. split; [reflexivity|]. apply app_inv_head in E. assumption.
Qed.

(* --- library functions --- *)
Lemma posrelat_ok : forall pos len, is_s64 pos -> 0 <= len < maxint ->
  u_posrelat pos len = Ok (abs_pos pos len).
Proof.
  intros pos len Hp Hl. unfold u_posrelat, abs_pos. destruct (Z.leb_spec 0 pos); [reflexivity|].
  assert (E : u64 (0 - u64 pos) = - pos).
  { rewrite (u64_neg pos) by (unfold_consts; lia). apply (u64_unique _ _ 1); unfold_consts; lia. }
  rewrite E. destruct (Z.ltb_spec len (- pos)).
  - f_equal. lia.
  - rewrite s64_id by (unfold_consts; lia). rewrite c_signed_ok by (unfold_consts; lia). cbn [bind].
    rewrite c_signed_ok by (unfold_consts; lia). f_equal. lia.
Qed.

Lemma abs_pos_nonneg : forall pos len, 0 <= abs_pos pos len.
Proof. intros. unfold abs_pos. destruct (Z.leb_spec 0 pos); lia. Qed.

Lemma no_ff_decode : forall s p strict, wf_str s -> ~ has_ff s -> 0 <= p < slen s ->
  exists r, utf8_decode s p strict = Ok r.
Proof.
  intros s p strict W N Hp. destruct (decode_total s p strict W Hp) as [H|[_ B]]; [assumption|].
  exfalso. apply N. destruct B as (a & b & c & d & e & f & g & rest & H).
  exists (Z.to_nat p), a, b, c, d, e, f, g, rest. exact H.
Qed.

Lemma char_end : forall strict s p x, p <= slen s -> char_at strict s p x ->
  p < p + slen (utf8 x) <= slen s /\ skipn (Z.to_nat p) s = utf8 x ++ skipn (Z.to_nat (p + slen (utf8 x))) s.
Proof.
  intros strict s p x Hl (Hp & _ & rest & E). pose proof (utf8_len x).
  destruct (skipn_app_Z s p _ _ (conj Hp Hl) E) as [E2 L2]. split; [lia|]. rewrite E2. assumption.
Qed.

Lemma utflen_run : forall fuel s p q n lax, wf_str s -> ~ has_ff s -> 0 <= p <= slen s -> q < slen s ->
  q - p < Z.of_nat fuel ->
  exists l e, run (negb lax) s p q l e /\
    utflen_loop fuel s p q n lax =
      Ok (match e with inl _ => inl (n + Z.of_nat (length l)) | inr b => inr (b + 1) end).
Proof.
  induction fuel; intros s p q n lax W N Hp Hq Hf; cbn [utflen_loop].
  - rewrite ltb_t by lia. exists [], (inl p). split; [constructor; lia|]. simpl. repeat f_equal. lia.
  - destruct (Z.ltb_spec q p).
    + exists [], (inl p). split; [constructor; lia|]. simpl. repeat f_equal. lia.
    + destruct (no_ff_decode s p (negb lax) W N ltac:(lia)) as [r E]. rewrite E. cbn [bind].
      destruct r as [[x next]|].
      * destruct (decode_sound s p (negb lax) x next W ltac:(lia) E) as [C ->].
        destruct (char_end (negb lax) s p x ltac:(lia) C) as [B _].
        destruct (IHfuel s (p + slen (utf8 x)) q (n + 1) lax W N ltac:(lia) Hq ltac:(lia)) as (l & e & R & E').
        exists ((p, x) :: l), e. split; [apply run_step; auto|]. rewrite E'.
        destruct e; [|reflexivity]. do 2 f_equal. simpl length. lia.
      * exists [], (inr p). split; [|reflexivity]. apply run_bad; [lia|].
        apply decode_none; auto. lia.
Qed.

Lemma codepoint_run : forall fuel s p se lax acc, wf_str s -> ~ has_ff s -> 0 <= p <= slen s -> se <= slen s ->
  se - p <= Z.of_nat fuel ->
  exists l e, run (negb lax) s p (se - 1) l e /\
    codepoint_loop fuel s p se lax acc =
      match e with inl _ => Ok (rev acc ++ map snd l) | inr b => Err EFormat end.
Proof.
  induction fuel; intros s p se lax acc W N Hp Hse Hf; cbn [codepoint_loop].
  - rewrite ltb_f by lia. cbn [negb]. exists [], (inl p). split; [constructor; lia|]. rewrite app_nil_r. reflexivity.
  - destruct (Z.ltb_spec p se); cbn [negb].
    + destruct (no_ff_decode s p (negb lax) W N ltac:(lia)) as [r E]. rewrite E. cbn [bind].
      destruct r as [[x next]|].
      * destruct (decode_sound s p (negb lax) x next W ltac:(lia) E) as [C ->].
        destruct (char_end (negb lax) s p x ltac:(lia) C) as [B _].
        destruct (IHfuel s (p + slen (utf8 x)) se lax (x :: acc) W N ltac:(lia) Hse ltac:(lia)) as (l & e & R & E').
        exists ((p, x) :: l), e. split; [apply run_step; auto; lia|]. rewrite E'.
        destruct e; [|reflexivity]. f_equal. simpl. rewrite <- app_assoc. reflexivity.
      * exists [], (inr p). split; [|reflexivity]. apply run_bad; [lia|].
        apply decode_none; auto. lia.
    + exists [], (inl p). split; [constructor; lia|]. rewrite app_nil_r. reflexivity.
Qed.

(* run is deterministic and describes the bytes *)
Lemma char_at_det : forall strict s p x y, char_at strict s p x -> char_at strict s p y -> x = y.
Proof.
  intros strict s p x y Cx Cy. apply decode_complete in Cx. apply decode_complete in Cy. congruence.
Qed.

Lemma run_det : forall strict s p q l e, run strict s p q l e -> forall l' e', run strict s p q l' e' ->
  l = l' /\ e = e'.
Proof.
  induction 1; intros l' e' R.
  - inversion R; subst; auto; lia.
  - inversion R; subst; auto; try lia. exfalso. eapply H0; eauto.
  - inversion R; subst; try lia.
    + exfalso. eapply H3; eauto.
    + assert (x = x0) by (eapply char_at_det; eauto). subst x0. destruct (IHrun _ _ H4). subst. auto.
Qed.

Lemma run_bytes : forall strict s p q l e, run strict s p q l e -> 0 <= p <= slen s -> q < slen s ->
  let r := match e with inl a => a | inr b => b end in
  p <= r <= slen s /\ (match e with inl a => q < a | inr b => b <= q end) /\
  skipn (Z.to_nat p) s = encode (map snd l) ++ skipn (Z.to_nat r) s /\
  map fst l = starts p (map snd l) /\ Forall (code_ok strict) (map snd l) /\
  slen (encode (map snd l)) = r - p.
Proof.
  induction 1; intros Hp Hq; cbn zeta.
  - split; [lia|]. split; [lia|]. repeat split; auto. all: cbn; try constructor; lia.
  - split; [lia|]. split; [lia|]. repeat split; auto. all: cbn; try constructor; lia.
  - destruct (char_end _ _ _ _ (proj2 Hp) H0) as [B E]. fold (slen (utf8 x)) in *.
    destruct (IHrun ltac:(lia) Hq) as (R & Q & S & F & C & L).
    split; [lia|]. split; [assumption|]. split.
    + rewrite E, S. unfold encode. simpl. rewrite app_assoc. reflexivity.
    + split; [simpl; f_equal; assumption|]. split.
      * simpl. constructor; [apply H0|assumption].
      * unfold encode in *. simpl. rewrite slen_app. lia.
Qed.

Lemma encode_run : forall strict xs s p, Forall (code_ok strict) xs -> 0 <= p <= slen s ->
  skipn (Z.to_nat p) s = encode xs -> run strict s p (slen s - 1) (combine (starts p xs) xs) (inl (slen s)).
Proof.
  induction xs; intros s p F Hp E.
  - simpl. assert (p = slen s).
    { pose proof (slen_skipn s p Hp) as L. rewrite E in L. change (slen (encode [])) with 0 in L. lia. }
    subst. constructor. lia.
  - inversion F; subst. unfold encode in E. simpl in E.
    assert (C : char_at strict s p a) by (split; [lia|]; split; [assumption|]; eauto).
    destruct (char_end _ _ _ _ (proj2 Hp) C) as [B E2].
    simpl. apply run_step; [lia|assumption|]. fold (slen (utf8 a)).
    apply IHxs; auto; [lia|].
    rewrite E in E2. apply app_inv_head in E2. symmetry. assumption.
Qed.

Lemma skipn_0_Z : forall (s : list Z), skipn (Z.to_nat 0) s = s.
Proof. reflexivity. Qed.

Lemma encode_wf : forall xs, Forall (code_ok false) xs -> wf_str (encode xs).
Proof.
  induction xs; intros F; [constructor|]. inversion F; subst. unfold encode. simpl. apply wf_app.
  - apply utf8_wf. apply H1.
  - apply IHxs. assumption.
Qed.

Lemma starts_length : forall xs p, length (starts p xs) = length xs.
Proof. induction xs; simpl; intros; auto. Qed.

Lemma snd_combine : forall (A B : Type) (l : list A) (l' : list B), length l = length l' -> map snd (combine l l') = l'.
Proof.
  induction l; destruct l'; simpl; intros; try discriminate; auto. f_equal. apply IHl. lia.
Qed.
Lemma fst_combine : forall (A B : Type) (l : list A) (l' : list B), length l = length l' -> map fst (combine l l') = l.
Proof.
  induction l; destruct l'; simpl; intros; try discriminate; auto. f_equal. apply IHl. lia.
Qed.

(* utf8.char *)
Theorem utfchar_ok : forall cs, Forall (code_ok false) cs -> utfchar cs = Ok (encode cs).
Proof.
  induction cs as [|c cs IH]; intros F; [reflexivity|]. inversion F; subst. destruct H1 as [R _]. small_consts.
  cbn [utfchar]. rewrite u64_id by (unfold_consts; lia). rewrite ltb_f by (unfold MAXUTF; lia).
  rewrite utf8esc_ok by (small_consts; lia). cbn [bind]. rewrite IH by assumption. reflexivity.
Qed.

Theorem utfchar_bad : forall cs, Forall is_s64 cs -> Exists (fun c => ~ code_ok false c) cs ->
  utfchar cs = Err EArg.
Proof.
  induction cs as [|c cs IH]; intros S E; [inversion E|]. inversion S; subst.
  cbn [utfchar]. destruct (Z.ltb_spec MAXUTF (u64 c)); [reflexivity|].
  assert (C : code_ok false c).
  { split; [|discriminate]. small_consts. unfold MAXUTF in *.
    destruct (Z_lt_le_dec c 0).
    - rewrite u64_neg in H by (unfold_consts; lia). unfold_consts. lia.
    - rewrite u64_id in H by (unfold_consts; lia). lia. }
  inversion E; subst; [tauto|].
  pose proof C as [R _]. rewrite u64_id by (small_consts; unfold_consts; lia).
  rewrite utf8esc_ok by assumption. cbn [bind]. rewrite IH by assumption. reflexivity.
Qed.

(* no shift overflow in encoded strings *)
Lemma utf8_cont_tail : forall x, 0 <= x < 2^31 -> exists b t, utf8 x = b :: t /\ (b < 128 \/ 192 <= b < 254) /\ Forall (fun y => 128 <= y < 192) t.
Proof.
  intros x H. unfold utf8. small_consts.
  repeat (match goal with |- context [?a <? ?b] => destruct (Z.ltb_spec a b) end);
  eexists; eexists; (split; [reflexivity|]); (split; [Z.div_mod_to_equations; lia|]);
  repeat constructor; Z.div_mod_to_equations; lia.
Qed.

Lemma encode_no_ff : forall xs, Forall (code_ok false) xs -> ~ has_ff (encode xs).
Proof.
  intros xs F (p & a & b & c & d & e & f & g & rest & E & _).
  assert (I : In 255 (encode xs)).
  { rewrite <- (firstn_skipn p (encode xs)). apply in_or_app. right. rewrite E. left. reflexivity. }
  clear E. induction xs; [inversion I|]. inversion F; subst. unfold encode in I. simpl in I.
  apply in_app_or in I. destruct I as [I|I]; [|apply IHxs; auto].
  destruct (utf8_cont_tail a0) as (h & t & E & Hh & Ht); [apply H1|]. rewrite E in I.
  destruct I as [I|I]; [lia|]. rewrite Forall_forall in Ht. specialize (Ht _ I). lia.
Qed.

Lemma code_ok_lax : forall strict x, code_ok strict x -> code_ok false x.
Proof. intros strict x [R _]. split; [assumption|discriminate]. Qed.

Lemma Forall_lax : forall strict xs, Forall (code_ok strict) xs -> Forall (code_ok false) xs.
Proof. intros strict xs F. eapply Forall_impl; [|exact F]. intros. eapply code_ok_lax; eauto. Qed.

Theorem codepoint_roundtrip : forall xs lax maxstack, Forall (code_ok (negb lax)) xs ->
  slen (encode xs) < two31 -> slen (encode xs) <= maxstack ->
  codepoint maxstack (encode xs) 1 (-1) lax = Ok xs.
Proof.
  intros xs lax ms F L M. assert (FL := Forall_lax _ _ F).
  pose proof (slen_nonneg (encode xs)) as NN. unfold codepoint.
  rewrite !posrelat_ok by (unfold_consts; lia). cbn [bind].
  change (abs_pos 1 (slen (encode xs))) with 1.
  assert (A : abs_pos (-1) (slen (encode xs)) = slen (encode xs)).
  { unfold abs_pos. change (0 <=? -1) with false. cbv iota. lia. }
  rewrite A. change (negb (1 <=? 1)) with false. cbv iota.
  rewrite Z.leb_refl. cbn [negb].
  destruct (Z.ltb_spec (slen (encode xs)) 1) as [Z0|Z1].
  - destruct xs; [reflexivity|]. unfold encode in *. simpl in *. rewrite slen_app in *.
    pose proof (utf8_len z). pose proof (slen_nonneg (concat (map utf8 xs))). lia.
  - destruct (Z.leb_spec (two31 - 1) (slen (encode xs) - 1)); [unfold_consts; lia|].
    rewrite ltb_f by lia.
    destruct (codepoint_run (S (length (encode xs))) (encode xs) (1 - 1) (slen (encode xs)) lax []) as (l & e & R & E).
    + apply encode_wf; assumption.
    + apply encode_no_ff; assumption.
    + lia.
    + lia.
    + unfold slen. lia.
    + rewrite E. pose proof (encode_run (negb lax) xs (encode xs) 0 F ltac:(lia) eq_refl) as R2.
      destruct (run_det _ _ _ _ _ _ R _ _ R2) as [-> ->]. simpl rev. cbn [app].
      rewrite snd_combine by (apply starts_length). reflexivity.
Qed.

Theorem utflen_whole : forall s lax, wf_str s -> ~ has_ff s -> slen s < maxint ->
  exists r, utflen s 1 (-1) lax = Ok r /\
  match r with
  | inl n => exists xs, Forall (code_ok (negb lax)) xs /\ s = encode xs /\ n = Z.of_nat (length xs)
  | inr b => exists xs rest, Forall (code_ok (negb lax)) xs /\ s = encode xs ++ rest /\ rest <> [] /\
       b = slen (encode xs) + 1 /\ forall x, ~ char_at (negb lax) s (b - 1) x
  end.
Proof.
  intros s lax W N L. pose proof (slen_nonneg s). unfold utflen.
  rewrite !posrelat_ok by (unfold_consts; lia). cbn [bind].
  change (abs_pos 1 (slen s)) with 1.
  assert (A : abs_pos (-1) (slen s) = slen s).
  { unfold abs_pos. change (0 <=? -1) with false. cbv iota. lia. }
  rewrite A. change (1 <=? 1) with true. change (1 - 1) with 0.
  destruct (Z.leb_spec 0 (slen s)); [|lia]. cbn [andb negb].
  rewrite ltb_t by lia. cbn [negb].
  destruct (utflen_run (S (length s)) s 0 (slen s - 1) 0 lax W N) as (l & e & R & E); try lia.
  { unfold slen. lia. }
  rewrite E. eexists. split; [reflexivity|].
  destruct (run_bytes _ _ _ _ _ _ R) as (B1 & B2 & B3 & B4 & B5 & B6); try lia.
  rewrite skipn_0_Z in B3.
  destruct e as [a|b].
  - exists (map snd l). split; [assumption|]. split.
    + rewrite B3 at 1. rewrite (skipn_all2 s) by (unfold slen in *; lia). apply app_nil_r.
    + rewrite map_length. lia.
  - exists (map snd l), (skipn (Z.to_nat b) s). split; [assumption|]. split; [assumption|].
    split; [|split; [lia|]].
    + intros Z0. pose proof (slen_skipn s b). rewrite Z0, slen_nil in H1. lia.
    + replace (b + 1 - 1) with b by lia. clear -R. remember (inr b) as e. induction R; inversion Heqe; subst; auto.
Qed.

Theorem utflen_encode : forall xs lax, Forall (code_ok (negb lax)) xs -> slen (encode xs) < maxint ->
  utflen (encode xs) 1 (-1) lax = Ok (inl (Z.of_nat (length xs))).
Proof.
  intros xs lax F L. assert (FL := Forall_lax _ _ F).
  destruct (utflen_whole (encode xs) lax (encode_wf _ FL) (encode_no_ff _ FL) L) as ([n|b] & E & P).
  - destruct P as (ys & FY & EY & ->). rewrite E. do 2 f_equal.
    assert (xs = ys); [|congruence].
    assert (FLY := Forall_lax _ _ FY). clear - FL FLY EY.
    revert ys FLY EY. induction xs; intros ys FLY EY.
    + destruct ys; [reflexivity|]. unfold encode in EY. simpl in EY.
      pose proof (utf8_len z). destruct (utf8 z); [unfold slen in *; simpl in *; lia|discriminate].
    + destruct ys as [|y ys].
      * unfold encode in EY. simpl in EY. pose proof (utf8_len a).
        destruct (utf8 a); [unfold slen in *; simpl in *; lia|discriminate].
      * inversion FL; subst. inversion FLY; subst. unfold encode in EY. simpl in EY.
        apply utf8_prefix_free in EY; auto. destruct EY as [-> EY]. f_equal. apply IHxs; auto.
  - exfalso. destruct P as (ys & rest & FY & EY & NR & -> & NC).
    assert (FLY := Forall_lax _ _ FY).
    assert (K : exists zs, rest = encode zs /\ Forall (code_ok (negb lax)) zs).
    { clear - F FL FLY FY EY. revert xs F FL EY. induction ys; intros xs F FL EY.
      - exists xs. split; [symmetry; assumption|assumption].
      - destruct xs as [|x xs].
        + unfold encode in EY. simpl in EY. rewrite <- app_assoc in EY. pose proof (utf8_len a).
          destruct (utf8 a); [unfold slen in *; simpl in *; lia|discriminate].
        + inversion FL; subst. inversion FLY; subst. inversion F; subst. inversion FY; subst.
          unfold encode in EY. simpl in EY. rewrite <- app_assoc in EY.
          apply utf8_prefix_free in EY; auto. destruct EY as [_ EY]. apply (IHys ltac:(assumption) ltac:(assumption) xs); assumption. }
    destruct K as (zs & -> & FZ). destruct zs as [|z zs]; [apply NR; reflexivity|].
    inversion FZ; subst. apply (NC z).
    replace (slen (encode ys) + 1 - 1) with (slen (encode ys)) by lia.
    split; [apply slen_nonneg|]. split; [assumption|]. rewrite EY. exists (encode zs).
    unfold slen. rewrite Nat2Z.id, skipn_app, skipn_all, Nat.sub_diag. reflexivity.
Qed.

(* general positions: characters starting in [i, j] *)
Theorem utflen_general : forall s i j lax, wf_str s -> ~ has_ff s -> slen s < maxint -> is_s64 i -> is_s64 j ->
  let pi := abs_pos i (slen s) in let pj := abs_pos j (slen s) in
  if (1 <=? pi) && (pi <=? slen s + 1) && (pj <=? slen s)
  then exists l e, run (negb lax) s (pi - 1) (pj - 1) l e /\
       utflen s i j lax = Ok (match e with inl _ => inl (Z.of_nat (length l)) | inr b => inr (b + 1) end)
  else utflen s i j lax = Err EArg.
Proof.
  intros s i j lax W N L Hi Hj pi pj. pose proof (slen_nonneg s).
  unfold utflen. rewrite !posrelat_ok by (auto; lia). cbn [bind]. fold pi pj.
  destruct (Z.leb_spec 1 pi); cbn [andb negb]; [|reflexivity].
  destruct (Z.leb_spec pi (slen s + 1)); cbn [andb].
  - destruct (Z.leb_spec (pi - 1) (slen s)); [|lia]. cbn [negb].
    destruct (Z.leb_spec pj (slen s)).
    + rewrite ltb_t by lia. cbn [negb].
      apply (utflen_run (S (length s)) s (pi - 1) (pj - 1) 0 lax); auto; unfold slen in *; lia.
    + rewrite ltb_f by lia. reflexivity.
  - destruct (Z.leb_spec (pi - 1) (slen s)); [lia|]. reflexivity.
Qed.

Theorem codepoint_general : forall ms s i j lax, wf_str s -> ~ has_ff s -> slen s < maxint -> is_s64 i -> is_s64 j ->
  let pi := abs_pos i (slen s) in let pj := abs_pos j (slen s) in
  if (1 <=? pi) && (pj <=? slen s)
  then if pj <? pi then codepoint ms s i j lax = Ok []
       else if (pj - pi <? two31 - 1) && (pj - pi + 1 <=? ms)
       then exists l e, run (negb lax) s (pi - 1) (pj - 1) l e /\
            codepoint ms s i j lax = match e with inl _ => Ok (map snd l) | inr _ => Err EFormat end
       else codepoint ms s i j lax = Err ETooLong
  else codepoint ms s i j lax = Err EArg.
Proof.
  intros ms s i j lax W N L Hi Hj pi pj. pose proof (slen_nonneg s).
  unfold codepoint. rewrite !posrelat_ok by (auto; lia). cbn [bind]. fold pi pj.
  destruct (Z.leb_spec 1 pi); cbn [andb negb]; [|reflexivity].
  destruct (Z.leb_spec pj (slen s)); cbn [negb]; [|reflexivity].
  destruct (Z.ltb_spec pj pi); [reflexivity|].
  destruct (Z.ltb_spec (pj - pi) (two31 - 1)); cbn [andb].
  - destruct (Z.leb_spec (two31 - 1) (pj - pi)); [lia|].
    destruct (Z.leb_spec (pj - pi + 1) ms).
    + rewrite ltb_f by lia. apply (codepoint_run (S (length s)) s (pi - 1) pj lax []); auto; unfold slen in *; lia.
    + rewrite ltb_t by lia. reflexivity.
  - destruct (Z.leb_spec (two31 - 1) (pj - pi)); [reflexivity|lia].
Qed.
