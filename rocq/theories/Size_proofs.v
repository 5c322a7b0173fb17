Require Import ZArith Lia Bool List.
From Verif Require Import Base Base_facts Bits_facts Size_model.
Open Scope Z_scope.
Ltac Zify.zify_post_hook ::= Z.div_mod_to_equations.

(* state of the loops: x is ceil(x0/2^e), at least 8, and not rounded up by much *)
Definition fb_inv (x0 x e : Z) : Prop :=
  0 <= e /\ 8 <= x /\ x0 <= x * 2^e /\ (x - 1) * 2^e < x0 /\
  (e = 0 \/ 15 * 2^e < 2 * x0).

Lemma fb_coarse_inv : forall fuel x0 x e, fb_inv x0 x e -> x <= two32 - 16 ->
  x <= 127 * 16 ^ Z.of_nat fuel ->
  exists x' e', fb_coarse (S fuel) x e = Ok (x', e') /\ fb_inv x0 x' e' /\ x' < 128.
Proof.
  induction fuel; intros x0 x e Hi Hw Hb.
  - simpl in Hb. cbn [fb_coarse]. change (Z.shiftl 8 4) with 128.
    destruct (Z.leb_spec 128 x); [lia|]. exists x, e. auto.
  - cbn [fb_coarse]. change (Z.shiftl 8 4) with 128.
    destruct (Z.leb_spec 128 x).
    + rewrite u32_id by (unfold_consts; lia).
      rewrite Z.shiftr_div_pow2 by lia. change (2^4) with 16.
      change (fb_coarse (S fuel) ((x + 15) / 16) (e + 4)) with (fb_coarse (S fuel) ((x+15)/16) (e+4)).
      apply IHfuel.
      * destruct Hi as (H1 & H2 & H3 & H4 & H5).
        assert (E : 2^(e+4) = 16 * 2^e) by (rewrite Z.pow_add_r by lia; change (2^4) with 16; ring).
        assert (P : 0 < 2^e) by (apply Z.pow_pos_nonneg; lia).
        set (p := 2^e) in *. clearbody p.
        assert (Hq : x <= 16 * ((x+15)/16) <= x + 15) by lia.
        set (q := (x+15)/16) in *. clearbody q.
        unfold fb_inv. rewrite E. repeat split; try lia; try nia.
      * unfold_consts. lia.
      * replace (Z.of_nat (S fuel)) with (Z.of_nat fuel + 1) in Hb by lia.
        rewrite Z.pow_add_r in Hb by lia. change (16^1) with 16 in Hb. lia.
    + exists x, e. auto.
Qed.

Lemma fb_fine_inv : forall fuel x0 x e, fb_inv x0 x e -> x <= two32 - 16 ->
  x <= 15 * 2 ^ Z.of_nat fuel ->
  exists x' e', fb_fine (S fuel) x e = Ok (x', e') /\ fb_inv x0 x' e' /\ x' < 16.
Proof.
  induction fuel; intros x0 x e Hi Hw Hb.
  - simpl in Hb. cbn [fb_fine]. change (Z.shiftl 8 1) with 16.
    destruct (Z.leb_spec 16 x); [lia|]. exists x, e. auto.
  - cbn [fb_fine]. change (Z.shiftl 8 1) with 16.
    destruct (Z.leb_spec 16 x).
    + rewrite u32_id by (unfold_consts; lia).
      rewrite Z.shiftr_div_pow2 by lia. change (2^1) with 2.
      apply IHfuel.
      * destruct Hi as (H1 & H2 & H3 & H4 & H5).
        assert (E : 2^(e+1) = 2 * 2^e) by (rewrite Z.pow_add_r by lia; change (2^1) with 2; ring).
        assert (P : 0 < 2^e) by (apply Z.pow_pos_nonneg; lia).
        set (p := 2^e) in *. clearbody p.
        assert (Hq : x <= 2 * ((x+1)/2) <= x + 1) by lia.
        set (q := (x+1)/2) in *. clearbody q.
        unfold fb_inv. rewrite E. repeat split; try lia; try nia.
      * unfold_consts. lia.
      * replace (Z.of_nat (S fuel)) with (Z.of_nat fuel + 1) in Hb by lia.
        rewrite Z.pow_add_r in Hb by lia. change (2^1) with 2 in Hb. lia.
    + exists x, e. auto.
Qed.

(* encoding, as mantissa and exponent *)
Lemma int2fb_decomp : forall x, 8 <= x <= two32 - 16 ->
  exists m e, luaO_int2fb x = Ok ((e + 1) * 8 + (m - 8)) /\ fb_inv x m e /\ m < 16.
Proof.
  intros x H. unfold luaO_int2fb.
  destruct (Z.ltb_spec x 8); [lia|].
  destruct (fb_coarse_inv 32 x x 0) as (x1 & e1 & E1 & I1 & B1).
  - unfold fb_inv. change (2^0) with 1. lia.
  - lia.
  - unfold_consts. change (Z.of_nat 32) with 32. lia.
  - change 33%nat with (S 32). rewrite E1.
    destruct (fb_fine_inv 32 x x1 e1 I1) as (x2 & e2 & E2 & I2 & B2).
    + unfold_consts. lia.
    + change (Z.of_nat 32) with 32. lia.
    + cbn [bind]. rewrite E2. cbn [bind]. exists x2, e2. split; [|auto].
      f_equal. rewrite Z.lor_comm. destruct I2 as (? & ? & ?).
      rewrite lor_shl_add by (change (2^3) with 8; lia). change (2^3) with 8. lia.
Qed.

Lemma int2fb_small : forall x, 0 <= x < 8 -> luaO_int2fb x = Ok x /\ luaO_fb2int x = Ok x.
Proof.
  intros x H. unfold luaO_int2fb, luaO_fb2int.
  destruct (Z.ltb_spec x 8); [auto|lia].
Qed.

Lemma fb2int_decomp : forall m e, 0 <= e -> 8 <= m < 16 ->
  luaO_fb2int ((e + 1) * 8 + (m - 8)) = if m * 2^e <? two31 then Ok (m * 2^e) else UB.
Proof.
  intros m e He Hm. unfold luaO_fb2int.
  destruct (Z.ltb_spec ((e + 1) * 8 + (m - 8)) 8); [lia|].
  rewrite Z.shiftr_div_pow2 by lia. change (2^3) with 8.
  replace (Z.land ((e + 1) * 8 + (m - 8)) 7) with (m - 8).
  2:{ change 7 with (Z.ones 3). rewrite Z.land_ones by lia. change (2^3) with 8. lia. }
  replace (((e + 1) * 8 + (m - 8)) / 8 - 1) with e by lia.
  rewrite Z.shiftl_mul_pow2 by lia.
  replace (m - 8 + 8) with m by lia. reflexivity.
Qed.

Lemma fb_roundtrip : forall x, 0 <= x <= 15 * 2^27 ->
  exists b y, luaO_int2fb x = Ok b /\ 0 <= b < 256 /\ luaO_fb2int b = Ok y /\ x <= y /\ 8 * (y - x) <= x.
Proof.
  intros x H. destruct (Z_lt_le_dec x 8) as [Hs|Hs].
  - destruct (int2fb_small x) as [E1 E2]; [lia|]. exists x, x.
    rewrite E1, E2. repeat split; auto; lia.
  - destruct (int2fb_decomp x) as (m & e & E & I & B); [unfold_consts; lia|].
    destruct I as (H1 & H2 & H3 & H4 & H5).
    assert (He : e <= 27).
    { destruct (Z_lt_le_dec 27 e) as [Hlt|]; [|assumption]. exfalso.
      assert (2^28 <= 2^e) by (apply Z.pow_le_mono_r; lia).
      change (2^27) with 134217728 in H. change (2^28) with 268435456 in *. nia. }
    assert (P : 0 < 2^e) by (apply Z.pow_pos_nonneg; lia).
    assert (Pm : 2^e <= 2^27) by (apply Z.pow_le_mono_r; lia).
    exists ((e+1)*8 + (m-8)), (m * 2^e). split; [assumption|]. split; [lia|].
    rewrite fb2int_decomp by lia.
    assert (Hlt : m * 2^e < two31) by (unfold_consts; change (2^27) with 134217728 in *; nia).
    apply Z.ltb_lt in Hlt. rewrite Hlt. split; [reflexivity|]. split; [assumption|].
    destruct H5 as [H5|H5].
    + subst e. change (2^0) with 1 in *. lia.
    + destruct (Z.eq_dec m 8) as [->|]; nia.
Qed.

Lemma fb_roundtrip_refuted : exists x b, 0 <= x < two31 /\ luaO_int2fb x = Ok b /\ luaO_fb2int b = UB.
Proof.
  exists 2147483647, 232. split; [unfold_consts; lia|]. split; vm_compute; reflexivity.
Qed.

(* ceillog2 *)
Definition nbits (y l : Z) : Prop := 0 <= l /\ y < 2^l /\ (l = 0 \/ 2^(l-1) <= y).

Lemma log_2_table : forall y, 0 <= y < 256 -> nbits y (nth (Z.to_nat y) log_2 0).
Proof.
  assert (F : forallb (fun k => let y := Z.of_nat k in let l := nth k log_2 0 in
     (0 <=? l) && (y <? 2^l) && ((l =? 0) || (2^(l-1) <=? y))) (seq 0 256) = true)
    by (vm_compute; reflexivity).
  rewrite forallb_forall in F. intros y H.
  specialize (F (Z.to_nat y)). rewrite in_seq in F.
  specialize (F ltac:(lia)). cbv zeta in F. rewrite Z2Nat.id in F by lia.
  apply andb_prop in F. destruct F as [F1 F2]. apply andb_prop in F1. destruct F1 as [F0 F1].
  apply Z.leb_le in F0. apply Z.ltb_lt in F1. apply orb_prop in F2.
  rewrite Z.eqb_eq, Z.leb_le in F2. repeat split; assumption.
Qed.

Lemma nbits_shift : forall y l, 256 <= y -> nbits (y / 256) l -> nbits y (l + 8).
Proof.
  intros y l H (H1 & H2 & H3).
  assert (E : 2^(l+8) = 256 * 2^l) by (rewrite Z.pow_add_r by lia; change (2^8) with 256; ring).
  split; [lia|]. rewrite E. split; [lia|]. right.
  destruct H3 as [->|H3].
  - change (2^(0+8-1)) with 128. lia.
  - replace (l + 8 - 1) with ((l-1) + 8) by lia.
    destruct (Z_lt_le_dec (l-1) 0); [assert (l = 0) by lia; subst; simpl; lia|].
    rewrite Z.pow_add_r by lia. change (2^8) with 256. lia.
Qed.

Lemma cl2_loop_ok : forall fuel x l, 0 <= x < 256 * 256 ^ Z.of_nat fuel ->
  exists r, cl2_loop (S fuel) x l = Ok (l + r) /\ nbits x r.
Proof.
  induction fuel; intros x l H; cbn [cl2_loop].
  - simpl in H. destruct (Z.leb_spec 256 x); [lia|].
    eexists; split; [reflexivity|]. apply log_2_table. lia.
  - destruct (Z.leb_spec 256 x).
    + rewrite Z.shiftr_div_pow2 by lia. change (2^8) with 256.
      destruct (IHfuel (x/256) (l+8)) as (r & E & N).
      * replace (Z.of_nat (S fuel)) with (Z.of_nat fuel + 1) in H by lia.
        rewrite Z.pow_add_r in H by lia. change (256^1) with 256 in H. lia.
      * exists (r + 8). split.
        -- cbn [cl2_loop] in E. rewrite E. f_equal. lia.
        -- apply nbits_shift; assumption.
    + eexists; split; [reflexivity|]. apply log_2_table. lia.
Qed.

Lemma ceillog2_ok : forall x, 1 <= x < two32 ->
  exists l, luaO_ceillog2 x = Ok l /\ 0 <= l /\ x <= 2^l /\ forall k, 0 <= k -> x <= 2^k -> l <= k.
Proof.
  intros x H. unfold luaO_ceillog2.
  rewrite u32_id by (unfold_consts; lia).
  destruct (cl2_loop_ok 4 (x-1) 0) as (r & E & H1 & H2 & H3).
  { change (Z.of_nat 4) with 4. unfold_consts. lia. }
  exists r. rewrite Z.add_0_l in E. split; [exact E|]. split; [assumption|]. split; [lia|].
  intros k Hk Hx. destruct H3 as [->|H3]; [lia|].
  destruct (Z_lt_le_dec k r) as [Hlt|]; [|assumption]. exfalso.
  assert (2^k <= 2^(r-1)) by (apply Z.pow_le_mono_r; lia). lia.
Qed.
