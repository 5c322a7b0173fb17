Require Import ZArith List Bool Lia Sorted.
From Verif Require Import Base Base_facts Bits_facts Bitset_model Bitset_spec.
Import ListNotations.
Open Scope Z_scope.

Definition is_word (x : Z) : Prop := 0 <= x < 2 ^ 64.
Definition wf (b : bs) : Prop := (els b <= length (varr b))%nat /\ Forall is_word (varr b).
Definition bitw (a : list Z) (n : Z) : bool := Z.testbit (nth (Z.to_nat (n / 64)) a 0) (n mod 64).
(* membership *)
Definition mem (b : bs) (n : Z) : bool := (n <? 64 * Z.of_nat (els b)) && bitw (varr b) n.
Definition clean (b : bs) : Prop := forall i, (els b <= i)%nat -> nth i (varr b) 0 = 0.

(* words *)
Lemma word_eq : forall x y, is_word x -> is_word y -> (forall j, 0 <= j < 64 -> Z.testbit x j = Z.testbit y j) -> x = y.
Proof.
  intros x y X Y H. apply Z.bits_inj'. intros j J. destruct (Z_lt_le_dec j 64); [apply H; lia|]. rewrite !(fun z Z => testbit_small z 64 j Z) by assumption. reflexivity.
Qed.
Lemma word_bits : forall x, (forall j, 64 <= j -> Z.testbit x j = false) -> 0 <= x -> is_word x.
Proof.
  intros x H X. split; [assumption|]. destruct (Z.eq_dec x 0) as [->|N]; [lia|]. apply Z.log2_lt_pow2; [lia|].
  destruct (Z_lt_le_dec (Z.log2 x) 64); [assumption|]. pose proof (Z.bit_log2 x ltac:(lia)) as B. rewrite H in B by assumption. discriminate.
Qed.
Lemma word0 : is_word 0. Proof. unfold is_word. lia. Qed.
Lemma word_lor : forall x y, is_word x -> is_word y -> is_word (Z.lor x y).
Proof.
  intros x y X Y. apply word_bits; [|apply Z.lor_nonneg; destruct X, Y; auto]. intros j J. rewrite Z.lor_spec, !(fun z Z => testbit_small z 64 j Z) by assumption. reflexivity.
Qed.
Lemma word_land : forall x y, is_word x -> is_word (Z.land x y).
Proof.
  intros x y X. apply word_bits; [|apply Z.land_nonneg; destruct X; auto]. intros j J. rewrite Z.land_spec, (testbit_small x 64 j) by assumption. reflexivity.
Qed.
Lemma u64_word : forall x, is_word (u64 x).
Proof. intros x. unfold u64, is_word, two64. pose proof (Z.mod_pos_bound x 18446744073709551616 ltac:(lia)). change (2 ^ 64) with 18446744073709551616. lia. Qed.
Lemma u64_bit : forall x j, 0 <= j < 64 -> Z.testbit (u64 x) j = Z.testbit x j.
Proof. intros x j J. unfold u64, two64. change 18446744073709551616 with (2 ^ 64). apply Z.mod_pow2_bits_low. lia. Qed.
Lemma unot_bit : forall x j, 0 <= j < 64 -> Z.testbit (u64 (Z.lnot x)) j = negb (Z.testbit x j).
Proof. intros x j J. rewrite u64_bit by assumption. apply Z.lnot_spec. lia. Qed.
Lemma one_bit : forall k j, 0 <= k -> 0 <= j -> Z.testbit (Z.shiftl 1 k) j = (j =? k).
Proof. intros k j K J. rewrite Z.shiftl_1_l. rewrite Z.pow2_bits_eqb by assumption. apply Z.eqb_sym. Qed.
Lemma one_word : forall k, 0 <= k < 64 -> is_word (Z.shiftl 1 k).
Proof. intros k K. apply word_bits; [|rewrite Z.shiftl_1_l; apply Z.pow_nonneg; lia]. intros j J. rewrite one_bit by lia. apply Z.eqb_neq. lia. Qed.

(* arrays *)
Lemma nth_word : forall a i, Forall is_word a -> is_word (nth i a 0).
Proof. intros a i H. destruct (Nat.lt_ge_cases i (length a)); [|rewrite nth_overflow by assumption; apply word0]. rewrite Forall_forall in H. apply H. apply nth_In. assumption. Qed.
Lemma rd_ok : forall a i, 0 <= i -> (Z.to_nat i < length a)%nat -> rd a i = Ok (nth (Z.to_nat i) a 0).
Proof. intros a i I L. unfold rd. rewrite (nth_error_nth' a 0 L). reflexivity. Qed.
Lemma wr_ok : forall a i x, (Z.to_nat i < length a)%nat -> wr a i x = Ok (upd a (Z.to_nat i) x).
Proof. intros a i x L. unfold wr. apply Nat.ltb_lt in L. rewrite L. reflexivity. Qed.
Lemma nth_upd_eq : forall A (a : list A) i x d, (i < length a)%nat -> nth i (upd a i x) d = x.
Proof. intros A a. induction a as [|y a IH]; intros [|i] x d L; cbn [length] in L; try lia; [reflexivity|]. cbn. apply IH. lia. Qed.
Lemma nth_upd_neq : forall A (a : list A) i j x d, i <> j -> nth j (upd a i x) d = nth j a d.
Proof. intros A a. induction a as [|y a IH]; intros [|i] [|j] x d N; try lia; try reflexivity. cbn. apply IH. lia. Qed.
Lemma upd_words : forall a i x, Forall is_word a -> is_word x -> Forall is_word (upd a i x).
Proof. intros a i x H X. revert i. induction H as [|y a Y H IH]; intros [|i]; cbn; constructor; auto. Qed.
Lemma length_upd : forall A (a : list A) i x, length (upd a i x) = length a.
Proof. intros A a. induction a as [|y a IH]; intros [|i] x; cbn; auto. Qed.
Lemma bitw_upd : forall a i x n, (i < length a)%nat -> 0 <= n -> bitw (upd a i x) n = if n / 64 =? Z.of_nat i then Z.testbit x (n mod 64) else bitw a n.
Proof.
  intros a i x n L N. unfold bitw. assert (0 <= n / 64) by (apply Z.div_pos; lia). destruct (Z.eqb_spec (n / 64) (Z.of_nat i)) as [E|E].
  - rewrite E, Nat2Z.id. rewrite nth_upd_eq by assumption. reflexivity.
  - rewrite nth_upd_neq by lia. reflexivity.
Qed.
Lemma bitw_app0 : forall a k n, bitw (a ++ repeat 0 k) n = bitw a n.
Proof.
  intros a k n. unfold bitw. destruct (Nat.lt_ge_cases (Z.to_nat (n / 64)) (length a)) as [L|G].
  - rewrite app_nth1 by assumption. reflexivity.
  - rewrite app_nth2 by assumption. rewrite (nth_overflow a) by assumption. rewrite nth_repeat. reflexivity.
Qed.
Lemma split_eq : forall n m, (n =? m) = (n / 64 =? m / 64) && (n mod 64 =? m mod 64).
Proof.
  intros n m. pose proof (Z.div_mod n 64 ltac:(lia)). pose proof (Z.div_mod m 64 ltac:(lia)).
  destruct (Z.eqb_spec n m); destruct (Z.eqb_spec (n / 64) (m / 64)); destruct (Z.eqb_spec (n mod 64) (m mod 64)); subst; cbn [andb]; try reflexivity; try congruence; exfalso; lia.
Qed.
Lemma words_spec : forall n, 0 <= n -> n <= 64 * Z.of_nat (words n) < n + 64.
Proof.
  intros n N. unfold words, W. pose proof (Z.div_mod (n + 64 - 1) 64 ltac:(lia)). pose proof (Z.mod_pos_bound (n + 64 - 1) 64 ltac:(lia)).
  assert (0 <= (n + 64 - 1) / 64) by (apply Z.div_pos; lia). rewrite Z2Nat.id by assumption. lia.
Qed.
Lemma div_lt : forall n k, 0 <= n -> (n <? 64 * Z.of_nat k) = (Z.to_nat (n / 64) <? k)%nat.
Proof.
  intros n k N. pose proof (Z.div_mod n 64 ltac:(lia)). pose proof (Z.mod_pos_bound n 64 ltac:(lia)). assert (0 <= n / 64) by (apply Z.div_pos; lia).
  destruct (Z.ltb_spec n (64 * Z.of_nat k)); destruct (Nat.ltb_spec (Z.to_nat (n / 64)) k); try reflexivity; exfalso; lia.
Qed.
Lemma mem_word : forall b n, 0 <= n -> mem b n = Z.testbit (if (Z.to_nat (n / 64) <? els b)%nat then nth (Z.to_nat (n / 64)) (varr b) 0 else 0) (n mod 64).
Proof. intros b n N. unfold mem. rewrite div_lt by assumption. destruct (_ <? _)%nat; [reflexivity|]. symmetry. apply Z.bits_0. Qed.
Lemma mem_clean : forall b n, clean b -> 0 <= n -> mem b n = bitw (varr b) n.
Proof. intros b n C N. rewrite mem_word by assumption. unfold bitw. destruct (Nat.ltb_spec (Z.to_nat (n / 64)) (els b)); [reflexivity|]. rewrite C by assumption. reflexivity. Qed.
Lemma mod64 : forall n, 0 <= n mod 64 < 64.
Proof. intros. apply Z.mod_pos_bound. lia. Qed.

(* expand *)
Lemma expand_ok : forall b nb, wf b -> 0 <= nb -> let b' := bitset_expand b nb in
  wf b' /\ nb <= 64 * Z.of_nat (els b') /\ (els b <= els b')%nat /\ (forall n, bitw (varr b') n = bitw (varr b) n) /\ (clean b -> clean b').
Proof.
  intros b nb [WL WF] N. pose proof (words_spec nb N) as WS. unfold bitset_expand. destruct (Nat.ltb_spec (els b) (words nb)) as [L|G]; cbn zeta.
  - cbn [els varr]. split; [split; cbn [els varr]; [rewrite app_length, repeat_length; lia|]|].
    { apply Forall_app. split; [assumption|]. apply Forall_forall. intros x X. apply repeat_spec in X. subst x. apply word0. }
    split; [lia|]. split; [lia|]. split; [intros n; apply bitw_app0|]. intros C i I. cbn [els varr] in *.
    destruct (Nat.lt_ge_cases i (length (varr b))) as [L1|G1]; [rewrite app_nth1 by assumption; apply C; lia|rewrite app_nth2 by assumption; apply nth_repeat].
  - split; [split; assumption|]. split; [lia|]. split; [lia|]. split; [reflexivity|tauto].
Qed.
Lemma create_ok : forall n, wf (create2 n) /\ clean (create2 n) /\ forall m, mem (create2 n) m = false.
Proof.
  intros n. unfold create2. split; [split; cbn [els varr]; [lia|]|].
  - apply Forall_forall. intros x X. apply repeat_spec in X. subst x. apply word0.
  - split; [intros i _; cbn [varr]; apply nth_repeat|]. intros m. unfold mem, bitw. cbn [varr]. rewrite nth_repeat, Z.bits_0. apply andb_false_r.
Qed.
Lemma clean_by : forall a k, (forall n, 64 * Z.of_nat k <= n -> bitw a n = false) -> Forall is_word a -> forall i, (k <= i)%nat -> nth i a 0 = 0.
Proof.
  intros a k H F i I. apply word_eq; [apply nth_word; assumption|apply word0|]. intros j J. rewrite Z.bits_0. specialize (H (64 * Z.of_nat i + j) ltac:(lia)). unfold bitw in H.
  replace ((64 * Z.of_nat i + j) / 64) with (Z.of_nat i) in H by (rewrite Z.mul_comm, Z.div_add_l by lia; rewrite Z.div_small by lia; lia).
  replace ((64 * Z.of_nat i + j) mod 64) with j in H by (rewrite Z.mul_comm, Z.add_comm, Z.mod_add by lia; rewrite Z.mod_small by lia; reflexivity). rewrite Nat2Z.id in H. assumption.
Qed.
Lemma idx_lt : forall n k, 0 <= n -> n < 64 * Z.of_nat k -> (Z.to_nat (n / 64) < k)%nat.
Proof. intros n k N L. pose proof (div_lt n k N) as D. destruct (Z.ltb_spec n (64 * Z.of_nat k)); [|lia]. symmetry in D. apply Nat.ltb_lt in D. assumption. Qed.
Lemma bitw_set : forall a n m b, 0 <= n -> (Z.to_nat (n / 64) < length a)%nat -> 0 <= m -> 
  (forall j, 0 <= j < 64 -> Z.testbit b j = if j =? n mod 64 then Z.testbit b j else Z.testbit (nth (Z.to_nat (n / 64)) a 0) j) ->
  bitw (upd a (Z.to_nat (n / 64)) b) m = if m =? n then Z.testbit b (n mod 64) else bitw a m.
Proof.
  intros a n m b N L M H. rewrite bitw_upd by assumption. assert (0 <= n / 64) by (apply Z.div_pos; lia). rewrite Z2Nat.id by assumption. rewrite (split_eq m n).
  destruct (Z.eqb_spec (m / 64) (n / 64)) as [E|E]; cbn [andb]; [|reflexivity]. rewrite H by apply mod64. destruct (Z.eqb_spec (m mod 64) (n mod 64)) as [E2|E2]; [rewrite E2; reflexivity|]. unfold bitw. rewrite E. reflexivity.
Qed.
Lemma set_bit_ok : forall b n, wf b -> 0 <= n -> exists b', set_bit b n = Ok (b', negb (bitw (varr b) n)) /\ wf b' /\ (els b <= els b')%nat /\ n < 64 * Z.of_nat (els b') /\
  (forall m, 0 <= m -> bitw (varr b') m = (m =? n) || bitw (varr b) m) /\ (clean b -> clean b').
Proof.
  intros b n WB N. unfold set_bit. destruct (expand_ok b (n + 1) WB ltac:(lia)) as ([WL WF] & E1 & E2 & E3 & E4). set (b1 := bitset_expand b (n + 1)) in *. change W with 64.
  assert (IL : (Z.to_nat (n / 64) < els b1)%nat) by (apply idx_lt; lia). assert (0 <= n / 64) by (apply Z.div_pos; lia).
  rewrite rd_ok by lia. cbn [bind]. rewrite wr_ok by lia. cbn [bind]. eexists. split; [do 3 f_equal; apply E3|]. cbn [els varr]. set (x := nth (Z.to_nat (n / 64)) (varr b1) 0).
  assert (WX : is_word (Z.lor x (Z.shiftl 1 (n mod 64)))) by (apply word_lor; [apply nth_word; assumption|apply one_word, mod64]).
  assert (BW : forall m, 0 <= m -> bitw (upd (varr b1) (Z.to_nat (n / 64)) (Z.lor x (Z.shiftl 1 (n mod 64)))) m = (m =? n) || bitw (varr b) m).
  { intros m M. rewrite bitw_set; [| lia|lia|lia|].
    - rewrite E3. rewrite Z.lor_spec, one_bit, Z.eqb_refl, orb_true_r by (try apply mod64; pose proof (mod64 n); lia). destruct (m =? n); reflexivity.
    - intros j J. destruct (Z.eqb_spec j (n mod 64)); [reflexivity|]. rewrite Z.lor_spec, one_bit by (pose proof (mod64 n); lia). destruct (Z.eqb_spec j (n mod 64)); [contradiction|]. apply orb_false_r. }
  split; [split; cbn [els varr]; [rewrite length_upd; lia|apply upd_words; assumption]|]. split; [lia|]. split; [lia|]. split; [assumption|].
  intros C i I. cbn [els varr] in *. rewrite nth_upd_neq by lia. apply E4; assumption.
Qed.
Lemma clear_bit_ok : forall b n, wf b -> 0 <= n -> exists b', clear_bit b n = Ok (b', mem b n) /\ wf b' /\ els b' = els b /\
  (forall m, 0 <= m -> bitw (varr b') m = if n <? 64 * Z.of_nat (els b) then negb (m =? n) && bitw (varr b) m else bitw (varr b) m) /\ (clean b -> clean b').
Proof.
  intros b n [WL WF] N. unfold clear_bit. change W with 64. assert (0 <= n / 64) by (apply Z.div_pos; lia). destruct (Z.leb_spec (64 * Z.of_nat (els b)) n) as [G|L].
  - exists b. unfold mem. destruct (Z.ltb_spec n (64 * Z.of_nat (els b))); [lia|]. split; [reflexivity|]. repeat split; auto.
  - assert (IL : (Z.to_nat (n / 64) < els b)%nat) by (apply idx_lt; lia). rewrite rd_ok by lia. cbn [bind]. rewrite wr_ok by lia. cbn [bind]. eexists.
    split; [unfold mem; destruct (Z.ltb_spec n (64 * Z.of_nat (els b))); [|lia]; reflexivity|]. cbn [els varr]. destruct (Z.ltb_spec n (64 * Z.of_nat (els b))); [|lia].
    set (x := nth (Z.to_nat (n / 64)) (varr b) 0).
    assert (WX : is_word (Z.land x (u64 (Z.lnot (u64 (Z.shiftl 1 (n mod 64))))))) by (apply word_land, nth_word; assumption).
    assert (NB : forall j, 0 <= j < 64 -> Z.testbit (Z.land x (u64 (Z.lnot (u64 (Z.shiftl 1 (n mod 64)))))) j = Z.testbit x j && negb (j =? n mod 64)).
    { intros j J. rewrite Z.land_spec, unot_bit, u64_bit, one_bit by (pose proof (mod64 n); lia). reflexivity. }
    split; [split; cbn [els varr]; [rewrite length_upd; lia|apply upd_words; assumption]|]. split; [reflexivity|]. split.
    + intros m M. rewrite bitw_set; [|lia|lia|lia|].
      * rewrite NB by apply mod64. rewrite Z.eqb_refl. cbn [negb]. rewrite andb_false_r. destruct (m =? n); reflexivity.
      * intros j J. rewrite NB by assumption. destruct (Z.eqb_spec j (n mod 64)); [reflexivity|]. cbn [negb]. apply andb_true_r.
    + intros C i I. cbn [els varr] in *. rewrite nth_upd_neq by lia. apply C; assumption.
Qed.

(* ranges *)
Lemma mask_bits : forall rsh lsh j, 0 <= rsh -> 0 <= lsh -> rsh + lsh < 64 -> 0 <= j < 64 -> Z.testbit (u64 (Z.shiftl (Z.shiftr (two64 - 1) (rsh + lsh)) lsh)) j = (lsh <=? j) && (j <? 64 - rsh).
Proof.
  intros rsh lsh j R L B J. rewrite u64_bit by assumption. rewrite Z.shiftl_spec by lia. replace (two64 - 1) with (Z.ones 64) by reflexivity.
  destruct (Z.leb_spec lsh j) as [G|G]; cbn [andb]; [|apply Z.testbit_neg_r; lia]. rewrite Z.shiftr_spec by lia.
  destruct (Z.ltb_spec j (64 - rsh)); [apply Z.ones_spec_low; lia|apply Z.ones_spec_high; lia].
Qed.
Lemma land_zero : forall x y, is_word x -> (Z.land x y =? 0) = true <-> forall j, 0 <= j < 64 -> Z.testbit x j && Z.testbit y j = false.
Proof.
  intros x y X. rewrite Z.eqb_eq. split.
  - intros E j J. rewrite <- Z.land_spec, E. apply Z.bits_0.
  - intros H. apply word_eq; [apply word_land; assumption|apply word0|]. intros j J. rewrite Z.land_spec, Z.bits_0. apply H. assumption.
Qed.
Lemma in_range_split : forall nb rl m, 0 <= nb -> 0 <= m -> 0 <= rl -> nb mod 64 + rl <= 64 -> (nb <= m < nb + rl) <-> (m / 64 = nb / 64 /\ nb mod 64 <= m mod 64 < nb mod 64 + rl).
Proof.
  intros nb rl m N M R B. pose proof (Z.div_mod nb 64 ltac:(lia)) as D1. pose proof (Z.div_mod m 64 ltac:(lia)) as D2. pose proof (mod64 nb). pose proof (mod64 m). split; intros H1.
  - assert (m / 64 = nb / 64) by nia. lia.
  - lia.
Qed.
Lemma range_ok : forall fuel a nb len s res, 0 <= nb -> 0 <= len -> nb + len <= 64 * Z.of_nat (length a) -> Forall is_word a -> (Z.to_nat len < fuel)%nat ->
  exists a' r, range_loop fuel a nb len s res = Ok (a', r) /\ length a' = length a /\ Forall is_word a' /\
  (forall m, 0 <= m -> bitw a' m = if (nb <=? m) && (m <? nb + len) then s else bitw a m) /\
  (r = false <-> res = false /\ forall m, nb <= m < nb + len -> bitw a m = s).
Proof.
  induction fuel as [|fuel IH]; intros a nb len s res N L B F FU; [lia|]. cbn [range_loop]. destruct (Z.leb_spec len 0) as [Z0|P].
  - exists a, res. split; [reflexivity|]. split; [reflexivity|]. split; [assumption|]. split.
    + intros m M. destruct (Z.leb_spec nb m); destruct (Z.ltb_spec m (nb + len)); cbn [andb]; try reflexivity. lia.
    + split; [intros ->; split; [reflexivity|intros; lia]|intros [-> _]; reflexivity].
  - change W with 64. pose proof (mod64 nb) as ML. set (lsh := nb mod 64) in *. set (rsh := if 64 - lsh <=? len then 0 else 64 - (nb + len) mod 64).
    assert (RL : 64 - rsh - lsh = Z.min len (64 - lsh) /\ 0 <= rsh /\ rsh + lsh < 64).
    { unfold rsh. destruct (Z.leb_spec (64 - lsh) len); [lia|]. assert ((nb + len) mod 64 = lsh + len).
      { pose proof (Z.div_mod nb 64 ltac:(lia)) as D. fold lsh in D. replace (nb + len) with (lsh + len + nb / 64 * 64) by lia. rewrite Z.mod_add by lia. apply Z.mod_small. lia. } lia. }
    destruct RL as (RL & R0 & R1). set (mask := u64 (Z.shiftl (Z.shiftr (two64 - 1) (rsh + lsh)) lsh)).
    assert (MB : forall j, 0 <= j < 64 -> Z.testbit mask j = (lsh <=? j) && (j <? lsh + (64 - rsh - lsh))).
    { intros j J. unfold mask. rewrite mask_bits by lia. replace (64 - rsh) with (lsh + (64 - rsh - lsh)) at 1 by lia. reflexivity. }
    rewrite RL in *. set (rl := Z.min len (64 - lsh)) in *. assert (0 <= nb / 64) by (apply Z.div_pos; lia).
    assert (IL : (Z.to_nat (nb / 64) < length a)%nat) by (apply idx_lt; lia).
    rewrite rd_ok by assumption. cbn [bind]. set (x := nth (Z.to_nat (nb / 64)) a 0). assert (WX : is_word x) by (apply nth_word; assumption).
    assert (WM : is_word mask) by (unfold mask; apply u64_word). rewrite wr_ok by assumption. cbn [bind]. set (x' := if s then Z.lor x mask else Z.land x (u64 (Z.lnot mask))).
    assert (WX' : is_word x') by (unfold x'; destruct s; [apply word_lor; assumption|apply word_land; assumption]).
    assert (XB : forall j, 0 <= j < 64 -> Z.testbit x' j = if (lsh <=? j) && (j <? lsh + rl) then s else Z.testbit x j).
    { intros j J. unfold x'. destruct s; [rewrite Z.lor_spec|rewrite Z.land_spec, unot_bit by assumption]; rewrite (MB j J); destruct ((lsh <=? j) && (j <? lsh + rl)); destruct (Z.testbit x j); reflexivity. }
    assert (CH : (negb (Z.land (if s then u64 (Z.lnot x) else x) mask =? 0)) = false <-> forall m, nb <= m < nb + rl -> bitw a m = s).
    { rewrite negb_false_iff. rewrite land_zero by (destruct s; [apply u64_word|assumption]). split.
      - intros Hj m M. apply in_range_split in M; [|lia|lia|lia|fold lsh; lia]. destruct M as [M1 M2]. fold lsh in M2. pose proof (mod64 m) as MM. unfold bitw. rewrite M1. fold x. specialize (Hj (m mod 64) MM). rewrite (MB _ MM) in Hj.
        destruct (Z.leb_spec lsh (m mod 64)); [|lia]. destruct (Z.ltb_spec (m mod 64) (lsh + rl)); [|lia]. cbn [andb] in Hj. rewrite andb_true_r in Hj. destruct s; [rewrite unot_bit in Hj by assumption; apply negb_false_iff in Hj|]; assumption.
      - intros Hm j J. rewrite (MB j J). destruct ((lsh <=? j) && (j <? lsh + rl)) eqn:EJ; [|apply andb_false_r]. rewrite andb_true_r. apply andb_prop in EJ. destruct EJ as [J1 J2]. apply Z.leb_le in J1. apply Z.ltb_lt in J2.
        specialize (Hm (64 * (nb / 64) + j)). pose proof (Z.div_mod nb 64 ltac:(lia)) as D. fold lsh in D. specialize (Hm ltac:(lia)). unfold bitw in Hm.
        replace ((64 * (nb / 64) + j) / 64) with (nb / 64) in Hm by (rewrite Z.mul_comm, Z.div_add_l by lia; rewrite (Z.div_small j) by lia; lia).
        replace ((64 * (nb / 64) + j) mod 64) with j in Hm by (rewrite Z.mul_comm, Z.add_comm, Z.mod_add by lia; rewrite Z.mod_small by lia; reflexivity). fold x in Hm.
        destruct s; [rewrite unot_bit by assumption; rewrite Hm; reflexivity|assumption]. }
    destruct (IH (upd a (Z.to_nat (nb / 64)) x') (nb + rl) (len - rl) s (res || negb (Z.land (if s then u64 (Z.lnot x) else x) mask =? 0))) as (a' & r & E & LA & FA & BA & RA); [lia|lia|rewrite length_upd; lia|apply upd_words; assumption|lia|].
    exists a', r. split; [exact E|]. split; [rewrite LA, length_upd; reflexivity|]. split; [assumption|].
    assert (BU : forall m, 0 <= m -> bitw (upd a (Z.to_nat (nb / 64)) x') m = if (nb <=? m) && (m <? nb + rl) then s else bitw a m).
    { intros m M. rewrite bitw_upd by assumption. rewrite Z2Nat.id by assumption. pose proof (in_range_split nb rl m N M ltac:(lia) ltac:(fold lsh; lia)) as IR. fold lsh in IR. pose proof (mod64 m) as MM.
      destruct (Z.eqb_spec (m / 64) (nb / 64)) as [EQ|NE].
      - rewrite (XB _ MM). unfold bitw. rewrite EQ. fold x. destruct (Z.leb_spec lsh (m mod 64)); destruct (Z.ltb_spec (m mod 64) (lsh + rl)); destruct (Z.leb_spec nb m); destruct (Z.ltb_spec m (nb + rl)); cbn [andb]; try reflexivity; exfalso; lia.
      - destruct (Z.leb_spec nb m); destruct (Z.ltb_spec m (nb + rl)); cbn [andb]; try reflexivity; exfalso; lia. }
    split.
    + intros m M. rewrite BA by assumption. rewrite BU by assumption. destruct (Z.leb_spec (nb + rl) m); destruct (Z.ltb_spec m (nb + rl + (len - rl))); destruct (Z.leb_spec nb m); destruct (Z.ltb_spec m (nb + rl)); destruct (Z.ltb_spec m (nb + len)); cbn [andb]; try reflexivity; exfalso; lia.
    + rewrite RA. rewrite orb_false_iff. rewrite CH. split.
      * intros [[R2 C1] C2]. split; [assumption|]. intros m M. destruct (Z_lt_le_dec m (nb + rl)) as [L1|G1]; [apply C1; lia|]. specialize (C2 m ltac:(lia)). rewrite BU in C2 by lia. destruct (Z.ltb_spec m (nb + rl)); [lia|]. rewrite andb_false_r in C2. assumption.
      * intros [R2 C]. split; [split; [assumption|intros m M; apply C; lia]|]. intros m M. rewrite BU by lia. destruct (Z.ltb_spec m (nb + rl)); [lia|]. rewrite andb_false_r. apply C. lia.
Qed.
Lemma set_range_ok : forall b nb len s, wf b -> 0 <= nb -> 0 <= len -> exists b' r, set_or_clear_range b nb len s = Ok (b', r) /\ wf b' /\ (els b <= els b')%nat /\ nb + len <= 64 * Z.of_nat (els b') /\
  (forall m, 0 <= m -> bitw (varr b') m = if (nb <=? m) && (m <? nb + len) then s else bitw (varr b) m) /\
  (r = false <-> forall m, nb <= m < nb + len -> bitw (varr b) m = s) /\ (clean b -> clean b').
Proof.
  intros b nb len s WB N L. unfold set_or_clear_range. destruct (expand_ok b (nb + len) WB ltac:(lia)) as ([WL WF] & E1 & E2 & E3 & E4). set (b1 := bitset_expand b (nb + len)) in *.
  destruct (range_ok (S (Z.to_nat len)) (varr b1) nb len s false N L ltac:(lia) WF ltac:(lia)) as (a' & r & E & LA & FA & BA & RA). rewrite E. cbn [bind]. exists (mkBs (els b1) a'), r.
  split; [reflexivity|]. cbn [els varr]. split; [split; cbn [els varr]; [rewrite LA; lia|assumption]|]. split; [assumption|]. split; [assumption|]. split; [intros m M; rewrite BA, E3 by assumption; reflexivity|]. split.
  - rewrite RA. split; [intros [_ C] m M; rewrite <- E3; apply C; assumption|]. intros C. split; [reflexivity|]. intros m M. rewrite E3. apply C. assumption.
  - intros C i I. cbn [els varr] in *. apply (clean_by a' (els b1)); [|assumption|assumption]. intros n N2. rewrite BA by lia. destruct (Z.ltb_spec n (nb + len)); [lia|]. rewrite andb_false_r. specialize (E4 C).
    rewrite <- mem_clean by (assumption || lia). unfold mem. destruct (Z.ltb_spec n (64 * Z.of_nat (els b1))); [lia|reflexivity].
Qed.

(* copy *)
Lemma firstn_In : forall A n (l : list A) x, In x (firstn n l) -> In x l.
Proof. intros A n l x H. rewrite <- (firstn_skipn n l). apply in_or_app. left. assumption. Qed.
Lemma skipn_In : forall A n (l : list A) x, In x (skipn n l) -> In x l.
Proof. intros A n l x H. rewrite <- (firstn_skipn n l). apply in_or_app. right. assumption. Qed.
Lemma words_mul : forall k, words (Z.of_nat k * W) = k.
Proof. intros k. unfold words, W. replace (Z.of_nat k * 64 + 64 - 1) with (63 + Z.of_nat k * 64) by lia. rewrite Z.div_add by lia. rewrite Z.div_small by lia. lia. Qed.
Lemma nth_firstn_skipn : forall k (a b : list Z) i, (k <= length a)%nat -> (k <= length b)%nat -> nth i (firstn k a ++ skipn k b) 0 = if (i <? k)%nat then nth i a 0 else nth i b 0.
Proof.
  intros k a b i A B. destruct (Nat.ltb_spec i k) as [L|G].
  - rewrite app_nth1 by (rewrite firstn_length; lia). rewrite <- (firstn_skipn k a) at 2. rewrite app_nth1 by (rewrite firstn_length; lia). reflexivity.
  - rewrite app_nth2 by (rewrite firstn_length; lia). rewrite firstn_length, Nat.min_l by assumption. rewrite <- (firstn_skipn k b) at 2. rewrite app_nth2 by (rewrite firstn_length; lia). rewrite firstn_length, Nat.min_l by assumption. reflexivity.
Qed.
Lemma copy_ok : forall d s, wf d -> wf s -> exists d', copy d s = Ok d' /\ wf d' /\ els d' = els s /\ (forall m, 0 <= m -> mem d' m = mem s m) /\
  (clean d -> (forall m, 0 <= m -> mem d m = true -> mem s m = true) -> clean d').
Proof.
  intros d s WD [WSL WSF]. unfold copy. set (d1 := if (els s <=? els d)%nat then mkBs (els s) (varr d) else bitset_expand d (Z.of_nat (els s) * W)).
  assert (D1 : els d1 = els s /\ (els s <= length (varr d1))%nat /\ Forall is_word (varr d1) /\ forall i, nth i (varr d1) 0 = nth i (varr d) 0).
  { destruct WD as [WL WF]. unfold d1. destruct (Nat.leb_spec (els s) (els d)) as [L|G].
    - cbn [els varr]. repeat split; auto. lia.
    - destruct (expand_ok d (Z.of_nat (els s) * W) (conj WL WF) ltac:(unfold W; lia)) as ([WL1 WF1] & _). unfold bitset_expand in *. rewrite words_mul in *. destruct (Nat.ltb_spec (els d) (els s)); [|lia]. cbn [els varr] in *. repeat split; auto.
      intros i. destruct (Nat.lt_ge_cases i (length (varr d))) as [L2|G2]; [rewrite app_nth1 by assumption; reflexivity|rewrite app_nth2, nth_repeat, nth_overflow by assumption; reflexivity]. }
  destruct D1 as (D1 & D2 & D3 & D4). destruct (Nat.leb_spec (els s) (length (varr s))); [|lia]. destruct (Nat.leb_spec (els s) (length (varr d1))); [|lia]. cbn [andb].
  eexists. split; [reflexivity|]. split; [split; cbn [els varr]|].
  - rewrite app_length, firstn_length, skipn_length. lia.
  - apply Forall_app. split; [apply Forall_forall; intros x X; apply (proj1 (Forall_forall _ _) WSF); eapply firstn_In; exact X|]. apply Forall_forall. intros x X. apply (proj1 (Forall_forall _ _) D3). eapply skipn_In; exact X.
  - cbn [els varr]. split; [assumption|]. split.
    + intros m M. rewrite !mem_word by assumption. cbn [els varr]. rewrite D1. destruct (Nat.ltb_spec (Z.to_nat (m / 64)) (els s)) as [L|G]; [|reflexivity]. rewrite nth_firstn_skipn by assumption. destruct (Nat.ltb_spec (Z.to_nat (m / 64)) (els s)); [reflexivity|lia].
    + intros C SUB i I. cbn [els varr] in *. rewrite nth_firstn_skipn by assumption. destruct (Nat.ltb_spec i (els s)); [lia|]. rewrite D4. rewrite D1 in I.
      apply (clean_by (varr d) (els s)); [|apply WD|assumption]. intros n N. rewrite <- mem_clean by (assumption || lia). destruct (mem d n) eqn:E; [|reflexivity]. apply SUB in E; [|lia]. unfold mem in E. destruct (Z.ltb_spec n (64 * Z.of_nat (els s))); [lia|discriminate].
Qed.

(* word-wise operations *)
Lemma op_loop_ok : forall f g a0 k a i bound chg, (i + k <= length a)%nat -> length a = length a0 -> Forall is_word a ->
  (forall j a1, (i <= j < i + k)%nat -> length a1 = length a0 -> (forall m, (j <= m)%nat -> nth m a1 0 = nth m a0 0) -> f j a1 = Ok (g j)) ->
  (forall j, (i <= j < i + k)%nat -> is_word (g j)) -> (forall m, (i <= m)%nat -> nth m a 0 = nth m a0 0) -> (bound <= i)%nat ->
  exists a' bound' chg', op_loop k f a i bound chg = Ok (a', bound', chg') /\ length a' = length a /\ Forall is_word a' /\
    (forall m, nth m a' 0 = if (i <=? m)%nat && (m <? i + k)%nat then g m else nth m a 0) /\ (bound <= bound' <= i + k)%nat /\
    (forall m, (i <= m < i + k)%nat -> (bound' <= m)%nat -> g m = 0) /\
    (chg' = false <-> chg = false /\ forall m, (i <= m < i + k)%nat -> nth m a0 0 = g m).
Proof.
  intros f g a0. induction k as [|k IH]; intros a i bound chg B LA F HF HG HA HB; cbn [op_loop].
  - exists a, bound, chg. split; [reflexivity|]. split; [reflexivity|]. split; [assumption|]. split.
    + intros m. destruct (Nat.leb_spec i m); destruct (Nat.ltb_spec m (i + 0)); cbn [andb]; try reflexivity. lia.
    + split; [lia|]. split; [intros; lia|]. split; [intros ->; split; [reflexivity|intros; lia]|tauto].
  - rewrite rd_ok by lia. cbn [bind]. rewrite Nat2Z.id. rewrite (HF i a) by (auto; lia). cbn [bind]. rewrite wr_ok by lia. cbn [bind]. rewrite Nat2Z.id.
    destruct (IH (upd a i (g i)) (S i) (if g i =? 0 then bound else S i) (chg || negb (nth i a 0 =? g i))) as (a' & bound' & chg' & E & L1 & F1 & N1 & B1 & Z1 & C1).
    + rewrite length_upd. lia.
    + rewrite length_upd. assumption.
    + apply upd_words; [assumption|apply HG; lia].
    + intros j a1 J. apply HF. lia.
    + intros j J. apply HG. lia.
    + intros m M. rewrite nth_upd_neq by lia. apply HA. lia.
    + destruct (g i =? 0); lia.
    + exists a', bound', chg'. split; [assumption|]. split; [rewrite L1, length_upd; reflexivity|]. split; [assumption|]. split; [|split; [|split]].
      * intros m. rewrite N1. destruct (Nat.eq_dec m i) as [->|NE].
        -- destruct (Nat.leb_spec (S i) i); [lia|]. cbn [andb]. rewrite nth_upd_eq by lia. destruct (Nat.leb_spec i i); [|lia]. destruct (Nat.ltb_spec i (i + S k)); [reflexivity|lia].
        -- rewrite nth_upd_neq by lia. destruct (Nat.leb_spec (S i) m); destruct (Nat.leb_spec i m); destruct (Nat.ltb_spec m (S i + k)); destruct (Nat.ltb_spec m (i + S k)); cbn [andb]; try reflexivity; lia.
      * destruct (g i =? 0); lia.
      * intros m M BM. destruct (Nat.eq_dec m i) as [->|NE]; [|apply Z1; lia]. destruct (Z.eqb_spec (g i) 0) as [E0|E0]; [assumption|lia].
      * rewrite C1, orb_false_iff, negb_false_iff, Z.eqb_eq. rewrite (HA i) by lia. split.
        -- intros [[X Y] Z]. split; [assumption|]. intros m M. destruct (Nat.eq_dec m i) as [->|NE]; [assumption|apply Z; lia].
        -- intros [X Y]. split; [split; [assumption|apply Y; lia]|]. intros m M. apply Y. lia.
Qed.
Definition sword (b : bs) (i : nat) : Z := if (els b <=? i)%nat then 0 else nth i (varr b) 0.
Lemma sword_word : forall b i, wf b -> is_word (sword b i).
Proof. intros b i [_ F]. unfold sword. destruct (_ <=? _)%nat; [apply word0|apply nth_word; assumption]. Qed.
Lemma sword_mem : forall b i j, 0 <= j < 64 -> Z.testbit (sword b i) j = mem b (64 * Z.of_nat i + j).
Proof.
  intros b i j J. rewrite mem_word by lia. replace ((64 * Z.of_nat i + j) / 64) with (Z.of_nat i) by (rewrite Z.mul_comm, Z.div_add_l by lia; rewrite (Z.div_small j) by lia; lia).
  replace ((64 * Z.of_nat i + j) mod 64) with j by (rewrite Z.mul_comm, Z.add_comm, Z.mod_add by lia; rewrite Z.mod_small by lia; reflexivity). rewrite Nat2Z.id. unfold sword.
  destruct (Nat.leb_spec (els b) i); destruct (Nat.ltb_spec i (els b)); try lia; reflexivity.
Qed.
Lemma src_ok : forall st d s i a, wf (st s) -> (s = d -> nth i a 0 = nth i (varr (st d)) 0 /\ (length (varr (st d)) <= length a)%nat) -> src st d s (els (st s)) i a = Ok (sword (st s) i).
Proof.
  intros st d s i a [WL _] H. unfold src, sword. destruct (Nat.leb_spec (els (st s)) i) as [G|L]; [reflexivity|]. destruct (Z.eqb_spec s d) as [E|E].
  - destruct (H E) as [H1 H2]. subst s. rewrite rd_ok by lia. rewrite Nat2Z.id, H1. reflexivity.
  - rewrite rd_ok by lia. rewrite Nat2Z.id. reflexivity.
Qed.
Lemma nth_expand : forall b nb i, nth i (varr (bitset_expand b nb)) 0 = nth i (varr b) 0.
Proof.
  intros b nb i. unfold bitset_expand. destruct (_ <? _)%nat; [|reflexivity]. cbn [varr]. destruct (Nat.lt_ge_cases i (length (varr b))) as [L2|G2]; [rewrite app_nth1 by assumption; reflexivity|rewrite app_nth2, nth_repeat, nth_overflow by assumption; reflexivity].
Qed.
Lemma length_expand : forall b nb, (length (varr b) <= length (varr (bitset_expand b nb)))%nat.
Proof. intros b nb. unfold bitset_expand. destruct (_ <? _)%nat; [|lia]. cbn [varr]. rewrite app_length. lia. Qed.
Lemma op_gen : forall b len f (g : nat -> Z) (res : nset), wf b ->
  (forall j a1, (j < len)%nat -> (length (varr b) <= length a1)%nat -> nth j a1 0 = nth j (varr b) 0 -> f j a1 = Ok (g j)) ->
  (forall j, is_word (g j)) -> (forall i j, 0 <= j < 64 -> Z.testbit (g i) j = res (64 * Z.of_nat i + j)) -> (forall i, (len <= i)%nat -> g i = 0) ->
  exists a bound chg, op_loop len f (varr (bitset_expand b (Z.of_nat len * W))) 0 0 false = Ok (a, bound, chg) /\
    wf (mkBs bound a) /\ (forall m, 0 <= m -> mem (mkBs bound a) m = res m) /\
    (clean b -> subset (mem b) res -> clean (mkBs bound a) /\ (chg = false <-> same (mem b) res)).
Proof.
  intros b len f g res WB HF HG HR HZ. destruct (expand_ok b (Z.of_nat len * W) WB ltac:(unfold W; lia)) as ([WL WF] & E1 & E2 & E3 & E4). set (b1 := bitset_expand b (Z.of_nat len * W)) in *. unfold W in E1.
  destruct (op_loop_ok f g (varr b1) len (varr b1) 0 0 false) as (a & bound & chg & E & LA & FA & NA & BA & ZA & CA); [lia|reflexivity|assumption| |auto|auto|lia|].
  { intros j a1 J L1 N1. apply HF; [lia|rewrite L1; apply length_expand|]. rewrite N1 by lia. apply nth_expand. }
  exists a, bound, chg. split; [assumption|]. split; [split; cbn [els varr]; [lia|assumption]|]. cbn [plus] in *.
  assert (GM : forall m, 0 <= m -> Z.testbit (g (Z.to_nat (m / 64))) (m mod 64) = res m).
  { intros m M. assert (0 <= m / 64) by (apply Z.div_pos; lia). rewrite HR by apply mod64. f_equal. rewrite Z2Nat.id by assumption. symmetry. apply Z.div_mod. lia. }
  split.
  - intros m M. rewrite mem_word by assumption. cbn [els varr]. rewrite <- GM by assumption. set (q := Z.to_nat (m / 64)). rewrite NA. destruct (Nat.leb_spec 0 q); [|lia]. cbn [andb].
    destruct (Nat.ltb_spec q bound) as [L|G]; destruct (Nat.ltb_spec q len) as [L2|G2]; try reflexivity; [lia| |].
    + rewrite (ZA q) by lia. reflexivity.
    + rewrite (HZ q) by assumption. reflexivity.
  - intros C SUB.
    assert (HI : forall i, (len <= i)%nat -> nth i (varr b) 0 = 0).
    { apply (clean_by (varr b) len); [|apply WB]. intros n N. rewrite <- mem_clean by (assumption || lia). destruct (mem b n) eqn:EM; [|reflexivity]. apply SUB in EM; [|lia]. rewrite <- GM in EM by lia.
      rewrite HZ in EM; [rewrite Z.bits_0 in EM; discriminate|]. pose proof (div_lt n len ltac:(lia)) as D. destruct (Z.ltb_spec n (64 * Z.of_nat len)); [lia|]. symmetry in D. apply Nat.ltb_ge in D. assumption. }
    split.
    + intros i I. cbn [els varr] in *. rewrite NA. destruct (Nat.leb_spec 0 i); [|lia]. cbn [andb]. destruct (Nat.ltb_spec i len); [apply ZA; lia|]. unfold b1. rewrite nth_expand. apply HI. assumption.
    + rewrite CA. split.
      * intros [_ H] m M. rewrite mem_clean by assumption. unfold bitw. rewrite <- GM by assumption. f_equal. set (q := Z.to_nat (m / 64)). destruct (Nat.lt_ge_cases q len) as [L|G]; [rewrite <- H by lia; unfold b1; rewrite nth_expand; reflexivity|rewrite HI, HZ by assumption; reflexivity].
      * intros SM. split; [reflexivity|]. intros q Q. unfold b1. rewrite nth_expand. apply word_eq; [apply nth_word, WB|apply HG|]. intros j J. rewrite HR by assumption. rewrite <- (SM (64 * Z.of_nat q + j)) by lia. rewrite mem_clean by (assumption || lia). unfold bitw.
        replace ((64 * Z.of_nat q + j) / 64) with (Z.of_nat q) by (rewrite Z.mul_comm, Z.div_add_l by lia; rewrite (Z.div_small j) by lia; lia).
        replace ((64 * Z.of_nat q + j) mod 64) with j by (rewrite Z.mul_comm, Z.add_comm, Z.mod_add by lia; rewrite Z.mod_small by lia; reflexivity). rewrite Nat2Z.id. reflexivity.
Qed.
Lemma max2_eq : forall a b, max2 a b = Nat.max a b.
Proof. intros. unfold max2. destruct (Nat.ltb_spec a b); lia. Qed.
Lemma max3_eq : forall a b c, max3 a b c = Nat.max a (Nat.max b c).
Proof. intros. unfold max3. destruct (Nat.leb_spec a b); [destruct (Nat.ltb_spec b c)|destruct (Nat.ltb_spec a c)]; lia. Qed.
Definition st_ok (st : store) : Prop := forall x, wf (st x).
Lemma op2_ok : forall st d s1 s2 op ob, st_ok st -> (forall x y, is_word x -> is_word y -> is_word (op x y)) -> op 0 0 = 0 ->
  (forall x y j, is_word x -> is_word y -> 0 <= j < 64 -> Z.testbit (op x y) j = ob (Z.testbit x j) (Z.testbit y j)) ->
  let res := fun n => ob (mem (st s1) n) (mem (st s2) n) in
  exists b chg, op2 st d s1 s2 op = Ok (put st d b, chg) /\ wf b /\ (forall m, 0 <= m -> mem b m = res m) /\
    (clean (st d) -> subset (mem (st d)) res -> clean b /\ (chg = false <-> same (mem (st d)) res)).
Proof.
  intros st d s1 s2 op ob OK HW H0 HB res. unfold op2. set (len := max2 _ _). assert (EL : len = Nat.max (els (st s1)) (els (st s2))) by apply max2_eq. clearbody len.
  destruct (op_gen (st d) len (fun i a => bind (src st d s1 (els (st s1)) i a) (fun x => bind (src st d s2 (els (st s2)) i a) (fun y => Ok (op x y)))) (fun i => op (sword (st s1) i) (sword (st s2) i)) res) as (a & bound & chg & E & R); [apply OK| | | | |].
  - intros j a1 J L1 N1. rewrite src_ok; [|apply OK|auto]. cbn [bind]. rewrite src_ok; [|apply OK|auto]. reflexivity.
  - intros j. apply HW; apply sword_word, OK.
  - intros i j J. rewrite HB by (assumption || apply sword_word, OK). rewrite !sword_mem by assumption. reflexivity.
  - intros i I. unfold sword. destruct (Nat.leb_spec (els (st s1)) i); [|lia]. destruct (Nat.leb_spec (els (st s2)) i); [|lia]. assumption.
  - rewrite E. cbn [bind]. exists (mkBs bound a), chg. split; [reflexivity|exact R].
Qed.
Lemma op3_ok : forall st d s1 s2 s3 op ob, st_ok st -> (forall x y z, is_word x -> is_word y -> is_word z -> is_word (op x y z)) -> op 0 0 0 = 0 ->
  (forall x y z j, is_word x -> is_word y -> is_word z -> 0 <= j < 64 -> Z.testbit (op x y z) j = ob (Z.testbit x j) (Z.testbit y j) (Z.testbit z j)) ->
  let res := fun n => ob (mem (st s1) n) (mem (st s2) n) (mem (st s3) n) in
  exists b chg, op3 st d s1 s2 s3 op = Ok (put st d b, chg) /\ wf b /\ (forall m, 0 <= m -> mem b m = res m) /\
    (clean (st d) -> subset (mem (st d)) res -> clean b /\ (chg = false <-> same (mem (st d)) res)).
Proof.
  intros st d s1 s2 s3 op ob OK HW H0 HB res. unfold op3. set (len := max3 _ _ _). assert (EL : len = Nat.max (els (st s1)) (Nat.max (els (st s2)) (els (st s3)))) by apply max3_eq. clearbody len.
  destruct (op_gen (st d) len (fun i a => bind (src st d s1 (els (st s1)) i a) (fun x => bind (src st d s2 (els (st s2)) i a) (fun y => bind (src st d s3 (els (st s3)) i a) (fun z => Ok (op x y z))))) (fun i => op (sword (st s1) i) (sword (st s2) i) (sword (st s3) i)) res) as (a & bound & chg & E & R); [apply OK| | | | |].
  - intros j a1 J L1 N1. rewrite src_ok; [|apply OK|auto]. cbn [bind]. rewrite src_ok; [|apply OK|auto]. cbn [bind]. rewrite src_ok; [|apply OK|auto]. reflexivity.
  - intros j. apply HW; apply sword_word, OK.
  - intros i j J. rewrite HB by (assumption || apply sword_word, OK). rewrite !sword_mem by assumption. reflexivity.
  - intros i I. unfold sword. destruct (Nat.leb_spec (els (st s1)) i); [|lia]. destruct (Nat.leb_spec (els (st s2)) i); [|lia]. destruct (Nat.leb_spec (els (st s3)) i); [|lia]. assumption.
  - rewrite E. cbn [bind]. exists (mkBs bound a), chg. split; [reflexivity|exact R].
Qed.

(* queries *)
Lemma bit_p_ok : forall b n, wf b -> 0 <= n -> bit_p b n = Ok (mem b n).
Proof.
  intros b n [WL WF] N. unfold bit_p, mem. change W with 64. assert (0 <= n / 64) by (apply Z.div_pos; lia). destruct (Z.leb_spec (64 * Z.of_nat (els b)) n); destruct (Z.ltb_spec n (64 * Z.of_nat (els b))) as [L|G]; try lia; [reflexivity|].
  rewrite rd_ok by (pose proof (idx_lt n (els b) N L); lia). reflexivity.
Qed.
Lemma same_words : forall b c, wf b -> wf c -> same (mem b) (mem c) <-> forall i, sword b i = sword c i.
Proof.
  intros b c B C. split.
  - intros H i. apply word_eq; [apply sword_word; assumption|apply sword_word; assumption|]. intros j J. rewrite !sword_mem by assumption. apply H. lia.
  - intros H n N. pose proof (Z.div_mod n 64 ltac:(lia)) as D. assert (0 <= n / 64) by (apply Z.div_pos; lia). replace n with (64 * Z.of_nat (Z.to_nat (n / 64)) + n mod 64) by lia. rewrite <- !sword_mem by apply mod64. rewrite H. reflexivity.
Qed.
Lemma all_zero_ok : forall k a i, (i + k <= length a)%nat -> exists r, all_zero k a i = Ok r /\ (r = true <-> forall m, (i <= m < i + k)%nat -> nth m a 0 = 0).
Proof.
  induction k as [|k IH]; intros a i B; cbn [all_zero].
  - exists true. split; [reflexivity|]. split; [intros _ m M; lia|reflexivity].
  - rewrite rd_ok by lia. cbn [bind]. rewrite Nat2Z.id. destruct (Z.eqb_spec (nth i a 0) 0) as [E|E].
    + destruct (IH a (S i) ltac:(lia)) as (r & -> & R). exists r. split; [reflexivity|]. rewrite R. split.
      * intros H m M. destruct (Nat.eq_dec m i) as [->|]; [assumption|apply H; lia].
      * intros H m M. apply H. lia.
    + exists false. split; [reflexivity|]. split; [discriminate|]. intros H. elim E. apply H. lia.
Qed.
Lemma firstn_eq : forall n (a b : list Z), (n <= length a)%nat -> (n <= length b)%nat -> firstn n a = firstn n b <-> forall i, (i < n)%nat -> nth i a 0 = nth i b 0.
Proof.
  induction n as [|n IH]; intros a b A B; [cbn; split; [intros _ i I; lia|reflexivity]|]. destruct a as [|x a]; [cbn in A; lia|]. destruct b as [|y b]; [cbn in B; lia|]. cbn [firstn length] in *. split.
  - intros E [|i] I; injection E as -> E; [reflexivity|]. cbn. apply (proj1 (IH a b ltac:(lia) ltac:(lia)) E). lia.
  - intros H. f_equal; [apply (H O); lia|]. apply IH; [lia|lia|]. intros i I. apply (H (S i)). lia.
Qed.
Lemma equal_ok : forall b1 b2, wf b1 -> wf b2 -> exists r, equal_p b1 b2 = Ok r /\ (r = true <-> same (mem b1) (mem b2)).
Proof.
  assert (G : forall b1 b2, wf b1 -> wf b2 -> (els b1 <= els b2)%nat -> exists r, bind (memcmp (varr b1) (varr b2) (els b1)) (fun e => if e then all_zero (els b2 - els b1) (varr b2) (els b1) else Ok false) = Ok r /\ (r = true <-> same (mem b1) (mem b2))).
  { intros b1 b2 W1 W2 L. assert (SWE := same_words b1 b2 W1 W2). unfold memcmp. destruct W1 as [L1 F1]. destruct W2 as [L2 F2]. destruct (Nat.leb_spec (els b1) (length (varr b1))); [|lia]. destruct (Nat.leb_spec (els b1) (length (varr b2))); [|lia]. cbn [andb bind].
    assert (SW : forall i, sword b1 i = if (els b1 <=? i)%nat then 0 else nth i (varr b1) 0) by reflexivity. assert (SW2 : forall i, sword b2 i = if (els b2 <=? i)%nat then 0 else nth i (varr b2) 0) by reflexivity.
    destruct (list_eq_dec Z.eq_dec (firstn (els b1) (varr b1)) (firstn (els b1) (varr b2))) as [E|E].
    - destruct (all_zero_ok (els b2 - els b1) (varr b2) (els b1) ltac:(lia)) as (r & -> & R). exists r. split; [reflexivity|]. rewrite R, SWE. rewrite firstn_eq in E by lia. split.
      + intros H1 i. rewrite SW, SW2. destruct (Nat.leb_spec (els b1) i); destruct (Nat.leb_spec (els b2) i); try lia; [symmetry; apply H1; lia|apply E; lia].
      + intros H1 m M. specialize (H1 m). rewrite SW, SW2 in H1. destruct (Nat.leb_spec (els b1) m); [|lia]. destruct (Nat.leb_spec (els b2) m); [lia|]. congruence.
    - exists false. split; [reflexivity|]. split; [discriminate|]. intros H1. rewrite SWE in H1. elim E. apply firstn_eq; [lia|lia|]. intros i I. specialize (H1 i). rewrite SW, SW2 in H1. destruct (Nat.leb_spec (els b1) i); [lia|]. destruct (Nat.leb_spec (els b2) i); [lia|]. assumption. }
  intros b1 b2 W1 W2. unfold equal_p. destruct (Nat.ltb_spec (els b2) (els b1)) as [L|L].
  - destruct (G b2 b1 W2 W1 ltac:(lia)) as (r & E & R). exists r. split; [exact E|]. rewrite R. split; intros X n N; symmetry; apply X; assumption.
  - apply G; assumption.
Qed.
Lemma empty_ok : forall b, wf b -> exists r, empty_p b = Ok r /\ (r = true <-> same (mem b) none).
Proof.
  intros b [WL WF]. unfold empty_p. destruct (all_zero_ok (els b) (varr b) 0 ltac:(lia)) as (r & -> & R). exists r. split; [reflexivity|]. rewrite R. split.
  - intros H n N. unfold mem, bitw, none. destruct (Z.ltb_spec n (64 * Z.of_nat (els b))) as [L|]; [|reflexivity]. rewrite H by (pose proof (idx_lt n (els b) N L); lia). cbn [andb]. apply Z.bits_0.
  - intros H m M. pose proof (sword_mem b m) as SM. unfold sword in SM. destruct (Nat.leb_spec (els b) m); [lia|]. apply word_eq; [apply nth_word; assumption|apply word0|]. intros j J. rewrite SM, Z.bits_0 by assumption. apply H. lia.
Qed.
Lemma inter_ok : forall k a b i, (i + k <= length a)%nat -> (i + k <= length b)%nat -> exists r, inter_loop k a b i = Ok r /\ (r = true <-> exists m, (i <= m < i + k)%nat /\ Z.land (nth m a 0) (nth m b 0) <> 0).
Proof.
  induction k as [|k IH]; intros a b i A B; cbn [inter_loop].
  - exists false. split; [reflexivity|]. split; [discriminate|]. intros (m & M & _). lia.
  - rewrite rd_ok by lia. cbn [bind]. rewrite rd_ok by lia. cbn [bind]. rewrite Nat2Z.id. destruct (Z.eqb_spec (Z.land (nth i a 0) (nth i b 0)) 0) as [E|E].
    + destruct (IH a b (S i) ltac:(lia) ltac:(lia)) as (r & -> & R). exists r. split; [reflexivity|]. rewrite R. split.
      * intros (m & M & X). exists m. split; [lia|assumption].
      * intros (m & M & X). destruct (Nat.eq_dec m i) as [->|]; [contradiction|]. exists m. split; [lia|assumption].
    + exists true. split; [reflexivity|]. split; [|reflexivity]. intros _. exists i. split; [lia|assumption].
Qed.
Lemma intersect_ok : forall b1 b2, wf b1 -> wf b2 -> exists r, intersect_p b1 b2 = Ok r /\ (r = true <-> exists n, 0 <= n /\ mem b1 n = true /\ mem b2 n = true).
Proof.
  intros b1 b2 [L1 F1] [L2 F2]. unfold intersect_p. destruct (inter_ok (Nat.min (els b1) (els b2)) (varr b1) (varr b2) 0 ltac:(lia) ltac:(lia)) as (r & -> & R). exists r. split; [reflexivity|]. rewrite R. split.
  - intros (m & M & X). pose proof (sword_mem b1 m) as S1. pose proof (sword_mem b2 m) as S2. unfold sword in S1, S2. destruct (Nat.leb_spec (els b1) m); [lia|]. destruct (Nat.leb_spec (els b2) m); [lia|].
    assert (WW := nth_word (varr b1) m F1). destruct (Z.land (nth m (varr b1) 0) (nth m (varr b2) 0) =? 0) eqn:E; [apply Z.eqb_eq in E; contradiction|].
    assert (EX : exists j, 0 <= j < 64 /\ Z.testbit (nth m (varr b1) 0) j && Z.testbit (nth m (varr b2) 0) j = true).
    { assert (PW : is_word (Z.land (nth m (varr b1) 0) (nth m (varr b2) 0))) by (apply word_land; assumption). exists (Z.log2 (Z.land (nth m (varr b1) 0) (nth m (varr b2) 0))). destruct PW as [P1 P2]. rewrite <- Z.land_spec. split; [|apply Z.bit_log2; lia]. split; [apply Z.log2_nonneg|]. apply Z.log2_lt_pow2; lia. }
    destruct EX as (j & J & EJ). apply andb_prop in EJ. destruct EJ as [J1 J2]. exists (64 * Z.of_nat m + j). split; [lia|]. rewrite <- S1, <- S2 by assumption. split; assumption.
  - intros (n & N & M1 & M2). unfold mem in M1, M2. apply andb_prop in M1. apply andb_prop in M2. destruct M1 as [A1 B1]. destruct M2 as [A2 B2]. apply Z.ltb_lt in A1. apply Z.ltb_lt in A2. exists (Z.to_nat (n / 64)).
    pose proof (idx_lt n _ N A1). pose proof (idx_lt n _ N A2). split; [lia|]. intros E. unfold bitw in *. pose proof (Z.land_spec (nth (Z.to_nat (n / 64)) (varr b1) 0) (nth (Z.to_nat (n / 64)) (varr b2) 0) (n mod 64)) as LS. rewrite E, Z.bits_0, B1, B2 in LS. discriminate.
Qed.

(* listing the bits *)
Fixpoint upto (lo : Z) (k : nat) : list Z := match k with O => [] | S k => lo :: upto (lo + 1) k end.
Lemma in_upto : forall k lo x, In x (upto lo k) <-> lo <= x < lo + Z.of_nat k.
Proof. induction k as [|k IH]; intros lo x; cbn [upto In]; [lia|]. rewrite IH. lia. Qed.
Lemma sorted_upto : forall k lo, StronglySorted Z.lt (upto lo k).
Proof. induction k as [|k IH]; intros lo; cbn [upto]; constructor; [apply IH|]. apply Forall_forall. intros x X. apply in_upto in X. lia. Qed.
Lemma sorted_filter : forall f l, StronglySorted Z.lt l -> StronglySorted Z.lt (filter f l).
Proof.
  intros f l H. induction H as [|x l H IH F]; cbn; [constructor|]. destruct (f x); [|assumption]. constructor; [assumption|]. apply Forall_forall. intros y Y. apply filter_In in Y. apply (proj1 (Forall_forall _ _) F). tauto.
Qed.
Lemma upto_app : forall j k lo, upto lo (j + k) = upto lo j ++ upto (lo + Z.of_nat j) k.
Proof. induction j as [|j IH]; intros k lo; cbn [upto plus app]; [rewrite Z.add_0_r; reflexivity|]. rewrite IH. do 3 f_equal. lia. Qed.
Definition listing (b : bs) : list Z := filter (mem b) (upto 0 (els b * 64)).
Lemma listing_ok : forall b, elements (mem b) (listing b).
Proof.
  intros b. split; [apply sorted_filter, sorted_upto|]. intros n. unfold listing. rewrite filter_In, in_upto. split; [intros [A B]; split; [lia|assumption]|]. intros [A B]. split; [|assumption]. unfold mem in B. apply andb_prop in B. destruct B as [B _]. apply Z.ltb_lt in B. lia.
Qed.
Lemma count_word_ok : forall f x c, 0 <= x < 2 ^ Z.of_nat f -> count_word f x c = c + Z.of_nat (length (filter (Z.testbit x) (upto 0 f))).
Proof.
  induction f as [|f IH]; intros x c X; cbn [count_word upto filter]; [cbn; lia|]. destruct (Z.eqb_spec x 0) as [->|NE].
  - rewrite Z.bits_0. replace (filter (Z.testbit 0) (upto (0 + 1) f)) with (@nil Z); [cbn; lia|]. symmetry. generalize (upto (0 + 1) f). intros l. induction l as [|y l IHl]; [reflexivity|]. cbn. rewrite Z.bits_0. assumption.
  - rewrite IH.
    + rewrite Z.bit0_odd. assert (EQ : forall k lo, 0 <= lo -> length (filter (Z.testbit x) (upto (lo + 1) k)) = length (filter (Z.testbit (Z.shiftr x 1)) (upto lo k))).
      { induction k as [|k IHk]; intros lo LO; [reflexivity|]. cbn [upto filter]. rewrite Z.shiftr_spec by assumption. specialize (IHk (lo + 1) ltac:(lia)). destruct (Z.testbit x (lo + 1)); cbn [length]; rewrite IHk; reflexivity. }
      pose proof (EQ f 0 ltac:(lia)) as E0. destruct (Z.odd x); cbn [length]; rewrite E0; lia.
    + rewrite Z.shiftr_div_pow2 by lia. change (2 ^ 1) with 2. split; [apply Z.div_pos; lia|]. apply Z.div_lt_upper_bound; [lia|]. replace (Z.of_nat (S f)) with (Z.succ (Z.of_nat f)) in X by lia. rewrite Z.pow_succ_r in X by lia. lia.
Qed.
Lemma filter_word : forall b i k lo, (i < els b)%nat -> 0 <= lo -> lo + Z.of_nat k <= 64 -> length (filter (mem b) (upto (64 * Z.of_nat i + lo) k)) = length (filter (Z.testbit (nth i (varr b) 0)) (upto lo k)).
Proof.
  intros b i. induction k as [|k IH]; intros lo I L B; [reflexivity|]. cbn [upto filter]. pose proof (sword_mem b i lo ltac:(lia)) as SM. unfold sword in SM. destruct (Nat.leb_spec (els b) i); [lia|]. rewrite <- SM.
  replace (64 * Z.of_nat i + lo + 1) with (64 * Z.of_nat i + (lo + 1)) by lia. destruct (Z.testbit _ lo); cbn [length]; rewrite IH by lia; reflexivity.
Qed.
Lemma count_loop_ok : forall b k i c, wf b -> (i + k = els b)%nat -> count_loop k (varr b) i c = Ok (c + Z.of_nat (length (filter (mem b) (upto (64 * Z.of_nat i) (k * 64))))).
Proof.
  intros b. induction k as [|k IH]; intros i c [WL WF] E; cbn [count_loop]; [cbn; f_equal; lia|]. rewrite rd_ok by lia. cbn [bind]. rewrite Nat2Z.id. rewrite IH by first [split; assumption | lia].
  rewrite count_word_ok by (apply nth_word; assumption). f_equal. change (S k * 64)%nat with (64 + k * 64)%nat. rewrite upto_app, filter_app, app_length. rewrite <- (filter_word b i 64 0) by lia. rewrite Z.add_0_r. replace (64 * Z.of_nat (S i)) with (64 * Z.of_nat i + Z.of_nat 64) by lia. lia.
Qed.
Lemma iter_word_ok : forall f el nbit, 0 <= el < 2 ^ Z.of_nat f -> match iter_word (S f) el nbit with Some n => nbit <= n /\ Z.testbit el (n - nbit) = true /\ forall j, 0 <= j < n - nbit -> Z.testbit el j = false | None => el = 0 end.
Proof.
  induction f as [|f IH]; intros el nbit E; cbn [iter_word].
  - change (2 ^ Z.of_nat 0) with 1 in E. assert (el = 0) by lia. subst el. reflexivity.
  - destruct (Z.eqb_spec el 0) as [->|NE]; [reflexivity|]. rewrite <- Z.bit0_odd. destruct (Z.testbit el 0) eqn:B0.
    + rewrite Z.sub_diag. split; [lia|]. split; [assumption|intros; lia].
    + specialize (IH (Z.shiftr el 1) (nbit + 1)). change (match iter_word (S f) (Z.shiftr el 1) (nbit + 1) with Some n => nbit <= n /\ Z.testbit el (n - nbit) = true /\ (forall j, 0 <= j < n - nbit -> Z.testbit el j = false) | None => el = 0 end).
      destruct (iter_word (S f) (Z.shiftr el 1) (nbit + 1)) as [n|].
      * destruct IH as (A & B & C).
        { rewrite Z.shiftr_div_pow2 by lia. change (2 ^ 1) with 2. split; [apply Z.div_pos; lia|]. apply Z.div_lt_upper_bound; [lia|]. replace (Z.of_nat (S f)) with (Z.succ (Z.of_nat f)) in E by lia. rewrite Z.pow_succ_r in E by lia. lia. }
        rewrite Z.shiftr_spec in B by lia. replace (n - (nbit + 1) + 1) with (n - nbit) in B by lia. split; [lia|]. split; [assumption|]. intros j J. destruct (Z.eq_dec j 0) as [->|NJ]; [assumption|]. specialize (C (j - 1) ltac:(lia)). rewrite Z.shiftr_spec in C by lia. replace (j - 1 + 1) with j in C by lia. assumption.
      * specialize (IH ltac:(rewrite Z.shiftr_div_pow2 by lia; change (2 ^ 1) with 2; split; [apply Z.div_pos; lia|]; apply Z.div_lt_upper_bound; [lia|]; replace (Z.of_nat (S f)) with (Z.succ (Z.of_nat f)) in E by lia; rewrite Z.pow_succ_r in E by lia; lia)).
        apply Z.bits_inj'. intros j J. rewrite Z.bits_0. destruct (Z.eq_dec j 0) as [->|NJ]; [assumption|]. pose proof (Z.shiftr_spec el 1 (j - 1) ltac:(lia)) as SS. rewrite IH, Z.bits_0 in SS. replace (j - 1 + 1) with j in SS by lia. symmetry. assumption.
Qed.
Lemma iter_loop_ok : forall b k nel nbit, wf b -> 0 <= nbit -> nel = nbit / 64 -> k = (els b - Z.to_nat nel)%nat ->
  exists r, iter_loop k (varr b) nel nbit = Ok r /\ match r with
  | Some n => nbit <= n /\ mem b n = true /\ forall m, nbit <= m < n -> mem b m = false
  | None => forall m, nbit <= m -> mem b m = false end.
Proof.
  intros b. induction k as [|k IH]; intros nel nbit WB N EN EK; assert (0 <= nbit / 64) by (apply Z.div_pos; lia); pose proof (Z.div_mod nbit 64 ltac:(lia)) as D; pose proof (mod64 nbit) as MM; cbn [iter_loop].
  - exists None. split; [reflexivity|]. intros m M. unfold mem. destruct (Z.ltb_spec m (64 * Z.of_nat (els b))); [lia|reflexivity].
  - assert (IL : (Z.to_nat nel < els b)%nat) by lia. destruct WB as [WL WF]. rewrite rd_ok by lia. cbn [bind]. set (el := nth (Z.to_nat nel) (varr b) 0). change W with 64.
    assert (WE : is_word el) by (apply nth_word; assumption).
    assert (MB : forall j, 0 <= j < 64 -> mem b (64 * nel + j) = Z.testbit el j). { intros j J. pose proof (sword_mem b (Z.to_nat nel) j J) as SM. rewrite Z2Nat.id in SM by lia. rewrite <- SM. unfold sword. destruct (Nat.leb_spec (els b) (Z.to_nat nel)); [lia|reflexivity]. }
    set (r := if el =? 0 then None else iter_word 65 (Z.shiftr el (nbit mod 64)) nbit).
    assert (R : match r with Some n => nbit <= n /\ Z.testbit el (n - nbit + nbit mod 64) = true /\ (forall j, 0 <= j < n - nbit -> Z.testbit el (j + nbit mod 64) = false) | None => forall j, 0 <= j -> Z.testbit el (j + nbit mod 64) = false end).
    { unfold r. destruct (Z.eqb_spec el 0) as [->|NE]; [intros j J; apply Z.bits_0|]. pose proof (iter_word_ok 64 (Z.shiftr el (nbit mod 64)) nbit) as IW. assert (SB : 0 <= Z.shiftr el (nbit mod 64) < 2 ^ Z.of_nat 64).
      { split; [apply Z.shiftr_nonneg; destruct WE; assumption|]. rewrite Z.shiftr_div_pow2 by lia. destruct WE as [W1 W2]. change (2 ^ Z.of_nat 64) with (2 ^ 64). apply Z.div_lt_upper_bound; [apply Z.pow_pos_nonneg; lia|]. pose proof (Z.pow_pos_nonneg 2 (nbit mod 64) ltac:(lia) ltac:(lia)). nia. }
      specialize (IW SB). destruct (iter_word 65 _ nbit) as [n|].
      - destruct IW as (A & B & C). rewrite Z.shiftr_spec in B by lia. split; [assumption|]. split; [assumption|]. intros j J. specialize (C j J). rewrite Z.shiftr_spec in C by lia. assumption.
      - intros j J. rewrite <- Z.shiftr_spec by lia. rewrite IW. apply Z.bits_0. }
    clearbody r. destruct r as [n|].
    + destruct R as (A & B & C). exists (Some n). split; [reflexivity|]. split; [assumption|].
      assert (NB : n - nbit + nbit mod 64 < 64). { destruct (Z_lt_le_dec (n - nbit + nbit mod 64) 64); [assumption|]. rewrite (testbit_small el 64) in B by assumption. discriminate. }
      replace n with (64 * nel + (n - nbit + nbit mod 64)) at 1 by lia. rewrite MB by lia. split; [assumption|]. intros m M. replace m with (64 * nel + (m - nbit + nbit mod 64)) by lia. rewrite MB by lia. apply C. lia.
    + assert (ND : (nel + 1) * 64 / 64 = nel + 1) by (apply Z.div_mul; lia). destruct (IH (nel + 1) ((nel + 1) * 64) (conj WL WF) ltac:(lia) ltac:(lia) ltac:(lia)) as (r & E & H1). exists r. split; [assumption|].
      assert (LO : forall m, nbit <= m < (nel + 1) * 64 -> mem b m = false). { intros m M. replace m with (64 * nel + (m - nbit + nbit mod 64)) by lia. rewrite MB by lia. apply R. lia. }
      destruct r as [n|].
      * destruct H1 as (A & B & C). split; [lia|]. split; [assumption|]. intros m M. destruct (Z_lt_le_dec m ((nel + 1) * 64)); [apply LO; lia|apply C; lia].
      * intros m M. destruct (Z_lt_le_dec m ((nel + 1) * 64)); [apply LO; lia|apply H1; lia].
Qed.
Lemma foreach_ok : forall b fuel nbit, wf b -> 0 <= nbit -> 64 * Z.of_nat (els b) - nbit < Z.of_nat fuel -> (1 <= fuel)%nat -> exists l, foreach fuel b nbit = Ok l /\ StronglySorted Z.lt l /\ forall n, In n l <-> nbit <= n /\ mem b n = true.
Proof.
  intros b. induction fuel as [|fuel IH]; intros nbit WB N F F1.
  - exfalso. lia.
  - cbn [foreach]. destruct (iter_loop_ok b (els b - Z.to_nat (nbit / W)) (nbit / W) nbit WB N eq_refl eq_refl) as (r & E & R). unfold iterator_next. rewrite E. cbn [bind]. destruct r as [n|].
    + destruct R as (A & B & C). assert (n < 64 * Z.of_nat (els b)) by (unfold mem in B; apply andb_prop in B; destruct B as [B _]; apply Z.ltb_lt in B; assumption).
      destruct (IH (n + 1) WB ltac:(lia) ltac:(lia) ltac:(lia)) as (l & -> & S & I). cbn [bind]. exists (n :: l). split; [reflexivity|]. split; [constructor; [assumption|apply Forall_forall; intros x X; apply I in X; lia]|].
      intros m. cbn [In]. rewrite I. split; [intros [<-|X]; [auto|split; [lia|tauto]]|]. intros [X Y]. destruct (Z.eq_dec m n) as [->|NE]; [left; reflexivity|right]. split; [|assumption]. destruct (Z_lt_le_dec m n); [|lia]. rewrite C in Y by lia. discriminate.
    + exists []. split; [reflexivity|]. split; [constructor|]. intros n. split; [intros []|]. intros [X Y]. rewrite R in Y by assumption. discriminate.
Qed.

(* one operation *)
Lemma elements_unique : forall s l l', elements s l -> elements s l' -> l = l'.
Proof.
  intros s l l' [S I] [S' I']. assert (EQ : forall x, In x l <-> In x l') by (intros x; rewrite I, I'; reflexivity). clear I I'. revert l' S' EQ. induction S as [|x l S IH F]; intros l' S' EQ.
  - destruct l' as [|y l']; [reflexivity|]. exfalso. apply (proj2 (EQ y)). left. reflexivity.
  - destruct S' as [|y l' S' F']; [exfalso; apply (proj1 (EQ x)); left; reflexivity|]. rewrite Forall_forall in F, F'.
    assert (x = y). { destruct (proj1 (EQ x) (or_introl eq_refl)) as [E|E]; [auto|]. destruct (proj2 (EQ y) (or_introl eq_refl)) as [E2|E2]; [auto|]. specialize (F _ E2). specialize (F' _ E). lia. } subst y. f_equal. apply IH; [assumption|].
    intros z. split; intros Z.
    + destruct (proj1 (EQ z) (or_intror Z)) as [E|E]; [|assumption]. subst z. specialize (F _ Z). lia.
    + destruct (proj2 (EQ z) (or_intror Z)) as [E|E]; [|assumption]. subst z. specialize (F' _ Z). lia.
Qed.
(* st represents S *)
Definition repr (st : store) (S : sets) : Prop := forall x n, 0 <= n -> mem (st x) n = S x n.
Definition all_clean (st : store) : Prop := forall x, clean (st x).
Lemma put_ok : forall st d b, st_ok st -> wf b -> st_ok (put st d b).
Proof. intros st d b H B x. unfold put. destruct (x =? d); auto. Qed.
Lemma put_clean : forall st d b, all_clean st -> clean b -> all_clean (put st d b).
Proof. intros st d b H B x. unfold put. destruct (x =? d); auto. Qed.
Lemma put_repr : forall st S d b s, repr st S -> (forall n, 0 <= n -> mem b n = s n) -> repr (put st d b) (put_set S d s).
Proof. intros st S d b s H B x n N. unfold put, put_set. destruct (x =? d); auto. Qed.
Lemma elements_repr : forall s t l, (forall n, 0 <= n -> s n = t n) -> elements s l -> elements t l.
Proof. intros s t l H [A B]. split; [assumption|]. intros n. rewrite B. split; intros [X Y]; (split; [assumption|]); [rewrite <- H by assumption|rewrite H by assumption]; assumption. Qed.
Lemma put_set_same : forall S d s, put_set S d s d = s.
Proof. intros. unfold put_set. rewrite Z.eqb_refl. reflexivity. Qed.
(* queries do not care about stale words *)
Definition query (o : op) : Prop := match o with OBit _ _ | OEqual _ _ | OIntersect _ _ | OEmpty _ | OCount _ | OForeach _ => True | _ => False end.
Lemma query_ok : forall st S o, st_ok st -> repr st S -> nats o -> query o -> exists a, step st o = Ok (st, a) /\ answer S o a.
Proof.
  intros st S o OK R N Q. assert (SM : forall x, same (mem (st x)) (S x)) by (intros x n H; apply R; assumption). destruct o; try contradiction; cbn [step nats] in *; unfold ask.
  - rewrite bit_p_ok by (apply OK || assumption). cbn [bind]. eexists. split; [reflexivity|]. cbn. apply R. assumption.
  - destruct (equal_ok (st d) (st s) (OK d) (OK s)) as (r & -> & E). cbn [bind]. eexists. split; [reflexivity|]. cbn. rewrite E. split; intros H n H0; [rewrite <- !R by assumption|rewrite !R by assumption]; apply H; assumption.
  - destruct (intersect_ok (st d) (st s) (OK d) (OK s)) as (r & -> & E). cbn [bind]. eexists. split; [reflexivity|]. cbn. rewrite E. split; intros (n & H0 & H1 & H2); exists n; [rewrite <- !R by assumption|rewrite !R by assumption]; auto.
  - destruct (empty_ok (st d) (OK d)) as (r & -> & E). cbn [bind]. eexists. split; [reflexivity|]. cbn. rewrite E. split; intros H n H0; [rewrite <- !R by assumption|rewrite !R by assumption]; apply H; assumption.
  - unfold bit_count. rewrite (count_loop_ok (st d) (els (st d)) 0 0 (OK d) eq_refl). cbn [bind]. eexists. split; [reflexivity|]. cbn [answer]. exists (listing (st d)). split; [eapply elements_repr; [|apply listing_ok]; apply SM|]. reflexivity.
  - unfold bits. destruct (foreach_ok (st d) (Datatypes.S (els (st d) * 64)) 0 (OK d) ltac:(lia) ltac:(lia) ltac:(lia)) as (l & -> & SS & I). cbn [bind]. eexists. split; [reflexivity|]. cbn [answer]. eapply elements_repr; [apply SM|]. split; assumption.
Qed.
Lemma ops_words :
  (forall x y, is_word x -> is_word y -> is_word (el_and x y)) /\ (forall x y, is_word x -> is_word y -> is_word (el_and_compl x y)) /\ (forall x y, is_word x -> is_word y -> is_word (el_ior x y)) /\
  (forall x y z, is_word x -> is_word y -> is_word z -> is_word (el_ior_and x y z)) /\ (forall x y z, is_word x -> is_word y -> is_word z -> is_word (el_ior_and_compl x y z)).
Proof.
  unfold el_and, el_and_compl, el_ior, el_ior_and, el_ior_and_compl. repeat split; intros; repeat (apply word_lor || apply word_land); try assumption; try apply (u64_word (Z.lnot y)).
Qed.
(* the operations which overwrite their destination *)
Definition whole (o : op) : Prop :=
  match o with OClear _ | OCopy _ _ | OAnd _ _ _ | OAndCompl _ _ _ | OIor _ _ _ | OIorAnd _ _ _ _ | OIorAndCompl _ _ _ _ | OCreate _ _ => True | _ => False end.
Definition step_good (st : store) (S : sets) (o : op) : Prop := exists st' a, step st o = Ok (st', a) /\ st_ok st' /\
  (all_clean st \/ whole o \/ query o -> repr st' (effect S o)) /\ (all_clean st -> grows S o -> all_clean st' /\ answer S o a).
Lemma whole_step : forall st S o d b chg (res : nset), step st o = Ok (put st d b, ABool chg) -> st_ok st -> repr st S -> wf b -> (forall m, 0 <= m -> mem b m = res m) ->
  (clean (st d) -> subset (mem (st d)) res -> clean b /\ (chg = false <-> same (mem (st d)) res)) ->
  (forall x, effect S o x = put_set S d (effect S o d) x) -> (forall m, 0 <= m -> res m = effect S o d m) -> (grows S o -> subset (S d) (effect S o d)) ->
  (answer S o (ABool chg) <-> changed S o d chg) -> step_good st S o.
Proof.
  intros st S o d b chg res E OK R WB M C EF ER G A. exists (put st d b), (ABool chg). split; [assumption|]. split; [apply put_ok; assumption|]. split.
  - intros _ x n N. rewrite EF. apply (put_repr st S d b (effect S o d) R); [|assumption]. intros m MM. rewrite M, ER by assumption. reflexivity.
  - intros CL GR. specialize (G GR). destruct (C (CL d)) as [C1 C2].
    + intros n N X. rewrite ER by assumption. apply G; [assumption|]. rewrite <- R by assumption. assumption.
    + split; [apply put_clean; assumption|]. apply A. unfold changed. rewrite C2. split; intros X n N; [rewrite <- R, <- ER by assumption|rewrite R, ER by assumption]; apply X; assumption.
Qed.
Lemma step_ok : forall st S o, st_ok st -> repr st S -> nats o -> step_good st S o.
Proof.
  intros st S o OK R N. destruct ops_words as (O1 & O2 & O3 & O4 & O5).
  assert (SELF : forall o d s, effect S o = put_set S d s -> forall x, effect S o x = put_set S d (effect S o d) x).
  { intros o' d s E x. rewrite E. rewrite put_set_same. reflexivity. }
  destruct o; cbn [nats] in N;
   try (match goal with |- step_good _ _ ?q => destruct (query_ok st S q OK R N I) as (a & E & A); exists st, a; split; [exact E|]; split; [assumption|]; split; [intros _; exact R|]; intros CL _; split; assumption end).
  - (* create *) destruct (create_ok bits) as (W1 & C1 & M1). exists (put st d (create2 bits)), ANone. split; [reflexivity|]. split; [apply put_ok; assumption|]. split; [intros _; apply put_repr; [assumption|intros n _; apply M1]|]. intros CL _. split; [apply put_clean; assumption|exact I].
  - (* set *) destruct (set_bit_ok (st d) n (OK d) N) as (b & E & WB & EL & NL & BW & CB). exists (put st d b), (ABool (negb (bitw (varr (st d)) n))). split; [cbn [step]; unfold on; rewrite E; reflexivity|]. split; [apply put_ok; assumption|].
    split; [intros [CL|[[]|[]]]; cbn [effect]; apply put_repr; [assumption|]; intros m M; rewrite mem_clean by auto; rewrite BW by assumption; rewrite <- R, mem_clean by auto; reflexivity|].
    intros CL _. split; [apply put_clean; auto|]. cbn [answer]. unfold changed. cbn [effect]. rewrite put_set_same. rewrite negb_false_iff. rewrite <- mem_clean, R by auto. split.
    + intros X m M. destruct (Z.eqb_spec m n) as [->|NE]; [rewrite X|]; reflexivity.
    + intros X. rewrite X by assumption. rewrite Z.eqb_refl. reflexivity.
  - (* clear bit *) destruct (clear_bit_ok (st d) n (OK d) N) as (b & E & WB & EL & BW & CB). exists (put st d b), (ABool (mem (st d) n)). split; [cbn [step]; unfold on; rewrite E; reflexivity|]. split; [apply put_ok; assumption|].
    assert (RR : all_clean st -> forall m, 0 <= m -> mem b m = negb (m =? n) && S d m).
    { intros CL m M. rewrite mem_clean by auto. rewrite BW by assumption. rewrite <- R by assumption. rewrite (mem_clean (st d)) by auto. destruct (Z.ltb_spec n (64 * Z.of_nat (els (st d)))) as [L|G]; [reflexivity|].
      destruct (Z.eqb_spec m n) as [->|NE]; [|reflexivity]. cbn [negb andb]. rewrite <- mem_clean by auto. unfold mem. destruct (Z.ltb_spec n (64 * Z.of_nat (els (st d)))); [lia|reflexivity]. }
    split; [intros [CL|[[]|[]]]; cbn [effect]; apply put_repr; auto|]. intros CL _. split; [apply put_clean; auto|]. cbn [answer]. unfold changed. cbn [effect]. rewrite put_set_same. rewrite R by auto. split.
    + intros X m M. destruct (Z.eqb_spec m n) as [->|NE]; [rewrite X|]; reflexivity.
    + intros X. rewrite X by assumption. rewrite Z.eqb_refl. reflexivity.
  - (* range *) destruct N as [N L]. destruct (set_range_ok (st d) n len set_p (OK d) N L) as (b & r & E & WB & EL & NL & BW & RR & CB). exists (put st d b), (ABool r). split; [cbn [step]; unfold on; rewrite E; reflexivity|]. split; [apply put_ok; assumption|].
    assert (EF : forall m, effect S (ORange d n len set_p) d m = if (n <=? m) && (m <? n + len) then set_p else S d m).
    { intros m. cbn [effect]. destruct set_p; rewrite put_set_same; destruct ((n <=? m) && (m <? n + len)); reflexivity. }
    split.
    { intros [CL|[[]|[]]]. intros x m M. rewrite (SELF _ d (effect S (ORange d n len set_p) d)) by (cbn [effect]; destruct set_p; rewrite put_set_same; reflexivity). apply put_repr; [assumption| |assumption]. clear x m M. intros m M. rewrite mem_clean by auto. rewrite BW, EF by assumption. rewrite <- R by assumption. rewrite (mem_clean (st d)) by auto. reflexivity. }
    intros CL _. split; [apply put_clean; auto|]. cbn [answer]. unfold changed. rewrite RR. split.
    + intros X m M. rewrite EF. destruct ((n <=? m) && (m <? n + len)) eqn:IR; [|reflexivity]. apply andb_prop in IR. destruct IR as [I1 I2]. apply Z.leb_le in I1. apply Z.ltb_lt in I2. rewrite <- R, mem_clean by auto. apply X. lia.
    + intros X m M. specialize (X m ltac:(lia)). rewrite EF in X. destruct (Z.leb_spec n m); [|lia]. destruct (Z.ltb_spec m (n + len)); [|lia]. cbn [andb] in X. rewrite <- X, <- R by lia. rewrite mem_clean by (auto; lia). reflexivity.
  - (* clear *) exists (put st d (clear (st d))), ANone. split; [reflexivity|]. split; [apply put_ok; [assumption|]; destruct (OK d) as [WL WF]; split; cbn; [lia|assumption]|].
    assert (M0 : forall m, mem (clear (st d)) m = (m <? 0) && bitw (varr (st d)) m) by reflexivity.
    split; [intros _; cbn [effect]; apply put_repr; [assumption|]; intros m M; rewrite M0; destruct (Z.ltb_spec m 0); [lia|reflexivity]|].
    intros CL GR. split; [|exact I]. apply put_clean; [assumption|]. intros i _. cbn [clear varr]. cbn [grows effect] in GR. rewrite put_set_same in GR. apply (clean_by (varr (st d)) 0); [|apply OK|lia]. intros n Hn. rewrite <- mem_clean by (auto; lia). destruct (mem (st d) n) eqn:E; [|reflexivity]. rewrite R in E by lia. apply GR in E; [discriminate|lia].
  - (* copy *) destruct (copy_ok (st d) (st s) (OK d) (OK s)) as (b & E & WB & EL & M & CB). exists (put st d b), ANone. split; [cbn [step]; rewrite E; reflexivity|]. split; [apply put_ok; assumption|].
    split; [intros _; cbn [effect]; apply put_repr; [assumption|]; intros m MM; rewrite M by assumption; apply R; assumption|]. intros CL GR. split; [|exact I]. apply put_clean; [assumption|]. apply CB; [apply CL|]. intros m MM X. rewrite R by assumption. cbn [grows effect] in GR. rewrite put_set_same in GR. apply GR; [assumption|]. rewrite <- R by assumption. assumption.
  - destruct (op2_ok st d s1 s2 el_and andb OK O1 eq_refl) as (b & c & E & WB & M & C); [intros; apply Z.land_spec|]. eapply (whole_step st S _ d b c _); [cbn [step]; unfold ret; rewrite E; reflexivity|assumption|assumption|assumption|exact M|exact C|eapply SELF; reflexivity| |cbn [grows]; auto|reflexivity].
    intros m MM. cbn [effect]. rewrite put_set_same, !R by assumption. reflexivity.
  - destruct (op2_ok st d s1 s2 el_and_compl (fun x y => x && negb y) OK O2 eq_refl) as (b & c & E & WB & M & C); [intros x y j X Y J; unfold el_and_compl; rewrite Z.land_spec, unot_bit by assumption; reflexivity|]. eapply (whole_step st S _ d b c _); [cbn [step]; unfold ret; rewrite E; reflexivity|assumption|assumption|assumption|exact M|exact C|eapply SELF; reflexivity| |cbn [grows]; auto|reflexivity].
    intros m MM. cbn [effect]. rewrite put_set_same, !R by assumption. reflexivity.
  - destruct (op2_ok st d s1 s2 el_ior orb OK O3 eq_refl) as (b & c & E & WB & M & C); [intros; apply Z.lor_spec|]. eapply (whole_step st S _ d b c _); [cbn [step]; unfold ret; rewrite E; reflexivity|assumption|assumption|assumption|exact M|exact C|eapply SELF; reflexivity| |cbn [grows]; auto|reflexivity].
    intros m MM. cbn [effect]. rewrite put_set_same, !R by assumption. reflexivity.
  - destruct (op3_ok st d s1 s2 s3 el_ior_and (fun x y z => x || y && z) OK O4 eq_refl) as (b & c & E & WB & M & C); [intros x y z j X Y Z J; unfold el_ior_and; rewrite Z.lor_spec, Z.land_spec; reflexivity|]. eapply (whole_step st S _ d b c _); [cbn [step]; unfold ret; rewrite E; reflexivity|assumption|assumption|assumption|exact M|exact C|eapply SELF; reflexivity| |cbn [grows]; auto|reflexivity].
    intros m MM. cbn [effect]. rewrite put_set_same, !R by assumption. reflexivity.
  - destruct (op3_ok st d s1 s2 s3 el_ior_and_compl (fun x y z => x || y && negb z) OK O5 eq_refl) as (b & c & E & WB & M & C); [intros x y z j X Y Z J; unfold el_ior_and_compl; rewrite Z.lor_spec, Z.land_spec, unot_bit by assumption; reflexivity|]. eapply (whole_step st S _ d b c _); [cbn [step]; unfold ret; rewrite E; reflexivity|assumption|assumption|assumption|exact M|exact C|eapply SELF; reflexivity| |cbn [grows]; auto|reflexivity].
    intros m MM. cbn [effect]. rewrite put_set_same, !R by assumption. reflexivity.
Qed.

(* histories *)
Lemma initial_ok : st_ok initial /\ repr initial (fun _ => none) /\ all_clean initial.
Proof. destruct (create_ok 0) as (A & B & C). split; [intros x; exact A|]. split; [intros x n _; apply C|intros x; exact B]. Qed.
Lemma run_grow : forall l st S, st_ok st -> repr st S -> all_clean st -> Forall nats l -> all_grow S l -> exists r, run st l = Ok r /\ answers S l r.
Proof.
  induction l as [|o l IH]; intros st S OK R CL N G; [exists []; split; [reflexivity|exact I]|]. inversion N as [|? ? N1 N2]; subst. destruct G as [G1 G2]. destruct (step_ok st S o OK R N1) as (st' & a & E & OK' & RE & CA). destruct (CA CL G1) as [CL' A].
  destruct (IH st' (effect S o) OK' (RE (or_introl CL)) CL' N2 G2) as (r & E2 & A2). exists (a :: r). cbn [run]. rewrite E. cbn [bind]. rewrite E2. split; [reflexivity|]. split; assumption.
Qed.
(* C47 *)
Lemma history : forall l, Forall nats l -> all_grow (fun _ => none) l -> exists r, run initial l = Ok r /\ answers (fun _ => none) l r.
Proof. intros l N G. destruct initial_ok as (A & B & C). exact (run_grow l initial _ A B C N G). Qed.
Lemma history_safe : forall l, Forall nats l -> exists r, run initial l = Ok r /\ length r = length l.
Proof.
  intros l N. destruct initial_ok as (A & _ & _). generalize A. generalize initial. clear A. induction N as [|o l N1 N2 IH]; intros st OK; [exists []; split; reflexivity|].
  destruct (step_ok st (fun x => mem (st x)) o OK (fun x n _ => eq_refl) N1) as (st' & a & E & OK' & _). destruct (IH st' OK') as (r & E2 & L). exists (a :: r). cbn [run]. rewrite E. cbn [bind]. rewrite E2. split; [reflexivity|]. cbn [length]. lia.
Qed.
Lemma reachable_ok : forall st, reachable st -> st_ok st.
Proof.
  intros st H. induction H as [|st o st' a H IH N E]; [apply initial_ok|]. destruct (step_ok st (fun x => mem (st x)) o IH (fun x n _ => eq_refl) N) as (st2 & a2 & E2 & OK' & _). rewrite E in E2. injection E2 as <- <-. assumption.
Qed.
Lemma contents_mem : forall st x n, st_ok st -> 0 <= n -> mem (st x) n = contents st x n.
Proof. intros st x n OK N. unfold contents. rewrite bit_p_ok by (apply OK || assumption). reflexivity. Qed.
Lemma whole_any : forall st o, reachable st -> nats o -> whole_op o || query_op o = true ->
  exists st' a, step st o = Ok (st', a) /\ (forall x n, 0 <= n -> contents st' x n = effect (contents st) o x n) /\ (query_op o = true -> answer (contents st) o a).
Proof.
  intros st o H N Q. pose proof (reachable_ok st H) as OK. assert (R : repr st (contents st)) by (intros x n M; apply contents_mem; assumption).
  destruct (step_ok st (contents st) o OK R N) as (st' & a & E & OK' & RE & _). exists st', a. split; [assumption|]. split.
  - intros x n M. rewrite <- contents_mem by assumption. apply RE; [|assumption]. right. destruct o; cbn in *; auto; discriminate.
  - intros QQ. destruct (query_ok st (contents st) o OK R N) as (a2 & E2 & A); [destruct o; cbn in *; auto; discriminate|]. rewrite E in E2. injection E2 as _ <-. assumption.
Qed.
(* Clearing only resets els_num; growing again does not zero the words, so the old elements come
   back and set_bit answers that the bit was set already (raviX_solve_dataflow relies on it). *)
Lemma clear_stale : run initial [OSet 0 5; OClear 0; OEmpty 0; OSet 0 5; OSet 0 6; OClear 0; OSet 0 7; OBit 0 6] =
  Ok [ABool true; ANone; ABool true; ABool false; ABool true; ANone; ABool true; ABool true] /\
  ~ answers (fun _ => none) [OSet 0 5; OClear 0; OEmpty 0; OSet 0 5] [ABool true; ANone; ABool true; ABool false].
Proof.
  split; [vm_compute; reflexivity|]. intros (_ & _ & _ & H & _). cbn [answer] in H. destruct H as [H _]. specialize (H eq_refl 5 ltac:(lia)). vm_compute in H. discriminate.
Qed.
(* Copying a shorter set leaves the old words in place: the elements come back when the set grows. *)
Lemma copy_stale : run initial [OSet 0 100; OSet 1 3; OCopy 0 1; OBit 0 100; OSet 0 70; OBit 0 100] =
  Ok [ABool true; ABool true; ANone; ABool false; ABool true; ABool true].
Proof. vm_compute. reflexivity. Qed.
(* An operation whose sources are shorter than the destination drops the destination's upper elements
   but reports no change. *)
Lemma op_change : run initial [OSet 0 100; OAnd 0 1 1; OBit 0 100] = Ok [ABool true; ABool false; ABool false] /\
  ~ answers (fun _ => none) [OSet 0 100; OAnd 0 1 1] [ABool true; ABool false].
Proof.
  split; [vm_compute; reflexivity|]. intros (_ & H & _). cbn [answer] in H. destruct H as [H _]. specialize (H eq_refl 100 ltac:(lia)). vm_compute in H. discriminate.
Qed.
