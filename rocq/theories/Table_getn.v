(* The length operator. *)
Require Import ZArith QArith List Bool Lia Permutation.
From Coq Require Import Floats.SpecFloat.
From Verif Require Import Base Base_facts Float_model Size_model Size_proofs Table_model Table_facts Table_hash Table_count Table_ops Table_new Table_resize Float_spec Float_facts Float_proofs Table_spec Table_hist.
Import ListNotations.
Open Scope Z_scope.


Section GETN.
Variable V : Type.
Variable mainpos : Z -> key -> Z.
Notation table := (table V). Notation node := (node V).
Notation keyat := (keyat V). Notation nodeat := (nodeat V). Notation anext := (anext V). Notation inr := (inr V).
Notation arr := (arr V). Notation nodes := (nodes V). Notation lsize := (lsize V). Notation lastfree := (lastfree V). Notation sizearray := (sizearray V).
Notation nval := (Table_model.nval V). Notation nkey := (nkey V). Notation nnext := (nnext V). Notation mkTable := (mkTable V). Notation mkNode := (mkNode V).
Notation setnode := (setnode V).
Notation luaH_get := (luaH_get V mainpos). Notation get := (get V mainpos).
Notation newkey := (newkey V mainpos). Notation insert := (insert V mainpos). Notation setk := (setk V mainpos). Notation resize := (resize V mainpos).
Notation rehash := (rehash V mainpos).
Notation tinv := (tinv V mainpos). Notation hhas := (hhas V). Notation has := (has V). Notation place := (place V). Notation nfree := (nfree V).
Notation isfreeb := (isfreeb V).
Notation withlf := (withlf V). Notation added := (added V mainpos). Notation sets := (sets V). Notation outside := (outside V).
Notation items := (items V). Notation set := (set V mainpos). Notation op := (op V). Notation after := (after V). Notation step := (step V mainpos). Notation run := (run V mainpos).
Hypothesis mainpos_ok : forall l k, 0 <= l -> 0 <= mainpos l k < 2 ^ l.

Lemma halve : forall i j n, 0 <= i -> 1 < j - i -> j - i <= 2 ^ Z.of_nat (S n) ->
  i < (i + j) / 2 < j /\ j - (i + j) / 2 <= 2 ^ Z.of_nat n /\ (i + j) / 2 - i <= 2 ^ Z.of_nat n.
Proof.
  intros i j n I J L. rewrite Nat2Z.inj_succ, Z.pow_succ_r in L by lia. pose proof (Z.div_mod (i + j) 2 ltac:(lia)). pose proof (Z.mod_pos_bound (i + j) 2 ltac:(lia)). lia.
Qed.

Lemma bsearch_arr_ok : forall fuel a i j, 0 <= i < j -> j <= Z.of_nat (length a) -> Z.of_nat (length a) <= MAXASIZE -> j - i <= 2 ^ Z.of_nat fuel ->
  (i = 0 \/ exists v : V, nth (Z.to_nat (i - 1)) a None = Some v) -> nth (Z.to_nat (j - 1)) a None = None ->
  exists n, bsearch_arr V fuel a i j = Ok n /\ 0 <= n < Z.of_nat (length a) /\ (n = 0 \/ exists v, nth (Z.to_nat (n - 1)) a None = Some v) /\ nth (Z.to_nat n) a None = None.
Proof.
  induction fuel as [|fuel IH]; intros a i j I J A L HI HJ.
  - cbn in L. assert (j = i + 1) by lia. subst j. cbn [bsearch_arr]. replace (i + 1 - i) with 1 by lia. change (u32 1) with 1. cbn [Z.leb Z.compare Pos.compare Pos.compare_cont].
    exists i. split; [reflexivity|]. split; [lia|]. split; [assumption|]. replace (i + 1 - 1) with i in HJ by lia. assumption.
  - cbn [bsearch_arr]. unfold MAXASIZE, MAXABITS in A. change (2 ^ 31) with 2147483648 in A. rewrite u32_id by (unfold is_u32; unfold_consts; lia).
    destruct (Z.leb_spec (j - i) 1) as [LE|GT].
    + assert (j = i + 1) by lia. subst j. exists i. split; [reflexivity|]. split; [lia|]. split; [assumption|]. replace (i + 1 - 1) with i in HJ by lia. assumption.
    + rewrite u32_id by (unfold is_u32; unfold_consts; lia). destruct (halve i j fuel ltac:(lia) GT L) as (M1 & M2 & M3). set (m := (i + j) / 2) in *.
      destruct (nth_error a (Z.to_nat (m - 1))) as [x|] eqn:E.
      * pose proof (nth_error_nth _ _ (@None V) E) as EN. destruct x as [v|].
        -- apply IH; auto; try lia. right. exists v. assumption.
        -- apply IH; auto; lia.
      * exfalso. apply nth_error_None in E. lia.
Qed.

Section T.
Variable t : table.
Hypothesis T : tinv t.
Variable f : Z -> option V.
Hypothesis F : forall i v, is_s64 i -> (f i = Some v <-> has t (KI i) v).

Lemma present_ok : forall i, 0 <= i <= maxint -> present V mainpos t i = Ok (match f i with Some _ => true | None => false end).
Proof.
  intros i I. assert (S : is_s64 i) by (unfold is_s64; unfold_consts; lia). unfold present. rewrite s64_id by assumption.
  destruct (getint_ok V mainpos t i T S) as (c & E & P). rewrite E. cbn [bind]. f_equal. destruct (readcell V t c) as [v|] eqn:R.
  - apply (place_has V mainpos t (KI i) c v T P) in R. apply F in R; [|assumption]. rewrite R. reflexivity.
  - destruct (f i) as [v|] eqn:FI; [|reflexivity]. apply F in FI; [|assumption]. apply (place_has V mainpos t (KI i) c v T P) in FI. congruence.
Qed.
Lemma bsearch_ok : forall fuel i j, 0 <= i < j -> j <= maxint -> j - i <= 2 ^ Z.of_nat fuel -> (i = 0 \/ f i <> None) -> f j = None ->
  exists n, bsearch V mainpos fuel t i j = Ok n /\ border V f n.
Proof.
  induction fuel as [|fuel IH]; intros i j I J L HI HJ.
  - cbn in L. assert (j = i + 1) by lia. subst j. cbn [bsearch]. replace (i + 1 - i) with 1 by lia. change (u64 1) with 1. cbn [Z.leb Z.compare Pos.compare Pos.compare_cont].
    exists i. split; [reflexivity|]. split; [lia|]. auto.
  - cbn [bsearch]. rewrite u64_id by (unfold is_u64; unfold maxint in *; unfold_consts; lia).
    destruct (Z.leb_spec (j - i) 1) as [LE|GT].
    + assert (j = i + 1) by lia. subst j. exists i. split; [reflexivity|]. split; [lia|]. auto.
    + rewrite u64_id by (unfold is_u64; unfold maxint in *; unfold_consts; lia). destruct (halve i j fuel ltac:(lia) GT L) as (M1 & M2 & M3). set (m := (i + j) / 2) in *.
      rewrite present_ok by lia. cbn [bind]. destruct (f m) as [v|] eqn:FM; apply IH; auto; try lia. right. congruence.
Qed.
Lemma idx_count : forall n, (forall i, 1 <= i <= Z.of_nat n -> f i <> None) -> Z.of_nat n <= maxint -> (n <= length (items t))%nat.
Proof.
  intros n H B. rewrite <- (map_length fst (items t)). set (l := map (fun i => KI (Z.of_nat i)) (seq 1 n)).
  replace n with (length l) by (unfold l; rewrite map_length, seq_length; reflexivity). apply NoDup_incl_length.
  - unfold l. apply nodup_map_inj; [apply seq_NoDup|]. intros x y _ _ E. injection E as E. lia.
  - intros k K. unfold l in K. apply in_map_iff in K. destruct K as (i & <- & I). apply in_seq in I. specialize (H (Z.of_nat i) ltac:(lia)).
    destruct (f (Z.of_nat i)) as [v|] eqn:E; [|congruence]. apply F in E; [|unfold is_s64; unfold_consts; lia]. apply (items_has V mainpos t _ v T) in E.
    apply in_map_iff. exists (KI (Z.of_nat i), v). auto.
Qed.
Lemma linear_ok : forall fuel i, 1 <= i -> (forall k, 1 <= k < i -> f k <> None) -> Z.of_nat (length (items t)) < 2 ^ 40 -> Z.of_nat (length (items t)) + 1 < i + Z.of_nat fuel ->
  exists n, linear V mainpos fuel t i = Ok n /\ border V f n.
Proof.
  induction fuel as [|fuel IH]; intros i I H B L.
  - exfalso. pose proof (idx_count (S (length (items t)))) as X. assert (S (length (items t)) <= length (items t))%nat; [|lia]. apply X; [|unfold maxint; unfold_consts; lia]. intros k K. apply H. lia.
  - cbn [linear]. assert (IB : i <= 2 ^ 40 + 1).
    { destruct (Z_lt_le_dec (2 ^ 40 + 1) i) as [X|X]; [|assumption]. exfalso. pose proof (idx_count (Z.to_nat (i - 1))).
      destruct (Z_lt_le_dec maxint (i - 1)) as [Y|Y].
      - pose proof (idx_count (S (length (items t)))) as X2. assert (S (length (items t)) <= length (items t))%nat; [|lia]. apply X2; [|unfold maxint; unfold_consts; lia]. intros k K. apply H. lia.
      - assert (Z.to_nat (i - 1) <= length (items t))%nat; [|lia]. apply H0; [|lia]. intros k K. apply H. lia. }
    rewrite present_ok by (unfold maxint; unfold_consts; lia). cbn [bind]. destruct (f i) as [v|] eqn:FI.
    + rewrite u64_id by (unfold is_u64; unfold_consts; lia). apply IH; try lia. intros k K. destruct (Z.eq_dec k i) as [->|N]; [congruence|apply H; lia].
    + rewrite u64_id by (unfold is_u64; unfold_consts; lia). exists (i - 1). split; [reflexivity|]. split; [unfold maxint; unfold_consts; lia|]. split.
      * destruct (Z.eq_dec i 1) as [->|N]; [left; reflexivity|right; apply H; lia].
      * right. replace (i - 1 + 1) with i by lia. assumption.
Qed.
Lemma unbound_ok : forall fuel lf i j, 0 <= i < j -> j <= maxint -> maxint < j * 2 ^ Z.of_nat fuel -> (i = 0 \/ f i <> None) ->
  Z.of_nat (length (items t)) < 2 ^ 40 -> Z.of_nat (length (items t)) < Z.of_nat lf ->
  exists n, unbound V mainpos fuel lf t i j = Ok n /\ border V f n.
Proof.
  induction fuel as [|fuel IH]; intros lf i j I J L HI B LF; [cbn in L; lia|]. cbn [unbound]. rewrite present_ok by lia. cbn [bind]. destruct (f j) as [v|] eqn:FJ.
  - destruct (Z.ltb_spec (maxint / 2) j) as [X|X].
    + apply linear_ok; try lia.
    + assert (j * 2 <= maxint) by (pose proof (Z.div_mod maxint 2 ltac:(lia)); pose proof (Z.mod_pos_bound maxint 2 ltac:(lia)); lia).
      rewrite u64_id by (unfold is_u64; unfold maxint in *; unfold_consts; lia).
      apply IH; try lia. rewrite Nat2Z.inj_succ, Z.pow_succ_r in L by lia. lia. right. congruence.
  - apply bsearch_ok; auto. change (2 ^ Z.of_nat 64) with 18446744073709551616. unfold maxint in *. unfold_consts. lia.
Qed.
Lemma getn_ok : forall lf, Z.of_nat (length (items t)) < 2 ^ 40 -> Z.of_nat (length (items t)) < Z.of_nat lf -> exists n, luaH_getn V mainpos lf t = Ok n /\ border V f n.
Proof.
  intros lf B LF. unfold luaH_getn. set (j := sizearray t).
  assert (JB : 0 <= j <= 2147483648) by (pose proof (t_arr _ _ t T) as TA; unfold MAXASIZE, MAXABITS in TA; change (2 ^ 31) with 2147483648 in TA; unfold j; split; [unfold Table_model.sizearray; lia|assumption]).
  assert (AV : forall i, 1 <= i <= j -> f i = nth (Z.to_nat (i - 1)) (arr t) None).
  { intros i I. assert (S : is_s64 i) by (unfold is_s64; unfold_consts; lia).
    assert (IA : inarrb (sizearray t) (KI i) = true) by (apply inarrb_iff; exists i; auto).
    assert (X : forall v, f i = Some v <-> nth (Z.to_nat (i - 1)) (arr t) None = Some v) by (intros v; rewrite (F i v S); unfold Table_ops.has; rewrite IA; reflexivity).
    destruct (f i) as [v|]; [symmetry; apply X; reflexivity|]. destruct (nth (Z.to_nat (i - 1)) (arr t) None) as [w|]; [|reflexivity]. apply X. reflexivity. }
  assert (MX : 2147483648 < maxint) by (unfold maxint; unfold_consts; lia).
  destruct ((0 <? j) && negb (nonnil V (nth (Z.to_nat (j - 1)) (arr t) None))) eqn:C.
  - apply andb_prop in C. destruct C as [C1 C2]. apply Z.ltb_lt in C1.
    destruct (bsearch_arr_ok 32 (arr t) 0 j ltac:(lia)) as (n & E & R & P & Q).
    + unfold j, Table_model.sizearray. lia.
    + apply (t_arr _ _ t T).
    + change (2 ^ Z.of_nat 32) with 4294967296. lia.
    + left. reflexivity.
    + destruct (nth (Z.to_nat (j - 1)) (arr t) None); [discriminate|reflexivity].
    + exists n. split; [assumption|]. fold (sizearray t) in R. fold j in R. split; [lia|]. split.
      * destruct P as [P|(v & P)]; [left; assumption|]. destruct (Z.eq_dec n 0); [left; assumption|]. right. rewrite AV by lia. congruence.
      * right. rewrite AV by lia. replace (n + 1 - 1) with n by lia. assumption.
  - assert (JP : j = 0 \/ f j <> None).
    { destruct (Z.eq_dec j 0); [left; assumption|]. right. rewrite AV by lia. destruct (Z.ltb_spec 0 j); [|lia]. cbn [andb] in C. destruct (nth (Z.to_nat (j - 1)) (arr t) None); [discriminate|discriminate]. }
    destruct (isdummy V t) eqn:D.
    + exists j. split; [reflexivity|]. split; [lia|]. split; [assumption|]. right. destruct (f (j + 1)) as [v|] eqn:E; [|reflexivity]. exfalso.
      apply F in E; [|unfold is_s64; unfold_consts; lia]. assert (IA : inarrb (sizearray t) (KI (j + 1)) = false).
      { destruct (inarrb (sizearray t) (KI (j + 1))) eqn:X; [|reflexivity]. apply inarrb_iff in X. destruct X as (z & X & Y). injection X as <-. fold j in Y. lia. }
      apply (proj1 (has_hash V mainpos t _ v IA)) in E. destruct E as (i & RI & KI & _). pose proof (t_free _ _ t T) as TF. unfold isdummy in D. destruct (lastfree t); [discriminate|].
      rewrite TF in RI, KI. unfold Table_facts.inr in RI. cbn in RI. assert (i = 0) by lia. subst i. discriminate.
    + unfold unbound_search. rewrite u64_id by (unfold is_u64; unfold_consts; lia). apply unbound_ok; auto; try lia.
      assert (maxint < 1 * 2 ^ Z.of_nat 65) by (unfold maxint; unfold_consts; reflexivity). assert (0 < 2 ^ Z.of_nat 65) by reflexivity. nia.
Qed.
End T.
End GETN.
