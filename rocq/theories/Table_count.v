(* Counting integer keys and choosing the size of the array part (ltable.c:291-358). *)
Require Import ZArith List Bool Lia Permutation.
From Verif Require Import Base Base_facts Float_model Size_model Size_proofs Table_model Table_facts.
Import ListNotations.
Open Scope Z_scope.

Definition cnt (p : Z -> bool) (ks : list Z) : Z := Z.of_nat (length (filter p ks)).
Lemma cnt_nil : forall p, cnt p [] = 0. Proof. reflexivity. Qed.
Lemma cnt_cons : forall p k ks, cnt p (k :: ks) = (if p k then 1 else 0) + cnt p ks.
Proof. intros. unfold cnt. cbn [filter]. destruct (p k); cbn [length]; lia. Qed.
Lemma cnt_app : forall p a b, cnt p (a ++ b) = cnt p a + cnt p b.
Proof. intros. unfold cnt. rewrite filter_app, app_length. lia. Qed.
Lemma cnt_nonneg : forall p ks, 0 <= cnt p ks. Proof. intros. unfold cnt. lia. Qed.
Lemma cnt_ext : forall p q ks, (forall k, In k ks -> p k = q k) -> cnt p ks = cnt q ks.
Proof. induction ks; intros H; [reflexivity|]. rewrite !cnt_cons, IHks by (intros; apply H; right; assumption). rewrite (H a) by (left; reflexivity). reflexivity. Qed.
Lemma cnt_or : forall p q ks, (forall k, p k = true -> q k = true -> False) -> cnt (fun k => p k || q k) ks = cnt p ks + cnt q ks.
Proof.
  induction ks; intros H; [reflexivity|]. rewrite !cnt_cons, IHks by assumption. specialize (H a). destruct (p a); destruct (q a); cbn [orb]; lia || (exfalso; auto).
Qed.
Lemma cnt_not : forall p ks, cnt p ks + cnt (fun k => negb (p k)) ks = Z.of_nat (length ks).
Proof. induction ks; [reflexivity|]. rewrite !cnt_cons. cbn [length]. destruct (p a); cbn [negb]; lia. Qed.
Lemma cnt_all : forall p ks, (forall k, In k ks -> p k = true) -> cnt p ks = Z.of_nat (length ks).
Proof. induction ks; intros H; [reflexivity|]. rewrite cnt_cons, IHks, (H a) by (intros; try apply H; cbn; auto). cbn [length]. lia. Qed.
Lemma cnt_le : forall p q ks, (forall k, p k = true -> q k = true) -> cnt p ks <= cnt q ks.
Proof. induction ks; intros H; [reflexivity|]. rewrite !cnt_cons. specialize (IHks H). specialize (H a). destruct (p a); destruct (q a); lia || discriminate (H eq_refl). Qed.
Lemma cnt_perm : forall p a b, Permutation a b -> cnt p a = cnt p b.
Proof. intros p a b H. induction H; [reflexivity| | |congruence]; rewrite !cnt_cons; lia. Qed.

(* the number of keys 1..n *)
Definition upto (n : Z) (k : Z) : bool := (1 <=? k) && (k <=? n).
Definition Cn (ks : list Z) (n : Z) : Z := cnt (upto n) ks.
Lemma Cn_mono : forall ks n m, n <= m -> Cn ks n <= Cn ks m.
Proof. intros. unfold Cn. apply cnt_le. unfold upto. intros k K. apply andb_prop in K. destruct K as [A B]. rewrite A. apply Z.leb_le in B. apply Z.leb_le. lia. Qed.
Lemma Cn_bound : forall ks n, 0 <= n -> NoDup ks -> Cn ks n <= n.
Proof.
  intros ks n Hn ND. unfold Cn, cnt.
  assert (H : Z.of_nat (length (map (fun k => k - 1) (filter (upto n) ks))) <= n).
  { apply nodup_range; [assumption| |].
    - apply nodup_map_inj; [apply NoDup_filter; assumption|]. intros. lia.
    - intros i I. apply in_map_iff in I. destruct I as (k & <- & K). apply filter_In in K. destruct K as [_ K]. unfold upto in K. apply andb_prop in K. rewrite !Z.leb_le in K. lia. }
  rewrite map_length in H. exact H.
Qed.

(* the bucket of a key *)
Definition bucket (k : Z) : Z := Z.log2_up k.
Lemma bucket_ok : forall k, 1 <= k <= MAXASIZE -> luaO_ceillog2 k = Ok (bucket k) /\ 0 <= bucket k < 32.
Proof.
  intros k H. destruct (ceillog2_ok k) as (l & E & L0 & L1 & L2). { unfold MAXASIZE, MAXABITS in H. change (2 ^ 31) with 2147483648 in H. unfold_consts. lia. }
  assert (l = bucket k).
  { unfold bucket. destruct (Z.eq_dec k 1) as [->|N]; [change (Z.log2_up 1) with 0; specialize (L2 0 ltac:(lia)); cbn in L2; lia|].
    pose proof (Z.log2_up_spec k ltac:(lia)) as [A B]. pose proof (Z.log2_up_nonneg k).
    assert (l <= Z.log2_up k) by (apply L2; lia). destruct (Z.le_gt_cases (Z.log2_up k) l); [lia|].
    assert (2 ^ l <= 2 ^ Z.pred (Z.log2_up k)) by (apply Z.pow_le_mono_r; lia). lia. }
  rewrite <- H0. split; [assumption|]. split; [assumption|]. assert (l <= 31) by (apply L2; unfold MAXASIZE, MAXABITS in H; lia). lia.
Qed.
Lemma bucket_le : forall k n, 1 <= k -> 0 <= n -> (bucket k <= n <-> k <= 2 ^ n).
Proof.
  intros k n K N. unfold bucket. split; intros H.
  - destruct (Z.eq_dec k 1) as [->|N1]; [pose proof (Z.pow_pos_nonneg 2 n); lia|]. pose proof (Z.log2_up_spec k ltac:(lia)). assert (2 ^ Z.log2_up k <= 2 ^ n) by (apply Z.pow_le_mono_r; lia). lia.
  - apply Z.log2_up_le_pow2; lia.
Qed.

(* the counters describe the keys ks *)
Definition counts (ks : list Z) (nums : list Z) : Prop :=
  length nums = 32%nat /\ forall l, 0 <= l < 32 -> nth (Z.to_nat l) nums 0 = cnt (fun k => bucket k =? l) ks.
Definition akeys (ks : list Z) : Prop := forall k, In k ks -> 1 <= k <= MAXASIZE.

Lemma arrayindex_iff : forall k i, good k -> 1 <= i -> (arrayindex k = i <-> k = KI i /\ i <= MAXASIZE).
Proof.
  intros k i G I. unfold arrayindex. destruct k as [z| | |]; try (split; [intros; lia|intros [X _]; discriminate]).
  cbn [good] in G. destruct (Z.ltb_spec 0 z) as [A|A]; cbn [andb].
  - rewrite u64_nonneg by (unfold is_s64 in G; lia). destruct (Z.leb_spec z MAXASIZE).
    + split; [intros ->; auto|intros [X _]; congruence].
    + split; [lia|intros [X Y]; injection X as ->; lia].
  - split; [lia|intros [X Y]; injection X as ->; lia].
Qed.
Lemma arrayindex_range : forall k, good k -> arrayindex k = 0 \/ 1 <= arrayindex k <= MAXASIZE /\ k = KI (arrayindex k).
Proof.
  intros k G. unfold arrayindex. destruct k as [z| | |]; auto. cbn [good] in G. destruct (Z.ltb_spec 0 z) as [A|A]; cbn [andb]; [|auto].
  rewrite u64_nonneg by (unfold is_s64 in G; lia). destruct (Z.leb_spec z MAXASIZE); [right|left; reflexivity]. split; [lia|reflexivity].
Qed.
Definition aikeys (k : key) : list Z := if arrayindex k =? 0 then [] else [arrayindex k].
Lemma counts_add : forall k ks nums, counts ks nums -> 1 <= k <= MAXASIZE ->
  counts (k :: ks) (upd nums (Z.to_nat (bucket k)) (nth (Z.to_nat (bucket k)) nums 0 + 1)).
Proof.
  intros k ks nums [L C] R. destruct (bucket_ok k R) as [_ B]. split; [rewrite upd_length; assumption|].
  intros l HL. rewrite cnt_cons. destruct (Z.eqb_spec (bucket k) l) as [<-|N].
  - rewrite upd_nth_same by lia. rewrite C by lia. lia.
  - rewrite upd_nth_other by lia. rewrite C by lia. lia.
Qed.
Lemma countint_ok : forall k nums ks, good k -> counts ks nums ->
  exists nums', countint k nums = Ok (nums', Z.of_nat (length (aikeys k))) /\ counts (aikeys k ++ ks) nums'.
Proof.
  intros k nums ks G C. unfold countint, aikeys. cbv zeta. destruct (arrayindex_range k G) as [E|[R _]].
  - rewrite E. cbn. exists nums. auto.
  - destruct (Z.eqb_spec (arrayindex k) 0); [lia|]. destruct (bucket_ok _ R) as [E B]. rewrite E. cbn [bind].
    destruct (Z.leb_spec (Z.of_nat (length nums)) (bucket (arrayindex k))) as [Q|Q]; [destruct C as [L _]; lia|].
    eexists. split; [reflexivity|]. cbn [app]. apply counts_add; assumption.
Qed.
Lemma counts_zero : counts [] (repeat 0 32).
Proof. split; [reflexivity|]. intros l H. rewrite cnt_nil. apply nth_repeat. Qed.
Lemma counts_perm : forall a b nums, Permutation a b -> counts a nums -> counts b nums.
Proof. intros a b nums P [L C]. split; [assumption|]. intros l H. rewrite C by assumption. apply cnt_perm. assumption. Qed.

(* the cumulated counters *)
Lemma Cn_bucket : forall ks i, akeys ks -> 0 <= i -> Cn ks (2 ^ i) = cnt (fun k => bucket k =? i) ks + (if i =? 0 then 0 else Cn ks (2 ^ (i - 1))).
Proof.
  intros ks i A I. unfold Cn. destruct (Z.eqb_spec i 0) as [->|N].
  - rewrite Z.add_0_r. apply cnt_ext. intros k K. destruct (A k K) as [K1 _]. unfold upto. destruct (Z.leb_spec 1 k); [|lia]. cbn [andb].
    pose proof (bucket_le k 0 K1 ltac:(lia)) as B. assert (0 <= bucket k) by apply Z.log2_up_nonneg.
    destruct (Z.leb_spec k (2 ^ 0)); destruct (Z.eqb_spec (bucket k) 0); lia || reflexivity.
  - rewrite <- (cnt_or (fun k => bucket k =? i) (upto (2 ^ (i - 1)))).
    + apply cnt_ext. intros k K. destruct (A k K) as [K1 _]. unfold upto. destruct (Z.leb_spec 1 k); [|lia]. cbn [andb].
      pose proof (bucket_le k i K1 I) as B. pose proof (bucket_le k (i - 1) K1 ltac:(lia)) as B'.
      destruct (Z.leb_spec k (2 ^ i)); destruct (Z.eqb_spec (bucket k) i); destruct (Z.leb_spec k (2 ^ (i - 1))); cbn [orb]; lia || reflexivity.
    + intros k E U. apply Z.eqb_eq in E. unfold upto in U. apply andb_prop in U. rewrite !Z.leb_le in U. pose proof (bucket_le k (i - 1) ltac:(lia) ltac:(lia)). lia.
Qed.

(* computesizes: the largest power of two more than half used *)
Lemma computesizes_ok : forall ks, akeys ks -> NoDup ks -> forall n i nums na opt,
  length nums = n -> 0 <= i -> i + Z.of_nat n = 32 ->
  (forall l, 0 <= l < Z.of_nat n -> nth (Z.to_nat l) nums 0 = cnt (fun k => bucket k =? i + l) ks) ->
  let a := if i =? 0 then 0 else Cn ks (2 ^ (i - 1)) in
  let P := fun opt na => (opt = 0 /\ na = 0 \/ exists j, 0 <= j < 32 /\ opt = 2 ^ j /\ na = Cn ks (2 ^ j) /\ 2 ^ j / 2 < na) in
  P opt na -> (forall j, 0 <= j < i -> opt < 2 ^ j -> Cn ks (2 ^ j) <= 2 ^ j / 2) -> (opt < 2 ^ i) ->
  let r := computesizes nums (2 ^ i) a na opt (Z.of_nat (length ks)) in
  P (fst r) (snd r) /\ (forall j, 0 <= j < 32 -> fst r < 2 ^ j -> Cn ks (2 ^ j) <= 2 ^ j / 2).
Proof.
  intros ks A ND. induction n; intros i nums na opt L I IN C a P HP HS HO.
  - destruct nums; [|discriminate]. cbn [computesizes fst snd]. split; [assumption|]. intros j J. apply HS. lia.
  - destruct nums as [|c nums]; [discriminate|]. cbn [computesizes].
    assert (HC : c = cnt (fun k => bucket k =? i) ks).
    { specialize (C 0 ltac:(lia)). cbn [Z.to_nat nth] in C. rewrite Z.add_0_r in C. assumption. }
    assert (CI : Cn ks (2 ^ i) = c + a) by (rewrite HC; apply Cn_bucket; assumption).
    assert (TOT : forall n, Cn ks n <= Z.of_nat (length ks)).
    { intros m. pose proof (cnt_not (upto m) ks). pose proof (cnt_nonneg (fun k => negb (upto m k)) ks). unfold Cn. lia. }
    assert (POW : 2 ^ i * 2 = 2 ^ (i + 1)) by (rewrite Z.pow_add_r by lia; lia).
    assert (HALF : forall j, i <= j -> 2 ^ i / 2 <= 2 ^ j / 2) by (intros j J; apply Z.div_le_mono; [lia|]; apply Z.pow_le_mono_r; lia).
    destruct (Z.ltb_spec (2 ^ i / 2) (Z.of_nat (length ks))) as [G|G].
    + assert (STEP : forall na opt, P opt na -> (forall j, 0 <= j < i + 1 -> opt < 2 ^ j -> Cn ks (2 ^ j) <= 2 ^ j / 2) -> opt < 2 ^ (i + 1) ->
        let r := computesizes nums (2 ^ i * 2) (Cn ks (2 ^ i)) na opt (Z.of_nat (length ks)) in
        P (fst r) (snd r) /\ (forall j, 0 <= j < 32 -> fst r < 2 ^ j -> Cn ks (2 ^ j) <= 2 ^ j / 2)).
      { intros na' opt' HP' HS' HO'. rewrite POW. specialize (IHn (i + 1) nums na' opt' ltac:(injection L; auto) ltac:(lia) ltac:(lia)).
        cbv zeta in IHn. destruct (Z.eqb_spec (i + 1) 0) as [Q|_]; [lia|]. replace (i + 1 - 1) with i in IHn by lia.
        apply IHn; auto. intros l HL. specialize (C (l + 1) ltac:(lia)). replace (Z.to_nat (l + 1)) with (S (Z.to_nat l)) in C by lia. cbn [nth] in C.
        rewrite C. replace (i + (l + 1)) with (i + 1 + l) by lia. reflexivity. }
      destruct (Z.ltb_spec 0 c) as [H0|H0].
      * cbv zeta. replace (a + c) with (Cn ks (2 ^ i)) by lia. destruct (Z.ltb_spec (2 ^ i / 2) (Cn ks (2 ^ i))) as [H1|H1].
        -- apply STEP.
           ++ right. exists i. repeat split; auto; lia.
           ++ intros j J LT. destruct (Z.eq_dec j i) as [->|]; [lia|]. assert (2 ^ j <= 2 ^ i) by (apply Z.pow_le_mono_r; lia). lia.
           ++ apply Z.pow_lt_mono_r; lia.
        -- apply STEP; auto.
           ++ intros j J LT. destruct (Z.eq_dec j i) as [->|]; [assumption|]. apply HS; lia.
           ++ rewrite <- POW. lia.
      * assert (c = 0) by (rewrite HC; pose proof (cnt_nonneg (fun k => bucket k =? i) ks); lia). replace a with (Cn ks (2 ^ i)) by lia.
        apply STEP; auto.
        -- intros j J LT. destruct (Z.eq_dec j i) as [->|]; [|apply HS; lia]. rewrite CI, H. unfold a. destruct (Z.eqb_spec i 0) as [->|NZ]; [cbn; lia|].
           assert (PW : 2 ^ i = 2 ^ (i - 1) * 2) by (replace i with (i - 1 + 1) at 1 by lia; rewrite Z.pow_add_r by lia; lia).
           rewrite PW, Z.div_mul by lia. cbn [Z.add]. apply Cn_bound; [apply Z.pow_nonneg; lia|assumption].
        -- rewrite <- POW. lia.
    + cbn [fst snd]. split; [assumption|]. intros j J LT. destruct (Z.lt_ge_cases j i) as [JI|JI]; [apply HS; lia|].
      specialize (TOT (2 ^ j)). specialize (HALF j JI). lia.
Qed.

Section K.
Variable V : Type.
(* the entries of a piece of the array part, first index i; of a list of nodes *)
Fixpoint arr_items (vs : list (option V)) (i : Z) : list (Z * V) :=
  match vs with
  | [] => []
  | None :: r => arr_items r (i + 1)
  | Some v :: r => (i, v) :: arr_items r (i + 1)
  end.
Fixpoint hash_items (ns : list (node V)) : list (key * V) :=
  match ns with
  | [] => []
  | n :: r => match nval V n, nkey V n with Some v, Live k => (k, v) :: hash_items r | _, _ => hash_items r end
  end.

Lemma arr_items_app : forall a b i, arr_items (a ++ b) i = arr_items a i ++ arr_items b (i + Z.of_nat (length a)).
Proof.
  induction a as [|[v|] a IH]; intros b i; cbn [app arr_items length].
  - rewrite Z.add_0_r. reflexivity.
  - rewrite IH. cbn [app]. replace (i + 1 + Z.of_nat (length a)) with (i + Z.of_nat (S (length a))) by lia. reflexivity.
  - rewrite IH. replace (i + 1 + Z.of_nat (length a)) with (i + Z.of_nat (S (length a))) by lia. reflexivity.
Qed.
Lemma arr_items_in : forall a i k v, In (k, v) (arr_items a i) <-> i <= k < i + Z.of_nat (length a) /\ nth (Z.to_nat (k - i)) a None = Some v.
Proof.
  induction a as [|x a IH]; intros i k v; cbn [arr_items length].
  - split; [intros []|lia].
  - assert (R : forall k, In (k, v) (arr_items a (i + 1)) <-> i + 1 <= k < i + Z.of_nat (S (length a)) /\ nth (Z.to_nat (k - i)) (x :: a) None = Some v).
    { intros k'. rewrite IH. split; intros [A B]; (split; [lia|]).
      - replace (Z.to_nat (k' - i)) with (S (Z.to_nat (k' - (i + 1)))) by lia. exact B.
      - replace (Z.to_nat (k' - i)) with (S (Z.to_nat (k' - (i + 1)))) in B by lia. exact B. }
    destruct x as [x|]; cbn [In].
    + rewrite R. split.
      * intros [E|E]; [injection E as <- <-; split; [lia|]; rewrite Z.sub_diag; reflexivity|]. split; [lia|apply E].
      * intros [A B]. destruct (Z.eq_dec k i) as [->|N]; [left; rewrite Z.sub_diag in B; cbn in B; congruence|]. right. split; [lia|assumption].
    + rewrite R. split; intros [A B].
      * split; [lia|assumption].
      * split; [|assumption]. destruct (Z.eq_dec k i) as [->|N]; [rewrite Z.sub_diag in B; discriminate|lia].
Qed.
Lemma arr_items_lb : forall a i k, In k (map fst (arr_items a i)) -> i <= k < i + Z.of_nat (length a).
Proof. intros a i k H. apply in_map_iff in H. destruct H as ((k' & v) & <- & H). apply arr_items_in in H. apply H. Qed.
Lemma arr_items_nodup : forall a i, NoDup (map fst (arr_items a i)).
Proof.
  induction a as [|[x|] a IH]; intros i; cbn [arr_items map]; [constructor| |apply IH]. constructor; [|apply IH].
  intros H. apply arr_items_lb in H. cbn [fst] in H. lia.
Qed.
Lemma arr_items_length : forall a i, length (arr_items a i) = length (filter (nonnil V) a).
Proof. induction a as [|[x|] a IH]; intros i; cbn [arr_items filter nonnil length]; auto. Qed.

Notation akl a := (map fst (arr_items a 1)).
Lemma count_range_ok : forall a i lim, 1 <= i -> i <= lim + 1 -> lim <= Z.of_nat (length a) ->
  count_range V a i lim = cnt (fun k => (i <=? k) && (k <=? lim)) (akl a).
Proof.
  intros a i lim Hi H1 H2. unfold count_range.
  rewrite <- (firstn_skipn (Z.to_nat (i - 1)) a) at 2. set (p := firstn _ a). set (s := skipn _ a).
  assert (LP : Z.of_nat (length p) = i - 1) by (unfold p; rewrite firstn_length; lia).
  assert (LS : Z.of_nat (length s) = Z.of_nat (length a) - (i - 1)) by (unfold s; rewrite skipn_length; lia).
  rewrite <- (firstn_skipn (Z.to_nat (lim - i + 1)) s) at 2. set (m := firstn _ s). set (q := skipn _ s).
  assert (LM : Z.of_nat (length m) = lim - i + 1) by (unfold m; rewrite firstn_length; lia).
  rewrite !arr_items_app, !map_app, !cnt_app.
  rewrite (cnt_ext _ (fun _ => false) (map fst (arr_items p 1))).
  2: { intros k K. apply arr_items_lb in K. destruct (Z.leb_spec i k); [lia|reflexivity]. }
  rewrite (cnt_ext _ (fun _ => false) (map fst (arr_items q _))).
  2: { intros k K. apply arr_items_lb in K. destruct (Z.leb_spec k lim); [lia|apply andb_false_r]. }
  rewrite (cnt_all _ (map fst (arr_items m _))).
  2: { intros k K. apply arr_items_lb in K. destruct (Z.leb_spec i k); destruct (Z.leb_spec k lim); cbn; lia. }
  assert (Z0 : forall l, cnt (fun _ => false) l = 0) by (induction l; [reflexivity|rewrite cnt_cons; assumption]).
  rewrite !Z0, map_length, arr_items_length. lia.
Qed.

Lemma bucket_eq : forall k l, 1 <= k -> 0 <= l -> (bucket k = l <-> (if l =? 0 then 0 else 2 ^ (l - 1)) < k <= 2 ^ l).
Proof.
  intros k l K L. pose proof (bucket_le k l K L) as A. destruct (Z.eqb_spec l 0) as [->|N].
  - assert (0 <= bucket k) by apply Z.log2_up_nonneg. lia.
  - pose proof (bucket_le k (l - 1) K ltac:(lia)). lia.
Qed.
Lemma numusearray_nth : forall a n lg i, 0 <= lg -> lg + Z.of_nat n = 32 ->
  i = Z.min (if lg =? 0 then 0 else 2 ^ (lg - 1)) (Z.of_nat (length a)) + 1 ->
  length (numusearray V n a (2 ^ lg) i) = n /\
  forall l, 0 <= l < Z.of_nat n -> nth (Z.to_nat l) (numusearray V n a (2 ^ lg) i) 0 = cnt (fun k => bucket k =? lg + l) (akl a).
Proof.
  intros a. induction n as [|n IH]; intros lg i HL HN Hi.
  - split; [reflexivity|]. intros. lia.
  - assert (POW : 2 ^ lg * 2 = 2 ^ (lg + 1)) by (rewrite Z.pow_add_r by lia; lia).
    assert (PP : (if lg =? 0 then 0 else 2 ^ (lg - 1)) < 2 ^ lg).
    { destruct (Z.eqb_spec lg 0) as [->|N]; [cbn; lia|]. apply Z.pow_lt_mono_r; lia. }
    assert (P0 : 0 <= if lg =? 0 then 0 else 2 ^ (lg - 1)) by (destruct (lg =? 0); [lia|apply Z.pow_nonneg; lia]).
    set (low := if lg =? 0 then 0 else 2 ^ (lg - 1)) in *.
    assert (KB : forall k, In k (akl a) -> 1 <= k <= Z.of_nat (length a)) by (intros k K; apply arr_items_lb in K; lia).
    assert (HEAD : forall lim, lim = Z.min (2 ^ lg) (Z.of_nat (length a)) -> i <= lim + 1 -> count_range V a i lim = cnt (fun k => bucket k =? lg) (akl a)).
    { intros lim E LE. rewrite count_range_ok by lia. apply cnt_ext. intros k K. specialize (KB k K). pose proof (bucket_eq k lg ltac:(lia) HL) as B. fold low in B.
      destruct (Z.leb_spec i k); destruct (Z.leb_spec k lim); destruct (Z.eqb_spec (bucket k) lg); cbn; lia. }
    assert (STEP : forall lim, lim = Z.min (2 ^ lg) (Z.of_nat (length a)) -> i <= lim + 1 ->
      length (count_range V a i lim :: numusearray V n a (2 ^ lg * 2) (lim + 1)) = S n /\
      forall l, 0 <= l < Z.of_nat (S n) -> nth (Z.to_nat l) (count_range V a i lim :: numusearray V n a (2 ^ lg * 2) (lim + 1)) 0 = cnt (fun k => bucket k =? lg + l) (akl a)).
    { intros lim E LE. rewrite POW. destruct (IH (lg + 1) (lim + 1) ltac:(lia) ltac:(lia)) as [L1 L2].
      { destruct (Z.eqb_spec (lg + 1) 0); [lia|]. replace (lg + 1 - 1) with lg by lia. lia. }
      split; [cbn [length]; rewrite L1; reflexivity|]. intros l Hl. destruct (Z.eq_dec l 0) as [->|N].
      - cbn [Z.to_nat nth]. rewrite Z.add_0_r. apply HEAD; assumption.
      - replace (Z.to_nat l) with (S (Z.to_nat (l - 1))) by lia. cbn [nth]. rewrite L2 by lia. apply cnt_ext. intros k _. f_equal. lia. }
    cbn [numusearray]. cbv zeta. destruct (Z.ltb_spec (Z.of_nat (length a)) (2 ^ lg)) as [H|H].
    + destruct (Z.ltb_spec (Z.of_nat (length a)) i) as [H1|H1].
      * split; [apply repeat_length|]. intros l Hl. rewrite nth_repeat. symmetry.
        rewrite (cnt_ext _ (fun _ => false)).
        { clear. induction (akl a); [reflexivity|]. rewrite cnt_cons. assumption. }
        intros k K. specialize (KB k K). apply Z.eqb_neq. intros B. apply (bucket_eq k (lg + l) ltac:(lia) ltac:(lia)) in B.
        assert (low <= if lg + l =? 0 then 0 else 2 ^ (lg + l - 1)).
        { unfold low. destruct (Z.eqb_spec lg 0) as [->|]; [destruct (0 + l =? 0); [lia|apply Z.pow_nonneg; lia]|].
          destruct (Z.eqb_spec (lg + l) 0); [lia|]. apply Z.pow_le_mono_r; lia. }
        lia.
      * apply STEP; lia.
    + apply STEP; lia.
Qed.
Lemma numusearray_ok : forall a, counts (akl a) (numusearray V 32 a 1 1).
Proof.
  intros a. destruct (numusearray_nth a 32 0 1 ltac:(lia) eq_refl) as [L C]. { cbn [Z.eqb]. lia. }
  change (2 ^ 0) with 1 in *. split; [assumption|]. intros l H. rewrite C by (cbn; lia). apply cnt_ext. intros. reflexivity.
Qed.
Lemma counts_sum : forall ks nums, akeys ks -> counts ks nums -> sum nums = Z.of_nat (length ks).
Proof.
  intros ks nums A [L C].
  assert (E : nums = map (fun l => cnt (fun k => bucket k =? Z.of_nat l) ks) (seq 0 32)).
  { apply (nth_ext _ _ 0 0); [rewrite map_length, seq_length; assumption|]. intros n Hn. rewrite L in Hn.
    specialize (C (Z.of_nat n) ltac:(lia)). rewrite Nat2Z.id in C. rewrite C.
    rewrite (nth_indep _ 0 ((fun l => cnt (fun k => bucket k =? Z.of_nat l) ks) 0%nat)) by (rewrite map_length, seq_length; assumption).
    rewrite (map_nth (fun l => cnt (fun k => bucket k =? Z.of_nat l) ks)). rewrite seq_nth by assumption. reflexivity. }
  rewrite E. clear E C L nums.
  assert (H : forall n m ks, (forall k, In k ks -> Z.of_nat m <= bucket k < Z.of_nat (m + n)) ->
     sum (map (fun l => cnt (fun k => bucket k =? Z.of_nat l) ks) (seq m n)) = Z.of_nat (length ks)).
  { clear. intros n m ks. revert n m. induction ks as [|k ks IH]; intros n m H.
    - clear H. cbn [length]. revert m. induction n; intros m'; cbn [seq map sum fold_right]; [reflexivity|]. unfold sum in IHn. rewrite IHn. reflexivity.
    - assert (S1 : forall n m, sum (map (fun l => cnt (fun j => bucket j =? Z.of_nat l) (k :: ks)) (seq m n)) =
         (if (Z.of_nat m <=? bucket k) && (bucket k <? Z.of_nat (m + n)) then 1 else 0) + sum (map (fun l => cnt (fun j => bucket j =? Z.of_nat l) ks) (seq m n))).
      { clear. induction n; intros m; cbn [seq map sum fold_right].
        - destruct (Z.leb_spec (Z.of_nat m) (bucket k)); destruct (Z.ltb_spec (bucket k) (Z.of_nat (m + 0))); cbn; lia.
        - unfold sum in IHn. rewrite IHn, cnt_cons. destruct (Z.eqb_spec (bucket k) (Z.of_nat m));
          destruct (Z.leb_spec (Z.of_nat (S m)) (bucket k)); destruct (Z.ltb_spec (bucket k) (Z.of_nat (S m + n)));
          destruct (Z.leb_spec (Z.of_nat m) (bucket k)); destruct (Z.ltb_spec (bucket k) (Z.of_nat (m + S n))); cbn [andb]; lia. }
      rewrite S1, IH by (intros; apply H; right; assumption). specialize (H k (or_introl eq_refl)).
      destruct (Z.leb_spec (Z.of_nat m) (bucket k)); [|lia]. destruct (Z.ltb_spec (bucket k) (Z.of_nat (m + n))); [|lia]. cbn [andb length]. lia. }
  apply H. intros k K. destruct (bucket_ok k (A k K)). lia.
Qed.

(* hash part *)
Definition live_nodes (ns : list (node V)) : Prop := forall n, In n ns -> nval V n <> None -> exists k, nkey V n = Live k /\ good k.
Lemma hash_items_in : forall ns k v, In (k, v) (hash_items ns) <-> exists n, In n ns /\ nkey V n = Live k /\ nval V n = Some v.
Proof.
  induction ns as [|n ns IH]; intros k v; cbn [hash_items].
  - split; [intros []|intros (n & [] & _)].
  - destruct (nval V n) as [x|] eqn:EV; [destruct (nkey V n) as [|k'|k'] eqn:EK|].
    2: { cbn [In]. rewrite IH. split.
      - intros [E|(m & I & E)]; [injection E as <- <-; exists n; auto|exists m; auto].
      - intros (m & [<-|I] & E1 & E2); [left; congruence|right; exists m; auto]. }
    all: rewrite IH; split; [intros (m & I & E); exists m; split; [right; assumption|assumption]|].
    all: intros (m & [<-|I] & E1 & E2); [congruence|exists m; auto].
Qed.
Definition hikeys (ns : list (node V)) : list Z := flat_map (fun kv => aikeys (fst kv)) (hash_items ns).
Lemma numusehash_ok : forall ns nums ks, live_nodes ns -> counts ks nums ->
  exists nums', numusehash V ns nums = Ok (nums', Z.of_nat (length (hikeys ns)), Z.of_nat (length (hash_items ns))) /\
  counts (hikeys ns ++ ks) nums'.
Proof.
  induction ns as [|n ns IH]; intros nums ks L C; cbn [numusehash].
  - exists nums. split; [reflexivity|assumption].
  - assert (L' : live_nodes ns) by (intros m M; apply L; right; assumption).
    unfold hikeys. cbn [hash_items]. destruct (nval V n) as [v|] eqn:EV.
    + destruct (L n (or_introl eq_refl) ltac:(congruence)) as (k & EK & G). rewrite EK. cbn [flat_map fst].
      destruct (countint_ok k nums ks G C) as (nums1 & E1 & C1). rewrite E1. cbn [bind].
      destruct (IH nums1 (aikeys k ++ ks) L' C1) as (nums2 & E2 & C2). rewrite E2. cbn [bind]. exists nums2. split.
      * unfold hikeys. rewrite app_length. cbn [length]. repeat f_equal; lia.
      * apply (counts_perm (hikeys ns ++ aikeys k ++ ks)); [|assumption]. fold (hikeys ns). rewrite !app_assoc. apply Permutation_app_tail. apply Permutation_app_comm.
    + destruct (IH nums ks L' C) as (nums2 & E2 & C2). rewrite E2. exists nums2. split; [reflexivity|assumption].
Qed.
End K.
