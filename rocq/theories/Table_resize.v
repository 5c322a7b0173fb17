(* luaH_resize, rehash and luaH_set keep every entry. *)
Require Import ZArith List Bool Lia Permutation.
From Verif Require Import Base Base_facts Float_model Size_model Size_proofs Table_model Table_facts Table_hash Table_count Table_ops Table_new.
Import ListNotations.
Open Scope Z_scope.

Lemma good_idx : forall z, 0 <= z <= MAXASIZE -> good (KI z).
Proof. intros z B. cbn. unfold MAXASIZE, MAXABITS in B. change (2 ^ 31) with 2147483648 in B. unfold is_s64. unfold_consts. lia. Qed.

Section RES.
Variable V : Type.
Variable mainpos : Z -> key -> Z.
Notation table := (table V). Notation node := (node V).
Notation keyat := (keyat V). Notation nodeat := (nodeat V). Notation anext := (anext V). Notation inr := (inr V).
Notation arr := (arr V). Notation nodes := (nodes V). Notation lsize := (lsize V). Notation lastfree := (lastfree V). Notation sizearray := (sizearray V).
Notation nval := (nval V). Notation nkey := (nkey V). Notation nnext := (nnext V). Notation mkTable := (mkTable V). Notation mkNode := (mkNode V).
Notation setnode := (setnode V).
Notation luaH_get := (luaH_get V mainpos). Notation get := (get V mainpos).
Notation newkey := (newkey V mainpos). Notation insert := (insert V mainpos). Notation setk := (setk V mainpos). Notation resize := (resize V mainpos).
Notation rehash := (rehash V mainpos).
Notation tinv := (tinv V mainpos). Notation hhas := (hhas V). Notation has := (has V). Notation place := (place V). Notation nfree := (nfree V).
Notation isfreeb := (isfreeb V).

Notation withlf := (withlf V). Notation added := (added V mainpos). Notation sets := (sets V). Notation ins_all := (ins_all V mainpos). Notation outside := (outside V).
Notation items := (items V). Notation kitems := (kitems V). Notation hash_items := (hash_items V). Notation arr_items := (arr_items V).
Hypothesis mainpos_ok : forall l k, 0 <= l -> 0 <= mainpos l k < 2 ^ l.

Lemma nth_repeat' : forall A (x : A) n i, nth i (repeat x n) x = x.
Proof. induction n as [|n IH]; intros [|i]; cbn; auto. Qed.

Lemma fresh_winv : forall l n, 0 <= l -> Z.of_nat n = 2 ^ l -> winv V (mainpos l) (repeat (blank V) n) [].
Proof.
  intros l n L N. assert (B : forall i, nodeat (repeat (blank V) n) i = blank V) by (intros i; unfold Table_facts.nodeat; apply nth_repeat').
  constructor; cbn [concat]; try (intros; contradiction).
  - intros k. unfold Table_facts.inr. rewrite repeat_length, N. apply mainpos_ok. assumption.
  - constructor.
  - intros. apply B.
  - intros i k R K. unfold Table_facts.keyat in K. rewrite B in K. discriminate.
  - intros i k R K. unfold Table_facts.keyat in K. rewrite B in K. discriminate.
  - intros i R K. rewrite B in K. cbn in K. congruence.
  - intros i k R K. unfold Table_facts.keyat in K. rewrite B in K. discriminate.
Qed.
Lemma hash_blank : forall n, hash_items (repeat (blank V) n) = [].
Proof. induction n as [|n IH]; [reflexivity|assumption]. Qed.
Lemma free_blank : forall n, length (filter isfreeb (repeat (blank V) n)) = n.
Proof. induction n as [|n IH]; cbn; [reflexivity|lia]. Qed.

Lemma setnodevector_ok : forall a nh, Z.of_nat (length a) <= MAXASIZE -> 0 <= nh ->
  (nh <= 2 ^ 30 -> exists t, setnodevector V a nh = Ok t /\ tinv t /\ arr t = a /\ hash_items (nodes t) = [] /\ nh <= nfree t) /\
  (2 ^ 30 < nh < two32 -> setnodevector V a nh = Err EOverflow).
Proof.
  intros a nh A H. unfold setnodevector. destruct (Z.eqb_spec nh 0) as [->|NZ].
  - split; [|lia]. intros _. eexists. split; [reflexivity|]. split; [|cbn; auto with zarith].
    constructor; cbn; auto.
    + exists []. apply (fresh_winv 0 1); [lia|reflexivity].
    + unfold MAXHBITS. lia.
    + intros i k R K. unfold Table_facts.inr in R. cbn in R. assert (i = 0) by lia. subst i. discriminate.
  - split; intros U.
    + destruct (ceillog2_ok nh) as (l & E & L & B & M); [unfold_consts; lia|]. rewrite E. cbn [bind]. assert (L30 : l <= 30) by (apply M; lia).
      unfold MAXHBITS, MAXABITS. destruct (Z.ltb_spec (31 - 1) l) as [X|X]; [lia|]. eexists. split; [reflexivity|].
      assert (P : 0 < 2 ^ l) by (apply Z.pow_pos_nonneg; lia).
      split; [|split; [reflexivity|]; split; [apply hash_blank|unfold Table_ops.nfree; cbn [Table_model.lastfree Table_model.nodes]; rewrite free_blank; lia]].
      constructor; cbn [Table_model.nodes Table_model.lsize Table_model.lastfree Table_model.arr Table_model.sizearray]; auto.
      * exists []. apply fresh_winv; lia.
      * rewrite repeat_length. lia.
      * intros i k R K. unfold Table_facts.keyat, Table_facts.nodeat in K. rewrite nth_repeat' in K. discriminate.
      * rewrite repeat_length. split; [lia|]. intros i I. lia.
    + destruct (ceillog2_ok nh) as (l & E & L & B & M); [lia|]. rewrite E. cbn [bind]. unfold MAXHBITS, MAXABITS. destruct (Z.ltb_spec (31 - 1) l) as [X|X]; [reflexivity|].
      assert (2 ^ l <= 2 ^ 30) by (apply Z.pow_le_mono_r; lia). lia.
Qed.

Lemma hash_items_app : forall a b, hash_items (a ++ b) = hash_items a ++ hash_items b.
Proof. induction a as [|n a IH]; intros b; cbn; [reflexivity|]. rewrite IH. destruct (nval n); [destruct (nkey n)|]; reflexivity. Qed.
Lemma hash_items_rev : forall a, Permutation (hash_items (rev a)) (hash_items a).
Proof.
  induction a as [|n a IH]; cbn [rev]; [constructor|]. rewrite hash_items_app. cbn [Table_count.hash_items].
  destruct (nval n); [destruct (nkey n)|]; rewrite ?app_nil_r; try assumption. etransitivity; [apply Permutation_app_comm|]. cbn. constructor. assumption.
Qed.
Lemma arr_items_nones : forall n i, arr_items (repeat None n) i = [].
Proof. induction n as [|n IH]; intros i; cbn; auto. Qed.
Lemma filter_perm : forall A (p : A -> bool) a b, Permutation a b -> length (filter p a) = length (filter p b).
Proof. intros A p a b P. induction P; cbn; auto; [destruct (p x); cbn; congruence|destruct (p x); destruct (p y); reflexivity|congruence]. Qed.

Lemma resize_ok : forall fuel t na nh, tinv t -> 0 <= na <= MAXASIZE -> 0 <= nh -> outside na (items t) <= nh -> nh <= 2 ^ 30 ->
  exists t', resize (newkey fuel) t na nh = Ok t' /\ tinv t' /\ sizearray t' = na /\ nh - outside na (items t) <= nfree t' /\
  forall k v, good k -> (has t' k v <-> has t k v).
Proof.
  intros fuel t na nh T NA NH OUT LIM. unfold Table_model.resize. set (a := arr t ++ repeat None (Z.to_nat (na - sizearray t))).
  set (old := if isdummy V t then [] else nodes t).
  assert (LA : na <= Z.of_nat (length a)) by (unfold a; rewrite app_length, repeat_length; unfold Table_model.sizearray; lia).
  assert (LF : Z.of_nat (length (firstn (Z.to_nat na) a)) = na) by (rewrite firstn_length; lia).
  assert (AI : arr_items (arr t) 1 = arr_items (firstn (Z.to_nat na) a) 1 ++ arr_items (skipn (Z.to_nat na) a) (na + 1)).
  { replace (na + 1) with (1 + Z.of_nat (length (firstn (Z.to_nat na) a))) by lia. rewrite <- arr_items_app, firstn_skipn. unfold a. rewrite arr_items_app, arr_items_nones, app_nil_r. reflexivity. }
  destruct (setnodevector_ok (firstn (Z.to_nat na) a) nh) as [SN _]; [lia|lia|]. destruct (SN LIM) as (t1 & E1 & T1 & A1 & H1 & F1). rewrite E1. cbn [bind].
  rewrite reinsert_arr_ins.
  set (A := kitems (arr_items (firstn (Z.to_nat na) a) 1)). set (B := kitems (arr_items (skipn (Z.to_nat na) a) (na + 1))).
  assert (HO : Permutation (hash_items (rev old)) (hash_items (nodes t))).
  { unfold old. destruct (isdummy V t) eqn:D; [|apply hash_items_rev]. pose proof (t_free _ _ t T) as TF. unfold isdummy in D. destruct (lastfree t); [discriminate|]. rewrite TF. constructor. }
  assert (LV : live_nodes V (rev old)).
  { intros n I. apply in_rev in I. unfold old in I. destruct (isdummy V t); [destruct I|]. apply (live_nodes_ok V mainpos t T). assumption. }
  assert (IP : Permutation (items t) (A ++ B ++ hash_items (rev old))).
  { unfold Table_new.items. rewrite AI. unfold Table_new.kitems at 1. rewrite map_app. rewrite <- app_assoc. apply Permutation_app_head. apply Permutation_app_head. symmetry. assumption. }
  assert (I1 : items t1 = A) by (unfold Table_new.items; rewrite A1, H1, app_nil_r; reflexivity).
  set (l := B ++ hash_items (rev old)) in *.
  assert (S1 : sizearray t1 = na) by (unfold Table_model.sizearray; rewrite A1; assumption).
  pose proof (items_nodup V mainpos t T) as ND. pose proof (Permutation_map fst IP) as MP.
  assert (NDA : NoDup (map fst (A ++ l))) by (eapply Permutation_NoDup; eassumption). rewrite map_app in NDA.
  assert (OL : outside na l <= outside na (items t)).
  { unfold Table_new.outside. rewrite (filter_perm _ _ _ _ IP), filter_app, app_length. lia. }
  destruct (ins_all_ok V mainpos fuel l t1 T1) as (t2 & E2 & T2 & S2 & N2 & H2).
  - intros kv I. apply (items_good V mainpos t); [assumption|]. apply (Permutation_in kv (Permutation_sym IP)). apply in_app_iff. auto.
  - eapply nodup_app_r. eassumption.
  - rewrite S1. lia.
  - unfold l in E2. rewrite ins_all_app in E2. destruct (ins_all (newkey fuel) t1 B) as [t1'| | |] eqn:EB; try discriminate. cbn [bind] in *. rewrite reinsert_hash_ins by assumption.
    exists t2. split; [assumption|]. split; [assumption|]. split; [congruence|]. split; [rewrite S1 in N2; lia|].
    intros k v G. rewrite (H2 k v G). rewrite <- (items_has V mainpos t1 k v T1), I1, <- (items_has V mainpos t k v T).
    split.
    + intros [I|[_ I]]; apply (Permutation_in _ (Permutation_sym IP)); apply in_app_iff; auto.
    + intros I. apply (Permutation_in _ IP) in I. apply in_app_iff in I. destruct I as [I|I]; [|auto]. right. split; [|assumption].
      intros J. assert (KA : In k (map fst A)) by (apply in_map_iff; exists (k, v); auto).
      clear - NDA KA J. induction (map fst A) as [|x r IH]; [destruct KA|]. cbn in NDA. inversion NDA; subst. destruct KA as [->|KA]; [|auto]. apply H1. apply in_app_iff. auto.
Qed.
Lemma resize_over : forall fuel t na nh, 0 <= na <= MAXASIZE -> 2 ^ 30 < nh < two32 -> resize (newkey fuel) t na nh = Err EOverflow.
Proof.
  intros fuel t na nh NA NH. unfold Table_model.resize. set (a := arr t ++ _).
  destruct (setnodevector_ok (firstn (Z.to_nat na) a) nh) as [_ SN]; [rewrite firstn_length; lia|lia|]. rewrite SN by assumption. reflexivity.
Qed.

(* ---- rehash ---- *)
Definition ikeys (l : list key) : list Z := flat_map aikeys l.
Lemma in_ikeys : forall l z, (forall k, In k l -> good k) -> (In z (ikeys l) <-> In (KI z) l /\ 1 <= z <= MAXASIZE).
Proof.
  intros l z G. unfold ikeys. rewrite in_flat_map. split.
  - intros (k & I & J). unfold aikeys in J. destruct (arrayindex_range k (G k I)) as [E|[R E]].
    + rewrite E in J. destruct J.
    + destruct (Z.eqb_spec (arrayindex k) 0); [lia|]. destruct J as [J|[]]. rewrite <- J. rewrite <- E. auto.
  - intros [I R]. exists (KI z). split; [assumption|]. unfold aikeys. rewrite (proj2 (arrayindex_iff (KI z) z (G _ I) ltac:(lia))) by (split; [reflexivity|lia]).
    destruct (Z.eqb_spec z 0); [lia|]. left. reflexivity.
Qed.
Lemma Cn_inarr : forall l n, (forall k, In k l -> good k) -> n <= MAXASIZE -> Cn (ikeys l) n = Z.of_nat (length (filter (inarrb n) l)).
Proof.
  induction l as [|k l IH]; intros n G N; [reflexivity|]. cbn [ikeys flat_map filter]. fold (ikeys l). unfold Cn in *. rewrite cnt_app, IH by (auto; intros; apply G; right; assumption).
  assert (E : cnt (upto n) (aikeys k) = if inarrb n k then 1 else 0).
  { unfold aikeys. destruct (arrayindex_range k (G k (or_introl eq_refl))) as [E|[R E]].
    - rewrite E. cbn. destruct (inarrb n k) eqn:IA; [|reflexivity]. apply inarrb_iff in IA. destruct IA as (z & -> & B).
      assert (X : arrayindex (KI z) = z) by (apply arrayindex_iff; [apply (G (KI z)); left; reflexivity|lia|split; [reflexivity|lia]]). lia.
    - destruct (Z.eqb_spec (arrayindex k) 0); [lia|]. rewrite cnt_cons, cnt_nil. rewrite E at 2. cbn [inarrb]. unfold upto. lia. }
  rewrite E. destruct (inarrb n k); cbn [length]; lia.
Qed.
Lemma nodup_flat : forall l, NoDup l -> (forall k, In k l -> good k) -> NoDup (ikeys l).
Proof.
  induction l as [|k l IH]; intros ND G; cbn [ikeys flat_map]; [constructor|]. fold (ikeys l). inversion ND; subst.
  apply nodup_app; [unfold aikeys; destruct (arrayindex k =? 0); repeat constructor; intros []|apply IH; auto; intros; apply G; right; assumption|].
  intros z Z1 Z2. apply in_ikeys in Z2; [|intros; apply G; right; assumption]. unfold aikeys in Z1. destruct (arrayindex_range k (G k (or_introl eq_refl))) as [E|[R E]].
  - rewrite E in Z1. destruct Z1.
  - destruct (Z.eqb_spec (arrayindex k) 0); [lia|]. destruct Z1 as [Z1|[]]. subst z. rewrite <- E in Z2. tauto.
Qed.
Lemma ikeys_arr : forall a, Z.of_nat (length a) <= MAXASIZE -> flat_map (fun kv => aikeys (fst kv)) (kitems (arr_items a 1)) = map fst (arr_items a 1).
Proof.
  intros a L. assert (G : forall x, In x (arr_items a 1) -> 1 <= fst x <= MAXASIZE).
  { intros x X. assert (Y : In (fst x) (map fst (arr_items a 1))) by (apply in_map; assumption). apply arr_items_lb in Y. lia. }
  unfold Table_new.kitems. induction (arr_items a 1) as [|[z v] l IH]; [reflexivity|]. cbn [map flat_map fst]. rewrite IH by (intros; apply G; right; assumption).
  specialize (G _ (or_introl eq_refl)). cbn [fst] in G. unfold aikeys. rewrite (proj2 (arrayindex_iff (KI z) z (good_idx z ltac:(lia)) ltac:(lia))) by (split; [reflexivity|lia]).
  destruct (Z.eqb_spec z 0); [lia|]. reflexivity.
Qed.

(* the array size chosen for keys l: the largest power of two more than half of whose slots are used *)
Definition bestsize (l : list key) (n : Z) : Prop :=
  (n = 0 \/ exists j, 0 <= j <= 31 /\ n = 2 ^ j /\ 2 ^ j / 2 < Z.of_nat (length (filter (inarrb (2 ^ j)) l))) /\
  forall j, 0 <= j <= 31 -> n < 2 ^ j -> Z.of_nat (length (filter (inarrb (2 ^ j)) l)) <= 2 ^ j / 2.

Lemma rehash_ok : forall fuel t k, tinv t -> good k -> ~ In k (map fst (items t)) ->
  let l := k :: map fst (items t) in
  Z.of_nat (length l) < two31 ->
  exists n, bestsize l n /\
    let nh := Z.of_nat (length (filter (fun k => negb (inarrb n k)) l)) in
    if nh <=? 2 ^ 30 then
      exists t', rehash (newkey fuel) t k = Ok t' /\ tinv t' /\ sizearray t' = n /\ (inarrb n k = false -> 1 <= nfree t') /\
      forall k' v, good k' -> (has t' k' v <-> has t k' v)
    else rehash (newkey fuel) t k = Err EOverflow.
Proof.
  intros fuel t k T G NI l LL. unfold Table_model.rehash. cbv zeta.
  set (AK := map fst (arr_items (arr t) 1)).
  assert (TA : Z.of_nat (length (arr t)) <= MAXASIZE) by (apply (t_arr _ _ t T)).
  assert (C0 : counts AK (numusearray V 32 (arr t) 1 1)) by apply numusearray_ok.
  assert (AKA : akeys AK) by (intros z Z; apply arr_items_lb in Z; lia).
  rewrite (counts_sum AK _ AKA C0).
  assert (LV : live_nodes V (rev (nodes t))) by (intros n I; apply in_rev in I; apply (live_nodes_ok V mainpos t T); assumption).
  destruct (numusehash_ok V (rev (nodes t)) _ AK LV C0) as (nums1 & E1 & C1). rewrite E1. cbn [bind].
  destruct (countint_ok k nums1 _ G C1) as (nums2 & E2 & C2). rewrite E2. cbn [bind].
  set (HK := hikeys V (rev (nodes t))) in *. set (ks := aikeys k ++ HK ++ AK) in *.
  assert (GL : forall x, In x l -> good x).
  { intros x [<-|X]; [assumption|]. apply in_map_iff in X. destruct X as (kv & <- & X). apply (items_good V mainpos t); assumption. }
  assert (KP : Permutation ks (ikeys l)).
  { unfold ks, ikeys, l. cbn [flat_map]. apply Permutation_app_head. unfold Table_new.items. rewrite map_app, flat_map_app.
    rewrite !flat_map_concat_map, !map_map, <- !flat_map_concat_map. rewrite ikeys_arr by assumption. fold AK.
    etransitivity; [apply Permutation_app_comm|]. apply Permutation_app_head. unfold HK, hikeys. apply Permutation_flat_map. apply hash_items_rev. }
  assert (NDL : NoDup l) by (constructor; [assumption|apply (items_nodup V mainpos t T)]).
  assert (NK : NoDup ks) by (apply (Permutation_NoDup (Permutation_sym KP)); apply nodup_flat; assumption).
  assert (KA : akeys ks) by (intros z Z; apply (Permutation_in _ KP) in Z; apply in_ikeys in Z; tauto).
  assert (HL : Z.of_nat (length (Table_count.hash_items V (rev (nodes t)))) = Z.of_nat (length (hash_items (nodes t)))) by (f_equal; apply Permutation_length; apply hash_items_rev).
  assert (TOT : Z.of_nat (length AK) + Z.of_nat (length (Table_count.hash_items V (rev (nodes t)))) + 1 = Z.of_nat (length l)).
  { rewrite HL. unfold l, Table_new.items. cbn [length]. rewrite map_length, app_length. unfold AK, Table_new.kitems. rewrite !map_length. lia. }
  rewrite TOT. destruct (Z.leb_spec two31 (Z.of_nat (length l))) as [X|_]; [lia|].
  replace (Z.of_nat (length AK) + Z.of_nat (length HK) + Z.of_nat (length (aikeys k))) with (Z.of_nat (length ks)) by (unfold ks; rewrite !app_length; lia).
  destruct C2 as [C2L C2C].
  pose proof (computesizes_ok ks KA NK 32 0 nums2 0 0 C2L ltac:(lia) ltac:(lia)) as CS. cbv zeta in CS. change (0 =? 0) with true in CS. change (2 ^ 0) with 1 in CS. cbv iota in CS.
  destruct CS as [CP CM]; [intros x X; apply C2C; lia|left; split; reflexivity|intros; lia|lia|].
  destruct (computesizes nums2 1 0 0 0 (Z.of_nat (length ks))) as [n na] eqn:CE. cbn [fst snd] in CP, CM. exists n.
  assert (CC : forall m, m <= MAXASIZE -> Cn ks m = Z.of_nat (length (filter (inarrb m) l))).
  { intros m M. rewrite <- Cn_inarr by assumption. unfold Cn. apply cnt_perm. assumption. }
  assert (P31 : forall j, 0 <= j <= 31 -> 2 ^ j <= MAXASIZE) by (intros j J; apply Z.pow_le_mono_r; unfold MAXABITS; lia).
  assert (BS : bestsize l n).
  { split.
    - destruct CP as [[-> _]|(j & J & EN & ENA & EH)]; [auto|]. right. exists j. split; [lia|]. split; [assumption|]. rewrite <- CC by (apply P31; lia). lia.
    - intros j J LT. rewrite <- CC by (apply P31; lia). apply CM; lia. }
  assert (NN : 0 <= n <= MAXASIZE /\ na = Z.of_nat (length (filter (inarrb n) l))).
  { destruct CP as [[-> ->]|(j & J & EN & ENA & EH)].
    - split; [unfold MAXASIZE; lia|]. rewrite <- CC by (unfold MAXASIZE; lia). unfold Cn. symmetry. unfold cnt. assert (Y : filter (upto 0) ks = []); [|rewrite Y; reflexivity].
      destruct (filter (upto 0) ks) as [|z r] eqn:F; [reflexivity|]. assert (I : In z (filter (upto 0) ks)) by (rewrite F; left; reflexivity). apply filter_In in I. unfold upto in I. lia.
    - subst n. split; [split; [apply Z.pow_nonneg; lia|apply P31; lia]|]. rewrite ENA. apply CC. apply P31; lia. }
  destruct NN as [NB NE]. split; [assumption|].
  set (nh := Z.of_nat (length (filter (fun k => negb (inarrb n k)) l))).
  assert (NHE : Z.of_nat (length l) - na = nh).
  { rewrite NE. unfold nh. clear. induction l as [|x r IH]; [reflexivity|]. cbn [filter length]. destruct (inarrb n x); cbn [negb length]; lia. }
  rewrite NHE.
  assert (OE : outside n (items t) + (if inarrb n k then 0 else 1) = nh).
  { unfold nh, l, Table_new.outside. cbn [filter]. assert (Y : length (filter (fun k => negb (inarrb n k)) (map fst (items t))) = length (filter (fun kv => negb (inarrb n (fst kv))) (items t))).
    { clear. induction (items t) as [|x r IH]; [reflexivity|]. cbn [map filter]. destruct (inarrb n (fst x)); cbn [negb length]; lia. }
    destruct (inarrb n k); cbn [negb length]; rewrite Y; lia. }
  destruct (Z.leb_spec nh (2 ^ 30)) as [LE|GT].
  - destruct (resize_ok fuel t n nh T NB ltac:(unfold nh; lia)) as (t' & E & T' & S' & F' & H'); [destruct (inarrb n k); lia|assumption|].
    exists t'. split; [assumption|]. split; [assumption|]. split; [assumption|]. split; [|assumption]. intros X. rewrite X in OE. lia.
  - apply resize_over; [assumption|]. split; [assumption|]. assert (nh <= Z.of_nat (length l)) by (rewrite <- NHE, NE; lia). unfold_consts. unfold two31 in LL. lia.
Qed.
Lemma rehash_ub : forall fuel t k, tinv t -> good k -> two31 <= Z.of_nat (length (items t)) + 1 -> rehash (newkey fuel) t k = UB.
Proof.
  intros fuel t k T G LL. unfold Table_model.rehash. cbv zeta.
  set (AK := map fst (arr_items (arr t) 1)).
  assert (TA : Z.of_nat (length (arr t)) <= MAXASIZE) by (apply (t_arr _ _ t T)).
  assert (C0 : counts AK (numusearray V 32 (arr t) 1 1)) by apply numusearray_ok.
  assert (AKA : akeys AK) by (intros z Z; apply arr_items_lb in Z; lia).
  rewrite (counts_sum AK _ AKA C0).
  assert (LV : live_nodes V (rev (nodes t))) by (intros n I; apply in_rev in I; apply (live_nodes_ok V mainpos t T); assumption).
  destruct (numusehash_ok V (rev (nodes t)) _ AK LV C0) as (nums1 & E1 & C1). rewrite E1. cbn [bind].
  destruct (countint_ok k nums1 _ G C1) as (nums2 & E2 & C2). rewrite E2. cbn [bind].
  assert (HL : Z.of_nat (length (Table_count.hash_items V (rev (nodes t)))) = Z.of_nat (length (hash_items (nodes t)))) by (f_equal; apply Permutation_length; apply hash_items_rev).
  destruct (Z.leb_spec two31 (Z.of_nat (length AK) + Z.of_nat (length (Table_count.hash_items V (rev (nodes t)))) + 1)) as [X|X]; [reflexivity|].
  exfalso. rewrite HL in X. unfold Table_new.items in LL. rewrite app_length in LL. unfold AK, Table_new.kitems in *. rewrite map_length in *. lia.
Qed.
End RES.
