(* The properties of tables. *)
Require Import ZArith QArith List Bool Lia Permutation.
From Coq Require Import Floats.SpecFloat.
From Verif Require Import Base Base_facts Float_model Float_spec Float_facts Float_proofs Size_model Size_proofs
  Table_model Table_facts Table_hash Table_count Table_ops Table_new Table_resize Table_spec Table_hist Table_getn Table_next.
Import ListNotations.
Open Scope Z_scope.

Lemma mainposition_ok : forall hash pow2, hash_ok (mainposition hash pow2).
Proof.
  assert (P : forall l h, 0 <= l -> 0 <= hashpow2 l h < 2 ^ l).
  { intros l h L. unfold hashpow2. replace (2 ^ l - 1) with (Z.ones l) by (rewrite Z.ones_equiv; lia). rewrite Z.land_ones by assumption. apply Z.mod_pos_bound. apply Z.pow_pos_nonneg; lia. }
  assert (M : forall l n, 0 <= l -> 0 <= hashmod l n < 2 ^ l).
  { intros l n L. unfold hashmod. assert (P2 : 0 < 2 ^ l) by (apply Z.pow_pos_nonneg; lia). destruct (Z.eq_dec l 0) as [->|NZ].
    - change (Z.lor (2 ^ 0 - 1) 1) with 1. rewrite Z.mod_1_r. cbn. lia.
    - assert (O : Z.lor (2 ^ l - 1) 1 = 2 ^ l - 1).
      { replace (2 ^ l - 1) with (Z.ones l) by (rewrite Z.ones_equiv; lia). apply Z.bits_inj'. intros b B. rewrite Z.lor_spec. rewrite Z.testbit_ones_nonneg by lia.
        destruct (Z.eq_dec b 0) as [->|NB]; [destruct (Z.ltb_spec 0 l); [reflexivity|lia]|]. replace (Z.testbit 1 b) with false; [apply orb_false_r|].
        symmetry. apply Z.bits_above_log2; cbn; lia. }
      rewrite O. assert (2 <= 2 ^ l) by (replace l with (1 + (l - 1)) by lia; rewrite Z.pow_add_r by lia; assert (0 < 2 ^ (l - 1)) by (apply Z.pow_pos_nonneg; lia); lia).
      pose proof (Z.mod_pos_bound (u32 n) (2 ^ l - 1) ltac:(lia)). lia. }
  intros hash pow2 l k L. unfold mainposition. destruct k; auto; destruct (pow2 _); auto.
Qed.

Lemma hinv_get : forall V mainpos h t k v, hash_ok mainpos -> hinv V mainpos h t -> wfkey k -> after V h k v -> get V mainpos t (Some k) = Ok v.
Proof.
  intros V mainpos h t k v HO [T AG _] W A. destruct (key_is_nan_dec k) as [N|N].
  - unfold is_nan in N. subst k. unfold get. rewrite (get_nan V mainpos t T). cbn. f_equal. clear - A. remember (KF S754_nan) as k. induction A; auto. subst k. exfalso.
    apply (nan_keq k'). apply keq_sym. assumption.
  - destruct (canon_total k W N) as (c & C). destruct (AG k c C) as (o & A' & H). rewrite (after_fun V h k v o A A'). unfold get. rewrite (get_canon V mainpos t k c C).
    destruct (get_has V mainpos t c T (canon_good _ _ C)) as (o' & E & H'). unfold get in E. rewrite E. f_equal.
    destruct o' as [w|]; [symmetry; apply H; apply H'; reflexivity|]. destruct o as [w|]; [|reflexivity]. apply H'. apply H. reflexivity.
Qed.

(* C06 *)
Lemma table_map : forall V mainpos narr nrec h, hash_ok mainpos -> 0 <= narr <= MAXASIZE -> 0 <= nrec <= 2 ^ 30 -> Z.of_nat (length h) <= 2 ^ 30 -> Forall (wfop V) h ->
  exists t0 t, createtable V mainpos narr nrec = Ok t0 /\ run V mainpos t0 h = Ok t /\
  (forall k v, wfkey k -> after V h k v -> get V mainpos t (Some k) = Ok v) /\ get V mainpos t None = Ok None.
Proof.
  intros V mainpos narr nrec h HO A B L W. destruct (start_ok V mainpos HO narr nrec A B) as (t0 & E0 & H0). destruct (run_ok V mainpos HO h t0 H0 W L) as (t & E & H).
  exists t0, t. split; [assumption|]. split; [assumption|]. split; [|reflexivity]. intros k v WK AF. eapply hinv_get; eassumption.
Qed.
Lemma wf_keq_dec : forall a b, wfkey a -> wfkey b -> keq a b \/ ~ keq a b.
Proof.
  intros a b A B. destruct (key_is_nan_dec a) as [N|N].
  { unfold is_nan in N. subst. right. intros H. apply keq_sym in H. exact (nan_keq b H). }
  destruct (key_is_nan_dec b) as [N'|N'].
  { unfold is_nan in N'. subst. right. apply nan_keq. }
  destruct (canon_total a A N) as (ca & CA). destruct (canon_total b B N') as (cb & CB). rewrite (canon_keq a b ca cb CA CB). apply key_dec; eapply canon_good; eassumption.
Qed.
Lemma after_exists : forall V h k, Forall (wfop V) h -> wfkey k -> exists v, after V h k v /\ forall v', after V h k v' -> v' = v.
Proof.
  intros V h k W WK. assert (X : exists v, after V h k v).
  { induction W as [|o h WO W IH]; [exists None; constructor|]. destruct IH as (v & A). destruct o as [[k'|] w|n|i].
    - cbn in WO. destruct (wf_keq_dec k k' WK WO) as [E|E]; [exists w; apply af_hit; assumption|exists v; apply af_miss; assumption].
    - exists v. apply af_nil. assumption.
    - exists v. apply af_arr. assumption.
    - exists v. apply af_kill. assumption. }
  destruct X as (v & A). exists v. split; [assumption|]. intros v' A'. eapply after_fun; eassumption.
Qed.
Lemma table_set : forall V mainpos h t k v, hash_ok mainpos -> Forall (wfop V) h -> reachable V mainpos h t -> wfkey k -> ~ is_nan k -> Z.of_nat (length h) < 2 ^ 30 ->
  exists t', set V mainpos t (Some k) v = Ok t' /\ get V mainpos t' (Some k) = Ok v /\
  forall k', wfkey k' -> ~ keq k' k -> get V mainpos t' (Some k') = get V mainpos t (Some k').
Proof.
  intros V mainpos h t k v HO W R WK N L. pose proof (reachable_inv V mainpos HO h t W R) as H.
  destruct (step_ok V mainpos HO h t (OSet V (Some k) v) H WK L) as (t' & E & H').
  destruct (canon_total k WK N) as (c & C). destruct (set_good V mainpos HO t k c v (h_inv _ _ _ _ H) C) as [(t1 & E1 & _)|[BG _]]; [|pose proof (h_len _ _ _ _ H); lia].
  cbn [step] in E. rewrite E1 in E. injection E as ->. exists t'. split; [assumption|]. split.
  - apply (hinv_get V mainpos _ t' k v HO H' WK). apply af_hit. eapply canon_keq; eauto.
  - intros k' WK' NE. destruct (after_exists V h k' W WK') as (w & A & _). rewrite (hinv_get V mainpos h t k' w HO H WK' A).
    apply (hinv_get V mainpos _ t' k' w HO H' WK'). apply af_miss; assumption.
Qed.

(* C07 *)
Lemma float_key : forall V mainpos t f i v, valid f -> is_exact f i -> is_s64 i ->
  get V mainpos t (Some (KF f)) = get V mainpos t (Some (KI i)) /\ set V mainpos t (Some (KF f)) v = set V mainpos t (Some (KI i)) v.
Proof.
  intros V mainpos t f i v Vf EX S. destruct (flttointeger_ok f F2Ieq Vf) as (o & E & SO). assert (o = Some i) by (apply SO; split; assumption). subst o.
  assert (C : canon (KF f) (KI i)) by (apply ca_flt; assumption). unfold get, set. rewrite (get_canon V mainpos t _ _ C), (newkey_canon V mainpos t _ _ C). split; [reflexivity|].
  rewrite (newkey_canon V mainpos t (KI i) (KI i)) by (apply ca_id; exact S). reflexivity.
Qed.
Lemma float_distinct : forall V mainpos h t f v i, hash_ok mainpos -> Forall (wfop V) h -> reachable V mainpos h t -> Z.of_nat (length h) < 2 ^ 30 ->
  valid f -> f <> S754_nan -> is_s64 i -> ~ is_exact f i ->
  exists t', set V mainpos t (Some (KF f)) v = Ok t' /\ get V mainpos t' (Some (KF f)) = Ok v /\ get V mainpos t' (Some (KI i)) = get V mainpos t (Some (KI i)).
Proof.
  intros V mainpos h t f v i HO W R L Vf N S NE. destruct (table_set V mainpos h t (KF f) v HO W R Vf) as (t' & E & G & O).
  - intros X. unfold is_nan in X. congruence.
  - assumption.
  - exists t'. split; [assumption|]. split; [assumption|]. apply O; [exact S|]. intros (x & y & E1 & E2 & EQ). apply NE. cbn in E1, E2. injection E1 as <-.
    destruct y as [|q|]; cbn in EQ; try contradiction. exists q. split; [assumption|]. symmetry. assumption.
Qed.
Lemma bad_keys : forall V mainpos h t v, hash_ok mainpos -> Forall (wfop V) h -> reachable V mainpos h t ->
  set V mainpos t None v = Err EIndexNil /\ set V mainpos t (Some (KF S754_nan)) v = Err EIndexNaN /\
  get V mainpos t None = Ok None /\ get V mainpos t (Some (KF S754_nan)) = Ok None.
Proof.
  intros V mainpos h t v HO W R. pose proof (h_inv _ _ _ _ (reachable_inv V mainpos HO h t W R)) as T. split; [reflexivity|]. split; [apply set_nan; assumption|]. split; [reflexivity|].
  unfold get. rewrite (get_nan V mainpos t T). reflexivity.
Qed.

(* C08 *)
Lemma good_wf : forall k, good k -> wfkey k /\ ~ is_nan k.
Proof.
  intros [i|f|i|i] G; (split; [|unfold is_nan; try discriminate]); try exact I; try exact G.
  - apply G.
  - intros E. injection E as ->. destruct G as (_ & _ & N). congruence.
Qed.
Lemma has_get : forall V mainpos t k v, tinv V mainpos t -> good k -> (has V t k v <-> get V mainpos t (Some k) = Ok (Some v)).
Proof.
  intros V mainpos t k v T G. destruct (get_has V mainpos t k T G) as (o & E & H). rewrite E. rewrite <- (H v). split; [intros ->; reflexivity|intros X; injection X as ->; reflexivity].
Qed.
Lemma nodup_pairs : forall l, NoDup l -> Forall good l -> ForallOrdPairs (fun a b => ~ keq a b) l.
Proof.
  induction l as [|a l IH]; intros ND G; [constructor|]. inversion ND; subst. inversion G; subst. constructor; [|apply IH; assumption].
  apply Forall_forall. intros b B E. rewrite Forall_forall in H4. apply (good_keq a b) in E; auto. congruence.
Qed.
Lemma traversal : forall V mainpos h t0 l t c, hash_ok mainpos -> Forall (wfop V) h -> reachable V mainpos h t0 -> walk V mainpos t0 None l t c ->
  (exists r, luaH_next V mainpos t c = Ok r) /\
  ForallOrdPairs (fun a b => ~ keq a b) (visited V l) /\
  (forall ti k v, In (ti, k, v) l -> get V mainpos ti (Some k) = Ok (Some v) /\ exists w, get V mainpos t0 (Some k) = Ok (Some w)) /\
  (luaH_next V mainpos t c = Ok None -> forall k, wfkey k -> (exists w, get V mainpos t (Some k) = Ok (Some w)) ->
     (forall ti ki vi, In (ti, ki, vi) l -> exists w, get V mainpos ti (Some k) = Ok (Some w)) -> exists k', In k' (visited V l) /\ keq k k').
Proof.
  intros V mainpos h t0 l t c HO W R WA. pose proof (h_inv _ _ _ _ (reachable_inv V mainpos HO h t0 W R)) as T0.
  destruct (walk_ok V mainpos HO t0 t0 None l t c WA 0 T0 T0 (skel_refl V t0) eq_refl) as (p2 & T & S & C & LE & VI & ND & ALL & SH).
  destruct (cpos_find V mainpos HO t0 t c p2 T0 T S C) as [FI P0]. destruct (next_spec V mainpos HO t c p2 T FI P0) as (r & E & NR).
  assert (GV : forall ti k v, In (ti, k, v) l -> good k).
  { intros ti k v I. destruct (VI ti k v I) as (_ & _ & _ & (q & Q & _) & _). exact (posof_good V mainpos HO t0 k q T0 Q). }
  split; [exists r; assumption|]. split; [|split].
  - apply nodup_pairs; [assumption|]. apply Forall_forall. intros k K. unfold visited in K. apply in_map_iff in K. destruct K as ([[ti ki] vi] & EK & I). cbn in EK. subst ki. eapply GV; eassumption.
  - intros ti k v I. destruct (VI ti k v I) as (Ti & _ & HV & _ & (w & HW)). pose proof (GV ti k v I) as G. split; [apply has_get; assumption|]. exists w. apply has_get; assumption.
  - intros EN k WK (w & GW) HA. rewrite E in EN. injection EN as ->. destruct (key_is_nan_dec k) as [N|N].
    { unfold is_nan in N. subst k. unfold get in GW. rewrite (get_nan V mainpos t T) in GW. discriminate. }
    destruct (canon_total k WK N) as (k' & CK). pose proof (canon_good _ _ CK) as G. exists k'. split; [|apply canon_num; assumption].
    unfold get in GW. rewrite (get_canon V mainpos t k k' CK) in GW. fold (get V mainpos t (Some k')) in GW. apply (has_get V mainpos t k' w T G) in GW.
    destruct (has_pos V mainpos HO t k' w T GW) as (q & PQ). pose proof (skel_pos V t0 t k' q S PQ) as P0Q. apply (ALL k' q P0Q).
    + split.
      * assert (0 <= sizearray V t0) by (unfold sizearray; lia). destruct P0Q as [[_ RR]|[L _]]; lia.
      * destruct (Z_lt_le_dec p2 q) as [LT|]; [|lia]. exfalso. exact (NR k' q w PQ LT GW).
    + intros ti ki vi I. destruct (HA ti ki vi I) as (w' & GW'). unfold get in GW'. rewrite (get_canon V mainpos ti k k' CK) in GW'. exists w'. destruct (VI ti ki vi I) as (Ti & _). apply (has_get V mainpos ti k' w' Ti G). assumption.
Qed.

(* C09 *)
Lemma length_border : forall V mainpos h t f lfuel, hash_ok mainpos -> Forall (wfop V) h -> reachable V mainpos h t -> (forall i, is_s64 i -> after V h (KI i) (f i)) ->
  2 ^ 30 < Z.of_nat lfuel -> exists n, luaH_getn V mainpos lfuel t = Ok n /\ border V f n.
Proof.
  intros V mainpos h t f lf HO W R A L. pose proof (reachable_inv V mainpos HO h t W R) as H. pose proof (h_inv _ _ _ _ H) as T. pose proof (h_len _ _ _ _ H) as HL.
  destruct R as (_ & _ & _ & _ & _ & LB & _). apply getn_ok; auto; [|lia|lia].
  intros i v S. rewrite (has_get V mainpos t (KI i) v T S). rewrite (hinv_get V mainpos h t (KI i) (f i) HO H S (A i S)). split; [intros ->; reflexivity|intros X; injection X as ->; reflexivity].
Qed.
Lemma border_sequence : forall V (f : Z -> option V) N n, 0 <= N <= maxint -> (forall i, 1 <= i <= maxint -> (f i <> None <-> i <= N)) -> border V f n -> n = N.
Proof.
  intros V f N n B H (NB & LO & HI). destruct (Z.lt_trichotomy n N) as [L|[E|G]]; [exfalso|assumption|exfalso].
  - destruct HI as [E|E]; [lia|]. apply (proj2 (H (n + 1) ltac:(lia))); [lia|assumption].
  - destruct LO as [E|E]; [lia|]. apply (H n) in E; lia.
Qed.

(* C10 *)
Lemma uses_count : forall l n (P : Z -> Prop), NoDup l -> (forall k, In k l -> good k) -> (forall i, 1 <= i <= n -> (P i <-> In (KI i) l)) ->
  uses P n (Z.of_nat (length (filter (inarrb n) l))).
Proof.
  intros l n P ND G HP. set (zs := map (fun k => match k with KI z => z | _ => 0 end) (filter (inarrb n) l)).
  exists zs. split; [|split].
  - apply nodup_map_inj; [apply NoDup_filter; assumption|]. intros x y X Y E. apply filter_In in X. apply filter_In in Y. destruct X as [_ X]. destruct Y as [_ Y].
    apply inarrb_iff in X. apply inarrb_iff in Y. destruct X as (a & -> & _). destruct Y as (b & -> & _). congruence.
  - unfold zs. rewrite map_length. reflexivity.
  - intros i. unfold zs. rewrite in_map_iff. split.
    + intros (k & E & I). apply filter_In in I. destruct I as [I X]. apply inarrb_iff in X. destruct X as (a & -> & B). subst a. split; [assumption|]. apply HP; assumption.
    + intros [B PI]. exists (KI i). split; [reflexivity|]. apply filter_In. split; [apply HP; assumption|]. apply inarrb_iff. exists i. auto.
Qed.
Lemma rehash_optimal : forall V mainpos h t k v, hash_ok mainpos -> Forall (wfop V) h -> reachable V mainpos h t -> wfkey k -> ~ is_nan k -> Z.of_nat (length h) < 2 ^ 30 ->
  exists t', set V mainpos t (Some k) v = Ok t' /\
  (arr V t' = arr V t \/ (exists i, arr V t' = upd (arr V t) i v) \/
   optimal (fun i => keq (KI i) k \/ exists w, get V mainpos t (Some (KI i)) = Ok (Some w)) (sizearray V t')).
Proof.
  intros V mainpos h t k v HO W R WK N L. pose proof (reachable_inv V mainpos HO h t W R) as H. pose proof (h_inv _ _ _ _ H) as T. pose proof (h_len _ _ _ _ H) as HL.
  destruct (canon_total k WK N) as (c & C). pose proof (canon_good _ _ C) as G. unfold set. rewrite (get_canon V mainpos t k c C), (newkey_canon V mainpos t k c C).
  destruct (luaH_get_ok V mainpos t c T G) as (p & E & P). rewrite E. cbn [bind]. destruct P as [z EZ RZ|j NA RI KI'|NA NL].
  - eexists. split; [reflexivity|]. right. left. eexists. reflexivity.
  - eexists. split; [reflexivity|]. left. reflexivity.
  - destruct (newkey_ok V mainpos 2 t c T G NA NL) as [(t1 & p & E1 & AD)|(NF & l & TI & E1)]; rewrite E1.
    + cbn [bind]. destruct AD as [AI AP AC AA AL AF AH AN]. eexists. split; [reflexivity|]. destruct p as [|i|i]; [congruence| |left; exact AA]. right. left. exists (Z.to_nat i). cbn. rewrite AA. reflexivity.
    + set (t0 := withlf V t l) in *. assert (IE : items V t0 = items V t) by reflexivity.
      assert (NI : ~ In c (map fst (items V t0))).
      { rewrite IE. intros I. apply in_map_iff in I. destruct I as ([k' w] & EK & I). cbn in EK. subst k'. apply (items_has V mainpos t c w T) in I.
        apply (proj1 (has_hash V mainpos t c w NA)) in I. destruct I as (j & J & K & _). exact (NL j J K). }
      assert (LEN : Z.of_nat (length (c :: map fst (items V t0))) = Z.of_nat (length (items V t)) + 1) by (rewrite IE; cbn [length]; rewrite map_length; lia).
      destruct (rehash_ok V mainpos HO 1 t0 c TI G NI ltac:(unfold two31; lia)) as (n & BS & RR). cbv zeta in RR.
      set (ks := c :: map fst (items V t0)) in *.
      assert (NHB : Z.of_nat (length (filter (fun k => negb (inarrb n k)) ks)) <= 2 ^ 30) by (pose proof (filter_length_le _ (fun k => negb (inarrb n k)) ks); lia).
      destruct (Z.leb_spec (Z.of_nat (length (filter (fun k => negb (inarrb n k)) ks))) (2 ^ 30)) as [_|X]; [|lia].
      destruct RR as (t1 & E2 & T1 & S1 & F1 & H1). rewrite E2. cbn [bind].
      assert (ND : NoDup ks) by (constructor; [assumption|apply (items_nodup V mainpos t0 TI)]).
      assert (GK : forall x, In x ks -> good x).
      { intros x [<-|X]; [assumption|]. apply in_map_iff in X. destruct X as (kv & <- & X). apply (items_good V mainpos t0); assumption. }
      assert (PK : forall i, 1 <= i <= MAXASIZE -> ((keq (KI i) k \/ exists w, get V mainpos t (Some (KI i)) = Ok (Some w)) <-> In (KI i) ks)).
      { intros i I. pose proof (good_idx i ltac:(lia)) as GI. unfold ks. cbn [In]. rewrite (canon_keq (KI i) k (KI i) c (ca_id _ GI) C). split.
        - intros [X|(w & X)]; [left; congruence|]. right. apply (has_get V mainpos t (KI i) w T GI) in X. apply (items_has V mainpos t _ w T) in X. rewrite IE. apply in_map_iff. exists (KI i, w). auto.
        - intros [X|X]; [left; congruence|]. right. rewrite IE in X. apply in_map_iff in X. destruct X as ([k' w] & EK & X). cbn in EK. subst k'. exists w. apply (has_get V mainpos t (KI i) w T GI). apply (items_has V mainpos t _ w T). assumption. }
      assert (OPT : optimal (fun i => keq (KI i) k \/ exists w, get V mainpos t (Some (KI i)) = Ok (Some w)) n).
      { assert (PB : forall j, 0 <= j <= 31 -> 2 ^ j <= MAXASIZE) by (intros j J; apply Z.pow_le_mono_r; unfold MAXABITS; lia). destruct BS as [B1 B2]. split.
        - destruct B1 as [->|(j & J & -> & B1)]; [left; reflexivity|]. right. exists j. split; [assumption|]. split; [reflexivity|]. eexists. split; [|exact B1].
          apply uses_count; auto. intros i I. apply PK. specialize (PB j J). lia.
        - intros j J LT. eexists. split; [|apply (B2 j J LT)]. apply uses_count; auto. intros i I. apply PK. specialize (PB j J). lia. }
      destruct (luaH_get_ok V mainpos t1 c T1 G) as (p & E3 & P3). unfold setk. rewrite E3. cbn [bind]. destruct P3 as [z EZ RZ|j NA1 RI1 KI1|NA1 NL1]; cbn [bind].
      * eexists. split; [reflexivity|]. right. right. replace (sizearray V (writecell V t1 (CArr (z - 1)) v)) with (sizearray V t1); [rewrite S1; assumption|]. unfold sizearray. cbn. rewrite upd_length. reflexivity.
      * eexists. split; [reflexivity|]. right. right. change (sizearray V (writecell V t1 (CNode j) v)) with (sizearray V t1). rewrite S1. assumption.
      * rewrite S1 in NA1. destruct (newkey_room V mainpos 1 t1 c T1 G ltac:(rewrite S1; assumption) NL1 (F1 NA1)) as (t2 & p & E4 & [AI AP AC AA AL AF AH AN]).
        rewrite E4. cbn [bind]. eexists. split; [reflexivity|]. right. right.
        replace (sizearray V (writecell V t2 p v)) with (sizearray V t1); [rewrite S1; assumption|]. unfold sizearray. destruct p; cbn; rewrite ?upd_length, AA; reflexivity.
Qed.

Lemma traversal_ends : forall V mainpos h t0, hash_ok mainpos -> Forall (wfop V) h -> reachable V mainpos h t0 ->
  exists N, forall l t c, walk V mainpos t0 None l t c -> (length l <= N)%nat.
Proof.
  intros V mainpos h t0 HO W R. pose proof (h_inv _ _ _ _ (reachable_inv V mainpos HO h t0 W R)) as T0. exists (length (map fst (items V t0))). intros l t c WA.
  destruct (walk_ok V mainpos HO t0 t0 None l t c WA 0 T0 T0 (skel_refl V t0) eq_refl) as (p2 & T & S & C & LE & VI & ND & _).
  replace (length l) with (length (visited V l)) by (unfold visited; apply map_length). apply NoDup_incl_length; [assumption|].
  intros k K. unfold visited in K. apply in_map_iff in K. destruct K as ([[ti ki] vi] & EK & I). cbn in EK. subst ki.
  destruct (VI ti k vi I) as (_ & _ & _ & _ & (w & HW)). apply (items_has V mainpos t0 k w T0) in HW. apply in_map_iff. exists (k, w). auto.
Qed.

Definition f1_0 : flt := S754_finite false 4503599627370496 (-52).
Lemma next_float_refuted : exists h t, Forall (wfop nat) h /\ reachable nat (mainposition (fun _ => 0) (fun _ => true)) h t /\
  get nat (mainposition (fun _ => 0) (fun _ => true)) t (Some (KF f1_0)) = Ok (Some 7%nat) /\
  luaH_next nat (mainposition (fun _ => 0) (fun _ => true)) t (Some (KI 1)) = Ok None /\
  luaH_next nat (mainposition (fun _ => 0) (fun _ => true)) t (Some (KF f1_0)) = Err EInvalidNext.
Proof.
  exists [OSet nat (Some (KI 1)) (Some 7%nat)]. eexists. split; [repeat constructor; cbn; unfold is_s64; unfold_consts; lia|].
  split; [|split; [|split]].
  - exists 0, 0. eexists. repeat split; try (vm_compute; congruence).
  - vm_compute. reflexivity.
  - vm_compute. reflexivity.
  - vm_compute. reflexivity.
Qed.
