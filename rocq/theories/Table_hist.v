(* Assignment, histories of operations. *)
Require Import ZArith QArith List Bool Lia Permutation.
From Coq Require Import Floats.SpecFloat.
From Verif Require Import Base Base_facts Float_model Size_model Size_proofs Table_model Table_facts Table_hash Table_count Table_ops Table_new Table_resize Float_spec Float_facts Float_proofs Table_spec.
Import ListNotations.
Open Scope Z_scope.

Lemma filter_length_le : forall A (p : A -> bool) l, (length (filter p l) <= length l)%nat.
Proof. induction l as [|x l IH]; cbn; [lia|]. destruct (p x); cbn; lia. Qed.

(* ---- the form in which keys are stored ---- *)
Inductive canon : key -> key -> Prop :=
| ca_flt : forall f i, valid f -> flttointeger f F2Ieq = Ok (Some i) -> is_s64 i -> canon (KF f) (KI i)
| ca_id : forall k, good k -> canon k k.
Lemma canon_good : forall k c, canon k c -> good c.
Proof. intros k c [f i Vf E S|k' G]; [exact S|assumption]. Qed.
Lemma canon_total : forall k, wfkey k -> ~ is_nan k -> exists c, canon k c.
Proof.
  intros [i|f|z|z] W N; try (eexists; apply ca_id; exact I || exact W).
  cbn in W. destruct (flttointeger_ok f F2Ieq W) as (o & E & S). destruct o as [i|].
  - exists (KI i). apply ca_flt; auto. apply S. reflexivity.
  - exists (KF f). apply ca_id. split; [assumption|]. split; [assumption|]. intros ->. apply N. reflexivity.
Qed.
Lemma canon_num : forall k c, canon k c -> keq k c.
Proof.
  intros k c [f i Vf E S|k' G].
  - unfold keq. cbn [as_num]. destruct (flttointeger_ok f F2Ieq Vf) as (o & E' & SO). rewrite E in E'. injection E' as <-. destruct (proj1 (SO i) eq_refl) as [(q & FQ & EQ) _].
    exists (Fin q), (Fin (inject_Z i)). split; [exact FQ|]. split; [reflexivity|exact EQ].
  - unfold keq. destruct k' as [i|f|z|z]; cbn [as_num]; try reflexivity.
    + exists (Fin (inject_Z i)), (Fin (inject_Z i)). cbn. repeat split; reflexivity.
    + destruct G as (Vf & _ & N). destruct (fval f) as [x|] eqn:E.
      * exists x, x. cbn. repeat split; auto. destruct x; cbn; try exact I. reflexivity.
      * destruct f as [s|[|]| |s m e]; cbn in E; try discriminate. congruence.
Qed.
Lemma eeq_sym : forall a b, eeq a b -> eeq b a.
Proof. intros [|p|] [|q|]; cbn; try tauto. intros H. symmetry. assumption. Qed.
Lemma eeq_trans : forall a b c, eeq a b -> eeq b c -> eeq a c.
Proof. intros [|p|] [|q|] [|r|]; cbn; try tauto. intros H1 H2. etransitivity; eassumption. Qed.
Lemma keq_sym : forall a b, keq a b -> keq b a.
Proof.
  intros a b. unfold keq. destruct (as_num a); destruct (as_num b); auto. intros (x & y & A & B & E). exists y, x. split; [assumption|]. split; [assumption|]. apply eeq_sym. assumption.
Qed.
Lemma keq_trans : forall a b c, keq a b -> keq b c -> keq a c.
Proof.
  intros a b c. unfold keq. destruct (as_num a); destruct (as_num b); destruct (as_num c); try tauto; [|congruence].
  intros (x & y & A & B & E) (y' & z & B' & C & E'). rewrite B in B'. injection B' as <-. exists x, z. split; [assumption|]. split; [assumption|]. eapply eeq_trans; eassumption.
Qed.
(* equal keys have one stored form *)
Lemma good_keq : forall a b, good a -> good b -> (keq a b <-> a = b).
Proof.
  intros a b A B. split.
  2: { intros ->. apply canon_num. apply ca_id. assumption. }
  unfold keq. destruct a as [i|f|i|i]; destruct b as [j|g|j|j]; cbn [as_num]; try tauto; try congruence.
  - intros (x & y & E1 & E2 & E). cbn in E1, E2. injection E1 as <-. injection E2 as <-. cbn in E. f_equal. unfold Qeq in E. cbn in E. lia.
  - intros (x & y & E1 & E2 & E). exfalso. cbn in E1. injection E1 as <-. destruct B as (Vg & F & N). destruct (flttointeger_ok g F2Ieq Vg) as (o & E' & SO). rewrite F in E'. injection E' as <-.
    destruct y as [|q|]; cbn in E; try contradiction. cbn in E2. assert (None = Some i); [|discriminate]. apply SO. split; [|exact A]. exists q. split; [assumption|]. symmetry. assumption.
  - intros (x & y & E1 & E2 & E). exfalso. cbn in E2. injection E2 as <-. destruct A as (Vg & F & N). destruct (flttointeger_ok f F2Ieq Vg) as (o & E' & SO). rewrite F in E'. injection E' as <-.
    destruct x as [|q|]; cbn in E; try contradiction. cbn in E1. assert (None = Some j); [|discriminate]. apply SO. split; [|exact B]. exists q. split; [assumption|]. assumption.
  - intros H. apply key_eqb_eq; auto. cbn [key_eqb]. pose proof (EQnum_ok (NFlt f) (NFlt g) (proj1 A) (proj1 B)) as EQ.
    destruct EQ as (r & ER & EI). cbn in ER. injection ER as ER. rewrite ER. apply EI. exact H.
Qed.
Lemma canon_keq : forall a b ca cb, canon a ca -> canon b cb -> (keq a b <-> ca = cb).
Proof.
  intros a b ca cb A B. rewrite <- (good_keq ca cb (canon_good _ _ A) (canon_good _ _ B)). pose proof (canon_num _ _ A) as EA. pose proof (canon_num _ _ B) as EB. split; intros H.
  - eapply keq_trans; [apply keq_sym; exact EA|]. eapply keq_trans; eassumption.
  - eapply keq_trans; [exact EA|]. eapply keq_trans; [exact H|]. apply keq_sym. assumption.
Qed.
Lemma nan_keq : forall a, ~ keq a (KF S754_nan).
Proof. intros a. unfold keq. cbn [as_num]. destruct (as_num a); [|tauto]. intros (x & y & _ & E & _). discriminate. Qed.

Lemma key_is_nan_dec : forall k, is_nan k \/ ~ is_nan k.
Proof. unfold is_nan. intros [i|f|i|i]; try (right; discriminate). destruct f; auto; right; discriminate. Qed.

Section HIST.
Variable V : Type.
Variable mainpos : Z -> key -> Z.
Notation table := (table V). Notation node := (node V).
Notation keyat := (keyat V). Notation nodeat := (nodeat V). Notation anext := (anext V). Notation inr := (inr V).
Notation arr := (arr V). Notation nodes := (nodes V). Notation lsize := (lsize V). Notation lastfree := (lastfree V). Notation sizearray := (sizearray V).
Notation nval := (Table_model.nval V). Notation nkey := (nkey V). Notation nnext := (nnext V). Notation mkTable := (mkTable V). Notation mkNode := (mkNode V).
Notation setnode := (setnode V).
Notation luaH_get := (luaH_get V mainpos). Notation get := (get V mainpos).
Notation newkey := (newkey V mainpos). Notation insert := (insert V mainpos). Notation setk := (setk V mainpos). Notation resize := (resize V mainpos).
Notation rehash := (rehash V mainpos).
Notation tinv := (tinv V mainpos). Notation hhas := (hhas V). Notation has := (has V). Notation place := (place V). Notation nfree := (nfree V).
Notation isfreeb := (isfreeb V).
Notation withlf := (withlf V). Notation added := (added V mainpos). Notation sets := (sets V). Notation outside := (outside V).
Notation items := (items V). Notation set := (set V mainpos). Notation op := (op V). Notation after := (after V). Notation step := (step V mainpos). Notation wfop := (wfop V). Notation run := (run V mainpos).
Hypothesis mainpos_ok : forall l k, 0 <= l -> 0 <= mainpos l k < 2 ^ l.

(* ---- get and set through the stored form ---- *)
Lemma get_canon : forall t k c, canon k c -> luaH_get t (Some k) = luaH_get t (Some c).
Proof. intros t k c [f i Vf E S|k' G]; [|reflexivity]. cbn [Table_model.luaH_get]. rewrite E. reflexivity. Qed.
Lemma newkey_canon : forall t k c, canon k c -> luaH_newkey V mainpos t (Some k) = newkey 2 t c.
Proof.
  intros t k c [f i Vf E S|k' G]; cbn [luaH_newkey].
  - rewrite E. reflexivity.
  - destruct k'; try reflexivity. destruct G as (Vf & E & N). rewrite E. cbn [bind].
    assert (X : flt_eq f f = true).
    { pose proof (key_eqb_refl (KF f) (conj Vf (conj E N))). assumption. }
    rewrite X. reflexivity.
Qed.

(* set: either everything is as it should be, or there are too many entries *)
Lemma set_good : forall t k c v, tinv t -> canon k c ->
  (exists t', set t (Some k) v = Ok t' /\ tinv t' /\ sets t t' c v) \/
  (2 ^ 30 <= Z.of_nat (length (items t)) /\ (set t (Some k) v = Err EOverflow \/ set t (Some k) v = UB)).
Proof.
  intros t k c v T C. pose proof (canon_good _ _ C) as G. unfold Table_model.set. rewrite (get_canon t k c C), (newkey_canon t k c C).
  destruct (luaH_get_ok V mainpos t c T G) as (p & E & P). rewrite E. cbn [bind].
  destruct P as [z EZ RZ|j NA RI KI|NA NL].
  - left. eexists. split; [reflexivity|]. destruct (write_spec V mainpos t c (CArr (z - 1)) v T G ltac:(apply PArr; assumption) ltac:(discriminate)) as (A & _ & _ & _ & D & F).
    split; [assumption|]. split; assumption.
  - left. eexists. split; [reflexivity|]. destruct (write_spec V mainpos t c (CNode j) v T G ltac:(apply PNode; assumption) ltac:(discriminate)) as (A & _ & _ & _ & D & F).
    split; [assumption|]. split; assumption.
  - destruct (newkey_ok V mainpos 2 t c T G NA NL) as [(t1 & p & E1 & AD)|(NF & l & TI & E1)]; rewrite E1.
    + left. cbn [bind]. destruct AD as [AI AP AC AA AL AF AH AN]. eexists. split; [reflexivity|].
      destruct (write_spec V mainpos t1 c p v AI G AP AC) as (A & _ & _ & _ & D & F). split; [assumption|]. split; [assumption|].
      intros k' v' G' N. rewrite (F k' v' G' N). apply AH.
    + set (t0 := withlf t l) in *. assert (IE : items t0 = items t) by reflexivity.
      assert (NI : ~ In c (map fst (items t0))).
      { rewrite IE. intros I. apply in_map_iff in I. destruct I as ([k' w] & EK & I). cbn in EK. subst k'. apply (items_has V mainpos t c w T) in I.
        apply (proj1 (has_hash V mainpos t c w NA)) in I. destruct I as (j & J & K & _). exact (NL j J K). }
      assert (LEN : Z.of_nat (length (c :: map fst (items t0))) = Z.of_nat (length (items t)) + 1) by (rewrite IE; cbn [length]; rewrite map_length; lia).
      destruct (Z_lt_le_dec (Z.of_nat (length (items t))) (two31 - 1)) as [SM|BG].
      2: { right. split; [unfold two31 in BG; lia|]. right. rewrite (rehash_ub V mainpos mainpos_ok 1 t0 c TI G) by (rewrite IE; lia). reflexivity. }
      destruct (rehash_ok V mainpos mainpos_ok 1 t0 c TI G NI ltac:(lia)) as (n & BS & R). cbv zeta in R.
      set (nh := Z.of_nat (length (filter (fun k => negb (inarrb n k)) (c :: map fst (items t0))))) in R.
      assert (NHB : nh <= Z.of_nat (length (items t)) + 1) by (rewrite <- LEN; unfold nh; pose proof (filter_length_le _ (fun k => negb (inarrb n k)) (c :: map fst (items t0))); lia).
      destruct (Z.leb_spec nh (2 ^ 30)) as [LE|GT].
      * left. destruct R as (t1 & E2 & T1 & S1 & F1 & H1). rewrite E2. cbn [bind]. unfold Table_model.setk.
        destruct (luaH_get_ok V mainpos t1 c T1 G) as (p & E3 & P). rewrite E3. cbn [bind].
        assert (HH : forall k' v', good k' -> (has t1 k' v' <-> has t k' v')) by (intros k' v' G'; rewrite (H1 k' v' G'); reflexivity).
        destruct P as [z EZ RZ|j NA1 RI1 KI1|NA1 NL1]; cbn [bind].
        -- eexists. split; [reflexivity|]. destruct (write_spec V mainpos t1 c (CArr (z - 1)) v T1 G ltac:(apply PArr; assumption) ltac:(discriminate)) as (A & _ & _ & _ & D & F).
           split; [assumption|]. split; [assumption|]. intros k' v' G' N. rewrite (F k' v' G' N). auto.
        -- eexists. split; [reflexivity|]. destruct (write_spec V mainpos t1 c (CNode j) v T1 G ltac:(apply PNode; assumption) ltac:(discriminate)) as (A & _ & _ & _ & D & F).
           split; [assumption|]. split; [assumption|]. intros k' v' G' N. rewrite (F k' v' G' N). auto.
        -- rewrite S1 in NA1. destruct (newkey_room V mainpos 1 t1 c T1 G ltac:(rewrite S1; assumption) NL1 (F1 NA1)) as (t2 & p & E4 & [AI AP AC AA AL AF AH AN]).
           rewrite E4. cbn [bind]. eexists. split; [reflexivity|].
           destruct (write_spec V mainpos t2 c p v AI G AP AC) as (A & _ & _ & _ & D & F). split; [assumption|]. split; [assumption|].
           intros k' v' G' N. rewrite (F k' v' G' N), AH. auto.
      * right. split; [lia|]. left. rewrite R. reflexivity.
Qed.

(* ---- keys that cannot be stored ---- *)
Lemma get_nan : forall t, tinv t -> luaH_get t (Some (KF S754_nan)) = Ok CNil.
Proof.
  intros t T. cbn [Table_model.luaH_get]. change (flttointeger S754_nan F2Ieq) with (Ok (@None Z)). cbn [bind]. unfold getgeneric. destruct (t_w _ _ t T) as (cs & W).
  rewrite (search_absent V _ _ cs (KF S754_nan) W); [reflexivity|]. right. intros [i|f|i|i] G; try reflexivity.
Qed.
Lemma set_nan : forall t v, tinv t -> set t (Some (KF S754_nan)) v = Err EIndexNaN.
Proof. intros t v T. unfold Table_model.set. rewrite (get_nan t T). reflexivity. Qed.

(* ---- other operations ---- *)
Lemma kill_ok : forall t i t', tinv t -> kill V t i = Ok t' -> tinv t' /\ forall k v, has t' k v <-> has t k v.
Proof.
  intros t i t' T E. unfold kill in E. destruct (getnode V (nodes t) i) as [n| | |] eqn:GN; try discriminate. cbn [bind] in E.
  destruct (getnode_inv _ _ _ _ GN) as [R ->]. destruct (nkey (nodeat (nodes t) i)) as [|k|k] eqn:K; try (injection E as <-; split; [assumption|reflexivity]).
  destruct (nval (nodeat (nodes t) i)) eqn:NV; [injection E as <-; split; [assumption|reflexivity]|].
  destruct (collectable k) eqn:CO; [|injection E as <-; split; [assumption|reflexivity]]. injection E as <-.
  set (ns' := setnode (nodes t) i (mkNode (Dead k) None (nnext (nodeat (nodes t) i)))).
  assert (LEN : length ns' = length (nodes t)) by apply setnode_length.
  assert (RR : forall j, inr ns' j <-> inr (nodes t) j) by (intros j; unfold Table_facts.inr; rewrite LEN; tauto).
  assert (NO : forall j, inr (nodes t) j -> j <> i -> nodeat ns' j = nodeat (nodes t) j).
  { intros j J N. unfold ns'. rewrite nodeat_other by (unfold Table_facts.inr in *; lia). reflexivity. }
  assert (NI : nodeat ns' i = mkNode (Dead k) None (nnext (nodeat (nodes t) i))) by (apply nodeat_same; assumption).
  split.
  - destruct T as [(cs & W) TL TS TA TD TF]. constructor; cbn [Table_model.nodes Table_model.lsize Table_model.lastfree Table_model.arr]; auto.
    + exists cs. apply winv_kill; auto.
    + fold ns'. rewrite LEN. assumption.
    + fold ns'. intros j k' J KJ. apply RR in J. destruct (Z.eq_dec j i) as [->|N].
      * unfold Table_facts.keyat in KJ. rewrite NI in KJ. discriminate.
      * unfold Table_facts.keyat in KJ. rewrite NO in KJ by assumption. apply (TD j k'); assumption.
    + fold ns'. destruct (lastfree t) as [l|].
      * rewrite LEN. destruct TF as [A B]. split; [assumption|]. intros j J. unfold Table_facts.keyat. destruct (Z.eq_dec j i) as [->|N]; [rewrite NI; discriminate|].
        rewrite NO by (unfold Table_facts.inr; lia || assumption). apply B. assumption.
      * exfalso. rewrite TF in K, R. unfold Table_facts.inr in R. cbn in R. assert (i = 0) by lia. subst i. discriminate.
  - intros k' v. apply has_same; [reflexivity|]. cbn [Table_model.nodes]. fold ns'. split; intros (j & J & KJ & VJ); exists j.
    + apply RR in J. destruct (Z.eq_dec j i) as [->|N]; [rewrite NI in VJ; discriminate|]. unfold Table_facts.keyat in *. rewrite NO in KJ, VJ by assumption. auto.
    + rewrite RR. assert (j <> i) by (intros ->; rewrite NV in VJ; discriminate). unfold Table_facts.keyat in *. rewrite NO by assumption. auto.
Qed.
Lemma kill_total : forall t i, 0 <= i < Z.of_nat (length (nodes t)) -> exists t', kill V t i = Ok t'.
Proof.
  intros t i R. unfold kill. rewrite getnode_ok by assumption. cbn [bind]. destruct (nkey _); eauto. destruct (nval _); eauto. destruct (collectable _); eauto.
Qed.
Lemma hash_items_length : forall ns, (length (hash_items V ns) <= length ns)%nat.
Proof. induction ns as [|n ns IH]; cbn; [lia|]. destruct (nval n); [destruct (nkey n)|]; cbn; lia. Qed.
Lemma resizearray_ok : forall t n, tinv t -> sizearray t <= n <= MAXASIZE ->
  exists t', resizearray V mainpos t n = Ok t' /\ tinv t' /\ sizearray t' = n /\ forall k v, good k -> (has t' k v <-> has t k v).
Proof.
  intros t n T N. unfold resizearray. set (nh := if isdummy V t then 0 else Z.of_nat (length (nodes t))).
  assert (HL : Z.of_nat (length (hash_items V (nodes t))) <= nh).
  { unfold nh. pose proof (t_free _ _ t T) as TF. unfold isdummy. destruct (lastfree t); [pose proof (hash_items_length (nodes t)); lia|]. rewrite TF. cbn. lia. }
  assert (NB : 0 <= nh <= 2 ^ 30).
  { unfold nh. destruct (isdummy V t); [lia|]. rewrite (t_len _ _ t T). pose proof (t_ls _ _ t T) as L. unfold MAXHBITS, MAXABITS in L. split; [apply Z.pow_nonneg; lia|apply Z.pow_le_mono_r; lia]. }
  assert (S0 : 0 <= sizearray t) by (unfold Table_model.sizearray; lia).
  destruct (resize_ok V mainpos mainpos_ok 2 t n nh T ltac:(lia) ltac:(lia)) as (t' & E & T' & S' & _ & H').
  - unfold Table_new.outside, Table_new.items. rewrite filter_app, app_length.
    assert (X : filter (fun kv => negb (inarrb n (fst kv))) (kitems V (arr_items V (arr t) 1)) = []).
    { destruct (filter _ (kitems V (arr_items V (arr t) 1))) as [|[k v] r] eqn:F; [reflexivity|]. exfalso.
      assert (I : In (k, v) (filter (fun kv => negb (inarrb n (fst kv))) (kitems V (arr_items V (arr t) 1)))) by (rewrite F; left; reflexivity).
      apply filter_In in I. destruct I as [I J]. apply kitems_in in I. destruct I as (z & -> & I). apply arr_items_in in I. cbn [fst] in J.
      assert (Y : inarrb n (KI z) = true) by (apply inarrb_iff; exists z; split; [reflexivity|unfold Table_model.sizearray in N; lia]). rewrite Y in J. discriminate. }
    rewrite X. cbn [length]. pose proof (filter_length_le _ (fun kv : key * V => negb (inarrb n (fst kv))) (hash_items V (nodes t))). lia.
  - lia.
  - exists t'. auto.
Qed.
Lemma new_tinv : tinv (luaH_new V) /\ items (luaH_new V) = [].
Proof.
  destruct (setnodevector_ok V mainpos mainpos_ok [] 0) as [A _]; [cbn; unfold MAXASIZE; lia|lia|]. destruct A as (t & E & T & _ & _ & _); [lia|].
  cbn in E. injection E as <-. split; [exact T|reflexivity].
Qed.
Lemma createtable_ok : forall narr nrec, 0 <= narr <= MAXASIZE -> 0 <= nrec <= 2 ^ 30 ->
  exists t, createtable V mainpos narr nrec = Ok t /\ tinv t /\ forall k v, good k -> ~ has t k v.
Proof.
  intros narr nrec A B. destruct new_tinv as [T I]. unfold createtable.
  assert (NH : forall k v, ~ has (luaH_new V) k v) by (intros k v H; apply (items_has V mainpos _ k v T) in H; rewrite I in H; destruct H).
  destruct ((0 <? narr) || (0 <? nrec)).
  - destruct (resize_ok V mainpos mainpos_ok 2 (luaH_new V) narr nrec T A ltac:(lia)) as (t & E & T' & _ & _ & H'); [rewrite I; cbn; lia|lia|].
    exists t. split; [assumption|]. split; [assumption|]. intros k v G H. apply (H' k v G) in H. exact (NH k v H).
  - exists (luaH_new V). split; [reflexivity|]. split; [assumption|]. intros k v _. apply NH.
Qed.

(* ---- histories ---- *)
Definition agrees (h : list op) (t : table) : Prop :=
  forall k c, canon k c -> exists o, after h k o /\ forall v, o = Some v <-> has t c v.
Record hinv (h : list op) (t : table) : Prop := { h_inv : tinv t; h_agr : agrees h t; h_len : Z.of_nat (length (items t)) <= Z.of_nat (length h) }.

Lemma after_fun : forall h k v v', after h k v -> after h k v' -> v = v'.
Proof.
  intros h k v v' A. revert v'. induction A; intros w B; inversion B; subst; auto; try contradiction.
Qed.
Lemma items_le : forall t t' l, tinv t -> tinv t' -> (forall k v, good k -> has t' k v -> In k l \/ exists v', has t k v') ->
  (length (items t') <= length l + length (items t))%nat.
Proof.
  intros t t' l T T' H. rewrite <- (map_length fst (items t')), <- (map_length fst (items t)), <- app_length. apply NoDup_incl_length; [apply (items_nodup V mainpos t' T')|].
  intros k I. apply in_map_iff in I. destruct I as ([k' v] & E & I). cbn in E. subst k'. pose proof (items_good V mainpos t' _ T' I) as G. cbn in G. apply (items_has V mainpos t' k v T') in I.
  apply in_app_iff. destruct (H k v G I) as [J|(v' & J)]; [auto|]. right. apply (items_has V mainpos t k v' T) in J. apply in_map_iff. exists (k, v'). auto.
Qed.

Lemma step_ok : forall h t o, hinv h t -> wfop o -> Z.of_nat (length h) < 2 ^ 30 -> exists t', step t o = Ok t' /\ hinv (o :: h) t'.
Proof.
  intros h t o [T AG LE] W LT. destruct o as [[k|] v|n|i]; cbn [Table_spec.step].
  - cbn in W. destruct (key_is_nan_dec k) as [N|N].
    + unfold is_nan in N. subst k. rewrite (set_nan t v T). exists t. split; [reflexivity|]. constructor; [assumption| |cbn [length]; lia].
      intros k c C. destruct (AG k c C) as (o & A & H). exists o. split; [|assumption]. apply af_miss; [apply nan_keq|assumption].
    + destruct (canon_total k W N) as (c & C). destruct (set_good t k c v T C) as [(t' & E & T' & [S1 S2])|[BG _]]; [|lia]. rewrite E. exists t'. split; [reflexivity|].
      pose proof (canon_good _ _ C) as G. constructor; [assumption| |].
      * intros k' c' C'. pose proof (canon_good _ _ C') as G'. destruct (key_dec c' c G' G) as [->|NE].
        -- exists v. split; [apply af_hit; apply (canon_keq k' k c c C' C); reflexivity|]. intros v'. rewrite (S1 v'). reflexivity.
        -- destruct (AG k' c' C') as (o & A & H). exists o. split; [apply af_miss; [|assumption]; intros Q; apply (canon_keq k' k c' c C' C) in Q; contradiction|].
           intros v'. rewrite (S2 c' v' G' NE). apply H.
      * pose proof (items_le t t' [c] T T') as L. cbn [length] in *. assert (length (items t') <= 1 + length (items t))%nat; [|lia]. apply L.
        intros k' v' G' H. destruct (key_dec k' c G' G) as [->|NE]; [left; left; reflexivity|]. right. exists v'. apply (S2 k' v' G' NE). assumption.
  - cbn. exists t. split; [reflexivity|]. constructor; [assumption| |cbn [length]; lia]. intros k c C. destruct (AG k c C) as (o & A & H). exists o. split; [apply af_nil; assumption|assumption].
  - assert (KEEP : hinv (OArr V n :: h) t).
    { constructor; [assumption| |cbn [length]; lia]. intros k c C. destruct (AG k c C) as (o & A & H). exists o. split; [apply af_arr; assumption|assumption]. }
    destruct (Z.ltb_spec (sizearray t) n); [|exists t; auto]. destruct (Z.leb_spec n MAXASIZE); [|exists t; auto]. cbn [andb].
    destruct (resizearray_ok t n T ltac:(lia)) as (t' & E & T' & _ & H'). exists t'. split; [assumption|]. constructor; [assumption| |].
    + intros k c C. destruct (AG k c C) as (o & A & HH). exists o. split; [apply af_arr; assumption|]. intros v. rewrite (H' c v (canon_good _ _ C)). apply HH.
    + pose proof (items_le t t' [] T T') as L. cbn [length] in *. assert (length (items t') <= 0 + length (items t))%nat; [|lia]. apply L.
      intros k' v' G' HH. right. exists v'. apply (H' k' v' G'). assumption.
  - assert (KEEP : hinv (OKill V i :: h) t).
    { constructor; [assumption| |cbn [length]; lia]. intros k c C. destruct (AG k c C) as (o & A & H). exists o. split; [apply af_kill; assumption|assumption]. }
    destruct (Z.leb_spec 0 i); [|exists t; auto]. destruct (Z.ltb_spec i (Z.of_nat (length (nodes t)))); [|exists t; auto]. cbn [andb].
    destruct (kill_total t i) as (t' & E); [lia|]. rewrite E. exists t'. split; [reflexivity|]. destruct (kill_ok t i t' T E) as [T' H']. constructor; [assumption| |].
    + intros k c C. destruct (AG k c C) as (o & A & HH). exists o. split; [apply af_kill; assumption|]. intros v. rewrite (H' c v). apply HH.
    + pose proof (items_le t t' [] T T') as L. cbn [length] in *. assert (length (items t') <= 0 + length (items t))%nat; [|lia]. apply L.
      intros k' v' G' HH. right. exists v'. apply H'. assumption.
Qed.
Lemma start_ok : forall narr nrec, 0 <= narr <= MAXASIZE -> 0 <= nrec <= 2 ^ 30 -> exists t, createtable V mainpos narr nrec = Ok t /\ hinv [] t.
Proof.
  intros narr nrec A B. destruct (createtable_ok narr nrec A B) as (t & E & T & NH). exists t. split; [assumption|]. constructor; [assumption| |].
  - intros k c C. exists None. split; [constructor|]. intros v. split; [discriminate|]. intros H. exfalso. exact (NH c v (canon_good _ _ C) H).
  - destruct (items t) as [|[k v] r] eqn:I; [cbn; lia|]. exfalso. assert (J : In (k, v) (items t)) by (rewrite I; left; reflexivity).
    pose proof (items_good V mainpos t _ T J) as G. apply (items_has V mainpos t k v T) in J. exact (NH k v G J).
Qed.
Lemma run_ok : forall h t0, hinv [] t0 -> Forall wfop h -> Z.of_nat (length h) <= 2 ^ 30 -> exists t, run t0 h = Ok t /\ hinv h t.
Proof.
  induction h as [|o h IH]; intros t0 H0 W L.
  - exists t0. split; [reflexivity|assumption].
  - inversion W; subst. cbn [length] in L. destruct (IH t0 H0 H3 ltac:(lia)) as (t & E & H). cbn [Table_spec.run]. rewrite E. cbn [bind]. apply step_ok; auto. lia.
Qed.
Lemma reachable_inv : forall h t, Forall wfop h -> reachable V mainpos h t -> hinv h t.
Proof.
  intros h t W (narr & nrec & t0 & A & B & L & E & R). destruct (start_ok narr nrec A B) as (t1 & E1 & H1). rewrite E in E1. injection E1 as <-.
  destruct (run_ok h t0 H1 W L) as (t' & E' & H'). rewrite R in E'. injection E' as <-. assumption.
Qed.
End HIST.
