(* Traversal. *)
Require Import ZArith QArith List Bool Lia Permutation.
From Coq Require Import Floats.SpecFloat.
From Verif Require Import Base Base_facts Float_model Size_model Size_proofs Table_model Table_facts Table_hash Table_count Table_ops Table_new Table_resize Float_spec Float_facts Float_proofs Table_spec Table_hist.
Import ListNotations.
Open Scope Z_scope.


Section NEXT.
Variable V : Type.
Variable mainpos : Z -> key -> Z.
Notation table := (table V). Notation node := (node V).
Notation keyat := (keyat V). Notation nodeat := (nodeat V). Notation anext := (anext V). Notation inr := (inr V).
Notation arr := (arr V). Notation nodes := (nodes V). Notation lsize := (lsize V). Notation lastfree := (lastfree V). Notation sizearray := (sizearray V).
Notation nval := (Table_model.nval V). Notation nkey := (nkey V). Notation nnext := (nnext V). Notation mkTable := (mkTable V). Notation mkNode := (mkNode V).
Notation setnode := (setnode V).
Notation luaH_get := (luaH_get V mainpos). Notation get := (get V mainpos).
Notation newkey := (newkey V mainpos). Notation insert := (insert V mainpos). Notation setk := (setk V mainpos). Notation resize := (resize V mainpos).
Notation rehash := (rehash V mainpos).
Notation tinv := (tinv V mainpos). Notation hhas := (hhas V). Notation has := (has V). Notation place := (place V). Notation nfree := (nfree V).
Notation isfreeb := (isfreeb V).
Notation withlf := (withlf V). Notation added := (added V mainpos). Notation sets := (sets V). Notation outside := (outside V).
Notation items := (items V). Notation set := (set V mainpos). Notation op := (op V). Notation after := (after V). Notation step := (step V mainpos). Notation run := (run V mainpos).
Hypothesis mainpos_ok : forall l k, 0 <= l -> 0 <= mainpos l k < 2 ^ l.

Notation luaH_next := (luaH_next V mainpos). Notation findindex := (findindex V mainpos).

(* t' has the nodes of t, some of whose keys may have died *)
Record skel (t t' : table) : Prop := {
  s_arr : length (arr t') = length (arr t);
  s_len : length (nodes t') = length (nodes t);
  s_ls : lsize t' = lsize t;
  s_next : forall i, nnext (nodeat (nodes t') i) = nnext (nodeat (nodes t) i);
  s_key : forall i k, kmatch k (keyat (nodes t') i) = kmatch k (keyat (nodes t) i);
  s_live : forall i k, keyat (nodes t') i = Live k -> keyat (nodes t) i = Live k }.
Lemma skel_refl : forall t, skel t t.
Proof. intros t. constructor; auto. Qed.
Lemma skel_trans : forall a b c, skel a b -> skel b c -> skel a c.
Proof.
  intros a b c [A1 A2 A3 A4 A5 A6] [B1 B2 B3 B4 B5 B6]. constructor; [congruence|congruence|congruence| | |].
  - intros i. rewrite B4. apply A4.
  - intros i k. rewrite B5. apply A5.
  - intros i k K. apply A6. apply B6. assumption.
Qed.

(* positions: 1.. for the array part, then the nodes *)
Definition posof (t : table) (k : key) (q : Z) : Prop :=
  (k = KI q /\ 1 <= q <= sizearray t) \/ (sizearray t < q /\ inr (nodes t) (q - 1 - sizearray t) /\ keyat (nodes t) (q - 1 - sizearray t) = Live k).
Lemma posof_key : forall t k k' q, posof t k q -> posof t k' q -> k = k'.
Proof. intros t k k' q [[E R]|(L & R & K)] [[E' R']|(L' & R' & K')]; subst; try lia; congruence. Qed.
Lemma posof_pos : forall t k q q', tinv t -> posof t k q -> posof t k q' -> q = q'.
Proof.
  intros t k q q' T [[E R]|(L & R & K)] [[E' R']|(L' & R' & K')].
  - congruence.
  - exfalso. subst k. pose proof (t_disj _ _ t T _ _ R' K') as X. assert (inarrb (sizearray t) (KI q) = true) by (apply inarrb_iff; exists q; auto). congruence.
  - exfalso. subst k. pose proof (t_disj _ _ t T _ _ R K) as X. assert (inarrb (sizearray t) (KI q') = true) by (apply inarrb_iff; exists q'; auto). congruence.
  - destruct (t_w _ _ t T) as (cs & W). pose proof (live_unique _ _ _ _ k _ _ W R R' K K'). lia.
Qed.
Lemma posof_good : forall t k q, tinv t -> posof t k q -> good k.
Proof.
  intros t k q T [[E R]|(L & R & K)].
  - subst k. apply good_idx. pose proof (t_arr _ _ t T). lia.
  - destruct (t_w _ _ t T) as (cs & W). apply (w_live _ _ _ _ W _ _ R K).
Qed.
Lemma has_pos : forall t k v, tinv t -> has t k v -> exists q, posof t k q.
Proof.
  intros t k v T H. destruct (inarrb (sizearray t) k) eqn:IA.
  - apply inarrb_iff in IA. destruct IA as (z & -> & B). exists z. left. auto.
  - apply (proj1 (has_hash V mainpos t k v IA)) in H. destruct H as (i & R & K & _). exists (i + 1 + sizearray t). right.
    replace (i + 1 + sizearray t - 1 - sizearray t) with i by lia. unfold Table_facts.inr in R. split; [lia|]. split; [exact R|assumption].
Qed.
Lemma pos_has : forall t k q v, tinv t -> posof t k q ->
  (has t k v <-> if q <=? sizearray t then nth (Z.to_nat (q - 1)) (arr t) None = Some v else nval (nodeat (nodes t) (q - 1 - sizearray t)) = Some v).
Proof.
  intros t k q v T [[E R]|(L & R & K)].
  - subst k. destruct (Z.leb_spec q (sizearray t)); [|lia]. unfold Table_ops.has. assert (IA : inarrb (sizearray t) (KI q) = true) by (apply inarrb_iff; exists q; auto). rewrite IA. reflexivity.
  - destruct (Z.leb_spec q (sizearray t)); [lia|]. rewrite (has_hash V mainpos t k v (t_disj _ _ t T _ _ R K)). split.
    + intros (j & RJ & KJ & VJ). destruct (t_w _ _ t T) as (cs & W). rewrite <- (live_unique _ _ _ _ k _ _ W RJ R KJ K). assumption.
    + intros E. eexists. eauto.
Qed.

(* ---- findindex ---- *)
Lemma key_eqb_sym : forall a b, good a -> good b -> key_eqb a b = key_eqb b a.
Proof.
  intros a b A B. destruct (key_eqb a b) eqn:E.
  - apply key_eqb_eq in E; auto. subst. symmetry. apply key_eqb_refl. assumption.
  - symmetry. destruct (key_eqb b a) eqn:E'; [|reflexivity]. apply key_eqb_eq in E'; auto. subst. rewrite key_eqb_refl in E by assumption. discriminate.
Qed.
Lemma raw_eq_good : forall a b, good a -> good b -> raw_eq a b = Ok (key_eqb a b).
Proof.
  intros a b A B. unfold raw_eq. destruct a as [i|f|i|i]; destruct b as [j|g|j|j]; try reflexivity.
  - destruct B as (Vg & F & N). destruct (EQnum_ok (NInt i) (NFlt g) A Vg) as (r & E & R). rewrite E. f_equal. cbn [key_eqb]. destruct r; [|reflexivity]. exfalso.
    assert (X : keq (KI i) (KF g)) by (apply R; reflexivity). apply (good_keq) in X; try discriminate; [exact A|]. split; [assumption|]. split; assumption.
  - destruct A as (Vg & F & N). destruct (EQnum_ok (NFlt f) (NInt j) Vg B) as (r & E & R). rewrite E. f_equal. cbn [key_eqb]. destruct r; [|reflexivity]. exfalso.
    assert (X : keq (KF f) (KI j)) by (apply R; reflexivity). apply (good_keq) in X; try discriminate; [|exact B]. split; [assumption|]. split; assumption.
Qed.
Lemma match_next_ok : forall t k i, tinv t -> good k -> inr (nodes t) i -> match_next k (keyat (nodes t) i) = Ok (kmatch k (keyat (nodes t) i)).
Proof.
  intros t k i T G R. destruct (t_w _ _ t T) as (cs & W). destruct (keyat (nodes t) i) as [|k'|k'] eqn:K; cbn [match_next kmatch]; [reflexivity| |].
  - destruct (w_live _ _ _ _ W i k' R K) as [G' _]. rewrite raw_eq_good by assumption. f_equal. apply key_eqb_sym; assumption.
  - pose proof (w_dead _ _ _ _ W i k' R K) as C. f_equal. destruct k'; try discriminate. destruct k; reflexivity.
Qed.
Lemma search_next_ok : forall t k, tinv t -> good k -> forall fuel i,
  search_next V fuel k (nodes t) i = bind (search V fuel (kmatch k) (nodes t) i) (fun o => match o with Some j => Ok j | None => Err EInvalidNext end).
Proof.
  intros t k T G. induction fuel as [|fuel IH]; intros i; [reflexivity|]. cbn [search_next search].
  destruct (getnode V (nodes t) i) as [n| | |] eqn:E; try reflexivity. cbn [bind]. destruct (getnode_inv _ _ _ _ E) as [R ->].
  fold (keyat (nodes t) i). rewrite (match_next_ok t k i T G R). cbn [bind]. destruct (kmatch k (keyat (nodes t) i)); [reflexivity|]. destruct (nnext (nodeat (nodes t) i) =? 0); [reflexivity|apply IH].
Qed.
Lemma search_skel : forall t t' k, skel t t' -> forall fuel i, search V fuel (kmatch k) (nodes t') i = search V fuel (kmatch k) (nodes t) i.
Proof.
  intros t t' k S. induction fuel as [|fuel IH]; intros i; [reflexivity|]. cbn [search].
  destruct (getnode V (nodes t) i) as [n| | |] eqn:E.
  - destruct (getnode_inv _ _ _ _ E) as [R ->]. assert (R' : inr (nodes t') i) by (unfold Table_facts.inr; rewrite (s_len _ _ S); assumption).
    rewrite getnode_ok by assumption. cbn [bind]. fold (keyat (nodes t) i). fold (keyat (nodes t') i). rewrite (s_key _ _ S), (s_next _ _ S).
    destruct (kmatch k (keyat (nodes t) i)); [reflexivity|]. destruct (nnext (nodeat (nodes t) i) =? 0); [reflexivity|apply IH].
  - unfold getnode in E. destruct (i <? 0); [discriminate|]. destruct (nth_error (nodes t) (Z.to_nat i)); discriminate.
  - assert (N : ~ inr (nodes t') i).
    { intros R. unfold Table_facts.inr in R. rewrite (s_len _ _ S) in R. rewrite getnode_ok in E by assumption. discriminate. }
    assert (X : getnode V (nodes t') i = UB).
    { unfold getnode. destruct (Z.ltb_spec i 0); [reflexivity|]. destruct (nth_error (nodes t') (Z.to_nat i)) eqn:NE; [|reflexivity]. exfalso. apply N. assert (nth_error (nodes t') (Z.to_nat i) <> None) by congruence. apply nth_error_Some in H0. unfold Table_facts.inr. lia. }
    rewrite X. reflexivity.
  - unfold getnode in E. destruct (i <? 0); [discriminate|]. destruct (nth_error (nodes t) (Z.to_nat i)); discriminate.
Qed.
Lemma findindex_ok : forall t0 t k q, tinv t0 -> tinv t -> skel t0 t -> posof t0 k q -> findindex t (Some k) = Ok q.
Proof.
  intros t0 t k q T0 T S P. pose proof (posof_good t0 k q T0 P) as G. unfold Table_model.findindex.
  assert (SZ : sizearray t = sizearray t0) by (unfold Table_model.sizearray; rewrite (s_arr _ _ S); reflexivity). rewrite SZ. cbv zeta.
  pose proof (t_arr _ _ t0 T0) as TA. destruct P as [[-> R]|(L & R & K)].
  - assert (E : arrayindex (KI q) = q) by (apply arrayindex_iff; [assumption|lia|split; [reflexivity|lia]]). rewrite E.
    destruct (Z.eqb_spec q 0); [lia|]. destruct (Z.leb_spec q (sizearray t0)); [reflexivity|lia].
  - assert (X : negb (arrayindex k =? 0) && (arrayindex k <=? sizearray t0) = false).
    { destruct (arrayindex_range k G) as [E|[RA E]]; [rewrite E; reflexivity|]. destruct (Z.leb_spec (arrayindex k) (sizearray t0)) as [LE|]; [|apply andb_false_r]. exfalso.
      pose proof (t_disj _ _ t0 T0 _ _ R K) as D. assert (inarrb (sizearray t0) k = true) by (apply inarrb_iff; exists (arrayindex k); split; [assumption|lia]). congruence. }
    rewrite X. rewrite (search_next_ok t k T G), (search_skel t0 t k S), (s_ls _ _ S), (s_len _ _ S).
    destruct (t_w _ _ t0 T0) as (cs & W). destruct (w_live _ _ _ _ W _ _ R K) as [_ LO].
    rewrite (search_located V _ _ cs k _ (kmatch k) W LO eq_refl); [| |].
    + cbn [bind]. f_equal. lia.
    + auto.
    + rewrite K. cbn [kmatch]. apply key_eqb_refl. assumption.
Qed.

(* ---- what next finds ---- *)
Lemma next_arr_spec : forall vs i, match next_arr V vs i with
  | Some (k, v) => exists j, 0 <= j < Z.of_nat (length vs) /\ k = KI (i + j + 1) /\ nth (Z.to_nat j) vs None = Some v /\ forall j', 0 <= j' < j -> nth (Z.to_nat j') vs None = None
  | None => forall j, nth j vs None = None
  end.
Proof.
  induction vs as [|[v|] vs IH]; intros i; cbn [next_arr].
  - intros [|j]; reflexivity.
  - exists 0. cbn [length]. split; [lia|]. split; [f_equal; lia|]. split; [reflexivity|]. intros j' J. lia.
  - specialize (IH (i + 1)). destruct (next_arr V vs (i + 1)) as [[k v]|].
    + destruct IH as (j & J & -> & N & F). exists (j + 1). cbn [length]. split; [lia|]. split; [f_equal; lia|]. replace (Z.to_nat (j + 1)) with (S (Z.to_nat j)) by lia. split; [exact N|].
      intros j' J'. destruct (Z.eq_dec j' 0) as [->|NZ]; [reflexivity|]. replace (Z.to_nat j') with (S (Z.to_nat (j' - 1))) by lia. cbn. apply F. lia.
    + intros [|j]; cbn; auto.
Qed.
Lemma next_hash_spec : forall ns, live_nodes V ns -> exists r, next_hash V ns = Ok r /\ match r with
  | Some (k, v) => exists j, 0 <= j < Z.of_nat (length ns) /\ nkey (nodeat ns j) = Live k /\ nval (nodeat ns j) = Some v /\ forall j', 0 <= j' < j -> nval (nodeat ns j') = None
  | None => forall j, 0 <= j -> nval (nodeat ns j) = None
  end.
Proof.
  induction ns as [|n ns IH]; intros L; cbn [next_hash].
  - exists None. split; [reflexivity|]. intros j J. unfold Table_facts.nodeat. destruct (Z.to_nat j); reflexivity.
  - destruct (nval n) as [v|] eqn:E.
    + destruct (L n (or_introl eq_refl) ltac:(congruence)) as (k & K & _). rewrite K. eexists. split; [reflexivity|]. exists 0. cbn [length]. split; [lia|]. split; [exact K|]. split; [exact E|]. intros j' J. lia.
    + destruct IH as (r & ER & R); [intros x X; apply L; right; assumption|]. exists r. split; [assumption|]. destruct r as [[k v]|].
      * destruct R as (j & J & K & N & F). exists (j + 1). cbn [length]. split; [lia|]. unfold Table_facts.nodeat in *. replace (Z.to_nat (j + 1)) with (S (Z.to_nat j)) by lia. split; [exact K|]. split; [exact N|].
        intros j' J'. destruct (Z.eq_dec j' 0) as [->|NZ]; [exact E|]. replace (Z.to_nat j') with (S (Z.to_nat (j' - 1))) by lia. cbn. apply F. lia.
      * intros j J. unfold Table_facts.nodeat in *. destruct (Z.eq_dec j 0) as [->|NZ]; [exact E|]. replace (Z.to_nat j) with (S (Z.to_nat (j - 1))) by lia. cbn. apply R. lia.
Qed.
Lemma skipn_nth : forall A (d : A) n l i, nth i (skipn n l) d = nth (n + i) l d.
Proof. induction n as [|n IH]; intros l i; [reflexivity|]. destruct l; cbn; [destruct i; reflexivity|apply IH]. Qed.
Lemma skipn_in : forall A n (l : list A) x, In x (skipn n l) -> In x l.
Proof. induction n as [|n IH]; intros l x H; [assumption|]. destruct l; [assumption|]. right. apply IH. assumption. Qed.

Lemma next_spec : forall t c p, tinv t -> findindex t c = Ok p -> 0 <= p ->
  exists r, luaH_next t c = Ok r /\ match r with
  | Some (k, v) => exists q, p < q /\ posof t k q /\ has t k v /\ forall k' q' v', posof t k' q' -> p < q' < q -> ~ has t k' v'
  | None => forall k' q' v', posof t k' q' -> p < q' -> ~ has t k' v'
  end.
Proof.
  intros t c p T E P. unfold Table_model.luaH_next. rewrite E. cbn [bind]. pose proof (next_arr_spec (skipn (Z.to_nat p) (arr t)) p) as NA.
  set (sz := sizearray t). assert (SZ : Z.of_nat (length (arr t)) = sz) by reflexivity.
  destruct (next_arr V (skipn (Z.to_nat p) (arr t)) p) as [[k v]|].
  - destruct NA as (j & J & -> & N & F). rewrite skipn_length in J. rewrite skipn_nth in N. eexists. split; [reflexivity|]. exists (p + j + 1).
    assert (PO : posof t (KI (p + j + 1)) (p + j + 1)) by (left; split; [reflexivity|fold sz; lia]).
    split; [lia|]. split; [assumption|]. split.
    + apply (pos_has t _ _ v T PO). fold sz. destruct (Z.leb_spec (p + j + 1) sz); [|lia]. replace (Z.to_nat (p + j + 1 - 1)) with (Z.to_nat p + Z.to_nat j)%nat by lia. assumption.
    + intros k' q' v' PO' Q H. apply (pos_has t _ _ v' T PO') in H. fold sz in H. destruct (Z.leb_spec q' sz); [|lia].
      specialize (F (q' - 1 - p) ltac:(lia)). rewrite skipn_nth in F. replace (Z.to_nat p + Z.to_nat (q' - 1 - p))%nat with (Z.to_nat (q' - 1)) in F by lia. congruence.
  - set (m := Z.max p sz - sz). assert (AN : forall q', p < q' <= sz -> nth (Z.to_nat (q' - 1)) (arr t) None = None).
    { intros q' Q. specialize (NA (Z.to_nat (q' - 1 - p))). rewrite skipn_nth in NA. replace (Z.to_nat p + Z.to_nat (q' - 1 - p))%nat with (Z.to_nat (q' - 1)) in NA by lia. assumption. }
    destruct (next_hash_spec (skipn (Z.to_nat m) (nodes t))) as (r & ER & R).
    { intros n I. apply skipn_in in I. apply (live_nodes_ok V mainpos t T). assumption. }
    exists r. split; [assumption|].
    assert (NN : forall j, 0 <= j -> nodeat (skipn (Z.to_nat m) (nodes t)) j = nodeat (nodes t) (m + j)).
    { intros j J. unfold Table_facts.nodeat. rewrite skipn_nth. f_equal. unfold m. lia. }
    destruct r as [[k v]|].
    + destruct R as (j & J & K & N & F). rewrite skipn_length in J. rewrite NN in K, N by lia. exists (m + j + 1 + sz).
      assert (PO : posof t k (m + j + 1 + sz)).
      { right. fold sz. replace (m + j + 1 + sz - 1 - sz) with (m + j) by lia. split; [unfold m; lia|]. split; [unfold Table_facts.inr; unfold m in *; lia|]. exact K. }
      split; [unfold m; lia|]. split; [assumption|]. split.
      * apply (pos_has t _ _ v T PO). fold sz. destruct (Z.leb_spec (m + j + 1 + sz) sz); [unfold m in *; lia|]. replace (m + j + 1 + sz - 1 - sz) with (m + j) by lia. assumption.
      * intros k' q' v' PO' Q H. apply (pos_has t _ _ v' T PO') in H. fold sz in H. destruct (Z.leb_spec q' sz) as [LE|GT]; [rewrite AN in H by lia; discriminate|].
        specialize (F (q' - 1 - sz - m) ltac:(unfold m in *; lia)). rewrite NN in F by (unfold m; lia). replace (m + (q' - 1 - sz - m)) with (q' - 1 - sz) in F by lia. congruence.
    + intros k' q' v' PO' Q H. apply (pos_has t _ _ v' T PO') in H. fold sz in H. destruct (Z.leb_spec q' sz) as [LE|GT]; [rewrite AN in H by lia; discriminate|].
      specialize (R (q' - 1 - sz - m) ltac:(unfold m in *; lia)). rewrite NN in R by (unfold m; lia). replace (m + (q' - 1 - sz - m)) with (q' - 1 - sz) in R by lia. congruence.
Qed.

(* ---- changes during a traversal ---- *)
Lemma write_skel : forall t c v, skel t (writecell V t c v).
Proof.
  intros t [|i|i] v; cbn [writecell]; [apply skel_refl| |].
  - constructor; cbn; auto. apply upd_length.
  - set (n := nth (Z.to_nat i) (nodes t) (blank V)).
    assert (X : forall j, nnext (nodeat (setnode (nodes t) i (mkNode (nkey n) v (nnext n))) j) = nnext (nodeat (nodes t) j) /\
                          nkey (nodeat (setnode (nodes t) i (mkNode (nkey n) v (nnext n))) j) = nkey (nodeat (nodes t) j)).
    { intros j. unfold Table_facts.nodeat, Table_model.setnode. destruct (Nat.eq_dec (Z.to_nat i) (Z.to_nat j)) as [E|N].
      - rewrite <- E. destruct (Nat.lt_ge_cases (Z.to_nat i) (length (nodes t))) as [L|L].
        + rewrite upd_nth_same by assumption. split; reflexivity.
        + rewrite !nth_overflow by (rewrite ?upd_length; assumption). split; reflexivity.
      - rewrite upd_nth_other by assumption. split; reflexivity. }
    constructor; cbn [Table_model.nodes Table_model.arr Table_model.lsize]; auto.
    + apply setnode_length.
    + intros j. apply X.
    + intros j k. unfold Table_facts.keyat. rewrite (proj2 (X j)). reflexivity.
    + intros j k. unfold Table_facts.keyat. rewrite (proj2 (X j)). auto.
Qed.
Lemma kill_skel : forall t i t', kill V t i = Ok t' -> skel t t'.
Proof.
  intros t i t' E. unfold kill in E. destruct (getnode V (nodes t) i) as [n| | |] eqn:GN; try discriminate. cbn [bind] in E.
  destruct (getnode_inv _ _ _ _ GN) as [R ->]. destruct (nkey (nodeat (nodes t) i)) as [|k|k] eqn:K; try (injection E as <-; apply skel_refl).
  destruct (nval (nodeat (nodes t) i)) eqn:NV; [injection E as <-; apply skel_refl|].
  destruct (collectable k) eqn:CO; [|injection E as <-; apply skel_refl]. injection E as <-.
  assert (X : forall j, j <> i -> 0 <= j -> nodeat (setnode (nodes t) i (mkNode (Dead k) None (nnext (nodeat (nodes t) i)))) j = nodeat (nodes t) j).
  { intros j N J. apply nodeat_other; auto. unfold Table_facts.inr in R. lia. }
  assert (Y : forall j, Z.to_nat j = Z.to_nat i -> nodeat (setnode (nodes t) i (mkNode (Dead k) None (nnext (nodeat (nodes t) i)))) j = mkNode (Dead k) None (nnext (nodeat (nodes t) i))).
  { intros j EJ. unfold Table_facts.nodeat at 1. rewrite EJ. apply (nodeat_same V (nodes t) i). assumption. }
  assert (Z : forall j, Z.to_nat j <> Z.to_nat i -> nodeat (setnode (nodes t) i (mkNode (Dead k) None (nnext (nodeat (nodes t) i)))) j = nodeat (nodes t) j).
  { intros j EJ. unfold Table_facts.nodeat, Table_model.setnode. apply upd_nth_other. auto. }
  assert (YO : forall j, Z.to_nat j = Z.to_nat i -> nodeat (nodes t) j = nodeat (nodes t) i) by (intros j EJ; unfold Table_facts.nodeat; rewrite EJ; reflexivity).
  constructor; cbn [Table_model.nodes Table_model.arr Table_model.lsize]; auto.
  - apply setnode_length.
  - intros j. destruct (Nat.eq_dec (Z.to_nat j) (Z.to_nat i)) as [EJ|N]; [rewrite Y, (YO j) by assumption; reflexivity|rewrite Z by assumption; reflexivity].
  - intros j k'. unfold Table_facts.keyat. destruct (Nat.eq_dec (Z.to_nat j) (Z.to_nat i)) as [EJ|N]; [rewrite Y, (YO j) by assumption; rewrite K; reflexivity|rewrite Z by assumption; reflexivity].
  - intros j k'. unfold Table_facts.keyat. destruct (Nat.eq_dec (Z.to_nat j) (Z.to_nat i)) as [EJ|N]; [rewrite Y by assumption; discriminate|rewrite Z by assumption; auto].
Qed.
Lemma touch_ok : forall t t', touch V mainpos t t' -> tinv t -> tinv t' /\ skel t t' /\ forall k v, good k -> has t' k v -> exists v', has t k v'.
Proof.
  intros t t' H. induction H as [t|t k v w t1 t2 WK G S H IH|t i t1 t2 K H IH]; intros T.
  - split; [assumption|]. split; [apply skel_refl|]. intros k v _ H. exists v. assumption.
  - destruct (key_is_nan_dec k) as [N|N].
    { unfold is_nan in N. subst k. unfold Table_model.get in G. rewrite (get_nan V mainpos t T) in G. discriminate. }
    destruct (canon_total k WK N) as (c & C). pose proof (canon_good _ _ C) as GC. unfold Table_model.get in G. unfold Table_model.set in S. rewrite (get_canon V mainpos t k c C) in G, S.
    destruct (luaH_get_ok V mainpos t c T GC) as (p & E & P). rewrite E in G, S. cbn [bind] in G, S. injection G as G.
    assert (PN : p <> CNil) by (intros ->; discriminate).
    assert (S' : t1 = writecell V t p v) by (destruct p; [congruence|injection S as <-; reflexivity|injection S as <-; reflexivity]). subst t1.
    destruct (write_spec V mainpos t c p v T GC P PN) as (T1 & _ & _ & _ & D & F). destruct (IH T1) as (T2 & S2 & H2). split; [assumption|].
    split; [eapply skel_trans; [apply write_skel|eassumption]|]. intros k' v' G' HH. destruct (H2 k' v' G' HH) as (w' & HW). destruct (key_dec k' c G' GC) as [->|NE].
    + exists w. apply (place_has V mainpos t c p w T P). assumption.
    + exists w'. apply (F k' w' G' NE). assumption.
  - destruct (kill_ok V mainpos mainpos_ok t i t1 T K) as [T1 H1]. destruct (IH T1) as (T2 & S2 & H2). split; [assumption|]. split; [eapply skel_trans; [eapply kill_skel; eassumption|eassumption]|].
    intros k v G HH. destruct (H2 k v G HH) as (w & HW). exists w. apply H1. assumption.
Qed.

(* ---- the walk ---- *)
Definition cpos (t0 : table) (c : option key) (p : Z) : Prop := match c with None => p = 0 | Some k => posof t0 k p end.
Lemma skel_pos : forall t0 t k q, skel t0 t -> posof t k q -> posof t0 k q.
Proof.
  intros t0 t k q S P. assert (SZ : sizearray t = sizearray t0) by (unfold Table_model.sizearray; rewrite (s_arr _ _ S); reflexivity).
  unfold posof in *. rewrite SZ in P. destruct P as [P|(L & R & K)]; [left; assumption|]. right. split; [assumption|]. unfold Table_facts.inr in *. rewrite (s_len _ _ S) in R. split; [assumption|]. apply (s_live _ _ S). assumption.
Qed.
Lemma cpos_find : forall t0 t c p, tinv t0 -> tinv t -> skel t0 t -> cpos t0 c p -> findindex t c = Ok p /\ 0 <= p.
Proof.
  intros t0 t [k|] p T0 T S P; cbn in P.
  - split; [apply (findindex_ok t0 t k p T0 T S P)|]. assert (0 <= sizearray t0) by (unfold Table_model.sizearray; lia). destruct P as [[_ R]|[L _]]; lia.
  - subst p. split; [reflexivity|lia].
Qed.
Lemma walk_ok : forall t0 t c l t2 c2, walk V mainpos t c l t2 c2 -> forall p, tinv t0 -> tinv t -> skel t0 t -> cpos t0 c p ->
  exists p2, tinv t2 /\ skel t0 t2 /\ cpos t0 c2 p2 /\ p <= p2 /\
  (forall ti k v, In (ti, k, v) l -> tinv ti /\ skel t0 ti /\ has ti k v /\ (exists q, posof t0 k q /\ p < q <= p2) /\ exists v', has t k v') /\
  NoDup (visited V l) /\
  (forall k q, posof t0 k q -> p < q <= p2 -> (forall ti ki vi, In (ti, ki, vi) l -> exists v, has ti k v) -> In k (visited V l)) /\
  (forall k v, good k -> has t2 k v -> exists v', has t k v').
Proof.
  intros t0 t c l t2 c2 W. induction W as [t c|t c k v t1 l t2 c2 N TO W IH]; intros p T0 T S C.
  - exists p. split; [assumption|]. split; [assumption|]. split; [assumption|]. split; [lia|]. split; [intros ti k v []|]. split; [constructor|]. split; [intros; lia|]. intros k v _ H. exists v. assumption.
  - destruct (cpos_find t0 t c p T0 T S C) as [FI P0]. destruct (next_spec t c p T FI P0) as (r & E & R). rewrite N in E. injection E as <-. destruct R as (q & PQ & PO & HV & BE).
    pose proof (skel_pos t0 t k q S PO) as PO0. destruct (touch_ok t t1 TO T) as (T1 & S1 & H1). pose proof (skel_trans _ _ _ S S1) as S01.
    destruct (IH q T0 T1 S01 PO0) as (p2 & T2 & S2 & C2 & LE & VI & ND & ALL & SH). exists p2. split; [assumption|]. split; [assumption|]. split; [assumption|]. split; [lia|].
    split; [|split; [|split]].
    + intros ti ki vi [X|X].
      * injection X as <- <- <-. split; [assumption|]. split; [assumption|]. split; [assumption|]. split; [exists q; split; [assumption|lia]|]. exists v. assumption.
      * destruct (VI ti ki vi X) as (A & B & D & (qi & QI & QL) & (w & HW)). split; [assumption|]. split; [assumption|]. split; [assumption|]. split; [exists qi; split; [assumption|lia]|].
        apply (H1 ki w); [|assumption]. exact (posof_good t0 ki qi T0 QI).
    + cbn [visited map]. constructor; [|exact ND]. intros I. apply in_map_iff in I. destruct I as ([[ti ki] vi] & EK & I). cbn in EK. subst ki.
      destruct (VI ti k vi I) as (_ & _ & _ & (qi & QI & QL) & _). pose proof (posof_pos t0 k q qi T0 PO0 QI). lia.
    + intros k' q' PO' B HA. cbn [visited map]. destruct (Z.eq_dec q' q) as [->|NE].
      * left. cbn. eapply posof_key; eassumption.
      * right. apply (ALL k' q' PO'); [|intros ti ki vi I; apply (HA ti ki vi); right; assumption]. destruct (Z_lt_le_dec q q') as [|LT]; [lia|]. exfalso.
        destruct (HA t k v (or_introl eq_refl)) as (w & HW). destruct (has_pos t k' w T HW) as (q'' & PO''). pose proof (skel_pos t0 t k' q'' S PO'') as PX.
        pose proof (posof_pos t0 k' q' q'' T0 PO' PX). subst q''. exact (BE k' q' w PO'' ltac:(lia) HW).
    + intros k' v' G' HH. destruct (SH k' v' G' HH) as (w & HW). exact (H1 k' w G' HW).
Qed.
End NEXT.
