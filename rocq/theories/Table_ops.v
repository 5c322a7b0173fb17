(* The operations of ltable.c on tables satisfying the invariant. *)
Require Import ZArith List Bool Lia Permutation.
From Verif Require Import Base Base_facts Float_model Size_model Size_proofs Table_model Table_facts Table_hash Table_count.
Import ListNotations.
Open Scope Z_scope.

Lemma filter_upd : forall A (p : A -> bool) (l : list A) i x d, (i < length l)%nat ->
  (length (filter p (upd l i x)) + (if p (nth i l d) then 1 else 0) = length (filter p l) + (if p x then 1 else 0))%nat.
Proof.
  induction l as [|y l IH]; intros i x d H; [cbn in H; lia|]. destruct i as [|i]; cbn [upd nth filter].
  - destruct (p x); destruct (p y); cbn [length]; lia.
  - specialize (IH i x d ltac:(cbn in H; lia)). destruct (p y); cbn [length]; lia.
Qed.

Definition inarrb (n : Z) (k : key) : bool := match k with KI z => (1 <=? z) && (z <=? n) | _ => false end.
Lemma inarrb_iff : forall n k, inarrb n k = true <-> exists z, k = KI z /\ 1 <= z <= n.
Proof.
  intros n [z|f|z|z]; cbn [inarrb]; try (split; [discriminate|intros (z' & E & _); discriminate]).
  rewrite andb_true_iff, !Z.leb_le. split; [intros; exists z; auto|intros (z' & E & H); injection E as ->; assumption].
Qed.

Section OPS.
Variable V : Type.
Variable mainpos : Z -> key -> Z.
Notation table := (table V). Notation node := (node V).
Notation keyat := (keyat V). Notation nodeat := (nodeat V). Notation anext := (anext V). Notation inr := (inr V).
Notation arr := (arr V). Notation nodes := (nodes V). Notation lsize := (lsize V). Notation lastfree := (lastfree V). Notation sizearray := (sizearray V).
Notation nval := (nval V). Notation nkey := (nkey V). Notation nnext := (nnext V).
Notation luaH_get := (luaH_get V mainpos). Notation get := (get V mainpos). Notation getgeneric := (getgeneric V mainpos).
Notation newkey := (newkey V mainpos). Notation insert := (insert V mainpos). Notation setk := (setk V mainpos). Notation resize := (resize V mainpos).
Notation winv t cs := (winv V (mainpos (lsize t)) (nodes t) cs).

Record tinv (t : table) : Prop := {
  t_w : exists cs, winv t cs;
  t_len : Z.of_nat (length (nodes t)) = 2 ^ lsize t;
  t_ls : 0 <= lsize t <= MAXHBITS;
  t_arr : sizearray t <= MAXASIZE;
  t_disj : forall i k, inr (nodes t) i -> keyat (nodes t) i = Live k -> inarrb (sizearray t) k = false;
  t_free : match lastfree t with
           | None => nodes t = [blank V]
           | Some l => 0 <= l <= Z.of_nat (length (nodes t)) /\ forall i, l <= i < Z.of_nat (length (nodes t)) -> keyat (nodes t) i <> NoKey
           end }.

(* the value of k is v *)
Definition hhas (ns : list node) (k : key) (v : V) : Prop := exists i, inr ns i /\ keyat ns i = Live k /\ nval (nodeat ns i) = Some v.
Definition has (t : table) (k : key) (v : V) : Prop :=
  match k with
  | KI z => if inarrb (sizearray t) k then nth (Z.to_nat (z - 1)) (arr t) None = Some v else hhas (nodes t) k v
  | _ => hhas (nodes t) k v
  end.
Lemma has_hash : forall t k v, inarrb (sizearray t) k = false -> (has t k v <-> hhas (nodes t) k v).
Proof. intros t k v H. unfold has. destruct k; try tauto. rewrite H. tauto. Qed.

(* where a key is *)
Inductive place (t : table) (k : key) : cell -> Prop :=
| PArr : forall z, k = KI z -> 1 <= z <= sizearray t -> place t k (CArr (z - 1))
| PNode : forall i, inarrb (sizearray t) k = false -> inr (nodes t) i -> keyat (nodes t) i = Live k -> place t k (CNode i)
| PNil : inarrb (sizearray t) k = false -> notlive V (nodes t) k -> place t k CNil.

Lemma getgeneric_ok : forall t k, tinv t -> good k -> inarrb (sizearray t) k = false -> exists c, getgeneric t k = Ok c /\ place t k c.
Proof.
  intros t k T G NA. destruct (t_w t T) as (cs & W). unfold Table_model.getgeneric.
  destruct (search_from V (mainpos (lsize t)) (nodes t) cs (is_live k) k W eq_refl) as (r & E & I & O). rewrite E. cbn [bind].
  destruct (find (fun j => is_live k (keyat (nodes t) j)) r) as [i|] eqn:F.
  - exists (CNode i). split; [reflexivity|]. apply find_some in F. destruct F as [J F].
    assert (R : inr (nodes t) i).
    { destruct (in_dec Z.eq_dec (mainpos (lsize t) k) (concat cs)) as [M|M].
      - destruct (I M) as (c & l & C & EC & _). apply (w_range _ _ _ _ W). apply in_concat. exists c. split; [assumption|]. rewrite EC. apply in_app_iff. auto.
      - rewrite (O M) in J. destruct J. }
    apply PNode; auto. destruct (keyat (nodes t) i) as [|k'|k'] eqn:K; try discriminate. cbn in F.
    destruct (w_live _ _ _ _ W i k' R K) as [G' _]. apply key_eqb_eq in F; auto. congruence.
  - exists CNil. split; [reflexivity|]. apply PNil; [assumption|]. apply (search_none V (mainpos (lsize t)) (nodes t) cs k W G). rewrite E. reflexivity.
Qed.
Lemma getint_ok : forall t z, tinv t -> is_s64 z -> exists c, luaH_getint V mainpos t z = Ok c /\ place t (KI z) c.
Proof.
  intros t z T S. unfold luaH_getint.
  assert (E : (u64 (u64 z - 1) <? sizearray t) = inarrb (sizearray t) (KI z)).
  { cbn [inarrb]. pose proof (t_arr t T) as TA. unfold MAXASIZE, MAXABITS in TA. change (2 ^ 31) with 2147483648 in TA. unfold is_s64 in S.
    assert (0 <= sizearray t) by (unfold Table_model.sizearray; lia).
    destruct (Z.le_gt_cases 1 z) as [H1|H1].
    - rewrite (u64_nonneg z) by lia. rewrite u64_nonneg by lia. destruct (Z.leb_spec 1 z); [|lia]. cbn [andb]. destruct (Z.ltb_spec (z - 1) (sizearray t)); destruct (Z.leb_spec z (sizearray t)); lia.
    - destruct (Z.leb_spec 1 z); [lia|]. cbn [andb]. apply Z.ltb_ge. destruct (Z.eq_dec z 0) as [->|NZ].
      + change (u64 (u64 0 - 1)) with 18446744073709551615. lia.
      + rewrite (u64_neg z) by lia. rewrite u64_id by (unfold is_u64; unfold_consts; lia). unfold_consts. lia. }
  rewrite E. destruct (inarrb (sizearray t) (KI z)) eqn:NA.
  - exists (CArr (z - 1)). split; [reflexivity|]. cbn [inarrb] in NA. apply andb_prop in NA. rewrite !Z.leb_le in NA. apply (PArr t (KI z) z); auto.
  - apply getgeneric_ok; auto.
Qed.
Lemma luaH_get_ok : forall t k, tinv t -> good k -> exists c, luaH_get t (Some k) = Ok c /\ place t k c.
Proof.
  intros t k T G. unfold Table_model.luaH_get. destruct k as [z|f|z|z]; try (apply getgeneric_ok; auto).
  - apply getint_ok; auto.
  - destruct G as (Vf & F & N). rewrite F. cbn [bind]. apply getgeneric_ok; auto. split; auto.
Qed.
Lemma place_fun : forall t k c c', tinv t -> place t k c -> place t k c' -> c = c'.
Proof.
  intros t k c c' T A B. destruct (t_w t T) as (cs & W). destruct A as [z E R|i NA R K|NA NL]; destruct B as [z' E' R'|i' NA' R' K'|NA' NL'].
  - congruence.
  - subst k. cbn in NA'. destruct (Z.leb_spec 1 z); destruct (Z.leb_spec z (sizearray t)); cbn in NA'; discriminate || lia.
  - subst k. cbn in NA'. destruct (Z.leb_spec 1 z); destruct (Z.leb_spec z (sizearray t)); cbn in NA'; discriminate || lia.
  - subst k. cbn in NA. destruct (Z.leb_spec 1 z'); destruct (Z.leb_spec z' (sizearray t)); cbn in NA; discriminate || lia.
  - f_equal. eapply live_unique; eassumption.
  - exfalso. exact (NL' i R K).
  - subst k. cbn in NA. destruct (Z.leb_spec 1 z'); destruct (Z.leb_spec z' (sizearray t)); cbn in NA; discriminate || lia.
  - exfalso. exact (NL i' R' K').
  - reflexivity.
Qed.
Lemma place_get : forall t k c, tinv t -> good k -> place t k c -> luaH_get t (Some k) = Ok c.
Proof. intros t k c T G P. destruct (luaH_get_ok t k T G) as (c' & E & P'). rewrite E. f_equal. eapply place_fun; eassumption. Qed.
Lemma place_has : forall t k c v, tinv t -> place t k c -> (readcell V t c = Some v <-> has t k v).
Proof.
  intros t k c v T P. destruct P as [z E R|i NA R K|NA NL].
  - subst k. unfold has. assert (inarrb (sizearray t) (KI z) = true) by (apply inarrb_iff; exists z; auto). rewrite H. cbn [readcell]. tauto.
  - rewrite has_hash by assumption. cbn [readcell]. fold (nodeat (nodes t) i). split.
    + intros E. exists i. auto.
    + intros (j & RJ & KJ & VJ). destruct (t_w t T) as (cs & W). rewrite (live_unique _ _ _ _ k i j W R RJ K KJ). assumption.
  - rewrite has_hash by assumption. cbn [readcell]. split; [discriminate|]. intros (j & RJ & KJ & _). exfalso. exact (NL j RJ KJ).
Qed.
Lemma get_has : forall t k, tinv t -> good k -> exists o, get t (Some k) = Ok o /\ forall v, o = Some v <-> has t k v.
Proof.
  intros t k T G. unfold Table_model.get. destruct (luaH_get_ok t k T G) as (c & E & P). rewrite E. cbn [bind]. eexists. split; [reflexivity|].
  intros v. apply place_has; assumption.
Qed.

(* ---- storing a value ---- *)
Definition isfreeb (n : node) : bool := match nkey n with NoKey => true | _ => false end.
Definition nfree (t : table) : Z := match lastfree t with None => 0 | Some _ => Z.of_nat (length (filter isfreeb (nodes t))) end.

Lemma key_dec : forall a b : key, good a -> good b -> a = b \/ a <> b.
Proof. intros a b A B. destruct (key_eqb a b) eqn:E; [left; apply key_eqb_eq; auto|right; intros ->; rewrite key_eqb_refl in E by assumption; discriminate]. Qed.


Lemma write_spec : forall t k c v, tinv t -> good k -> place t k c -> c <> CNil ->
  tinv (writecell V t c v) /\ sizearray (writecell V t c v) = sizearray t /\ nfree (writecell V t c v) = nfree t /\
  (forall k' c', place t k' c' -> place (writecell V t c v) k' c') /\
  (forall v', has (writecell V t c v) k v' <-> v = Some v') /\
  (forall k' v', good k' -> k' <> k -> (has (writecell V t c v) k' v' <-> has t k' v')).
Proof.
  intros t k c v T G P NC. destruct P as [z E R|i NA R K|NA NL]; [| |congruence].
  - (* array *)
    subst k. cbn [writecell]. set (t' := mkTable V _ _ _ _).
    assert (SZ : sizearray t' = sizearray t) by (unfold t', Table_model.sizearray; cbn; rewrite upd_length; reflexivity).
    assert (T' : tinv t').
    { destruct T. constructor; cbn; auto; rewrite ?SZ; auto. }
    split; [assumption|]. split; [assumption|]. split; [reflexivity|]. split; [|split].
    + intros k' c' P'. destruct P' as [z' E' R'|i' NA' R' K'|NA' NL'].
      * apply PArr; [assumption|rewrite SZ; assumption].
      * apply PNode; auto. rewrite SZ. assumption.
      * apply PNil; auto. rewrite SZ. assumption.
    + intros v'. unfold has. rewrite SZ. assert (IA : inarrb (sizearray t) (KI z) = true) by (apply inarrb_iff; exists z; auto). rewrite IA. unfold t'. cbn.
      rewrite upd_nth_same by (unfold Table_model.sizearray in R; lia). tauto.
    + intros k' v' G' N. unfold has. rewrite SZ. destruct k' as [z'|f|z'|z']; try (cbn; tauto). destruct (inarrb (sizearray t) (KI z')) eqn:IA; [|cbn; tauto].
      apply inarrb_iff in IA. destruct IA as (z2 & E2 & R2). injection E2 as <-. unfold t'. cbn. rewrite upd_nth_other; [tauto|].
      intros H. apply N. f_equal. lia.
  - (* node *)
    cbn [writecell]. set (n := nth (Z.to_nat i) (nodes t) (blank V)). set (t' := mkTable V _ _ _ _).
    assert (NS : nodes t' = setnode V (nodes t) i (mkNode V (nkey n) v (nnext n))) by reflexivity.
    assert (KE : forall j, inr (nodes t) j -> keyat (nodes t') j = keyat (nodes t) j).
    { intros j J. rewrite NS. unfold Table_facts.keyat. destruct (Z.eq_dec i j) as [<-|N].
      - rewrite nodeat_same by assumption. reflexivity.
      - rewrite nodeat_other by (unfold Table_facts.inr in *; lia). reflexivity. }
    assert (LEN : length (nodes t') = length (nodes t)) by (rewrite NS; apply setnode_length).
    assert (RR : forall j, inr (nodes t') j <-> inr (nodes t) j) by (intros j; unfold Table_facts.inr; rewrite LEN; tauto).
    assert (T' : tinv t').
    { destruct T as [(cs & W) TL TS TA TD TF]. constructor.
      - exists cs. unfold t'. cbn. apply (winv_value V (mainpos (lsize t)) (nodes t) cs i v W R).
        + right. exists k. assumption.
        + intros X. rewrite X in K. discriminate.
      - rewrite LEN. assumption.
      - assumption.
      - assumption.
      - intros j k' J KJ. apply RR in J. rewrite KE in KJ by assumption. apply (TD j); assumption.
      - unfold t'; cbn -[Table_model.setnode]. destruct (lastfree t) as [l|].
        + rewrite setnode_length. destruct TF as [A B]. split; [assumption|]. intros j J. specialize (KE j ltac:(unfold Table_facts.inr; destruct A; lia)). unfold t' in KE. cbn -[Table_model.setnode] in KE. rewrite KE. apply B. assumption.
        + exfalso. rewrite TF in K, R. unfold Table_facts.inr in R. cbn in R. assert (i = 0) by lia. subst i. cbn in K. discriminate. }
    split; [assumption|]. split; [reflexivity|]. split; [|split; [|split]].
    + unfold nfree, t'. cbn -[Table_model.setnode]. destruct (lastfree t); [|reflexivity]. unfold setnode.
      pose proof (filter_upd _ isfreeb (nodes t) (Z.to_nat i) (mkNode V (nkey n) v (nnext n)) (blank V) ltac:(unfold Table_facts.inr in R; lia)) as F.
      fold n in F. replace (isfreeb (mkNode V (nkey n) v (nnext n))) with (isfreeb n) in F by reflexivity. lia.
    + intros k' c' P'. destruct P' as [z' E' R'|i' NA' R' K'|NA' NL'].
      * apply PArr; assumption.
      * apply PNode; auto; [apply RR; assumption|rewrite KE; assumption].
      * apply PNil; auto. intros j J. apply RR in J. rewrite KE by assumption. apply NL'. assumption.
    + intros v'. rewrite has_hash by assumption. split.
      * intros (j & RJ & KJ & VJ). apply RR in RJ. rewrite KE in KJ by assumption. destruct (t_w t T) as (cs & W). assert (i = j) by (eapply live_unique; eassumption). subst j.
        rewrite NS in VJ. rewrite nodeat_same in VJ by assumption. exact VJ.
      * intros ->. exists i. split; [apply RR; assumption|]. split; [rewrite KE; assumption|]. rewrite NS. rewrite nodeat_same by assumption. reflexivity.
    + intros k' v' G' N. unfold has.
      assert (HH : hhas (nodes t') k' v' <-> hhas (nodes t) k' v').
      { split; intros (j & RJ & KJ & VJ); exists j.
        - apply RR in RJ. rewrite KE in KJ by assumption. split; [assumption|]. split; [assumption|]. assert (i <> j) by congruence.
          rewrite NS in VJ. rewrite nodeat_other in VJ by (unfold Table_facts.inr in *; lia). assumption.
        - split; [apply RR; assumption|]. rewrite KE by assumption. split; [assumption|]. assert (i <> j) by congruence.
          rewrite NS. rewrite nodeat_other by (unfold Table_facts.inr in *; lia). assumption. }
      destruct k'; try assumption. destruct (inarrb (sizearray t) (KI i0)) eqn:IA.
      * change (sizearray t') with (sizearray t). rewrite IA. reflexivity.
      * change (sizearray t') with (sizearray t). rewrite IA. assumption.
Qed.
End OPS.
