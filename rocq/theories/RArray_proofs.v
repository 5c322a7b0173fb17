Require Import ZArith List Bool Lia.
From Verif Require Import Base Base_facts RArray_model RArray_spec.
Import ListNotations.
Open Scope Z_scope.

Section Proofs.
Variable V : Type.
Variable zero : V.
Notation heap := (heap V).
Notation astate := (astate V).

Definition root_ok (H : heap) (b : nat) (r : list V) : Prop :=
  exists c, nth_error (blocks V H) b = Some (Some c) /\ (length r <= length c)%nat /\
    forall i, (i < length r)%nat -> nth_error c i = Some (nth_error r i).

Record hok (H : heap) (A : astate) (rb : list nat) (t : rarr) (d : hnd) : Prop := {
  k_blk : nth_error rb (hroot d) = Some (blk t);
  k_off : boff t = hoff d;
  k_offpos : 0 <= hoff d;
  k_len : alen t = hn d + 1;
  k_pos : 0 <= hn d;
  k_in : hoff d + hn d + 1 <= Z.of_nat (length (nth (hroot d) (roots V A) []));
  k_fix : is_fixed t = match hkind d with Dynamic => false | _ => true end;
  k_slice : is_slice t = match hkind d with Slice => true | _ => false end;
  k_own : hkind d <> Slice -> hoff d = 0 /\
    hn d + 1 = Z.of_nat (length (nth (hroot d) (roots V A) [])) /\
    (exists c, nth_error (blocks V H) (blk t) = Some (Some c) /\ asize t = Z.of_nat (length c)) /\
    asize t < two32 /\ alen t <= asize t;
  k_kind : match hkind d with
           | Dynamic => exists k, 0 <= k /\ asize t = 3 + 10 * k
           | Fixed cap => asize t = cap + 1 /\ cap < two31
           | Slice => hn d < two31 /\ asize t = alen t
           end }.

Record Rel (H : heap) (A : astate) (rb : list nat) : Prop := {
  R_len : length (arrs V H) = length (hnds V A);
  R_rb : length rb = length (roots V A);
  R_nd : NoDup rb;
  R_root : forall k r, nth_error (roots V A) k = Some r -> exists b, nth_error rb k = Some b /\ root_ok H b r;
  R_h : forall h t d, nth_error (arrs V H) h = Some t -> nth_error (hnds V A) h = Some d -> hok H A rb t d;
  R_uniq : forall h h' d d', nth_error (hnds V A) h = Some d -> nth_error (hnds V A) h' = Some d' ->
    hkind d <> Slice -> hkind d' <> Slice -> hroot d = hroot d' -> h = h';
  R_dyn : forall h h' d d', nth_error (hnds V A) h = Some d -> nth_error (hnds V A) h' = Some d' ->
    hkind d = Dynamic -> hroot d = hroot d' -> h = h' }.

Lemma nth_error_nil' : forall (A : Type) n (x : A), nth_error [] n = Some x -> False.
Proof. intros A [|n] x E; discriminate. Qed.

Lemma Rel_empty : Rel (empty_heap V) (empty_state V) [].
Proof.
  constructor; simpl; auto; try constructor; intros; exfalso; eapply nth_error_nil'; eauto.
Qed.

Lemma nth_error_lt : forall A (l : list A) n x, nth_error l n = Some x -> (n < length l)%nat.
Proof. intros. apply nth_error_Some. congruence. Qed.

Lemma nth_error_ex : forall A (l : list A) n, (n < length l)%nat -> exists x, nth_error l n = Some x.
Proof. intros A l n H. apply nth_error_Some in H. destruct (nth_error l n); [eauto|congruence]. Qed.

Lemma nth_error_nth_d : forall A (l : list A) n x d, nth_error l n = Some x -> nth n l d = x.
Proof. intros. apply nth_error_nth. assumption. Qed.

(* the root of a handle *)
Lemma h_root : forall H A rb t d, hok H A rb t d -> length rb = length (roots V A) ->
  exists r, nth_error (roots V A) (hroot d) = Some r /\ nth (hroot d) (roots V A) [] = r.
Proof.
  intros H A rb t d K E. pose proof (nth_error_lt _ _ _ _ (k_blk _ _ _ _ _ K)) as L. rewrite E in L.
  destruct (nth_error_ex _ _ _ L) as [r Hr]. exists r. split; [assumption|]. apply nth_error_nth_d. assumption.
Qed.

Lemma store_in : forall H b r i v, root_ok H b r -> 0 <= i < Z.of_nat (length r) ->
  exists c, nth_error (blocks V H) b = Some (Some c) /\
  store V H b i v = Ok (mkHeap V (upd (blocks V H) b (Some (upd c (Z.to_nat i) (Some v)))) (arrs V H)) /\
  root_ok (mkHeap V (upd (blocks V H) b (Some (upd c (Z.to_nat i) (Some v)))) (arrs V H)) b (upd r (Z.to_nat i) v).
Proof.
  intros H b r i v (c & Ec & L & N) Hi. exists c. split; [assumption|]. split.
  - unfold store. destruct (Z.ltb_spec i 0); [lia|]. rewrite Ec.
    destruct (Z.leb_spec (Z.of_nat (length c)) i); [lia|]. reflexivity.
  - exists (upd c (Z.to_nat i) (Some v)). cbn [blocks]. split.
    + apply upd_nth_error_same. eapply nth_error_lt; eauto.
    + rewrite !upd_length. split; [assumption|]. intros j Hj.
      destruct (Nat.eq_dec (Z.to_nat i) j).
      * subst j. rewrite !upd_nth_error_same by lia. reflexivity.
      * rewrite !upd_nth_error_other by assumption. apply N. assumption.
Qed.

Lemma store_end : forall H b r v c, nth_error (blocks V H) b = Some (Some c) -> root_ok H b r ->
  (length r < length c)%nat ->
  store V H b (Z.of_nat (length r)) v = Ok (mkHeap V (upd (blocks V H) b (Some (upd c (length r) (Some v)))) (arrs V H)) /\
  root_ok (mkHeap V (upd (blocks V H) b (Some (upd c (length r) (Some v)))) (arrs V H)) b (r ++ [v]).
Proof.
  intros H b r v c Ec (c' & Ec' & L & N) Hc. rewrite Ec in Ec'. inversion Ec'; subst c'. split.
  - unfold store. destruct (Z.ltb_spec (Z.of_nat (length r)) 0); [lia|]. rewrite Ec.
    destruct (Z.leb_spec (Z.of_nat (length c)) (Z.of_nat (length r))); [lia|]. rewrite Nat2Z.id. reflexivity.
  - exists (upd c (length r) (Some v)). cbn [blocks]. split.
    + apply upd_nth_error_same. eapply nth_error_lt; eauto.
    + rewrite upd_length, app_length. simpl. split; [lia|]. intros j Hj.
      destruct (Nat.eq_dec (length r) j).
      * subst j. rewrite upd_nth_error_same by lia. rewrite nth_error_app2, Nat.sub_diag by lia. reflexivity.
      * rewrite upd_nth_error_other by assumption. rewrite nth_error_app1 by lia. apply N. lia.
Qed.

Lemma root_ok_other : forall H b b' r x a, b <> b' -> root_ok H b r ->
  root_ok (mkHeap V (upd (blocks V H) b' x) a) b r.
Proof.
  intros H b b' r x a Hb (c & Ec & L & N). exists c. cbn [blocks].
  rewrite upd_nth_error_other by congruence. auto.
Qed.

Lemma root_ok_ext : forall H H' b r, nth_error (blocks V H') b = nth_error (blocks V H) b ->
  root_ok H b r -> root_ok H' b r.
Proof. intros H H' b r E (c & Ec & K). exists c. rewrite E. auto. Qed.

Lemma root_ok_app : forall H b r x a, root_ok H b r ->
  root_ok (mkHeap V (blocks V H ++ x) a) b r.
Proof.
  intros H b r x a (c & Ec & L & N). exists c. cbn [blocks].
  rewrite nth_error_app1 by (eapply nth_error_lt; eauto). auto.
Qed.

Lemma NoDup_app_snoc : forall (A : Type) (l : list A) x, NoDup l -> ~ In x l -> NoDup (l ++ [x]).
Proof.
  intros A l x ND NI. rewrite NoDup_nth_error. intros i j Hi E. rewrite app_length in Hi. simpl in Hi.
  rewrite NoDup_nth_error in ND.
  assert (Hj : (j < length (l ++ [x]))%nat).
  { apply nth_error_Some. rewrite <- E. apply nth_error_Some. rewrite app_length. simpl. lia. }
  rewrite app_length in Hj. simpl in Hj.
  destruct (Nat.lt_ge_cases i (length l)); destruct (Nat.lt_ge_cases j (length l)).
  - rewrite !nth_error_app1 in E by assumption. apply ND; assumption.
  - rewrite nth_error_app1 in E by assumption. rewrite nth_error_app2 in E by assumption.
    replace (j - length l)%nat with O in E by lia. exfalso. apply NI. eapply nth_error_In; eauto.
  - rewrite nth_error_app2 in E by assumption. rewrite nth_error_app1 in E by assumption.
    replace (i - length l)%nat with O in E by lia. exfalso. apply NI. eapply nth_error_In. symmetry. exact E.
  - lia.
Qed.

Lemma rb_inj : forall (rb : list nat) i j b, NoDup rb -> nth_error rb i = Some b -> nth_error rb j = Some b -> i = j.
Proof.
  intros rb i j b ND Hi Hj. rewrite NoDup_nth_error in ND. apply ND; [eapply nth_error_lt; eauto|congruence].
Qed.

Lemma load_ok : forall H b r i, root_ok H b r -> 0 <= i < Z.of_nat (length r) ->
  exists v, nth_error r (Z.to_nat i) = Some v /\ load V H b i = Ok v.
Proof.
  intros H b r i (c & Ec & L & N) Hi. destruct (nth_error_ex _ r (Z.to_nat i) ltac:(lia)) as [v Hv].
  exists v. split; [assumption|]. unfold load. destruct (Z.ltb_spec i 0); [lia|]. rewrite Ec, N by lia.
  rewrite Hv. reflexivity.
Qed.

Lemma u32_small : forall i, 0 <= i < two32 -> u32 i = i.
Proof. intros. apply u32_id. unfold_consts. lia. Qed.
Lemma u32_neg : forall i, - two32 <= i < 0 -> u32 i = i + two32.
Proof.
  intros i Hi. unfold u32. symmetry. apply Z.mod_unique with (q := -1); unfold_consts; lia.
Qed.

Lemma alen_bound : forall H A rb t d, hok H A rb t d -> 1 <= alen t < two32 /\ alen t = hn d + 1.
Proof.
  intros H A rb t d K. pose proof (k_len _ _ _ _ _ K). pose proof (k_pos _ _ _ _ _ K).
  split; [|assumption]. pose proof (k_kind _ _ _ _ _ K) as X. destruct (hkind d) eqn:G.
  - destruct (k_own _ _ _ _ _ K ltac:(congruence)) as (_ & _ & _ & S & L). lia.
  - destruct (k_own _ _ _ _ _ K ltac:(congruence)) as (_ & _ & _ & S & L). lia.
  - unfold_consts. lia.
Qed.

Lemma get_ok : forall H A rb h t d i, Rel H A rb -> nth_error (arrs V H) h = Some t -> nth_error (hnds V A) h = Some d ->
  0 <= i <= hn d -> exists v, elem V A d i = Ok v /\ raviH_get_inline V H h i = Ok v.
Proof.
  intros H A rb h t d i R Et Ed Hi. pose proof (R_h _ _ _ R _ _ _ Et Ed) as K.
  destruct (alen_bound _ _ _ _ _ K) as [B L].
  destruct (h_root _ _ _ _ _ K (R_rb _ _ _ R)) as (r & Er & En).
  destruct (R_root _ _ _ R _ _ Er) as (b & Eb & RO).
  rewrite (k_blk _ _ _ _ _ K) in Eb. inversion Eb; subst b.
  pose proof (k_in _ _ _ _ _ K) as I. rewrite En in I. pose proof (k_offpos _ _ _ _ _ K).
  destruct (load_ok _ _ _ (hoff d + i) RO ltac:(lia)) as (v & Ev & El).
  exists v. unfold elem, raviH_get_inline. rewrite En, Ev, Et. split; [reflexivity|].
  rewrite (u32_small i) by lia. destruct (Z.ltb_spec i (alen t)); [|lia].
  rewrite (k_off _ _ _ _ _ K). assumption.
Qed.

Lemma get_out : forall H A rb h t d i, Rel H A rb -> nth_error (arrs V H) h = Some t -> nth_error (hnds V A) h = Some d ->
  hn d + 1 - two32 < i < two32 -> ~ (0 <= i <= hn d) -> raviH_get_inline V H h i = Err EBounds.
Proof.
  intros H A rb h t d i R Et Ed Hi Ho. pose proof (R_h _ _ _ R _ _ _ Et Ed) as K.
  destruct (alen_bound _ _ _ _ _ K) as [B L]. unfold raviH_get_inline. rewrite Et.
  destruct (Z.ltb_spec (u32 i) (alen t)); [|reflexivity]. exfalso.
  destruct (Z_lt_le_dec i 0); [rewrite u32_neg in * by lia|rewrite u32_small in * by lia]; lia.
Qed.

(* an update inside the storage keeps the relation *)
Lemma Rel_store : forall H A rb d h t i v c, Rel H A rb ->
  nth_error (arrs V H) h = Some t -> nth_error (hnds V A) h = Some d ->
  nth_error (blocks V H) (blk t) = Some (Some c) ->
  root_ok (mkHeap V (upd (blocks V H) (blk t) (Some (upd c (Z.to_nat i) (Some v)))) (arrs V H)) (blk t)
          (upd (nth (hroot d) (roots V A) []) (Z.to_nat i) v) ->
  Rel (mkHeap V (upd (blocks V H) (blk t) (Some (upd c (Z.to_nat i) (Some v)))) (arrs V H))
      (mkA V (upd (roots V A) (hroot d) (upd (nth (hroot d) (roots V A) []) (Z.to_nat i) v)) (hnds V A)) rb.
Proof.
  intros H A rb d h t i v c R Et Ed Ec RO. pose proof (R_h _ _ _ R _ _ _ Et Ed) as K.
  constructor; cbn [arrs hnds roots blocks].
  - apply R. - rewrite upd_length. apply R. - apply R.
  - intros k r E. destruct (Nat.eq_dec (hroot d) k).
    + subst k. rewrite upd_nth_error_same in E.
      2:{ rewrite <- (R_rb _ _ _ R). eapply nth_error_lt. apply (k_blk _ _ _ _ _ K). }
      inversion E; subst. exists (blk t). split; [apply (k_blk _ _ _ _ _ K)|assumption].
    + rewrite upd_nth_error_other in E by assumption. destruct (R_root _ _ _ R _ _ E) as (b & Eb & Rb).
      exists b. split; [assumption|]. apply root_ok_other; [|assumption].
      intros ->. apply n. eapply rb_inj; [apply R| |exact Eb]. apply (k_blk _ _ _ _ _ K).
  - intros h' t' d' Et' Ed'. pose proof (R_h _ _ _ R _ _ _ Et' Ed') as K'.
    assert (NL : forall k, length (nth k (upd (roots V A) (hroot d) (upd (nth (hroot d) (roots V A) []) (Z.to_nat i) v)) []) = length (nth k (roots V A) [])).
    { intros k. destruct (Nat.eq_dec (hroot d) k).
      - subst k. rewrite upd_nth_same, upd_length; [reflexivity|].
        rewrite <- (R_rb _ _ _ R). eapply nth_error_lt. apply (k_blk _ _ _ _ _ K).
      - rewrite upd_nth_other by assumption. reflexivity. }
    destruct K'. constructor; cbn [roots]; auto; try (rewrite NL; assumption).
    intros G. rewrite NL. destruct (k_own0 G) as (g1 & g2 & (c' & Ec' & g3) & g4).
    repeat split; try tauto. cbn [blocks].
    destruct (Nat.eq_dec (blk t) (blk t')) as [e|n].
    + rewrite <- e in *. rewrite Ec in Ec'. inversion Ec'; subst c'.
      exists (upd c (Z.to_nat i) (Some v)). rewrite upd_nth_error_same by (eapply nth_error_lt; eauto).
      rewrite upd_length. auto.
    + exists c'. rewrite upd_nth_error_other by congruence. auto.
  - apply R.
  - apply R.
Qed.

Lemma set_in : forall H A rb h t d i v, Rel H A rb -> nth_error (arrs V H) h = Some t -> nth_error (hnds V A) h = Some d ->
  0 <= i <= hn d -> exists H', raviH_set_inline V zero H h i v = Ok H' /\
  Rel H' (mkA V (upd (roots V A) (hroot d) (upd (nth (hroot d) (roots V A) []) (Z.to_nat (hoff d + i)) v)) (hnds V A)) rb.
Proof.
  intros H A rb h t d i v R Et Ed Hi. pose proof (R_h _ _ _ R _ _ _ Et Ed) as K.
  destruct (alen_bound _ _ _ _ _ K) as [B L].
  destruct (h_root _ _ _ _ _ K (R_rb _ _ _ R)) as (r & Er & En).
  destruct (R_root _ _ _ R _ _ Er) as (b & Eb & RO).
  rewrite (k_blk _ _ _ _ _ K) in Eb. inversion Eb; subst b.
  pose proof (k_in _ _ _ _ _ K) as I. rewrite En in I. pose proof (k_offpos _ _ _ _ _ K).
  destruct (store_in _ _ _ (hoff d + i) v RO ltac:(lia)) as (c & Ec & Es & RO').
  eexists. split.
  - unfold raviH_set_inline. rewrite Et. rewrite (u32_small i) by lia.
    destruct (Z.ltb_spec i (alen t)); [|lia]. rewrite (k_off _ _ _ _ _ K). exact Es.
  - eapply Rel_store; eauto. rewrite En. assumption.
Qed.

Lemma set_out : forall H A rb h t d i v, Rel H A rb -> nth_error (arrs V H) h = Some t -> nth_error (hnds V A) h = Some d ->
  hn d + 1 - two32 < i < two32 -> ~ (0 <= i <= hn d + 1) -> raviH_set_inline V zero H h i v = Err EBounds.
Proof.
  intros H A rb h t d i v R Et Ed Hi Ho. pose proof (R_h _ _ _ R _ _ _ Et Ed) as K.
  destruct (alen_bound _ _ _ _ _ K) as [B L]. unfold raviH_set_inline, raviH_set. rewrite Et.
  assert (E : alen t < u32 i < two32).
  { destruct (Z_lt_le_dec i 0); [rewrite u32_neg in * by lia|rewrite u32_small in * by lia]; lia. }
  destruct (Z.ltb_spec (u32 i) (alen t)); [lia|]. rewrite (u32_small (u32 i)) by lia.
  destruct (Z.ltb_spec (u32 i) (alen t)); [lia|]. destruct (Z.eqb_spec (u32 i) (alen t)); [lia|]. reflexivity.
Qed.

Lemma upd_upd : forall A (l : list A) n x y, upd (upd l n x) n y = upd l n y.
Proof. induction l; intros n x y; [reflexivity|]. destruct n; simpl; [reflexivity|]. f_equal. apply IHl. Qed.

Lemma upd_same : forall A (l : list A) n x, nth_error l n = Some x -> upd l n x = l.
Proof.
  induction l; intros n x E; [reflexivity|]. destruct n; simpl in *; [congruence|]. f_equal. apply IHl. assumption.
Qed.

(* appending: heap and relation after the length has been incremented and the new cell
   written at the end of the storage c of the (possibly moved) array *)
Lemma Rel_append : forall H A rb h d t t' c H0 r v, Rel H A rb ->
  nth_error (arrs V H) h = Some t -> nth_error (hnds V A) h = Some d -> hkind d <> Slice ->
  nth_error (roots V A) (hroot d) = Some r -> hkind d = Dynamic \/ blk t' = blk t ->
  alen t' = alen t + 1 -> boff t' = 0 -> is_fixed t' = is_fixed t -> is_slice t' = is_slice t ->
  asize t' = Z.of_nat (length c) -> alen t' <= asize t' -> asize t' < two32 ->
  match hkind d with
  | Dynamic => exists k, 0 <= k /\ asize t' = 3 + 10 * k
  | _ => asize t' = asize t
  end ->
  NoDup (upd rb (hroot d) (blk t')) ->
  nth_error (blocks V H0) (blk t') = Some (Some c) ->
  root_ok H0 (blk t') (r ++ [v]) ->
  (forall k b r', k <> hroot d -> nth_error rb k = Some b -> root_ok H b r' -> root_ok H0 b r') ->
  (forall b, In b rb -> b <> blk t -> nth_error (blocks V H0) b = nth_error (blocks V H) b) ->
  arrs V H0 = upd (arrs V H) h t' ->
  Rel H0 (mkA V (upd (roots V A) (hroot d) (r ++ [v])) (upd (hnds V A) h (mkHnd (hroot d) (hoff d) (hn d + 1) (hkind d))))
      (upd rb (hroot d) (blk t')).
Proof.
  intros H A rb h d t t' c H0 r v R Et Ed G Er Mv La Lb Lf Ls Lz Ll Lt Lk ND Ec RO Oth OthB Ea.
  pose proof (R_h _ _ _ R _ _ _ Et Ed) as K. destruct (alen_bound _ _ _ _ _ K) as [B L].
  pose proof (k_blk _ _ _ _ _ K) as Kb. assert (Hr := nth_error_lt _ _ _ _ Kb).
  assert (Hr' : (hroot d < length (roots V A))%nat) by (rewrite <- (R_rb _ _ _ R); assumption).
  assert (En : nth (hroot d) (roots V A) [] = r) by (apply nth_error_nth_d; assumption).
  destruct (k_own _ _ _ _ _ K G) as (g1 & g2 & _).
  assert (AUX : forall h' d', nth_error (upd (hnds V A) h (mkHnd (hroot d) (hoff d) (hn d + 1) (hkind d))) h' = Some d' ->
      exists d0, nth_error (hnds V A) h' = Some d0 /\ hkind d0 = hkind d' /\ hroot d0 = hroot d').
  { intros h' d' E. destruct (Nat.eq_dec h h').
    - subst h'. rewrite upd_nth_error_same in E by (eapply nth_error_lt; eauto). inversion E; subst. exists d. auto.
    - rewrite upd_nth_error_other in E by assumption. eauto. }
  constructor; cbn [arrs hnds roots blocks].
  - rewrite Ea, !upd_length. apply R.
  - rewrite !upd_length. apply R.
  - assumption.
  - intros k r' E. destruct (Nat.eq_dec (hroot d) k).
    + subst k. rewrite upd_nth_error_same in E by assumption. inversion E; subst r'.
      rewrite upd_nth_error_same by assumption. eauto.
    + rewrite upd_nth_error_other in E by assumption. rewrite upd_nth_error_other by assumption.
      destruct (R_root _ _ _ R _ _ E) as (b & Eb & Rb). exists b. split; [assumption|]. eapply Oth; eauto.
  - rewrite Ea. intros h' t1 d1 Et1 Ed1. destruct (Nat.eq_dec h h').
    + subst h'. rewrite upd_nth_error_same in Et1 by (eapply nth_error_lt; eauto).
      rewrite upd_nth_error_same in Ed1 by (eapply nth_error_lt; eauto).
      inversion Et1; inversion Ed1; subst t1 d1.
      assert (LEN : Z.of_nat (length (nth (hroot d) (upd (roots V A) (hroot d) (r ++ [v])) [])) = hn d + 2).
      { rewrite upd_nth_same by assumption. rewrite app_length. simpl. rewrite En in g2. lia. }
      constructor; cbn [hroot hoff hn hkind roots].
      * apply upd_nth_error_same. assumption.
      * lia. * lia. * lia. * pose proof (k_pos _ _ _ _ _ K). lia.
      * rewrite LEN. lia.
      * rewrite Lf. apply K.
      * rewrite Ls. apply K.
      * intros _. rewrite LEN. split; [assumption|]. split; [lia|]. split; [eauto|]. split; assumption.
      * pose proof (k_kind _ _ _ _ _ K) as X. destruct (hkind d); [assumption| |congruence].
        rewrite Lk. assumption.
    + rewrite upd_nth_error_other in Et1 by assumption. rewrite upd_nth_error_other in Ed1 by assumption.
      pose proof (R_h _ _ _ R _ _ _ Et1 Ed1) as K1.
      destruct (Nat.eq_dec (hroot d) (hroot d1)) as [Heq|Hne].
      * (* a slice of the array which does not move *)
        assert (Nd : hkind d <> Dynamic) by (intros X; apply n; eapply (R_dyn _ _ _ R); eauto).
        assert (Sd : hkind d1 = Slice).
        { destruct (hkind d1) eqn:X; auto; exfalso; apply n; eapply (R_uniq _ _ _ R); eauto; congruence. }
        destruct Mv as [Mv|Mv]; [congruence|].
        destruct K1. constructor; cbn [roots]; auto.
        -- rewrite <- Heq. rewrite upd_nth_error_same by assumption. rewrite <- Heq in k_blk0. rewrite Mv. congruence.
        -- rewrite <- Heq. rewrite upd_nth_same by assumption. rewrite app_length. simpl.
           rewrite <- Heq, En in k_in0. lia.
        -- congruence.
      * destruct K1. constructor; cbn [roots]; auto.
        -- rewrite upd_nth_error_other by assumption. assumption.
        -- rewrite upd_nth_other by assumption. assumption.
        -- intros G1. rewrite upd_nth_other by assumption. destruct (k_own0 G1) as (q1 & q2 & (c1 & Ec1 & q3) & q4).
           split; [assumption|]. split; [assumption|]. split; [|assumption].
           exists c1. rewrite OthB; [auto|eapply nth_error_In; eauto|].
           intros E. apply Hne. eapply rb_inj; [apply R|exact Kb|]. congruence.
  - intros h1 h2 d1 d2 E1 E2 G1 G2 Eq.
    destruct (AUX _ _ E1) as (x1 & X1 & Y1 & Z1). destruct (AUX _ _ E2) as (x2 & X2 & Y2 & Z2).
    eapply (R_uniq _ _ _ R); eauto; congruence.
  - intros h1 h2 d1 d2 E1 E2 G1 Eq.
    destruct (AUX _ _ E1) as (x1 & X1 & Y1 & Z1). destruct (AUX _ _ E2) as (x2 & X2 & Y2 & Z2).
    eapply (R_dyn _ _ _ R); eauto; congruence.
Qed.

Lemma root_cells : forall H b r c, root_ok H b r -> nth_error (blocks V H) b = Some (Some c) ->
  (length r <= length c)%nat /\ forall i, (i < length r)%nat -> nth_error c i = Some (nth_error r i).
Proof. intros H b r c (c' & E & L & N) E'. rewrite E in E'. inversion E'; subst. auto. Qed.

Lemma rb_range : forall H A rb b, Rel H A rb -> In b rb -> (b < length (blocks V H))%nat.
Proof.
  intros H A rb b R I. apply In_nth_error in I. destruct I as [k' Hk'].
  assert (Hk2 := nth_error_lt _ _ _ _ Hk'). rewrite (R_rb _ _ _ R) in Hk2.
  destruct (nth_error_ex _ _ _ Hk2) as [r' Hr'].
  destruct (R_root _ _ _ R _ _ Hr') as (b' & Hb' & (c' & Hc' & _)).
  rewrite Hk' in Hb'. inversion Hb'; subst b'. eapply nth_error_lt; eauto.
Qed.

Lemma set_append : forall H A rb h t d v, Rel H A rb -> nth_error (arrs V H) h = Some t -> nth_error (hnds V A) h = Some d ->
  room d = true -> exists H' rb', raviH_set_inline V zero H h (hn d + 1) v = Ok H' /\
  Rel H' (mkA V (upd (roots V A) (hroot d) (nth (hroot d) (roots V A) [] ++ [v]))
                (upd (hnds V A) h (mkHnd (hroot d) (hoff d) (hn d + 1) (hkind d)))) rb'.
Proof.
  intros H A rb h t d v R Et Ed HM. pose proof (R_h _ _ _ R _ _ _ Et Ed) as K.
  destruct (alen_bound _ _ _ _ _ K) as [B L].
  destruct (h_root _ _ _ _ _ K (R_rb _ _ _ R)) as (r & Er & En).
  destruct (R_root _ _ _ R _ _ Er) as (b & Eb & RO).
  rewrite (k_blk _ _ _ _ _ K) in Eb. inversion Eb; subst b. clear Eb.
  assert (G : hkind d <> Slice) by (unfold room in HM; destruct (hkind d); congruence).
  destruct (k_own _ _ _ _ _ K G) as (g1 & g2 & (c & Ec & g3) & g5 & g6).
  pose proof (k_kind _ _ _ _ _ K) as KK. pose proof (k_pos _ _ _ _ _ K) as KP.
  rewrite En in *. pose proof (k_off _ _ _ _ _ K) as Ko.
  unfold raviH_set_inline, raviH_set. rewrite Et. rewrite (u32_small (hn d + 1)) by (unfold_consts; lia).
  destruct (Z.ltb_spec (hn d + 1) (alen t)); [lia|].
  rewrite (u32_small (hn d + 1)) by (unfold_consts; lia).
  destruct (Z.ltb_spec (hn d + 1) (alen t)); [lia|]. destruct (Z.eqb_spec (hn d + 1) (alen t)); [|lia].
  destruct (Z.ltb_spec (hn d + 1) (asize t)).
  - (* room left *)
    set (t' := mkArr (alen t + 1) (asize t) (is_slice t) (is_fixed t) (is_alloc t) (blk t) (boff t) (parent t)).
    destruct (store_end (mkHeap V (blocks V H) (upd (arrs V H) h t')) (blk t) r v c) as [Es RO'].
    { exact Ec. } { eapply root_ok_ext; [|exact RO]. reflexivity. } { lia. }
    eexists _, _. split.
    + rewrite (u32_small (alen t + 1)) by (unfold_consts; lia). unfold set_arr. fold t'. rewrite Ko, g1, Z.add_0_l.
      replace (hn d + 1) with (Z.of_nat (length r)) by lia. exact Es.
    + eapply Rel_append with (h := h) (t := t) (c := upd c (length r) (Some v)) (rb := rb) (t' := t');
       cbn [alen asize is_fixed is_slice blk boff blocks arrs t']; eauto; try lia.
      * rewrite upd_length. assumption.
      * destruct (hkind d); auto.
      * rewrite upd_same by (apply (k_blk _ _ _ _ _ K)). apply R.
      * apply upd_nth_error_same. eapply nth_error_lt; eauto.
      * intros k' b r' Hk Hb Hr. apply (root_ok_other (mkHeap V (blocks V H) (upd (arrs V H) h t'))).
        -- intros ->. apply Hk. eapply rb_inj; [apply R|exact Hb|]. apply (k_blk _ _ _ _ _ K).
        -- exact Hr.
      * intros b _ Hb. apply upd_nth_error_other. congruence.
  - (* the array moves to a larger block *)
    assert (Dy : hkind d = Dynamic).
    { unfold room in HM. destruct (hkind d) as [|cap|]; [reflexivity| |congruence].
      apply Z.ltb_lt in HM. lia. }
    rewrite Dy in KK. destruct KK as (k & k0 & g4). unfold room in HM. rewrite Dy in HM.
    apply Z.ltb_lt in HM. unfold MAXN in HM.
    assert (Fx : is_fixed t = false) by (rewrite (k_fix _ _ _ _ _ K), Dy; reflexivity).
    assert (Sl : is_slice t = false) by (rewrite (k_slice _ _ _ _ _ K), Dy; reflexivity).
    assert (Hsz : asize t = hn d + 1) by lia.
    assert (Hnx : asize t + 10 < two32) by (unfold_consts; lia).
    unfold ravi_resize_array. rewrite Fx, Sl. cbn [orb].
    destruct (Z.ltb_spec 0 (asize t + 10)); [|lia].
    rewrite (u32_small (asize t + 10)) by lia. rewrite Z.eqb_refl. cbn [negb].
    destruct (Z.leb_spec (asize t + 10) (asize t)); [lia|]. rewrite Ec.
    replace (asize t + 10 - asize t) with 10 by lia.
    destruct (Z.ltb_spec (asize t + 10) (alen t + 10)); [lia|]. cbn [andb bind].
    set (cells := firstn (Z.to_nat (asize t)) c ++ repeat None (Z.to_nat 10)).
    set (cells' := firstn (Z.to_nat (alen t)) cells ++ repeat (Some zero) (Z.to_nat 10) ++ skipn (Z.to_nat (alen t + 10)) cells).
    set (bl := if is_alloc t then upd (blocks V H) (blk t) None else blocks V H).
    assert (Lbl : length bl = length (blocks V H)) by (unfold bl; destruct (is_alloc t); [apply upd_length|reflexivity]).
    assert (Lc : length cells = (length c + 10)%nat).
    { unfold cells. rewrite app_length, firstn_length, repeat_length. lia. }
    assert (Lc' : length cells' = (length c + 10)%nat).
    { unfold cells'. rewrite !app_length, firstn_length, repeat_length, skipn_length. lia. }
    destruct (root_cells _ _ _ _ RO Ec) as [RL RN].
    assert (Nc : forall i, (i < length r)%nat -> nth_error cells' i = nth_error c i).
    { intros i Hi. unfold cells'. rewrite nth_error_app1 by (rewrite firstn_length; lia).
      unfold cells. rewrite firstn_app. rewrite firstn_firstn.
      rewrite nth_error_app1 by (rewrite firstn_length; lia).
      rewrite <- (firstn_skipn (Init.Nat.min (Z.to_nat (alen t)) (Z.to_nat (asize t))) c) at 2.
      rewrite nth_error_app1 by (rewrite firstn_length; lia). reflexivity. }
    set (t2 := mkArr (alen t + 1) (asize t + 10) false false true (length bl) 0 (parent t)).
    assert (RO1 : root_ok (mkHeap V (bl ++ [Some cells']) (upd (arrs V H) h t2)) (length bl) r).
    { exists cells'. cbn [blocks]. rewrite nth_error_app2, Nat.sub_diag by lia. split; [reflexivity|].
      split; [lia|]. intros i Hi. rewrite Nc by assumption. apply RN. assumption. }
    destruct (store_end (mkHeap V (bl ++ [Some cells']) (upd (arrs V H) h t2)) (length bl) r v cells') as [Es RO'].
    { cbn [blocks]. rewrite nth_error_app2, Nat.sub_diag by lia. reflexivity. } { assumption. } { lia. }
    assert (Frb : ~ In (length bl) rb).
    { intros I. apply (rb_range _ _ _ _ R) in I. lia. }
    eexists _, _. split.
    + unfold set_arr. cbn [blk boff alen asize is_slice is_fixed is_alloc parent blocks arrs].
      rewrite (u32_small (alen t + 1)) by (unfold_consts; lia).
      replace (0 + (hn d + 1)) with (Z.of_nat (length r)) by lia.
      rewrite upd_upd. fold t2. exact Es.
    + eapply Rel_append with (H := H) (h := h) (t := t) (t' := t2) (c := upd cells' (length r) (Some v)) (rb := rb);
       cbn [alen asize is_fixed is_slice blk boff blocks arrs t2]; eauto; try lia; try congruence.
      * rewrite upd_length, Lc'. lia.
      * rewrite Dy. exists (k + 1). lia.
      * rewrite NoDup_nth_error. rewrite upd_length. intros i j Hi Hij.
        pose proof (R_nd _ _ _ R) as ND. rewrite NoDup_nth_error in ND.
        destruct (Nat.eq_dec (hroot d) i); destruct (Nat.eq_dec (hroot d) j); try congruence.
        -- subst i. rewrite upd_nth_error_same in Hij by assumption. rewrite upd_nth_error_other in Hij by assumption.
           exfalso. apply Frb. eapply nth_error_In. symmetry. exact Hij.
        -- subst j. rewrite upd_nth_error_other in Hij by assumption.
           rewrite upd_nth_error_same in Hij by (eapply nth_error_lt; apply (k_blk _ _ _ _ _ K)).
           exfalso. apply Frb. eapply nth_error_In. exact Hij.
        -- rewrite !upd_nth_error_other in Hij by assumption. apply ND; assumption.
      * rewrite upd_nth_error_same; [reflexivity|]. rewrite app_length. simpl. lia.
      * intros k' b r' Hk Hb Hr. destruct Hr as (c' & Ec' & X). exists c'. cbn [blocks]. split; [|assumption].
        assert (b <> length bl). { intros ->. apply Frb. eapply nth_error_In; eauto. }
        rewrite upd_nth_error_other by congruence. rewrite nth_error_app1 by (rewrite Lbl; eapply nth_error_lt; eauto).
        unfold bl. destruct (is_alloc t); [|assumption]. rewrite upd_nth_error_other; [assumption|].
        intros E. apply Hk. eapply rb_inj; [apply R|exact Hb|]. rewrite <- E. apply (k_blk _ _ _ _ _ K).
      * intros b Ib Hb. assert (b <> length bl) by (intros ->; auto).
        rewrite upd_nth_error_other by congruence.
        pose proof (rb_range _ _ _ _ R Ib).
        rewrite nth_error_app1 by lia. unfold bl. destruct (is_alloc t); [|reflexivity].
        apply upd_nth_error_other. congruence.
Qed.

Lemma set_full : forall H A rb h t d v, Rel H A rb -> nth_error (arrs V H) h = Some t -> nth_error (hnds V A) h = Some d ->
  room d = false -> hn d + 1 < two32 -> raviH_set_inline V zero H h (hn d + 1) v = Err EResize.
Proof.
  intros H A rb h t d v R Et Ed HM HB. pose proof (R_h _ _ _ R _ _ _ Et Ed) as K.
  destruct (alen_bound _ _ _ _ _ K) as [B L]. pose proof (k_kind _ _ _ _ _ K) as KK.
  pose proof (k_pos _ _ _ _ _ K) as KP. pose proof (k_fix _ _ _ _ _ K) as KF. pose proof (k_slice _ _ _ _ _ K) as KS.
  unfold raviH_set_inline, raviH_set. rewrite Et. rewrite (u32_small (hn d + 1)) by lia.
  destruct (Z.ltb_spec (hn d + 1) (alen t)); [lia|].
  rewrite (u32_small (hn d + 1)) by lia.
  destruct (Z.ltb_spec (hn d + 1) (alen t)); [lia|]. destruct (Z.eqb_spec (hn d + 1) (alen t)); [|lia].
  unfold room in HM. destruct (hkind d) eqn:Kd.
  - destruct (k_own _ _ _ _ _ K ltac:(congruence)) as (g1 & g2 & g3 & g5 & g6). destruct KK as (k & k0 & g4).
    apply Z.ltb_ge in HM. unfold MAXN in HM.
    destruct (Z.ltb_spec (hn d + 1) (asize t)); [unfold_consts; lia|].
    unfold ravi_resize_array. rewrite KF, KS. cbn [orb].
    destruct (Z.ltb_spec 0 (asize t + 10)); [|lia].
    assert (U : u32 (asize t + 10) <> asize t + 10).
    { pose proof (u32_range (asize t + 10)). unfold_consts. lia. }
    destruct (Z.eqb_spec (u32 (asize t + 10)) (asize t + 10)); [congruence|]. cbn [negb].
    destruct (Z.leb_spec 0 (asize t)); [reflexivity|lia].
  - destruct (k_own _ _ _ _ _ K ltac:(congruence)) as (g1 & g2 & g3 & g5 & g6). apply Z.ltb_ge in HM.
    destruct (Z.ltb_spec (hn d + 1) (asize t)); [lia|].
    unfold ravi_resize_array. rewrite KF. reflexivity.
  - destruct (Z.ltb_spec (hn d + 1) (asize t)); [lia|].
    unfold ravi_resize_array. rewrite KF. reflexivity.
Qed.

(* adding a root and a handle *)
Lemma Rel_new : forall H A rb H0 r t d, Rel H A rb ->
  (forall b, In b rb -> nth_error (blocks V H0) b = nth_error (blocks V H) b) ->
  arrs V H0 = arrs V H ++ [t] -> ~ In (blk t) rb -> root_ok H0 (blk t) r ->
  hroot d = length (roots V A) -> boff t = 0 -> hoff d = 0 -> alen t = hn d + 1 -> 0 <= hn d ->
  hn d + 1 = Z.of_nat (length r) -> hkind d <> Slice ->
  is_fixed t = match hkind d with Dynamic => false | _ => true end -> is_slice t = false ->
  (exists c, nth_error (blocks V H0) (blk t) = Some (Some c) /\ asize t = Z.of_nat (length c)) ->
  asize t < two32 -> alen t <= asize t ->
  match hkind d with
  | Dynamic => exists k, 0 <= k /\ asize t = 3 + 10 * k
  | Fixed cap => asize t = cap + 1 /\ cap < two31
  | Slice => hn d < two31 /\ asize t = alen t
  end ->
  Rel H0 (mkA V (roots V A ++ [r]) (hnds V A ++ [d])) (rb ++ [blk t]).
Proof.
  intros H A rb H0 r t d R OB Ea NI RO Dr Tb Do Ta D0 Dl Dk Tf Ts Tc Tz Tl KK.
  assert (NTH : forall k, (k < length (roots V A))%nat -> nth k (roots V A ++ [r]) [] = nth k (roots V A) []).
  { intros. apply app_nth1. assumption. }
  assert (NTHE : nth (length (roots V A)) (roots V A ++ [r]) [] = r).
  { rewrite app_nth2, Nat.sub_diag by lia. reflexivity. }
  assert (HB : forall h d', nth_error (hnds V A) h = Some d' -> (hroot d' < length (roots V A))%nat).
  { intros h d' E. assert (Hh := nth_error_lt _ _ _ _ E). rewrite <- (R_len _ _ _ R) in Hh.
    destruct (nth_error_ex _ _ _ Hh) as [t' Et']. pose proof (R_h _ _ _ R _ _ _ Et' E) as K.
    rewrite <- (R_rb _ _ _ R). eapply nth_error_lt. apply (k_blk _ _ _ _ _ K). }
  assert (SP : forall h d', nth_error (hnds V A ++ [d]) h = Some d' ->
     nth_error (hnds V A) h = Some d' \/ (h = length (hnds V A) /\ d' = d)).
  { intros h d' E. destruct (Nat.lt_ge_cases h (length (hnds V A))).
    - rewrite nth_error_app1 in E by assumption. auto.
    - rewrite nth_error_app2 in E by assumption. destruct (h - length (hnds V A))%nat eqn:X.
      + inversion E. right. split; [lia|reflexivity].
      + exfalso. eapply nth_error_nil'. exact E. }
  constructor; cbn [arrs hnds roots].
  - rewrite Ea, !app_length, (R_len _ _ _ R). reflexivity.
  - rewrite !app_length, (R_rb _ _ _ R). reflexivity.
  - apply NoDup_app_snoc; [apply R|assumption].
  - intros k r' E. destruct (Nat.lt_ge_cases k (length (roots V A))).
    + rewrite nth_error_app1 in E by assumption. destruct (R_root _ _ _ R _ _ E) as (b & Eb & Rb).
      exists b. split; [rewrite nth_error_app1; [assumption|rewrite (R_rb _ _ _ R); assumption]|].
      eapply root_ok_ext; [|exact Rb]. apply OB. eapply nth_error_In; eauto.
    + rewrite nth_error_app2 in E by assumption. destruct (k - length (roots V A))%nat eqn:X.
      * inversion E; subst r'. exists (blk t). split; [|assumption].
        rewrite nth_error_app2 by (rewrite (R_rb _ _ _ R); lia). rewrite (R_rb _ _ _ R), X. reflexivity.
      * exfalso. eapply nth_error_nil'. exact E.
  - rewrite Ea. intros h t' d' Et' Ed'. destruct (SP _ _ Ed') as [Ed|[Eh Ed]].
    + assert (Hh := nth_error_lt _ _ _ _ Ed). rewrite nth_error_app1 in Et' by (rewrite (R_len _ _ _ R); assumption).
      pose proof (R_h _ _ _ R _ _ _ Et' Ed) as K. pose proof (HB _ _ Ed) as HR.
      destruct K. constructor; cbn [roots]; auto.
      * rewrite nth_error_app1 by (rewrite (R_rb _ _ _ R); assumption). assumption.
      * rewrite NTH by assumption. assumption.
      * intros G. rewrite NTH by assumption. destruct (k_own0 G) as (q1 & q2 & (c1 & Ec1 & q3) & q4).
        split; [assumption|]. split; [assumption|]. split; [|assumption]. exists c1.
        rewrite OB; [auto|]. eapply nth_error_In; eauto.
    + subst h d'. rewrite <- (R_len _ _ _ R) in Et'. rewrite nth_error_app2, Nat.sub_diag in Et' by lia.
      inversion Et'; subst t'. constructor; cbn [roots]; auto; try lia.
      * rewrite Dr, <- (R_rb _ _ _ R). rewrite nth_error_app2, Nat.sub_diag by lia. reflexivity.
      * rewrite Dr, NTHE. lia.
      * rewrite Ts. destruct (hkind d); congruence.
      * intros _. rewrite Dr, NTHE. repeat split; auto.
  - intros h h' d1 d2 E1 E2 G1 G2 Eq. destruct (SP _ _ E1) as [F1|[F1 D1]]; destruct (SP _ _ E2) as [F2|[F2 D2]].
    + eapply (R_uniq _ _ _ R); eauto.
    + subst d2. apply HB in F1. lia. + subst d1. apply HB in F2. lia. + congruence.
  - intros h h' d1 d2 E1 E2 G1 Eq. destruct (SP _ _ E1) as [F1|[F1 D1]]; destruct (SP _ _ E2) as [F2|[F2 D2]].
    + eapply (R_dyn _ _ _ R); eauto.
    + subst d2. apply HB in F1. lia. + subst d1. apply HB in F2. lia. + congruence.
Qed.

Lemma upd_snoc : forall A (l : list A) x y, upd (l ++ [x]) (length l) y = l ++ [y].
Proof. intros. apply upd_app_mid. Qed.

Lemma nth_snoc : forall A (l : list A) x, nth_error (l ++ [x]) (length l) = Some x.
Proof. intros. rewrite nth_error_app2, Nat.sub_diag by lia. reflexivity. Qed.

Definition new_arr (H : heap) : rarr := mkArr 1 3 false false false (length (blocks V H)) 0 None.

Lemma new_eq : forall H, raviH_new V zero H false =
  Ok (mkHeap V (blocks V H ++ [Some [Some zero; None; None]]) (arrs V H ++ [new_arr H]), length (arrs V H)).
Proof.
  intros H. unfold raviH_new, raviH_set_inline. cbn [arrs blocks]. rewrite nth_snoc.
  unfold raviH_set. cbn [arrs blocks]. rewrite nth_snoc. cbn [alen asize].
  change (u32 (u32 0)) with 0. change (u32 0) with 0. change (0 <? 0) with false. change (0 =? 0) with true.
  cbv iota. change (0 <? RAVI_ARRAY_MAX_INLINE) with true. cbv iota.
  unfold store, set_arr. cbn [arrs blocks blk boff is_slice is_fixed is_alloc parent alen asize].
  change (0 + 0) with 0. change (0 <? 0) with false. cbv iota. rewrite nth_snoc.
  change (Z.of_nat (length (repeat (@None V) 3)) <=? 0) with false. cbv iota. cbn [bind].
  rewrite !upd_snoc. reflexivity.
Qed.

Lemma fill_ok : forall k H b r v c, nth_error (blocks V H) b = Some (Some c) -> root_ok H b r ->
  (length r + k <= length c)%nat ->
  exists H' c', fill V H b 0 (Z.of_nat (length r)) k v = Ok H' /\ root_ok H' b (r ++ repeat v k) /\
    nth_error (blocks V H') b = Some (Some c') /\ length c' = length c /\ arrs V H' = arrs V H /\
    forall b', b' <> b -> nth_error (blocks V H') b' = nth_error (blocks V H) b'.
Proof.
  induction k; intros H b r v c Ec RO Hk; cbn [fill repeat].
  - exists H, c. rewrite app_nil_r. repeat split; auto.
  - destruct (store_end H b r v c Ec RO ltac:(lia)) as [Es RO'].
    rewrite Z.add_0_l, Es. cbn [bind].
    edestruct (IHk (mkHeap V (upd (blocks V H) b (Some (upd c (length r) (Some v)))) (arrs V H)) b (r ++ [v]) v (upd c (length r) (Some v))) as (H' & c' & E & R' & Ec' & Lc & Ea & Eo).
    { cbn [blocks]. apply upd_nth_error_same. eapply nth_error_lt; eauto. }
    { exact RO'. } { rewrite upd_length, app_length. simpl. lia. }
    exists H', c'. rewrite app_length in E. simpl in E.
    replace (Z.of_nat (length r + 1)) with (Z.of_nat (length r) + 1) in E by lia.
    split; [exact E|]. rewrite <- app_assoc in R'. split; [exact R'|]. split; [assumption|].
    split; [rewrite Lc, upd_length; reflexivity|]. split; [assumption|].
    intros b' Hb. rewrite Eo by assumption. cbn [blocks]. apply upd_nth_error_other. congruence.
Qed.

Lemma resize_new : forall (bs : list (option (block V))) ars h b n, nth_error bs b = Some (Some [Some zero; None; None]) -> 0 <= n < two31 ->
  let size := Z.max 12 n + 1 in
  let t' := mkArr 1 size false false true (length bs) 0 None in
  ravi_resize_array V zero (mkHeap V bs ars) h (mkArr 1 3 false false false b 0 None) (n + 1) false =
  Ok (mkHeap V (bs ++ [Some ([Some zero; None; None] ++ repeat None (Z.to_nat (size - 3)))]) (upd ars h t'), t', true).
Proof.
  intros bs ars h b n E Hn size t'. unfold ravi_resize_array.
  cbn [is_fixed is_slice orb asize blk alen is_alloc parent blocks arrs].
  change (3 + 10) with 13. change (u32 13) with 13. change (13 =? 13) with true. cbn [negb]. cbv iota.
  assert (SZ : (if n + 1 <? 13 then 13 else n + 1) = size).
  { unfold size. destruct (Z.ltb_spec (n + 1) 13); lia. }
  rewrite SZ. assert (13 <= size) by (unfold size; lia).
  destruct (Z.leb_spec size 3); [lia|]. rewrite E. reflexivity.
Qed.

Lemma new_array_ok : forall H A rb n v, Rel H A rb -> 0 <= n < two31 ->
  exists H' rb', raviH_new_array V zero H n v = Ok (H', length (hnds V A)) /\
    Rel H' (mkA V (roots V A ++ [zero :: repeat v (Z.to_nat n)])
                  (hnds V A ++ [mkHnd (length (roots V A)) 0 n (Fixed (Z.max 12 n))])) rb'.
Proof.
  intros H A rb n v R Hn. unfold raviH_new_array. rewrite new_eq. cbn [bind]. cbn [arrs].
  rewrite (u32_small (n + 1)) by (unfold_consts; lia).
  destruct (Z.ltb_spec (n + 1) n); [lia|]. rewrite nth_snoc.
  unfold new_arr at 2. rewrite resize_new by (rewrite ?nth_snoc; auto; lia).
  set (size := Z.max 12 n + 1). set (bs := blocks V H ++ [Some [Some zero; None; None]]).
  set (cells := [Some zero; None; None] ++ repeat None (Z.to_nat (size - 3))).
  cbn [bind negb blk boff]. rewrite upd_snoc.
  assert (Lc : length cells = Z.to_nat size).
  { unfold cells. rewrite app_length, repeat_length. simpl length. unfold size. lia. }
  set (t2 := mkArr 1 size false false true (length bs) 0 None).
  set (H2 := mkHeap V (bs ++ [Some cells]) (arrs V H ++ [t2])).
  assert (RO2 : root_ok H2 (length bs) [zero]).
  { exists cells. unfold H2. cbn [blocks]. rewrite nth_snoc. split; [reflexivity|]. simpl length. split; [lia|].
    intros i Hi. assert (i = O) by lia. subst i. reflexivity. }
  destruct (store_in H2 (length bs) [zero] (0 + 0) zero RO2 ltac:(simpl; lia)) as (c & Ec & Es & RO3).
  rewrite Es. cbn [bind]. change (Z.to_nat (0 + 0)) with O in *. cbn [upd] in RO3.
  set (H3 := mkHeap V (upd (blocks V H2) (length bs) (Some (upd c 0 (Some zero)))) (arrs V H2)) in *.
  assert (Ec3 : nth_error (blocks V H3) (length bs) = Some (Some (upd c 0 (Some zero)))).
  { unfold H3. cbn [blocks]. apply upd_nth_error_same. eapply nth_error_lt; eauto. }
  assert (Lc3 : length c = Z.to_nat size).
  { unfold H2 in Ec. cbn [blocks] in Ec. rewrite nth_snoc in Ec. inversion Ec. subst c. exact Lc. }
  replace (n + 1 - 1) with n by lia.
  destruct (fill_ok (Z.to_nat n) H3 (length bs) [zero] v _ Ec3 RO3) as (H4 & c4 & E4 & R4 & Ec4 & L4 & A4 & O4).
  { rewrite upd_length, Lc3. simpl. lia. }
  change (Z.of_nat (length [zero])) with 1 in E4. rewrite E4. cbn [bind].
  unfold set_arr. rewrite A4. unfold H3, H2. cbn [arrs asize is_slice is_alloc blk boff parent t2].
  rewrite upd_snoc, (R_len _ _ _ R).
  set (t5 := mkArr (n + 1) size false true true (length bs) 0 None).
  assert (FB : ~ In (length bs) rb).
  { intros I. apply (rb_range _ _ _ _ R) in I. unfold bs in I. rewrite app_length in I. simpl in I. lia. }
  eexists _, (rb ++ [blk t5]). split; [reflexivity|].
  eapply Rel_new with (H := H) (t := t5) (r := zero :: repeat v (Z.to_nat n));
    cbn [hroot hoff hn hkind t5 alen asize is_fixed is_slice blk boff blocks arrs]; eauto; try lia; try congruence.
  - intros b Ib. pose proof (rb_range _ _ _ _ R Ib). rewrite O4.
    + unfold H3, H2. cbn [blocks]. rewrite upd_nth_error_other.
      2:{ unfold bs. rewrite app_length. simpl. lia. }
      unfold bs. rewrite <- app_assoc. rewrite nth_error_app1 by assumption. reflexivity.
    + unfold bs. rewrite app_length. simpl. lia.
  - simpl. rewrite repeat_length. lia.
  - exists c4. split; [assumption|]. rewrite L4, upd_length, Lc3. lia.
  - unfold size. unfold_consts. lia.
  - unfold size. unfold_consts. lia.
Qed.

Lemma new_ok : forall H A rb, Rel H A rb -> exists H' rb', raviH_new V zero H false = Ok (H', length (hnds V A)) /\
  Rel H' (mkA V (roots V A ++ [[zero]]) (hnds V A ++ [mkHnd (length (roots V A)) 0 0 Dynamic])) rb'.
Proof.
  intros H A rb R. rewrite new_eq. rewrite (R_len _ _ _ R).
  assert (FB : ~ In (length (blocks V H)) rb).
  { intros I. apply (rb_range _ _ _ _ R) in I. lia. }
  eexists _, (rb ++ [blk (new_arr H)]). split; [reflexivity|].
  eapply Rel_new with (H := H) (t := new_arr H) (r := [zero]);
    cbn [hroot hoff hn hkind new_arr alen asize is_fixed is_slice blk boff blocks arrs]; eauto; try lia; try congruence.
  - intros b Ib. pose proof (rb_range _ _ _ _ R Ib). rewrite nth_error_app1 by assumption. reflexivity.
  - exists [Some zero; None; None]. cbn [blocks]. rewrite nth_snoc. split; [reflexivity|]. simpl. split; [lia|].
    intros i Hi. assert (i = O) by lia. subst i. reflexivity.
  - exists [Some zero; None; None]. rewrite nth_snoc. split; reflexivity.
  - unfold_consts. lia.
  - exists 0. lia.
Qed.

Lemma u32_s32_small : forall n, 0 <= n < two31 -> u32 (s32 n) = n.
Proof. intros n Hn. rewrite s32_id by (unfold_consts; lia). apply u32_small. unfold_consts. lia. Qed.

Lemma u32_s32_neg : forall n, - two31 <= n < 0 -> u32 (s32 n) = n + two32.
Proof. intros n Hn. rewrite s32_id by (unfold_consts; lia). apply u32_neg. unfold_consts. lia. Qed.

(* the bounds test of ravi_create_slice decides the documented condition *)
Lemma slice_test : forall s n m, - two31 <= s < two31 -> - two31 <= n < two31 -> 0 <= m ->
  (1 <= s /\ 1 <= n /\ s + n - 1 <= m \/ m < two31) ->
  let us := u32 (s32 s) in let un := u32 (s32 n) in
  ((us <? 1) || (u32 (us + un) <=? us) || (m + 1 <? u32 (us + un))) =
  negb ((1 <=? s) && (1 <=? n) && (s + n - 1 <=? m)).
Proof.
  intros s n m Hs Hn Hm Hc us un.
  assert (US : us = if s <? 0 then s + two32 else s).
  { unfold us. destruct (Z.ltb_spec s 0); [apply u32_s32_neg|apply u32_s32_small]; lia. }
  assert (UN : un = if n <? 0 then n + two32 else n).
  { unfold un. destruct (Z.ltb_spec n 0); [apply u32_s32_neg|apply u32_s32_small]; lia. }
  assert (W : u32 (us + un) = if us + un <? two32 then us + un else us + un - two32).
  { destruct (Z.ltb_spec (us + un) two32).
    - apply u32_small. destruct (Z.ltb_spec s 0); destruct (Z.ltb_spec n 0); unfold_consts; lia.
    - unfold u32. symmetry. apply Z.mod_unique with (q := 1);
        destruct (Z.ltb_spec s 0); destruct (Z.ltb_spec n 0); unfold_consts; lia. }
  generalize dependent (u32 (us + un)). generalize dependent us. generalize dependent un.
  intros un UN us US w W.
  assert (B : 0 <= us < two32 /\ 0 <= un < two32).
  { rewrite US, UN. destruct (Z.ltb_spec s 0); destruct (Z.ltb_spec n 0); unfold_consts; lia. }
  assert (CS : (s < 0 /\ us = s + two32) \/ (0 <= s /\ us = s)) by (rewrite US; destruct (Z.ltb_spec s 0); lia).
  assert (CN : (n < 0 /\ un = n + two32) \/ (0 <= n /\ un = n)) by (rewrite UN; destruct (Z.ltb_spec n 0); lia).
  assert (CW : (us + un < two32 /\ w = us + un) \/ (two32 <= us + un /\ w = us + un - two32))
    by (rewrite W; destruct (Z.ltb_spec (us + un) two32); lia).
  clear US UN W. unfold_consts.
  destruct (Z.leb_spec 1 s); destruct (Z.leb_spec 1 n); destruct (Z.leb_spec (s + n - 1) m); cbn [andb negb];
  destruct (Z.ltb_spec us 1); destruct (Z.leb_spec w us); destruct (Z.ltb_spec (m + 1) w); cbn [orb]; auto; exfalso; lia.
Qed.

Lemma slice_ok : forall H A rb p t d s n, Rel H A rb -> nth_error (arrs V H) p = Some t -> nth_error (hnds V A) p = Some d ->
  1 <= s < two31 -> 1 <= n < two31 -> s + n - 1 <= hn d -> hkind d <> Dynamic ->
  exists H', create_slice V zero H p s n = Ok (H', length (hnds V A)) /\
    Rel H' (mkA V (roots V A) (hnds V A ++ [mkHnd (hroot d) (hoff d + s - 1) n Slice])) rb.
Proof.
  intros H A rb p t d s n R Et Ed Hs Hn Hb Hk. pose proof (R_h _ _ _ R _ _ _ Et Ed) as K.
  destruct (alen_bound _ _ _ _ _ K) as [B L].
  unfold create_slice, ravi_create_slice. rewrite Et, L.
  rewrite (slice_test s n (hn d)) by (unfold_consts; lia).
  destruct (Z.leb_spec 1 s); [|lia]. destruct (Z.leb_spec 1 n); [|lia]. destruct (Z.leb_spec (s + n - 1) (hn d)); [|lia].
  cbn [andb negb]. rewrite (k_fix _ _ _ _ _ K).
  replace (negb match hkind d with Dynamic => false | _ => true end) with false by (destruct (hkind d); cbn [negb]; congruence).
  rewrite !u32_s32_small by lia. unfold raviH_new. cbn [bind]. unfold set_arr. cbn [arrs blocks].
  rewrite upd_snoc, (R_len _ _ _ R). rewrite (u32_small (n + 1)) by (unfold_consts; lia).
  set (t' := mkArr (n + 1) (n + 1) true true false (blk t) (boff t + s - 1) (Some p)).
  eexists. split; [reflexivity|].
  assert (OB : forall b, In b rb -> nth_error (blocks V H ++ [Some (repeat None 3)]) b = nth_error (blocks V H) b).
  { intros b I. apply nth_error_app1. eapply rb_range; eauto. }
  assert (SP : forall h d', nth_error (hnds V A ++ [mkHnd (hroot d) (hoff d + s - 1) n Slice]) h = Some d' ->
     nth_error (hnds V A) h = Some d' \/ (h = length (hnds V A) /\ d' = mkHnd (hroot d) (hoff d + s - 1) n Slice)).
  { intros h d' E. destruct (Nat.lt_ge_cases h (length (hnds V A))).
    - rewrite nth_error_app1 in E by assumption. auto.
    - rewrite nth_error_app2 in E by assumption. destruct (h - length (hnds V A))%nat eqn:X.
      + inversion E. right. split; [lia|reflexivity].
      + exfalso. eapply nth_error_nil'. exact E. }
  constructor; cbn [arrs hnds roots blocks].
  - rewrite !app_length, (R_len _ _ _ R). reflexivity.
  - apply R.
  - apply R.
  - intros k r E. destruct (R_root _ _ _ R _ _ E) as (b & Eb & Rb). exists b. split; [assumption|].
    eapply root_ok_ext; [|exact Rb]. cbn [blocks]. apply OB. eapply nth_error_In; eauto.
  - intros h t1 d1 Et1 Ed1. destruct (SP _ _ Ed1) as [F|[F D]].
    + assert (Hh := nth_error_lt _ _ _ _ F). rewrite nth_error_app1 in Et1 by (rewrite (R_len _ _ _ R); assumption).
      pose proof (R_h _ _ _ R _ _ _ Et1 F) as K1. destruct K1. constructor; cbn [roots]; auto.
      intros G. destruct (k_own0 G) as (q1 & q2 & (c1 & Ec1 & q3) & q4).
      split; [assumption|]. split; [assumption|]. split; [|assumption]. exists c1. cbn [blocks].
      rewrite OB; [auto|]. eapply nth_error_In; eauto.
    + subst h d1. rewrite <- (R_len _ _ _ R) in Et1. rewrite nth_snoc in Et1. inversion Et1; subst t1.
      pose proof (k_offpos _ _ _ _ _ K). pose proof (k_in _ _ _ _ _ K).
      constructor; cbn [roots hroot hoff hn hkind t' blk boff alen asize is_fixed is_slice]; auto; try lia; try congruence.
      * apply (k_blk _ _ _ _ _ K).
      * rewrite (k_off _ _ _ _ _ K). reflexivity.
  - intros h h' d1 d2 E1 E2 G1 G2 Eq. destruct (SP _ _ E1) as [F1|[F1 D1]]; destruct (SP _ _ E2) as [F2|[F2 D2]];
      try (subst d1; cbn [hkind] in G1; congruence); try (subst d2; cbn [hkind] in G2; congruence).
    eapply (R_uniq _ _ _ R); eauto.
  - intros h h' d1 d2 E1 E2 G1 Eq. destruct (SP _ _ E1) as [F1|[F1 D1]]; [|subst d1; cbn [hkind] in G1; congruence].
    destruct (SP _ _ E2) as [F2|[F2 D2]].
    + eapply (R_dyn _ _ _ R); eauto.
    + subst d2. cbn [hroot] in Eq. exfalso. assert (h = p) by (eapply (R_dyn _ _ _ R); eauto). subst h. congruence.
Qed.

Theorem step_refines : forall H A rb o A' x, Rel H A rb -> sstep V zero A o = Ok (A', x) ->
  exists H' rb', astep V zero H o = Ok (H', x) /\ Rel H' A' rb'.
Proof.
  intros H A rb o A' x R E. unfold astep. destruct o; cbn [sstep] in E.
  - inversion E; subst. destruct (new_ok H A rb R) as (H' & rb' & En & R'). rewrite En. cbn [bind catch].
    eauto.
  - destruct (Z.leb_spec 0 n); destruct (Z.ltb_spec n two31); cbn [andb] in E.
    + inversion E; subst. destruct (new_array_ok H A rb n v R ltac:(lia)) as (H' & rb' & En & R').
      unfold create_array. rewrite u32_s32_small by lia. rewrite En. cbn [bind catch]. eauto.
    + destruct (Z.eqb_spec n (-1)); [lia|discriminate].
    + destruct (Z.eqb_spec n (-1)); [|discriminate]. subst n. inversion E; subst.
      unfold create_array. change (u32 (s32 (-1))) with 4294967295. unfold raviH_new_array. rewrite new_eq. cbn [bind].
      change (u32 (4294967295 + 1)) with 0. change (0 <? 4294967295) with true. cbv iota. cbn [catch]. exists H, rb. split; [reflexivity|exact R].
    + destruct (Z.eqb_spec n (-1)); [unfold_consts; lia|discriminate].
  - destruct (Z.leb_spec (- two31) start); [|discriminate]. destruct (Z.ltb_spec start two31); [|discriminate].
    destruct (Z.leb_spec (- two31) len); [|discriminate]. destruct (Z.ltb_spec len two31); [|discriminate].
    cbn [andb] in E. destruct (nth_error (hnds V A) h) as [d|] eqn:Ed; [|discriminate].
    assert (Hh := nth_error_lt _ _ _ _ Ed). rewrite <- (R_len _ _ _ R) in Hh.
    destruct (nth_error_ex _ _ _ Hh) as [t Et]. pose proof (R_h _ _ _ R _ _ _ Et Ed) as K.
    destruct (alen_bound _ _ _ _ _ K) as [B L]. pose proof (k_pos _ _ _ _ _ K) as KP.
    destruct ((1 <=? start) && (1 <=? len) && (start + len - 1 <=? hn d)) eqn:T.
    + apply andb_prop in T. destruct T as [T T3]. apply andb_prop in T. destruct T as [T1 T2].
      apply Z.leb_le in T1, T2, T3. destruct (hkind d) eqn:Kd.
      * inversion E; subst. unfold create_slice, ravi_create_slice. rewrite Et, L.
        rewrite (slice_test start len (hn d)) by (unfold_consts; lia).
        destruct (Z.leb_spec 1 start); [|lia]. destruct (Z.leb_spec 1 len); [|lia].
        destruct (Z.leb_spec (start + len - 1) (hn d)); [|lia]. cbn [andb negb].
        rewrite (k_fix _ _ _ _ _ K), Kd. cbn [negb bind catch]. eauto.
      * inversion E; subst. destruct (slice_ok H A rb h t d start len R Et Ed ltac:(lia) ltac:(lia) ltac:(lia) ltac:(congruence)) as (H' & En & R').
        rewrite En. cbn [bind catch]. eauto.
      * inversion E; subst. destruct (slice_ok H A rb h t d start len R Et Ed ltac:(lia) ltac:(lia) ltac:(lia) ltac:(congruence)) as (H' & En & R').
        rewrite En. cbn [bind catch]. eauto.
    + destruct (Z.ltb_spec (hn d) two31); [|discriminate]. inversion E; subst.
      unfold create_slice, ravi_create_slice. rewrite Et, L.
      rewrite (slice_test start len (hn d)) by (unfold_consts; lia). rewrite T. cbn [negb bind catch]. eauto.
  - destruct (nth_error (hnds V A) h) as [d|] eqn:Ed; [|discriminate].
    assert (Hh := nth_error_lt _ _ _ _ Ed). rewrite <- (R_len _ _ _ R) in Hh.
    destruct (nth_error_ex _ _ _ Hh) as [t Et].
    destruct (Z.ltb_spec (hn d + 1 - two32) i); [|discriminate]. destruct (Z.ltb_spec i two32); [|discriminate].
    cbn [andb negb] in E. destruct (Z.leb_spec 0 i); destruct (Z.leb_spec i (hn d)); cbn [andb] in E;
     [destruct (get_ok H A rb h t d i R Et Ed ltac:(lia)) as (v & Ev & Eg); rewrite Ev in E; cbn [bind] in E; rewrite Eg
     |rewrite (get_out H A rb h t d i R Et Ed) by lia..]; inversion E; subst; cbn [bind catch]; eauto.
  - destruct (nth_error (hnds V A) h) as [d|] eqn:Ed; [|discriminate].
    assert (Hh := nth_error_lt _ _ _ _ Ed). rewrite <- (R_len _ _ _ R) in Hh.
    destruct (nth_error_ex _ _ _ Hh) as [t Et].
    destruct (Z.ltb_spec (hn d + 1 - two32) i); [|discriminate]. destruct (Z.ltb_spec i two32); [|discriminate].
    cbn [andb negb] in E. pose proof (R_h _ _ _ R _ _ _ Et Ed) as K.
    pose proof (k_pos _ _ _ _ _ K) as KP. destruct (alen_bound _ _ _ _ _ K) as [B L].
    destruct ((0 <=? i) && (i <=? hn d)) eqn:T.
    + apply andb_prop in T. destruct T as [T1 T2]. apply Z.leb_le in T1, T2. inversion E; subst.
      destruct (set_in H A rb h t d i v R Et Ed ltac:(lia)) as (H' & Es & R'). rewrite Es. cbn [bind catch]. eauto.
    + destruct (Z.eqb_spec i (hn d + 1)).
      * subst i. destruct (room d) eqn:RM; inversion E; subst.
        -- destruct (set_append H A rb h t d v R Et Ed RM) as (H' & rb' & Es & R'). rewrite Es. cbn [bind catch]. eauto.
        -- rewrite (set_full H A' rb h t d v R Et Ed RM) by lia. cbn [bind catch]. eauto.
      * inversion E; subst. rewrite (set_out H A' rb h t d i v R Et Ed).
        -- cbn [bind catch]. eauto. -- lia.
        -- destruct (Z.leb_spec 0 i); destruct (Z.leb_spec i (hn d)); cbn [andb] in T; try discriminate; lia.
  - destruct (nth_error (hnds V A) h) as [d|] eqn:Ed; [|discriminate]. inversion E; subst.
    assert (Hh := nth_error_lt _ _ _ _ Ed). rewrite <- (R_len _ _ _ R) in Hh.
    destruct (nth_error_ex _ _ _ Hh) as [t Et]. rewrite Et. pose proof (R_h _ _ _ R _ _ _ Et Ed) as K.
    destruct (alen_bound _ _ _ _ _ K) as [B L]. unfold raviH_getn. rewrite u32_small by lia. rewrite L.
    replace (hn d + 1 - 1) with (hn d) by lia. cbn [catch]. eauto.
  - destruct (nth_error (hnds V A) h) as [d|] eqn:Ed; [|discriminate].
    assert (Hh := nth_error_lt _ _ _ _ Ed). rewrite <- (R_len _ _ _ R) in Hh.
    destruct (nth_error_ex _ _ _ Hh) as [t Et]. pose proof (R_h _ _ _ R _ _ _ Et Ed) as K.
    destruct (alen_bound _ _ _ _ _ K) as [B L]. unfold raviH_next. rewrite Et.
    set (i := (match k with Some k0 => k0 | None => 0 end) + 1) in *.
    destruct (Z.leb_spec 1 i); [|discriminate]. destruct (Z.leb_spec i maxint); [|discriminate]. cbn [andb negb] in E.
    rewrite c_signed_ok by (unfold_consts; lia). cbn [bind].
    destruct (Z.ltb_spec (hn d) i).
    + inversion E; subst. destruct (Z.leb_spec (alen t) i); [|lia]. cbn [bind catch]. eauto.
    + destruct (Z.leb_spec (alen t) i); [lia|].
      destruct (get_ok H A rb h t d i R Et Ed ltac:(lia)) as (v & Ev & Eg). rewrite Ev in E. rewrite Eg.
      cbn [bind catch] in *. inversion E; subst. eauto.
Qed.

Theorem run_refines_gen : forall l H A rb xs, Rel H A rb -> srun V zero A l = Ok xs -> arun V zero H l = Ok xs.
Proof.
  induction l as [|o l IH]; intros H A rb xs R E; cbn [srun arun] in *; [assumption|].
  destruct (sstep V zero A o) as [[A' x]| | |] eqn:Es; try discriminate. cbn [bind] in E.
  destruct (step_refines _ _ _ _ _ _ R Es) as (H' & rb' & Ea & R'). rewrite Ea. cbn [bind].
  destruct (srun V zero A' l) as [ys| | |] eqn:Er; try discriminate. cbn [bind] in E.
  rewrite (IH _ _ _ _ R' Er). exact E.
Qed.

Theorem run_refines : forall l xs, srun V zero (empty_state V) l = Ok xs -> arun V zero (empty_heap V) l = Ok xs.
Proof. intros l xs E. eapply run_refines_gen; [apply Rel_empty|exact E]. Qed.

End Proofs.
