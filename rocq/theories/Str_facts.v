Require Import ZArith List Bool Lia.
From Verif Require Import Base Base_facts Str.
Import ListNotations.
Open Scope Z_scope.

Lemma slen_nonneg : forall s, 0 <= slen s.
Proof. intros. unfold slen. lia. Qed.
Lemma slen_cons : forall b s, slen (b :: s) = slen s + 1.
Proof. intros. unfold slen. simpl length. lia. Qed.
Lemma slen_app : forall s t, slen (s ++ t) = slen s + slen t.
Proof. intros. unfold slen. rewrite app_length. lia. Qed.
Lemma slen_nil : slen [] = 0.
Proof. reflexivity. Qed.

Lemma sbyte_end : forall s, sbyte s (slen s) = Ok 0.
Proof.
  intros s. unfold sbyte, slen. destruct (Z.ltb_spec (Z.of_nat (length s)) 0); [lia|].
  rewrite Nat2Z.id. destruct (nth_error s (length s)) eqn:E.
  - assert (nth_error s (length s) <> None) by congruence. apply nth_error_Some in H0. lia.
  - rewrite Z.eqb_refl. reflexivity.
Qed.

Lemma sbyte_in : forall s i, 0 <= i < slen s -> sbyte s i = Ok (nth (Z.to_nat i) s 0).
Proof.
  intros s i H. unfold sbyte, slen in *. destruct (Z.ltb_spec i 0); [lia|].
  rewrite (nth_error_nth' s 0) by lia. reflexivity.
Qed.

Lemma sbyte_ok : forall s i, 0 <= i <= slen s -> sbyte s i = Ok (nth (Z.to_nat i) s 0).
Proof.
  intros s i H. destruct (Z.eq_dec i (slen s)) as [->|N].
  - rewrite sbyte_end. rewrite nth_overflow; [reflexivity|]. unfold slen. lia.
  - apply sbyte_in. lia.
Qed.

Lemma sbyte_oob : forall s i, i < 0 \/ slen s < i -> sbyte s i = UB.
Proof.
  intros s i H. unfold sbyte. destruct (Z.ltb_spec i 0); [reflexivity|].
  unfold slen in *. destruct (nth_error s (Z.to_nat i)) eqn:E.
  - assert (nth_error s (Z.to_nat i) <> None) by congruence. apply nth_error_Some in H1. lia.
  - destruct (Z.eqb_spec i (Z.of_nat (length s))); [lia|reflexivity].
Qed.

Lemma nth_skipn_Z : forall (s : list Z) n k d, nth k (skipn n s) d = nth (n + k) s d.
Proof.
  induction s; destruct n; simpl; intros; auto.
  destruct k; reflexivity.
Qed.

Lemma slen_skipn : forall s p, 0 <= p <= slen s -> slen (skipn (Z.to_nat p) s) = slen s - p.
Proof. intros s p H. unfold slen in *. rewrite skipn_length. lia. Qed.

Lemma sbyte_skipn : forall s p k, 0 <= p <= slen s -> 0 <= k ->
  sbyte (skipn (Z.to_nat p) s) k = sbyte s (p + k).
Proof.
  intros s p k Hp Hk. pose proof (slen_skipn s p Hp) as L.
  destruct (Z_le_gt_dec (p + k) (slen s)).
  - rewrite !sbyte_ok by lia. rewrite nth_skipn_Z. f_equal. f_equal. lia.
  - rewrite !sbyte_oob by lia. reflexivity.
Qed.

Lemma sbyte_cons0 : forall b t, sbyte (b :: t) 0 = Ok b.
Proof. reflexivity. Qed.

Lemma sbyte_consS : forall b t k, 0 <= k -> sbyte (b :: t) (k + 1) = sbyte t k.
Proof.
  intros b t k H. replace (k + 1) with (1 + k) by lia.
  rewrite <- (sbyte_skipn (b :: t) 1 k); [reflexivity|rewrite slen_cons; pose proof (slen_nonneg t); lia|lia].
Qed.

Lemma wf_nth : forall s n, wf_str s -> is_byte (nth n s 0).
Proof.
  intros s n H. destruct (Nat.lt_ge_cases n (length s)).
  - unfold wf_str in H. rewrite Forall_forall in H. apply H. apply nth_In. assumption.
  - rewrite nth_overflow by assumption. unfold is_byte. lia.
Qed.

Lemma wf_skipn : forall s n, wf_str s -> wf_str (skipn n s).
Proof.
  intros s n H. unfold wf_str in *. rewrite Forall_forall in *. intros x Hx. apply H.
  rewrite <- (firstn_skipn n s). apply in_or_app. right. assumption.
Qed.

Lemma wf_firstn : forall s n, wf_str s -> wf_str (firstn n s).
Proof.
  intros s n H. unfold wf_str in *. rewrite Forall_forall in *. intros x Hx. apply H.
  rewrite <- (firstn_skipn n s). apply in_or_app. left. assumption.
Qed.

Lemma wf_app : forall s t, wf_str s -> wf_str t -> wf_str (s ++ t).
Proof. intros. apply Forall_app. split; assumption. Qed.

Lemma skipn_cons_Z : forall (s : list Z) p b t, 0 <= p -> skipn (Z.to_nat p) s = b :: t ->
  skipn (Z.to_nat (p + 1)) s = t /\ p < slen s.
Proof.
  intros s p b t Hp H. assert (L : (Z.to_nat p < length s)%nat).
  { destruct (Nat.lt_ge_cases (Z.to_nat p) (length s)); [assumption|].
    rewrite skipn_all2 in H by assumption. discriminate. }
  split; [|unfold slen; lia].
  replace (Z.to_nat (p + 1)) with (1 + Z.to_nat p)%nat by lia.
  clear -H. revert t H. generalize (Z.to_nat p). induction s; intros n t H; destruct n; simpl in *; try discriminate.
  - inversion H. reflexivity.
  - apply IHs. assumption.
Qed.

Lemma skipn_app_Z : forall (s : list Z) p a b, 0 <= p <= slen s -> skipn (Z.to_nat p) s = a ++ b ->
  skipn (Z.to_nat (p + slen a)) s = b /\ p + slen a <= slen s.
Proof.
  intros s p a b Hp H. pose proof (slen_skipn s p Hp) as L. rewrite H, slen_app in L.
  pose proof (slen_nonneg b). split; [|lia].
  rewrite <- (firstn_skipn (Z.to_nat p) s), H, app_assoc.
  rewrite skipn_app. rewrite skipn_all2.
  - rewrite app_length, firstn_length. unfold slen in *.
    replace (Z.to_nat (p + Z.of_nat (length a)) - (Nat.min (Z.to_nat p) (length s) + length a))%nat with O by lia.
    reflexivity.
  - rewrite app_length, firstn_length. unfold slen in *. lia.
Qed.

(* sread *)
Lemma sread_ok : forall n s i, 0 <= i -> i + Z.of_nat n <= slen s ->
  sread s i n = Ok (firstn n (skipn (Z.to_nat i) s)).
Proof.
  induction n; intros s i Hi Hn; [reflexivity|].
  cbn [sread]. rewrite sbyte_in by lia. cbn [bind]. rewrite IHn by lia. cbn [bind].
  destruct (skipn (Z.to_nat i) s) as [|b t] eqn:E.
  - assert (L := slen_skipn s i). rewrite E in L. unfold slen in *. cbn [length] in L. lia.
  - destruct (skipn_cons_Z _ _ _ _ Hi E) as [E2 _]. rewrite E2. cbn [firstn]. f_equal. f_equal.
    replace (Z.to_nat i) with (Z.to_nat i + 0)%nat by lia.
    rewrite <- nth_skipn_Z. rewrite E. reflexivity.
Qed.
