(* Facts about machine integers and array update. *)
Require Import ZArith List Lia Bool.
From Verif Require Import Base.
Import ListNotations.
Open Scope Z_scope.

Ltac unfold_consts := unfold is_s64, is_u64, is_u32, maxint, minint, two63, two64, two31, two32 in *.

Lemma s64_range : forall x, is_s64 (s64 x).
Proof.
  intros x. unfold s64. unfold_consts.
  pose proof (Z.mod_pos_bound x 18446744073709551616 ltac:(lia)).
  destruct (Z.ltb_spec (x mod 18446744073709551616) 9223372036854775808); lia.
Qed.

Lemma u64_range : forall x, is_u64 (u64 x).
Proof. intros x. unfold u64. unfold_consts. apply Z.mod_pos_bound. lia. Qed.

Lemma u32_range : forall x, is_u32 (u32 x).
Proof. intros x. unfold u32. unfold_consts. apply Z.mod_pos_bound. lia. Qed.

Lemma s64_eqm : forall x, exists k, s64 x = x + k * two64.
Proof.
  intros x. unfold s64. unfold_consts.
  pose proof (Z.div_mod x 18446744073709551616 ltac:(lia)).
  destruct (Z.ltb_spec (x mod 18446744073709551616) 9223372036854775808).
  - exists (- (x / 18446744073709551616)). lia.
  - exists (- (x / 18446744073709551616) - 1). lia.
Qed.

Lemma u64_eqm : forall x, exists k, u64 x = x + k * two64.
Proof.
  intros x. unfold u64. unfold_consts.
  pose proof (Z.div_mod x 18446744073709551616 ltac:(lia)).
  exists (- (x / 18446744073709551616)). lia.
Qed.

Lemma s64_unique : forall x y k, is_s64 y -> y = x + k * two64 -> s64 x = y.
Proof.
  intros x y k H E. destruct (s64_eqm x) as [k' E'].
  pose proof (s64_range x). unfold_consts. nia.
Qed.

Lemma s64_id : forall x, is_s64 x -> s64 x = x.
Proof. intros x H. apply (s64_unique x x 0); [assumption|lia]. Qed.

Lemma u64_unique : forall x y k, is_u64 y -> y = x + k * two64 -> u64 x = y.
Proof.
  intros x y k H E. destruct (u64_eqm x) as [k' E'].
  pose proof (u64_range x). unfold_consts. nia.
Qed.

Lemma u64_id : forall x, is_u64 x -> u64 x = x.
Proof. intros x H. apply (u64_unique x x 0); [assumption|lia]. Qed.

Lemma s64_mod : forall x, s64 (x mod two64) = s64 x.
Proof.
  intros x. unfold s64. rewrite Z.mod_mod by (unfold two64; lia). reflexivity.
Qed.

Lemma s64_u64 : forall x, s64 (u64 x) = s64 x.
Proof. exact s64_mod. Qed.

Lemma s64_add_k : forall x k, s64 (x + k * two64) = s64 x.
Proof.
  intros. unfold s64. rewrite Z.mod_add by (unfold two64; lia). reflexivity.
Qed.

Lemma u64_s64 : forall x, u64 (s64 x) = u64 x.
Proof.
  intros x. destruct (s64_eqm x) as [k E]. rewrite E. unfold u64.
  apply Z.mod_add. unfold two64; lia.
Qed.

Lemma s64_cong : forall x y k, x = y + k * two64 -> s64 x = s64 y.
Proof. intros; subst. apply s64_add_k. Qed.

Lemma u64_nonneg : forall x, 0 <= x <= maxint -> u64 x = x.
Proof. intros x H. apply u64_id. unfold_consts. lia. Qed.

Lemma u64_neg : forall x, minint <= x < 0 -> u64 x = x + two64.
Proof. intros x H. apply (u64_unique x (x + two64) 1). unfold_consts. lia. lia. Qed.

Lemma u32_eqm : forall x, exists k, u32 x = x + k * two32.
Proof.
  intros x. unfold u32. unfold_consts.
  pose proof (Z.div_mod x 4294967296 ltac:(lia)).
  exists (- (x / 4294967296)). lia.
Qed.

Lemma u32_id : forall x, is_u32 x -> u32 x = x.
Proof. intros. unfold u32. apply Z.mod_small. unfold_consts. lia. Qed.

Lemma s32_range : forall x, - two31 <= s32 x < two31.
Proof.
  intros x. unfold s32. unfold_consts.
  pose proof (Z.mod_pos_bound x 4294967296 ltac:(lia)).
  destruct (Z.ltb_spec (x mod 4294967296) 2147483648); lia.
Qed.

Lemma s32_eqm : forall x, exists k, s32 x = x + k * two32.
Proof.
  intros x. unfold s32. unfold_consts.
  pose proof (Z.div_mod x 4294967296 ltac:(lia)).
  destruct (Z.ltb_spec (x mod 4294967296) 2147483648).
  - exists (- (x / 4294967296)). lia.
  - exists (- (x / 4294967296) - 1). lia.
Qed.

Lemma s32_id : forall x, - two31 <= x < two31 -> s32 x = x.
Proof.
  intros x H. pose proof (s32_range x). destruct (s32_eqm x) as [k E].
  unfold_consts. nia.
Qed.

Lemma c_signed_ok : forall x, is_s64 x -> c_signed x = Ok x.
Proof.
  intros x [H1 H2]. unfold c_signed.
  apply Z.leb_le in H1. apply Z.leb_le in H2. rewrite H1, H2. reflexivity.
Qed.

Lemma c_signed_inv : forall x y, c_signed x = Ok y -> y = x /\ is_s64 x.
Proof.
  intros x y. unfold c_signed.
  destruct (Z.leb_spec minint x); destruct (Z.leb_spec x maxint); simpl; intros E;
    inversion E; subst; split; auto; unfold is_s64; lia.
Qed.

Lemma bind_ok : forall A B (x : outcome A) (f : A -> outcome B) b,
  bind x f = Ok b -> exists a, x = Ok a /\ f a = Ok b.
Proof. intros A B x f b H. destruct x; simpl in H; try discriminate. eauto. Qed.

(* array update *)
Lemma upd_length : forall A (l : list A) n a, length (upd l n a) = length l.
Proof. induction l; destruct n; simpl; intros; auto. Qed.

Lemma upd_nth_same : forall A (l : list A) n a d, (n < length l)%nat -> nth n (upd l n a) d = a.
Proof. induction l; destruct n; simpl; intros; try lia; auto. apply IHl. lia. Qed.

Lemma upd_nth_other : forall A (l : list A) n m a d, n <> m -> nth m (upd l n a) d = nth m l d.
Proof.
  induction l; destruct n; destruct m; simpl; intros; auto; try congruence.
Qed.

Lemma upd_nth_error_same : forall A (l : list A) n a, (n < length l)%nat -> nth_error (upd l n a) n = Some a.
Proof. induction l; destruct n; simpl; intros; try lia; auto. apply IHl. lia. Qed.

Lemma upd_nth_error_other : forall A (l : list A) n m a, n <> m -> nth_error (upd l n a) m = nth_error l m.
Proof.
  induction l; destruct n; destruct m; simpl; intros; auto; try congruence.
Qed.

Lemma upd_app_mid : forall A (p : list A) x s a, upd (p ++ x :: s) (length p) a = p ++ a :: s.
Proof. induction p; simpl; intros; auto. f_equal; auto. Qed.

Lemma upd_oob : forall A (l : list A) n a, (length l <= n)%nat -> upd l n a = l.
Proof. induction l; destruct n; simpl; intros; auto; try lia. f_equal. apply IHl. lia. Qed.
