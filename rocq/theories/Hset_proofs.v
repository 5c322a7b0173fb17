Require Import ZArith List Bool Lia Znumtheory.
From Verif Require Import Base Base_facts Hset_model Hset_spec.
Import ListNotations.
Open Scope Z_scope.

(* the sizes are prime *)
Fixpoint no_div (fuel : nat) (d p : Z) : bool :=
  match fuel with O => false | S f => if p <? d * d then true else if p mod d =? 0 then false else no_div f (d + 1) p end.
Lemma no_div_ok : forall f d p, 2 <= d -> 0 < p -> no_div f d p = true -> forall q, d <= q -> q * q <= p -> ~ (q | p).
Proof.
  induction f as [|f IH]; intros d p D P H q Q QQ; [discriminate|]. cbn [no_div] in H. destruct (Z.ltb_spec p (d * d)); [nia|]. destruct (Z.eqb_spec (p mod d) 0); [discriminate|].
  destruct (Z.eq_dec q d) as [->|NE]; [intros DV; apply Zdivide_mod in DV; contradiction|]. apply (IH (d + 1) p); auto; lia.
Qed.
Lemma no_div_prime : forall f p, 1 < p -> no_div f 2 p = true -> prime p.
Proof.
  intros f p P H. apply prime_alt. split; [assumption|]. intros n N DV. destruct (Z_le_gt_dec (n * n) p) as [L|G].
  - exact (no_div_ok f 2 p ltac:(lia) ltac:(lia) H n ltac:(lia) L DV).
  - destruct DV as [q E]. assert (2 <= q) by nia. assert (q * q <= p) by nia. apply (no_div_ok f 2 p ltac:(lia) ltac:(lia) H q ltac:(lia) H1). exists n. lia.
Qed.
Definition row_ok (r : Z * Z * Z) : bool :=
  let '(m, s, h) := r in (1 <=? m) && (m <? s) && (h =? s - 2) && (3 <=? s) && (s + h <? two32) && no_div (Z.to_nat 40000) 2 s.
Fixpoint doubling (l : list (Z * Z * Z)) : bool :=
  match l with (m, _, _) :: (((m', _, _) :: _) as r) => (m' =? 2 * m) && doubling r | _ => true end.
Lemma sizes_ok : forallb row_ok (firstn 30 hash_sizes) = true. Proof. vm_compute. reflexivity. Qed.
Lemma size_facts : forall i, (i <= 29)%nat -> prime (size_of i) /\ 1 <= max_of i < size_of i /\ rehash_of i = size_of i - 2 /\ 3 <= size_of i /\ size_of i + rehash_of i < two32.
Proof.
  intros i I. pose proof sizes_ok as H. rewrite forallb_forall in H. specialize (H (hs i)). assert (IN : In (hs i) (firstn 30 hash_sizes)).
  { unfold hs. replace (nth i hash_sizes (0, 0, 0)) with (nth i (firstn 30 hash_sizes) (0, 0, 0)). - apply nth_In. change (i < 30)%nat. lia. - rewrite <- (firstn_skipn 30 hash_sizes) at 2. rewrite app_nth1 by (change (i < 30)%nat; lia). reflexivity. }
  specialize (H IN). unfold max_of, size_of, rehash_of. destruct (hs i) as [[m s] h]. cbn [fst snd] in *. unfold row_ok in H. repeat (apply andb_prop in H; destruct H as [H ?]).
  repeat match goal with X : (_ <=? _) = true |- _ => apply Z.leb_le in X | X : (_ <? _) = true |- _ => apply Z.ltb_lt in X | X : (_ =? _) = true |- _ => apply Z.eqb_eq in X end.
  split; [eapply no_div_prime; [|eassumption]; lia|]. lia.
Qed.
Lemma max_grows : forall i, (i <= 28)%nat -> max_of (S i) = 2 * max_of i.
Proof.
  intros i I. assert (H : forall l k, doubling l = true -> (S k < length l)%nat -> fst (fst (nth (S k) l (0, 0, 0))) = 2 * fst (fst (nth k l (0, 0, 0)))).
  { induction l as [|[[m s] h] l IH]; intros k DB L; [cbn in L; lia|]. destruct l as [|[[m' s'] h'] l]; [cbn in L; lia|]. cbn [doubling] in DB. apply andb_prop in DB. destruct DB as [E DB]. apply Z.eqb_eq in E. destruct k as [|k]; [exact E|]. apply (IH k DB). cbn [length] in *. lia. }
  unfold max_of, hs. apply H; [vm_compute; reflexivity|]. change (length hash_sizes) with 31%nat. lia.
Qed.
Lemma max29 : max_of 29 = 1073741824. Proof. reflexivity. Qed.

Section PROBE.
Variable i : nat.
Hypothesis I29 : (i <= 29)%nat.
Variable h : Z.
Hypothesis H0 : 0 <= h.
Local Notation p := (size_of i).
Definition stepof : Z := 1 + h mod rehash_of i.
Definition probe (n : Z) : Z := (h + n * stepof) mod size_of i.
Lemma step_range : 1 <= stepof < p.
Proof. destruct (size_facts i I29) as (_ & _ & R & P3 & _). unfold stepof. pose proof (Z.mod_pos_bound h (rehash_of i) ltac:(lia)). lia. Qed.
Lemma probe_range : forall n, 0 <= probe n < p.
Proof. intros n. apply Z.mod_pos_bound. destruct (size_facts i I29) as (_ & _ & _ & P3 & _). lia. Qed.
Lemma probe_next : forall n, next_address i h (probe n) = probe (n + 1).
Proof.
  intros n. destruct (size_facts i I29) as (_ & _ & R & P3 & B). pose proof (probe_range n) as PR. pose proof step_range as SR. unfold next_address. fold stepof. unfold u32. rewrite (Z.mod_small (probe n + stepof) two32) by lia.
  unfold probe. rewrite Zplus_mod_idemp_l. f_equal. lia.
Qed.
Lemma probe_inj : forall n m, 0 <= n < p -> 0 <= m < p -> probe n = probe m -> n = m.
Proof.
  assert (G : forall n m, 0 <= n <= m -> m < p -> probe n = probe m -> n = m).
  { intros n m N M E. destruct (size_facts i I29) as (PR & _ & _ & P3 & _). unfold probe in E.
    assert (DV : (p | (m - n) * stepof)). { apply Zmod_divide; [lia|]. replace ((m - n) * stepof) with ((h + m * stepof) - (h + n * stepof)) by ring. rewrite Zminus_mod, E, Z.sub_diag. apply Z.mod_0_l. lia. }
    apply prime_mult in DV; [|assumption]. pose proof step_range as SR. destruct DV as [DV|DV]; [|apply Z.divide_pos_le in DV; lia]. destruct (Z.eq_dec (m - n) 0); [lia|]. apply Z.divide_pos_le in DV; lia. }
  intros n m N M E. destruct (Z_le_gt_dec n m); [apply G; auto; lia|symmetry; apply G; auto; lia].
Qed.
Lemma probe_surj : forall a, 0 <= a < p -> exists n, 0 <= n < p /\ probe n = a.
Proof.
  intros a A. destruct (size_facts i I29) as (PR & _ & _ & P3 & _). pose proof step_range as SR.
  assert (RP : rel_prime stepof p) by (apply rel_prime_sym, prime_rel_prime; [assumption|]; intros DV; apply Z.divide_pos_le in DV; lia).
  apply rel_prime_bezout in RP. destruct RP as [u v E]. exists (((a - h) * u) mod p). split; [apply Z.mod_pos_bound; lia|]. unfold probe. rewrite <- Zplus_mod_idemp_r, Zmult_mod_idemp_l, Zplus_mod_idemp_r.
  replace (h + (a - h) * u * stepof) with (a + (- (a - h) * v) * p) by nia. rewrite Z.mod_add by lia. apply Z.mod_small. lia.
Qed.
Lemma probe0 : probe 0 = h mod size_of i. Proof. unfold probe. rewrite Z.mul_0_l, Z.add_0_r. reflexivity. Qed.
Lemma probe_start : forall n, 0 <= n < p -> (probe (n + 1) =? h mod size_of i) = (n + 1 =? p).
Proof.
  intros n N. rewrite <- probe0. destruct (Z.eqb_spec (n + 1) p) as [E|E].
  - rewrite E. apply Z.eqb_eq. unfold probe. rewrite Z.mul_comm, Z.mod_add by (destruct (size_facts i I29) as (_ & _ & _ & P3 & _); lia). f_equal. lia.
  - apply Z.eqb_neq. intros X. apply probe_inj in X; lia.
Qed.
End PROBE.

Section HT.
Variables K D : Type.
Variable key_equals : K -> K -> bool.
Variable hash_function : K -> Z.
Hypothesis KO : keys_ok K key_equals hash_function.
Notation ht := (ht K D).
Notation entry := (entry K D).
Notation get := (get K D).
Notation Free := (Free K D).
Notation Deleted := (Deleted K D).
Notation Present := (Present K D).
Notation idx := (idx K D).
Notation table := (table K D).
Notation entries := (entries K D).
Notation deleted := (deleted K D).

Definition sz (t : ht) : Z := size_of (idx t).
(* an entry whose key equals k *)
Definition matches (t : ht) (k : K) (a : Z) (k' : K) (d : D) : Prop := 0 <= a < sz t /\ get (table t) a = Present (hash_function k') k' d /\ key_equals k k' = true.
Definition cnt (f : entry -> bool) (l : list entry) : Z := Z.of_nat (length (filter f l)).
Definition is_present (e : entry) : bool := match e with Hset_model.Present _ _ _ _ _ => true | _ => false end.
Definition is_deleted (e : entry) : bool := match e with Hset_model.Deleted _ _ => true | _ => false end.
Record inv (t : ht) : Prop := {
  v_idx : (idx t <= 29)%nat;
  v_len : Z.of_nat (length (table t)) = sz t;
  v_ent : entries t = cnt is_present (table t);
  v_del : deleted t = cnt is_deleted (table t);
  v_max : deleted t + entries t <= max_of (idx t);
  v_reach : forall a h k d, 0 <= a < sz t -> get (table t) a = Present h k d -> h = hash_function k /\
    exists n, 0 <= n < sz t /\ a = probe (idx t) h n /\ forall m, 0 <= m < n -> get (table t) (probe (idx t) h m) <> Free;
  v_uniq : forall a b h k d h' k' d', 0 <= a < sz t -> 0 <= b < sz t -> get (table t) a = Present h k d -> get (table t) b = Present h' k' d' -> key_equals k k' = true -> a = b }.
Definition repr (t : ht) (m : fmap K D) : Prop := forall k, match m k with Some (k', d) => exists a, matches t k a k' d | None => forall a k' d, ~ matches t k a k' d end.

Lemma hash0 : forall k, 0 <= hash_function k.
Proof. intros k. destruct KO as (_ & _ & _ & _ & H). specialize (H k). unfold is_u32 in H. lia. Qed.
Lemma matches_hash : forall t k a k' d, matches t k a k' d -> hash_function k' = hash_function k.
Proof. intros t k a k' d (_ & _ & E). destruct KO as (_ & _ & _ & H & _). symmetry. apply H. assumption. Qed.
Lemma sz_pos : forall t, inv t -> 3 <= sz t.
Proof. intros t V. destruct (size_facts (idx t) (v_idx t V)) as (_ & _ & _ & P3 & _). exact P3. Qed.

(* searching *)
Definition hit (t : ht) (h : Z) (k : K) (a : Z) : Prop := exists k' d, get (table t) a = Present h k' d /\ key_equals k k' = true.
Lemma search_loop_ok : forall t h k fuel n, (idx t <= 29)%nat -> 0 <= h -> 0 <= n < sz t -> n + Z.of_nat fuel = sz t ->
  (forall m, 0 <= m < n -> get (table t) (probe (idx t) h m) <> Free /\ ~ hit t h k (probe (idx t) h m)) ->
  exists r, search_loop K D key_equals fuel t h k (probe (idx t) h n) = Ok r /\
  match r with
  | Some a => hit t h k a /\ exists m, 0 <= m < sz t /\ a = probe (idx t) h m
  | None => forall m, 0 <= m < sz t -> hit t h k (probe (idx t) h m) -> exists m', 0 <= m' < m /\ get (table t) (probe (idx t) h m') = Free
  end.
Proof.
  intros t h k. induction fuel as [|f IH]; intros n I29 H0 N E HM; [lia|]. cbn [search_loop]. rewrite probe_next by assumption. rewrite probe_start by (assumption || exact N).
  set (cont := if n + 1 =? size_of (idx t) then Ok None else search_loop K D key_equals f t h k (probe (idx t) h (n + 1))).
  assert (CONT : get (table t) (probe (idx t) h n) <> Free -> ~ hit t h k (probe (idx t) h n) -> exists r, cont = Ok r /\
    match r with Some a => hit t h k a /\ exists m, 0 <= m < sz t /\ a = probe (idx t) h m | None => forall m, 0 <= m < sz t -> hit t h k (probe (idx t) h m) -> exists m', 0 <= m' < m /\ get (table t) (probe (idx t) h m') = Free end).
  { intros NF NH. assert (HM' : forall m, 0 <= m < n + 1 -> get (table t) (probe (idx t) h m) <> Free /\ ~ hit t h k (probe (idx t) h m)) by (intros m M; destruct (Z.eq_dec m n) as [->|NE]; [split; assumption|apply HM; lia]).
    unfold cont. destruct (Z.eqb_spec (n + 1) (size_of (idx t))) as [L|L].
    - exists None. split; [reflexivity|]. intros m M HH. exfalso. apply (HM' m); [unfold sz in *; lia|assumption].
    - apply IH; auto; unfold sz in *; lia. }
  clearbody cont. destruct (get (table t) (probe (idx t) h n)) as [| |h' k' d] eqn:EG.
  - exists None. split; [reflexivity|]. intros m M HH. exists n. split; [|assumption]. destruct (Z_lt_le_dec m n) as [L|L]; [exfalso; apply (HM m); [lia|assumption]|]. destruct (Z.eq_dec m n) as [->|]; [|lia]. destruct HH as (? & ? & X & _). congruence.
  - apply CONT; [discriminate|]. intros (? & ? & X & _). congruence.
  - destruct ((h' =? h) && key_equals k k') eqn:EH.
    + apply andb_prop in EH. destruct EH as [E1 E2]. apply Z.eqb_eq in E1. subst h'. exists (Some (probe (idx t) h n)). split; [reflexivity|]. split; [exists k', d; auto|exists n; auto].
    + apply CONT; [discriminate|]. intros (k2 & d2 & X & Y). assert (X2 := eq_trans (eq_sym EG) X). injection X2 as -> -> ->. rewrite Z.eqb_refl, Y in EH. discriminate.
Qed.
Lemma hit_matches : forall t k a, inv t -> 0 <= a < sz t -> hit t (hash_function k) k a <-> exists k' d, matches t k a k' d.
Proof.
  intros t k a V A. split.
  - intros (k' & d & E & Q). exists k', d. split; [assumption|]. split; [|assumption]. destruct (v_reach t V a _ _ _ A E) as [EH _]. rewrite <- EH. assumption.
  - intros (k' & d & M). exists k', d. rewrite <- (matches_hash t k a k' d M). destruct M as (_ & E & Q). split; assumption.
Qed.
(* an entry for k is not hidden behind a free slot *)
Lemma not_hidden : forall t k a k' d, inv t -> matches t k a k' d -> exists m, 0 <= m < sz t /\ a = probe (idx t) (hash_function k) m /\ forall m', 0 <= m' < m -> get (table t) (probe (idx t) (hash_function k) m') <> Free.
Proof. intros t k a k' d V M. assert (MH := matches_hash t k a k' d M). destruct M as (A & E & Q). destruct (v_reach t V a _ _ _ A E) as [_ (n & N & P & F)]. rewrite MH in *. exists n. auto. Qed.
Lemma search_ok : forall t k, inv t -> exists r, search K D key_equals hash_function t k = Ok r /\ match r with Some a => exists k' d, matches t k a k' d | None => forall a k' d, ~ matches t k a k' d end.
Proof.
  intros t k V. pose proof (sz_pos t V) as SP. unfold search. rewrite <- (probe0 (idx t) (hash_function k)). destruct (search_loop_ok t (hash_function k) k (Z.to_nat (size_of (idx t))) 0 (v_idx t V) (hash0 k)) as (r & E & R); [lia|unfold sz in *; lia|intros; lia|].
  exists r. split; [exact E|]. destruct r as [a|].
  - destruct R as (HH & m & M & ->). apply hit_matches in HH; [assumption|assumption|]. apply probe_range. exact (v_idx t V).
  - intros a k' d M. destruct (not_hidden t k a k' d V M) as (m & MR & -> & NF). destruct (R m MR) as (m' & M' & F).
    + apply hit_matches; [assumption|apply probe_range; exact (v_idx t V)|]. exists k', d. assumption.
    + exact (NF m' M' F).
Qed.
Lemma insert_loop_ok : forall t h k fuel n av, (idx t <= 29)%nat -> 0 <= h -> 0 <= n < sz t -> n + Z.of_nat fuel = sz t ->
  (forall m, 0 <= m < n -> get (table t) (probe (idx t) h m) <> Free /\ ~ hit t h k (probe (idx t) h m)) ->
  (match av with None => forall m, 0 <= m < n -> is_present (get (table t) (probe (idx t) h m)) = true | Some a => exists m, 0 <= m < n /\ a = probe (idx t) h m /\ get (table t) a = Deleted end) ->
  exists r, insert_loop K D key_equals fuel t h k (probe (idx t) h n) av = Ok r /\
  match r with
  | Found a => hit t h k a /\ exists m, 0 <= m < sz t /\ a = probe (idx t) h m
  | Avail o => (forall m, 0 <= m < sz t -> hit t h k (probe (idx t) h m) -> exists m', 0 <= m' < m /\ get (table t) (probe (idx t) h m') = Free) /\
    match o with
    | None => forall m, 0 <= m < sz t -> is_present (get (table t) (probe (idx t) h m)) = true
    | Some a => exists m, 0 <= m < sz t /\ a = probe (idx t) h m /\ is_present (get (table t) a) = false /\ forall m', 0 <= m' < m -> get (table t) (probe (idx t) h m') <> Free
    end
  end.
Proof.
  intros t h k. induction fuel as [|f IH]; intros n av I29 H0 N E HM HA; [lia|]. cbn [insert_loop]. rewrite probe_next by assumption. rewrite probe_start by (assumption || exact N).
  set (cont := fun av => if n + 1 =? size_of (idx t) then Ok (Avail av) else insert_loop K D key_equals f t h k (probe (idx t) h (n + 1)) av).
  set (a := probe (idx t) h n).
  assert (CONT : forall av', get (table t) a <> Free -> ~ hit t h k a -> (match av' with None => forall m, 0 <= m < n + 1 -> is_present (get (table t) (probe (idx t) h m)) = true | Some a => exists m, 0 <= m < n + 1 /\ a = probe (idx t) h m /\ get (table t) a = Deleted end) ->
    exists r, cont av' = Ok r /\ match r with
  | Found a => hit t h k a /\ exists m, 0 <= m < sz t /\ a = probe (idx t) h m
  | Avail o => (forall m, 0 <= m < sz t -> hit t h k (probe (idx t) h m) -> exists m', 0 <= m' < m /\ get (table t) (probe (idx t) h m') = Free) /\
    match o with
    | None => forall m, 0 <= m < sz t -> is_present (get (table t) (probe (idx t) h m)) = true
    | Some a => exists m, 0 <= m < sz t /\ a = probe (idx t) h m /\ is_present (get (table t) a) = false /\ forall m', 0 <= m' < m -> get (table t) (probe (idx t) h m') <> Free
    end
  end).
  { intros av' NF NH HA'. assert (HM' : forall m, 0 <= m < n + 1 -> get (table t) (probe (idx t) h m) <> Free /\ ~ hit t h k (probe (idx t) h m)) by (intros m M; destruct (Z.eq_dec m n) as [->|NE]; [split; assumption|apply HM; lia]).
    unfold cont. destruct (Z.eqb_spec (n + 1) (size_of (idx t))) as [L|L].
    - exists (Avail av'). split; [reflexivity|]. split; [intros m M HH; exfalso; apply (HM' m); [unfold sz in *; lia|assumption]|]. destruct av' as [b|].
      + destruct HA' as (m & M & -> & DL). exists m. split; [lia|]. split; [reflexivity|]. split; [rewrite DL; reflexivity|]. intros m' M'. apply HM'. lia.
      + intros m M. apply HA'. unfold sz in *. lia.
    - apply IH; auto; unfold sz in *; lia. }
  destruct (get (table t) a) as [| |h' k' d] eqn:EG.
  - eexists. split; [reflexivity|]. split.
    + intros m M HH. exists n. split; [|assumption]. destruct (Z_lt_le_dec m n) as [L|L]; [exfalso; apply (HM m); [lia|assumption]|]. destruct (Z.eq_dec m n) as [->|]; [|lia]. destruct HH as (? & ? & X & _). assert (X2 := eq_trans (eq_sym EG) X). discriminate.
    + destruct av as [b|].
      * destruct HA as (m & M & -> & DL). exists m. split; [lia|]. split; [reflexivity|]. split; [rewrite DL; reflexivity|]. intros m' M'. apply HM. lia.
      * exists n. split; [lia|]. split; [reflexivity|]. split; [fold a; rewrite EG; reflexivity|]. intros m' M'. apply HM. lia.
  - refine (CONT (match av with None => Some a | x => x end) _ _ _); [discriminate| |].
    + intros (? & ? & X & _). assert (X2 := eq_trans (eq_sym EG) X). discriminate.
    + destruct av as [b|]; [destruct HA as (m & M & R); exists m; split; [lia|exact R]|]. exists n. split; [lia|]. split; [reflexivity|assumption].
  - destruct ((h' =? h) && key_equals k k') eqn:EH.
    + apply andb_prop in EH. destruct EH as [E1 E2]. apply Z.eqb_eq in E1. subst h'. exists (Found a). split; [reflexivity|]. split; [exists k', d; auto|exists n; auto].
    + refine (CONT av _ _ _); [discriminate| |].
      * intros (k2 & d2 & X & Y). assert (X2 := eq_trans (eq_sym EG) X). injection X2 as -> -> ->. rewrite Z.eqb_refl, Y in EH. discriminate.
      * destruct av as [b|]; [destruct HA as (m & M & R); exists m; split; [lia|exact R]|]. intros m M. destruct (Z.eq_dec m n) as [->|]; [fold a; rewrite EG; reflexivity|apply HA; lia].
Qed.

(* counting *)
Lemma cnt_upd : forall f l a e, (Z.to_nat a < length l)%nat -> cnt f (upd l (Z.to_nat a) e) = cnt f l - (if f (get l a) then 1 else 0) + (if f e then 1 else 0).
Proof.
  intros f l a e L. unfold get, cnt. revert L. generalize (Z.to_nat a). intros n. revert n. induction l as [|x l IH]; intros [|n] L; cbn [length] in L; try lia; cbn [upd filter nth].
  - destruct (f x); destruct (f e); cbn [length]; lia.
  - specialize (IH n ltac:(lia)). destruct (f x); cbn [length]; lia.
Qed.
Lemma cnt_le : forall f g l, (forall e, f e = true -> g e = false) -> cnt f l + cnt g l <= Z.of_nat (length l).
Proof. intros f g l H. unfold cnt. induction l as [|x l IH]; cbn [filter length]; [lia|]. specialize (H x). destruct (f x); destruct (g x); cbn [length]; try lia; specialize (H eq_refl); discriminate. Qed.
Lemma cnt_all : forall f l, (forall a, 0 <= a < Z.of_nat (length l) -> f (get l a) = true) -> cnt f l = Z.of_nat (length l).
Proof.
  intros f l H. unfold cnt. induction l as [|x l IH]; [reflexivity|]. cbn [filter]. pose proof (H 0 ltac:(cbn [length]; lia)) as H1. cbn in H1. rewrite H1. cbn [length]. rewrite Nat2Z.inj_succ, IH; [cbn [length]; lia|].
  intros a A. specialize (H (a + 1) ltac:(cbn [length]; lia)). unfold get in *. replace (Z.to_nat (a + 1)) with (S (Z.to_nat a)) in H by lia. exact H.
Qed.
Lemma cnt_nonneg : forall f l, 0 <= cnt f l. Proof. intros. unfold cnt. lia. Qed.
Lemma get_upd : forall l a b e, 0 <= a < Z.of_nat (length l) -> 0 <= b -> get (upd l (Z.to_nat a) e) b = if b =? a then e else get l b.
Proof.
  intros l a b e A B. unfold get. destruct (Z.eqb_spec b a) as [->|NE].
  - rewrite upd_nth_same by lia. reflexivity.
  - rewrite upd_nth_other by lia. reflexivity.
Qed.

(* removing *)
Definition mset (m : fmap K D) (k : K) (v : option (K * D)) : fmap K D := fun x => if key_equals x k then v else m x.
Lemma eq_trans_l : forall x y z, key_equals x y = true -> key_equals x z = key_equals y z.
Proof.
  intros x y z E. destruct KO as (R & S & T & _). destruct (key_equals y z) eqn:E2; [eapply T; eassumption|]. destruct (key_equals x z) eqn:E1; [|reflexivity]. rewrite (T y x z) in E2; [discriminate|apply S; assumption|assumption].
Qed.
Lemma eq_sym_b : forall x y, key_equals x y = key_equals y x.
Proof. intros x y. destruct KO as (R & S & T & _). destruct (key_equals x y) eqn:E1; destruct (key_equals y x) eqn:E2; try reflexivity; [apply S in E1|apply S in E2]; congruence. Qed.
Lemma remove_ok : forall t k m, inv t -> repr t m -> exists t', remove K D key_equals hash_function t k = Ok t' /\ inv t' /\ repr t' (mset m k None) /\ entries t' <= entries t.
Proof.
  intros t k m V R. unfold remove. destruct (search_ok t k V) as (r & E & S). rewrite E. cbn [bind]. destruct r as [a|].
  - destruct S as (k' & d & M). assert (M0 := M). destruct M0 as (A & EA & Q). eexists. split; [reflexivity|]. assert (LN := v_len t V). assert (AL : (Z.to_nat a < length (table t))%nat) by lia.
    set (t' := mkHt K D (idx t) (upd (table t) (Z.to_nat a) Deleted) (entries t - 1) (deleted t + 1)).
    assert (G : forall b, 0 <= b -> get (table t') b = if b =? a then Deleted else get (table t) b) by (intros b B; apply get_upd; lia).
    split.
    + destruct V as [V1 V2 V3 V4 V5 V6 V7]. constructor; cbn [Hset_model.idx Hset_model.table Hset_model.entries Hset_model.deleted t'] in *; unfold sz in *; cbn [Hset_model.idx t'] in *.
      * assumption.
      * rewrite upd_length. assumption.
      * rewrite cnt_upd by assumption. rewrite EA. cbn. lia.
      * rewrite cnt_upd by assumption. rewrite EA. cbn. lia.
      * lia.
      * intros b h kb db B EB. change (upd (table t) (Z.to_nat a) Deleted) with (table t') in EB. rewrite G in EB by lia. destruct (Z.eqb_spec b a) as [->|NB]; [discriminate|]. destruct (V6 b h kb db B EB) as (H1 & n & N & P & F). split; [assumption|]. exists n. split; [assumption|]. split; [assumption|].
        intros m' M'. change (upd (table t) (Z.to_nat a) Deleted) with (table t'). rewrite G by (apply (probe_range (idx t) V1)). destruct (_ =? a); [discriminate|apply F; assumption].
      * intros b c h kb db h' kc dc B C EB EC QQ. change (upd (table t) (Z.to_nat a) Deleted) with (table t') in EB, EC. rewrite G in EB, EC by lia. destruct (b =? a); [discriminate|]. destruct (c =? a); [discriminate|]. eapply V7; eassumption.
    + split; [|cbn; lia]. intros x. unfold mset. destruct (key_equals x k) eqn:EX.
      * intros b kb db (B & EB & QB). rewrite G in EB by lia. destruct (Z.eqb_spec b a) as [->|NB]; [discriminate|]. apply NB. assert (QQ : key_equals kb k' = true). { rewrite <- (eq_trans_l x kb k' QB). rewrite (eq_trans_l x k k' EX). assumption. }
        exact (v_uniq t V b a _ _ _ _ _ _ B A EB EA QQ).
      * specialize (R x). destruct (m x) as [[kx dx]|].
        -- destruct R as (b & B & EB & QB). exists b. split; [exact B|]. split; [|assumption]. rewrite G by lia. destruct (Z.eqb_spec b a) as [->|NB]; [|assumption]. exfalso. assert (XX := eq_trans (eq_sym EA) EB). injection XX as _ <- _. rewrite (eq_trans_l x k' k QB) in EX. rewrite eq_sym_b, Q in EX. discriminate.
        -- intros b kb db (B & EB & QB). rewrite G in EB by lia. destruct (Z.eqb_spec b a); [discriminate|]. apply (R b kb db). split; [exact B|]. split; assumption.
  - exists t. split; [reflexivity|]. split; [assumption|]. split; [|lia]. intros x. unfold mset. destruct (key_equals x k) eqn:EX; [|apply R]. intros a k' d (A & EA & Q). apply (S a k' d). split; [assumption|]. split; [assumption|]. rewrite <- Q. symmetry. apply eq_trans_l. assumption.
Qed.

(* inserting where there is room *)
Lemma put_ok : forall t k d m, inv t -> repr t m -> deleted t + entries t < max_of (idx t) ->
  exists t', put_entry K D key_equals t (hash_function k) k d = Ok (Some t') /\ inv t' /\ repr t' (mset m k (Some (k, d))) /\ idx t' = idx t /\ deleted t' + entries t' <= deleted t + entries t + 1 /\ entries t' <= entries t + 1.
Proof.
  intros t k d m V R ROOM. pose proof (sz_pos t V) as SP. unfold put_entry. rewrite <- (probe0 (idx t) (hash_function k)). destruct (insert_loop_ok t (hash_function k) k (Z.to_nat (size_of (idx t))) 0 None (v_idx t V) (hash0 k)) as (r & E & S); [lia|unfold sz in *; lia|intros; lia|intros; lia|].
  rewrite E. cbn [bind]. assert (LN := v_len t V). destruct r as [a|[a|]].
  - (* replace *) destruct S as (HH & n & N & EA). assert (AR : 0 <= a < sz t) by (subst a; apply probe_range; exact (v_idx t V)). apply hit_matches in HH; [|assumption|assumption]. destruct HH as (k' & d' & M). assert (MH := matches_hash t k a k' d' M). destruct M as (_ & EG & Q).
    eexists. split; [reflexivity|]. set (t' := mkHt K D (idx t) (upd (table t) (Z.to_nat a) (Present (hash_function k) k d)) (entries t) (deleted t)).
    assert (G : forall b, 0 <= b -> get (table t') b = if b =? a then Present (hash_function k) k d else get (table t) b) by (intros b B; apply get_upd; lia). assert (AL : (Z.to_nat a < length (table t))%nat) by lia.
    split; [|split; [|cbn; split; [reflexivity|lia]]].
    + destruct V as [V1 V2 V3 V4 V5 V6 V7]. constructor; cbn [Hset_model.idx Hset_model.table Hset_model.entries Hset_model.deleted t'] in *; unfold sz in *; cbn [Hset_model.idx t'] in *; try assumption.
      * rewrite upd_length. assumption.
      * rewrite cnt_upd by assumption. rewrite EG. cbn. lia.
      * rewrite cnt_upd by assumption. rewrite EG. cbn. lia.
      * intros b h kb db B EB. change (upd (table t) (Z.to_nat a) (Present (hash_function k) k d)) with (table t') in EB |- *.
        assert (NFR : forall m', get (table t) (probe (idx t) h m') <> Free -> get (table t') (probe (idx t) h m') <> Free). { intros m' X. rewrite G by (apply (probe_range (idx t) V1)). destruct (_ =? a); [discriminate|assumption]. }
        rewrite G in EB by lia. destruct (Z.eqb_spec b a) as [->|NB].
        -- injection EB as <- <- <-. split; [reflexivity|]. destruct (V6 a _ _ _ AR EG) as (_ & n2 & N2 & P2 & F2). rewrite MH in P2, F2. exists n2. split; [assumption|]. split; [assumption|]. intros m' M'. apply NFR, F2. assumption.
        -- destruct (V6 b h kb db B EB) as (H1 & n2 & N2 & P2 & F2). split; [assumption|]. exists n2. split; [assumption|]. split; [assumption|]. intros m' M'. apply NFR, F2. assumption.
      * intros b c h kb db h' kc dc B C EB EC QQ. change (upd (table t) (Z.to_nat a) (Present (hash_function k) k d)) with (table t') in EB, EC. rewrite G in EB, EC by lia. destruct (Z.eqb_spec b a) as [->|NB]; destruct (Z.eqb_spec c a) as [->|NC]; try reflexivity.
        -- injection EB as <- <- <-. apply (V7 a c _ _ _ _ _ _ B C EG EC). rewrite <- (eq_trans_l k k' kc Q). assumption.
        -- injection EC as <- <- <-. apply (V7 b a _ _ _ _ _ _ B C EB EG). rewrite (eq_trans_l kb k k' QQ). assumption.
        -- eapply V7; eassumption.
    + intros x. unfold mset. destruct (key_equals x k) eqn:EX.
      * exists a. split; [exact AR|]. split; [|assumption]. rewrite G by lia. rewrite Z.eqb_refl. reflexivity.
      * specialize (R x). destruct (m x) as [[kx dx]|].
        -- destruct R as (b & B & EB & QB). exists b. split; [exact B|]. split; [|assumption]. rewrite G by lia. destruct (Z.eqb_spec b a) as [->|NB]; [|assumption]. exfalso. assert (XX := eq_trans (eq_sym EG) EB). injection XX as _ <- _. rewrite (eq_trans_l x k' k QB) in EX. rewrite eq_sym_b, Q in EX. discriminate.
        -- intros b kb db (B & EB & QB). rewrite G in EB by lia. destruct (Z.eqb_spec b a) as [->|NB]; [injection EB as _ <- _; congruence|]. apply (R b kb db). split; [exact B|]. split; assumption.
  - (* new *) destruct S as (NH & n & N & EA & NP & NF). assert (AR : 0 <= a < sz t) by (subst a; apply probe_range; exact (v_idx t V)).
    assert (NM : forall b kb db, ~ matches t k b kb db). { intros b kb db M. destruct (not_hidden t k b kb db V M) as (n2 & N2 & -> & F2). destruct (NH n2 N2) as (m' & M' & X); [|exact (F2 m' M' X)]. apply hit_matches; [assumption|apply probe_range; exact (v_idx t V)|]. exists kb, db. assumption. }
    eexists. split; [reflexivity|]. set (dl := match get (table t) a with Hset_model.Deleted _ _ => deleted t - 1 | _ => deleted t end). set (t' := mkHt K D (idx t) (upd (table t) (Z.to_nat a) (Present (hash_function k) k d)) (entries t + 1) dl).
    assert (G : forall b, 0 <= b -> get (table t') b = if b =? a then Present (hash_function k) k d else get (table t) b) by (intros b B; apply get_upd; lia). assert (AL : (Z.to_nat a < length (table t))%nat) by lia.
    assert (DL : dl = deleted t - (if is_deleted (get (table t) a) then 1 else 0)) by (unfold dl; destruct (get (table t) a); cbn; lia).
    split; [|split; [|cbn; split; [reflexivity|split; [rewrite DL; destruct (is_deleted _); lia|lia]]]].
    + destruct V as [V1 V2 V3 V4 V5 V6 V7]. constructor; cbn [Hset_model.idx Hset_model.table Hset_model.entries Hset_model.deleted t'] in *; unfold sz in *; cbn [Hset_model.idx t'] in *; try assumption.
      * rewrite upd_length. assumption.
      * rewrite cnt_upd by assumption. rewrite NP. cbn. lia.
      * rewrite cnt_upd by assumption. rewrite DL. cbn [is_deleted]. lia.
      * rewrite DL. destruct (is_deleted _); lia.
      * intros b h kb db B EB. change (upd (table t) (Z.to_nat a) (Present (hash_function k) k d)) with (table t') in EB |- *.
        assert (NFR : forall m', get (table t) (probe (idx t) h m') <> Free -> get (table t') (probe (idx t) h m') <> Free). { intros m' X. rewrite G by (apply (probe_range (idx t) V1)). destruct (_ =? a); [discriminate|assumption]. }
        rewrite G in EB by lia. destruct (Z.eqb_spec b a) as [->|NB].
        -- injection EB as <- <- <-. split; [reflexivity|]. exists n. split; [assumption|]. split; [assumption|]. intros m' M'. apply NFR, NF. assumption.
        -- destruct (V6 b h kb db B EB) as (H1 & n2 & N2 & P2 & F2). split; [assumption|]. exists n2. split; [assumption|]. split; [assumption|]. intros m' M'. apply NFR, F2. assumption.
      * assert (NM2 : forall c h kc dc, 0 <= c < size_of (idx t) -> get (table t) c = Present h kc dc -> key_equals k kc = true -> False). { intros c h kc dc C EC QQ. destruct (V6 c h kc dc C EC) as (H1 & _). subst h. apply (NM c kc dc). split; [exact C|]. split; assumption. }
        intros b c h kb db h' kc dc B C EB EC QQ. change (upd (table t) (Z.to_nat a) (Present (hash_function k) k d)) with (table t') in EB, EC. rewrite G in EB, EC by lia. destruct (Z.eqb_spec b a) as [->|NB]; destruct (Z.eqb_spec c a) as [->|NC]; try reflexivity.
        -- injection EB as <- <- <-. exfalso. eapply NM2; eassumption.
        -- injection EC as <- <- <-. exfalso. apply (NM2 b h kb db B EB). rewrite eq_sym_b. assumption.
        -- eapply V7; eassumption.
    + intros x. unfold mset. destruct (key_equals x k) eqn:EX.
      * exists a. split; [exact AR|]. split; [|assumption]. rewrite G by lia. rewrite Z.eqb_refl. reflexivity.
      * specialize (R x). destruct (m x) as [[kx dx]|].
        -- destruct R as (b & B & EB & QB). exists b. split; [exact B|]. split; [|assumption]. rewrite G by lia. destruct (Z.eqb_spec b a) as [->|NB]; [|assumption]. exfalso. rewrite EB in NP. discriminate.
        -- intros b kb db (B & EB & QB). rewrite G in EB by lia. destruct (Z.eqb_spec b a) as [->|NB]; [injection EB as _ <- _; congruence|]. apply (R b kb db). split; [exact B|]. split; assumption.
  - (* full *) exfalso. destruct S as [_ FULL]. destruct (size_facts (idx t) (v_idx t V)) as (_ & MX & _). assert (C : cnt is_present (table t) = Z.of_nat (length (table t))).
    { apply cnt_all. intros a A. rewrite LN in A. destruct (probe_surj (idx t) (v_idx t V) (hash_function k) (hash0 k) a A) as (n & N & <-). apply FULL. exact N. }
    rewrite <- (v_ent t V) in C. pose proof (cnt_nonneg is_deleted (table t)). rewrite <- (v_del t V) in H. unfold sz in LN. lia.
Qed.

(* rehashing *)
Definition apart (a b : entry) : Prop := match a, b with Hset_model.Present _ _ _ k _, Hset_model.Present _ _ _ k' _ => key_equals k k' = false | _, _ => True end.
Lemma fop_nth : forall (R : entry -> entry -> Prop) l, (forall i j, (i < j < length l)%nat -> R (nth i l Free) (nth j l Free)) -> ForallOrdPairs R l.
Proof.
  intros R. induction l as [|x l IH]; intros H; constructor.
  - apply Forall_forall. intros y Y. apply (In_nth _ _ Free) in Y. destruct Y as (n & N & <-). apply (H O (S n)). cbn [length]. lia.
  - apply IH. intros i j IJ. apply (H (S i) (S j)). cbn [length]. lia.
Qed.
Lemma table_apart : forall t, inv t -> ForallOrdPairs apart (table t).
Proof.
  intros t V. apply fop_nth. intros i j IJ. unfold apart. destruct (nth i (table t) Free) as [| |h k d] eqn:EI; auto. destruct (nth j (table t) Free) as [| |h' k' d'] eqn:EJ; auto. destruct (key_equals k k') eqn:Q; [|reflexivity]. exfalso.
  assert (LN := v_len t V). assert (X : Z.of_nat i = Z.of_nat j); [|lia]. apply (v_uniq t V (Z.of_nat i) (Z.of_nat j) h k d h' k' d'); try lia; unfold Hset_model.get; rewrite ?Nat2Z.id; assumption.
Qed.
Definition madd (m : fmap K D) (e : entry) : fmap K D := match e with Hset_model.Present _ _ _ k d => mset m k (Some (k, d)) | _ => m end.
Lemma madd_notin : forall l m x, (forall h k d, In (Present h k d) l -> key_equals x k = false) -> fold_left madd l m x = m x.
Proof.
  induction l as [|e l IH]; intros m x H; [reflexivity|]. cbn [fold_left]. rewrite IH by (intros; eapply H; right; eassumption). destruct e as [| |h k d]; try reflexivity. cbn [madd]. unfold mset. rewrite (H h k d) by (left; reflexivity). reflexivity.
Qed.
Lemma madd_in : forall l m x h k d, ForallOrdPairs apart l -> In (Present h k d) l -> key_equals x k = true -> fold_left madd l m x = Some (k, d).
Proof.
  induction l as [|e l IH]; intros m x h k d FO I Q; [destruct I|]. inversion FO as [|? ? FA FO2]; subst. cbn [fold_left]. destruct I as [->|I]; [|eapply IH; eassumption].
  rewrite madd_notin.
  - cbn [madd]. unfold mset. rewrite Q. reflexivity.
  - intros h' k' d' I'. rewrite Forall_forall in FA. specialize (FA _ I'). cbn in FA. rewrite (eq_trans_l x k k' Q). assumption.
Qed.
Lemma in_get : forall l e, In e l -> exists a, 0 <= a < Z.of_nat (length l) /\ get l a = e.
Proof. intros l e I. apply (In_nth _ _ Free) in I. destruct I as (n & N & E). exists (Z.of_nat n). split; [lia|]. unfold Hset_model.get. rewrite Nat2Z.id. assumption. Qed.
Lemma get_in : forall l a, 0 <= a < Z.of_nat (length l) -> In (get l a) l.
Proof. intros l a A. unfold Hset_model.get. apply nth_In. lia. Qed.
Lemma madd_repr : forall t m x, inv t -> repr t m -> fold_left madd (table t) (mempty K D) x = m x.
Proof.
  intros t m x V R. assert (LN := v_len t V). specialize (R x). destruct (m x) as [[k d]|].
  - destruct R as (a & A & E & Q). eapply madd_in; [apply table_apart; assumption| |eassumption]. rewrite <- E. apply get_in. lia.
  - apply madd_notin. intros h k d I. destruct (in_get _ _ I) as (a & A & E). rewrite LN in A. destruct (key_equals x k) eqn:Q; [|reflexivity]. exfalso. destruct (v_reach t V a h k d A E) as [-> _]. apply (R a k d). split; [assumption|]. split; assumption.
Qed.
Definition fresh (j : nat) : ht := mkHt K D j (repeat Free (Z.to_nat (size_of j))) 0 0.
Lemma get_free : forall n a, get (repeat Free n) a = Free.
Proof. intros n a. unfold Hset_model.get. generalize (Z.to_nat a). induction n as [|n IH]; intros [|b]; cbn [repeat nth]; auto. Qed.
Lemma cnt_free : forall f n, f Free = false -> cnt f (repeat Free n) = 0.
Proof. intros f n H. unfold cnt. induction n as [|n IH]; [reflexivity|]. cbn [repeat filter]. rewrite H. assumption. Qed.
Lemma fresh_ok : forall j, (j <= 29)%nat -> inv (fresh j) /\ repr (fresh j) (mempty K D).
Proof.
  intros j J. destruct (size_facts j J) as (_ & MX & _ & P3 & _). split.
  - constructor; unfold sz; cbn [fresh Hset_model.idx Hset_model.table Hset_model.entries Hset_model.deleted]; auto.
    + rewrite repeat_length. lia.
    + rewrite cnt_free; reflexivity.
    + rewrite cnt_free; reflexivity.
    + lia.
    + intros a h k d _ E. rewrite get_free in E. discriminate.
    + intros a b h k d h' k' d' _ _ E. rewrite get_free in E. discriminate.
  - intros x a k d (_ & E & _). cbn [fresh Hset_model.table] in E. rewrite get_free in E. discriminate.
Qed.
Lemma repr_ext : forall t m m', repr t m -> (forall x, m x = m' x) -> repr t m'.
Proof. intros t m m' R E x. rewrite <- E. apply R. Qed.
Lemma insert_room : forall dp t k d, deleted t + entries t < max_of (idx t) -> 0 <= deleted t -> insert_pre_hashed K D key_equals (S dp) t (hash_function k) k d = put_entry K D key_equals t (hash_function k) k d.
Proof.
  intros dp t k d ROOM DN. cbn [insert_pre_hashed]. destruct (Z.leb_spec (max_of (idx t)) (entries t)); [lia|]. destruct (Z.leb_spec (max_of (idx t)) (deleted t + entries t)); [lia|]. reflexivity.
Qed.
Definition reins (dp : nat) (r : outcome ht) (e : entry) : outcome ht :=
  bind r (fun t' => match e with
                    | Hset_model.Present _ _ h k d => bind (insert_pre_hashed K D key_equals dp t' h k d) (fun o => Ok (match o with Some t' => t' | None => t' end))
                    | _ => Ok t'
                    end).
Lemma reins_all : forall dp j l t m, inv t -> repr t m -> idx t = j -> deleted t + entries t + cnt is_present l < max_of j -> (forall h k d, In (Present h k d) l -> h = hash_function k) ->
  exists t', fold_left (reins (S dp)) l (Ok t) = Ok t' /\ inv t' /\ repr t' (fold_left madd l m) /\ idx t' = j /\ deleted t' + entries t' <= deleted t + entries t + cnt is_present l /\ entries t' <= entries t + cnt is_present l.
Proof.
  intros dp j. induction l as [|e l IH]; intros t m V R EJ C HH; [exists t; split; [reflexivity|]; split; [assumption|]; split; [exact R|]; split; [assumption|]; unfold cnt; cbn [filter length]; lia|].
  assert (CC : cnt is_present (e :: l) = (if is_present e then 1 else 0) + cnt is_present l) by (unfold cnt; cbn [filter]; destruct (is_present e); cbn [length]; lia). rewrite CC in *. pose proof (cnt_nonneg is_present l) as CN. cbn [fold_left]. unfold reins at 2. cbn [bind].
  destruct e as [| |h k d]; cbn [is_present madd] in *.
  - apply IH; auto. intros; eapply HH; right; eassumption.
  - apply IH; auto. intros; eapply HH; right; eassumption.
  - rewrite (HH h k d) by (left; reflexivity). pose proof (cnt_nonneg is_deleted (table t)) as DN. rewrite <- (v_del t V) in DN. rewrite insert_room; [|rewrite EJ; lia|assumption].
    destruct (put_ok t k d m V R) as (t' & E & V' & R' & J' & D' & N'); [rewrite EJ; lia|]. rewrite E. cbn [bind]. destruct (IH t' (mset m k (Some (k, d)))) as (t2 & E2 & V2 & R2 & J2 & D2 & N2); auto; [congruence|lia|intros; eapply HH; right; eassumption|].
    exists t2. split; [exact E2|]. split; [assumption|]. split; [assumption|]. split; [assumption|]. lia.
Qed.
Lemma insert_step : forall dp t h k d, insert_pre_hashed K D key_equals (S dp) t h k d =
  bind (if max_of (idx t) <=? entries t then (if (length hash_sizes <=? S (idx t))%nat then Ok t else fold_left (reins dp) (table t) (Ok (fresh (S (idx t)))))
        else if max_of (idx t) <=? deleted t + entries t then (if (length hash_sizes <=? idx t)%nat then Ok t else fold_left (reins dp) (table t) (Ok (fresh (idx t))))
        else Ok t) (fun t => put_entry K D key_equals t h k d).
Proof. reflexivity. Qed.
Lemma insert_ok : forall t k d m, inv t -> repr t m -> entries t < 1073741824 -> exists t', insert K D key_equals hash_function t k d = Ok (Some t') /\ inv t' /\ repr t' (mset m k (Some (k, d))) /\ entries t' <= entries t + 1.
Proof.
  intros t k d m V R EN. assert (DN : 0 <= deleted t) by (rewrite (v_del t V); apply cnt_nonneg). assert (LN := v_len t V).
  assert (RE : forall j, (j <= 29)%nat -> entries t < max_of j -> exists t', bind (fold_left (reins 39) (table t) (Ok (fresh j))) (fun t => put_entry K D key_equals t (hash_function k) k d) = Ok (Some t') /\ inv t' /\ repr t' (mset m k (Some (k, d))) /\ entries t' <= entries t + 1).
  { intros j J M. destruct (fresh_ok j J) as [V0 R0]. destruct (reins_all 38 j (table t) (fresh j) (mempty K D) V0 R0 eq_refl) as (t2 & E2 & V2 & R2 & J2 & D2 & N2).
    - cbn. rewrite <- (v_ent t V). lia.
    - intros h k' d' I. destruct (in_get _ _ I) as (a & A & E). rewrite LN in A. exact (proj1 (v_reach t V a h k' d' A E)).
    - cbn in D2, N2. rewrite <- (v_ent t V) in D2, N2. rewrite E2. cbn [bind]. destruct (put_ok t2 k d m V2) as (t3 & E3 & V3 & R3 & J3 & D3 & N3).
      + eapply repr_ext; [exact R2|]. intros x. apply madd_repr; assumption.
      + rewrite J2. lia.
      + exists t3. split; [exact E3|]. split; [assumption|]. split; [assumption|]. lia. }
  unfold insert. rewrite (insert_step 39). assert (I29 := v_idx t V). assert (VM := v_max t V). change (length hash_sizes) with 31%nat.
  destruct (Z.leb_spec (max_of (idx t)) (entries t)) as [G|G].
  - assert (I28 : (idx t <= 28)%nat). { destruct (Nat.eq_dec (idx t) 29) as [X|]; [|lia]. rewrite X, max29 in G. lia. }
    destruct (Nat.leb_spec 31 (S (idx t))); [lia|]. destruct (size_facts (idx t) I29) as (_ & MX & _). apply RE; [lia|]. rewrite max_grows by assumption. lia.
  - destruct (Z.leb_spec (max_of (idx t)) (deleted t + entries t)) as [G2|G2].
    + destruct (Nat.leb_spec 31 (idx t)); [lia|]. apply RE; [lia|assumption].
    + cbn [bind]. destruct (put_ok t k d m V R G2) as (t' & E & V' & R' & J' & D' & N'). exists t'. auto.
Qed.

(* listing *)
Lemma lists_foreach : forall t m, inv t -> repr t m -> lists K D key_equals m (foreach K D t) /\ entries t = Z.of_nat (length (foreach K D t)).
Proof.
  intros t m V R. assert (LN := v_len t V). split; [split|].
  - intros k d. unfold foreach. rewrite in_flat_map. pose proof (R k) as RK. split.
    + intros (e & I & H). destruct e as [| |h k' d']; cbn [In] in H; [destruct H|destruct H|]. destruct H as [H|[]]. injection H as -> ->. destruct (in_get _ _ I) as (a & A & E). rewrite LN in A. destruct (v_reach t V a h k d A E) as [EH _]. assert (KR : key_equals k k = true) by (destruct KO as (RF & _); apply RF). destruct (m k) as [[k2 d2]|].
      * destruct RK as (b & B & EB & Q). rewrite <- (v_uniq t V a b _ _ _ _ _ _ A B E EB Q) in EB. assert (XX := eq_trans (eq_sym E) EB). injection XX as _ -> ->. reflexivity.
      * exfalso. apply (RK a k d). split; [assumption|]. rewrite <- EH. split; assumption.
    + intros E. rewrite E in RK. destruct RK as (a & A & EA & Q). exists (get (table t) a). split; [apply get_in; unfold sz in *; lia|]. rewrite EA. left. reflexivity.
  - unfold foreach. pose proof (table_apart t V) as FO. clear LN. induction FO as [|e l FA FO IH]; [constructor|]. cbn [flat_map]. destruct e as [| |h k d]; cbn [app]; try exact IH. constructor; [|exact IH]. apply Forall_forall. intros [k' d'] I. apply in_flat_map in I. destruct I as (e & I & H). destruct e as [| |h2 k2 d2]; cbn [In] in H; [destruct H|destruct H|]. destruct H as [H|[]]. injection H as -> ->. rewrite Forall_forall in FA. exact (FA _ I).
  - rewrite (v_ent t V). unfold cnt, foreach. f_equal. clear LN V R. induction (table t) as [|e l IH]; [reflexivity|]. cbn [filter flat_map]. destruct e; cbn [is_present app length]; [exact IH|exact IH|]. f_equal. exact IH.
Qed.
Definition is_insert (o : hop K D) : bool := match o with HInsert _ _ _ _ => true | _ => false end.
Lemma hrun_ok : forall l t m, inv t -> repr t m -> entries t + Z.of_nat (length (filter is_insert l)) <= 1073741824 -> exists r, hrun K D key_equals hash_function t l = Ok r /\ manswers K D key_equals m l r.
Proof.
  induction l as [|o l IH]; intros t m V R C; [exists []; split; [reflexivity|exact I]|]. cbn [hrun].
  assert (STEP : exists t' a, hstep K D key_equals hash_function t o = Ok (t', a) /\ manswer K D key_equals m o a /\ inv t' /\ repr t' (meffect K D key_equals m o) /\ entries t' + Z.of_nat (length (filter is_insert l)) <= 1073741824).
  { destruct o as [k d|k|k| |]; cbn [hstep filter is_insert length] in *.
    - destruct (insert_ok t k d m V R) as (t' & E & V' & R' & N'); [lia|]. rewrite E. cbn [bind]. exists t'. eexists. split; [reflexivity|]. cbn [manswer]. split; [exact Logic.I|]. split; [assumption|]. split; [exact R'|]. lia.
    - destruct (remove_ok t k m V R) as (t' & E & V' & R' & N'). rewrite E. cbn [bind]. exists t'. eexists. split; [reflexivity|]. cbn [manswer]. split; [exact Logic.I|]. split; [assumption|]. split; [exact R'|]. lia.
    - destruct (search_ok t k V) as (r & E & S). rewrite E. cbn [bind]. exists t. eexists. split; [reflexivity|]. split; [|split; [assumption|split; [exact R|lia]]]. cbn [manswer]. pose proof (R k) as RK. destruct r as [a|].
      + destruct S as (k' & d & A & EA & Q). rewrite EA. destruct (m k) as [[k2 d2]|].
        * destruct RK as (b & B & EB & Q2). assert (X : a = b). { apply (v_uniq t V a b _ _ _ _ _ _ A B EA EB). rewrite <- (eq_trans_l k k' k2 Q). assumption. } subst b. assert (XX := eq_trans (eq_sym EA) EB). injection XX as _ -> ->. reflexivity.
        * exfalso. apply (RK a k' d). split; [assumption|]. split; assumption.
      + destruct (m k) as [[k2 d2]|]; [|reflexivity]. destruct RK as (b & M). exfalso. exact (S b k2 d2 M).
    - destruct (lists_foreach t m V R) as [L _]. exists t. eexists. split; [reflexivity|]. split; [exact L|]. split; [assumption|]. split; [exact R|lia].
    - destruct (lists_foreach t m V R) as [L EN]. exists t. eexists. split; [reflexivity|]. split; [exists (foreach K D t); split; assumption|]. split; [assumption|]. split; [exact R|lia]. }
  destruct STEP as (t' & a & E & MA & V' & R' & C'). rewrite E. cbn [bind]. destruct (IH t' _ V' R' C') as (r & E2 & MS). rewrite E2. cbn [bind]. exists (a :: r). split; [reflexivity|]. split; assumption.
Qed.
End HT.

(* C48 theorem *)
Lemma hset_history : forall (K D : Type) (key_equals : K -> K -> bool) (hash_function : K -> Z) (l : list (hop K D)),
  keys_ok K key_equals hash_function ->
  Z.of_nat (length (filter (fun o => match o with HInsert _ _ _ _ => true | _ => false end) l)) <= 2 ^ 30 ->
  exists r, hrun K D key_equals hash_function (create K D) l = Ok r /\ manswers K D key_equals (mempty K D) l r.
Proof.
  intros K D key_equals hash_function l KO C. destruct (fresh_ok K D key_equals hash_function 0 ltac:(lia)) as [V R].
  apply (hrun_ok K D key_equals hash_function KO l (create K D) (mempty K D) V R). exact C.
Qed.
