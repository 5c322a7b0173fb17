Require Import ZArith List Bool Lia.
From Verif Require Import Base Base_facts Str Str_facts Strlib_model Strlib_spec.
Import ListNotations.
Open Scope Z_scope.

Lemma u64_small : forall x, 0 <= x < two64 -> u64 x = x.
Proof. intros. unfold u64. apply Z.mod_small. assumption. Qed.

Lemma neg_pos : forall pos len, is_s64 pos -> pos < 0 -> 0 <= len <= maxint -> - len <= pos ->
  u64 (u64 (len + u64 pos) + 1) = len + pos + 1.
Proof.
  intros pos len S N L C. unfold is_s64 in S.
  assert (E : u64 pos = pos + two64).
  { unfold u64. rewrite <- (Z.mod_add pos 1 two64) by (unfold_consts; lia). apply Z.mod_small. unfold_consts. lia. }
  rewrite E. assert (E2 : u64 (len + (pos + two64)) = len + pos).
  { unfold u64. replace (len + (pos + two64)) with (len + pos + 1 * two64) by lia. rewrite Z.mod_add by (unfold_consts; lia).
    apply Z.mod_small. unfold_consts. lia. }
  rewrite E2. apply u64_small. unfold_consts. lia.
Qed.

Lemma posrelatI_ok : forall pos len, is_s64 pos -> 0 <= len <= maxint -> posrelatI pos len = first_pos len pos.
Proof.
  intros pos len S L. unfold posrelatI, first_pos, translate. destruct (Z.ltb_spec 0 pos).
  - destruct (Z.ltb_spec pos 0); [lia|]. rewrite u64_small by (unfold is_s64 in S; unfold_consts; lia). lia.
  - destruct (Z.eqb_spec pos 0) as [->|N].
    + reflexivity.
    + destruct (Z.ltb_spec pos 0); [|lia]. destruct (Z.ltb_spec pos (- len)); [lia|].
      rewrite neg_pos by (auto; lia). lia.
Qed.
Lemma getendpos_ok : forall pos len, is_s64 pos -> 0 <= len <= maxint ->
  0 <= getendpos pos len <= len /\
  (getendpos pos len = last_pos len pos \/ getendpos pos len = 0 /\ last_pos len pos < 0).
Proof.
  intros pos len S L. unfold getendpos, last_pos, translate. destruct (Z.ltb_spec len pos).
  - destruct (Z.ltb_spec pos 0); lia.
  - destruct (Z.leb_spec 0 pos).
    + destruct (Z.ltb_spec pos 0); [lia|]. rewrite u64_small by (unfold is_s64 in S; unfold_consts; lia). lia.
    + destruct (Z.ltb_spec pos 0); [|lia]. destruct (Z.ltb_spec pos (- len)).
      * lia.
      * rewrite neg_pos by (auto; lia). lia.
Qed.

Lemma nth_error_firstn : forall (s : list Z) n k, (k < n)%nat -> nth_error (firstn n s) k = nth_error s k.
Proof. induction s; destruct n; destruct k; intros; cbn; try reflexivity; try lia. apply IHs. lia. Qed.
Lemma nth_error_skipn : forall (s : list Z) n k, nth_error (skipn n s) k = nth_error s (n + k).
Proof. induction s; destruct n; intros; cbn [skipn plus]; try reflexivity; [destruct k; reflexivity|]. apply IHs. Qed.

Lemma bytes_cut : forall s a b, 1 <= a -> b <= slen s -> a <= b ->
  bytes_between s a b (firstn (Z.to_nat (b - a + 1)) (skipn (Z.to_nat (a - 1)) s)).
Proof.
  intros s a b Ha Hb H. assert (L : slen (firstn (Z.to_nat (b - a + 1)) (skipn (Z.to_nat (a - 1)) s)) = b - a + 1).
  { unfold slen in *. rewrite firstn_length, skipn_length. lia. }
  split; [lia|]. intros k Hk. rewrite L in Hk. rewrite nth_error_firstn by lia. rewrite nth_error_skipn. f_equal. lia.
Qed.
Lemma bytes_none : forall s a b, b < a -> bytes_between s a b [].
Proof. intros. split; [unfold slen; cbn; lia|]. intros k Hk. unfold slen in Hk. cbn in Hk. lia. Qed.

Theorem sub_ok : forall s i j, slen s <= maxint -> is_s64 i -> is_s64 j ->
  exists r, str_sub s i j = Ok r /\ bytes_between s (first_pos (slen s) i) (last_pos (slen s) j) r.
Proof.
  intros s i j L Si Sj. unfold str_sub. pose proof (slen_nonneg s).
  rewrite posrelatI_ok by (auto; lia). destruct (getendpos_ok j (slen s)) as [R C]; [assumption|lia|].
  assert (F : 1 <= first_pos (slen s) i) by (unfold first_pos; lia).
  destruct (Z.leb_spec (first_pos (slen s) i) (getendpos j (slen s))).
  - assert (E : getendpos j (slen s) = last_pos (slen s) j) by lia. rewrite E in *.
    rewrite (u64_small (last_pos (slen s) j - first_pos (slen s) i)) by (unfold_consts; lia).
    rewrite u64_small by (unfold_consts; lia).
    rewrite sread_ok by lia. eexists. split; [reflexivity|]. apply bytes_cut; lia.
  - exists []. split; [reflexivity|]. apply bytes_none. lia.
Qed.

Lemma bytes_loop_sread : forall n s p, bytes_loop s p n = sread s p n.
Proof. induction n; intros; cbn [bytes_loop sread]; [reflexivity|]. rewrite IHn. reflexivity. Qed.

Theorem byte_ok : forall avail s pi pj, slen s <= maxint ->
  let i := match pi with Some i => i | None => 1 end in
  let j := match pj with Some j => j | None => i end in
  is_s64 i -> is_s64 j ->
  let a := first_pos (slen s) i in let b := last_pos (slen s) j in
  (b - a + 1 <= Z.min avail INT_MAX -> exists r, str_byte avail s pi pj = Ok r /\ bytes_between s a b r) /\
  (b - a + 1 > Z.min avail INT_MAX -> b - a + 1 > 0 -> str_byte avail s pi pj = Err ETooLong).
Proof.
  intros avail s pi pj L i j Si Sj a b. unfold str_byte. fold i. fold j. pose proof (slen_nonneg s).
  rewrite posrelatI_ok by (auto; lia). fold a. destruct (getendpos_ok j (slen s)) as [R C]; [assumption|lia|]. fold b in C.
  assert (F : 1 <= a) by (unfold a, first_pos; lia).
  destruct (Z.ltb_spec (getendpos j (slen s)) a).
  - split; intros.
    + exists []. split; [reflexivity|]. apply bytes_none. lia.
    + lia.
  - assert (E : getendpos j (slen s) = b) by lia. rewrite E in *. rewrite (u64_small (b - a)) by (unfold_consts; lia).
    unfold INT_MAX. destruct (Z.leb_spec (two31 - 1) (b - a)).
    + split; intros; [lia|reflexivity].
    + rewrite (s32_id (b - a)) by (unfold_consts; lia). destruct (Z.ltb_spec avail (b - a + 1)).
      * split; intros; [lia|reflexivity].
      * split; intros; [|lia]. rewrite bytes_loop_sread, sread_ok by lia. eexists. split; [reflexivity|].
        apply bytes_cut; lia.
Qed.

Lemma rev_loop_ok : forall n s i, 0 <= i -> i + Z.of_nat n = slen s ->
  rev_loop s (slen s) i n = Ok (rev (firstn n s)).
Proof.
  induction n; intros s i Hi H; cbn [rev_loop]; [reflexivity|].
  assert (B : sbyte s (slen s - i - 1) = Ok (nth n s 0)).
  { rewrite sbyte_in by lia. f_equal. f_equal. lia. }
  rewrite B. cbn [bind]. rewrite IHn by lia. cbn [bind].
  assert (F : firstn (S n) s = firstn n s ++ [nth n s 0]).
  { clear -Hi H. unfold slen in H. assert (LN : (n < length s)%nat) by lia. clear H. revert s LN. induction n; intros s LN; destruct s; cbn [length] in LN; try lia.
    - reflexivity.
    - cbn [firstn nth app]. f_equal. apply (IHn s). lia. }
  rewrite F, rev_app_distr. reflexivity.
Qed.
Theorem reverse_ok : forall s, str_reverse s = Ok (rev s).
Proof. intros. unfold str_reverse. rewrite rev_loop_ok by (unfold slen; lia). rewrite firstn_all. reflexivity. Qed.

Lemma copies_len : forall s sep n r, copies s sep n r -> 1 <= n /\ slen r = n * slen s + (n - 1) * slen sep.
Proof.
  intros s sep n r H. induction H; [lia|]. rewrite !slen_app. lia.
Qed.
Lemma copies_det : forall s sep n r, copies s sep n r -> forall r', copies s sep n r' -> r = r'.
Proof.
  intros s sep n r H. induction H; intros r' H'.
  - inversion H'; [reflexivity|]. subst. apply copies_len in H0. lia.
  - inversion H'; subst.
    + apply copies_len in H. lia.
    + assert (n0 = n) by lia. subst. f_equal. f_equal. apply IHcopies. assumption.
Qed.

(* the loop of str_rep in front-to-back order *)
Fixpoint reps (k : nat) (s sep : list Z) : list Z :=
  match k with O => s | S k' => s ++ sep ++ reps k' s sep end.
Lemma reps_copies : forall k s sep, copies s sep (Z.of_nat k + 1) (reps k s sep).
Proof.
  induction k; intros s sep; cbn [reps].
  - constructor.
  - replace (Z.of_nat (S k) + 1) with (Z.of_nat k + 1 + 1) by lia. constructor. apply IHk.
Qed.

Lemma rep_loop_ok : forall k total s sep out, slen out + slen (reps k s sep) <= total ->
  rep_loop k total s sep out = Ok (out ++ reps k s sep).
Proof.
  induction k; intros total s sep out H; cbn [rep_loop reps] in *.
  - unfold put. destruct (Z.ltb_spec total (slen out + slen s)); [lia|reflexivity].
  - rewrite !slen_app in H. pose proof (slen_nonneg sep). pose proof (slen_nonneg (reps k s sep)).
    unfold put at 1. destruct (Z.ltb_spec total (slen out + slen s)); [lia|]. cbn [bind].
    destruct (Z.ltb_spec 0 (slen sep)) as [P|P].
    + unfold put at 1. rewrite slen_app. destruct (Z.ltb_spec total (slen out + slen s + slen sep)); [lia|]. cbn [bind].
      rewrite IHk by (rewrite !slen_app; lia). rewrite <- !app_assoc. reflexivity.
    + assert (sep = []) by (destruct sep; [reflexivity|rewrite slen_cons in P; pose proof (slen_nonneg sep); lia]). subst. cbn [bind].
      rewrite IHk by (rewrite !slen_app; lia). rewrite <- !app_assoc. reflexivity.
Qed.

Theorem rep_ok : forall s n sep, slen s <= maxint -> slen sep <= maxint -> is_s64 n -> 0 < n ->
  n * (slen s + slen sep) <= MAXSIZE ->
  exists r, str_rep s n sep = Ok r /\ copies s sep n r /\ slen r = n * slen s + (n - 1) * slen sep.
Proof.
  intros s n sep Ls Lp Sn Hn H. unfold str_rep. pose proof (slen_nonneg s). pose proof (slen_nonneg sep).
  unfold MAXSIZE, INT_MAX in *. unfold is_s64 in Sn.
  destruct (Z.leb_spec n 0); [lia|]. rewrite (u64_small (slen s + slen sep)) by (unfold_consts; lia).
  destruct (Z.ltb_spec (slen s + slen sep) (slen s)); [lia|]. cbn [orb].
  assert (D : slen s + slen sep <= (two31 - 1) / n) by (apply Z.div_le_lower_bound; lia).
  destruct (Z.ltb_spec ((two31 - 1) / n) (slen s + slen sep)); [lia|].
  assert (N1 : 0 <= n * slen s < two32) by (unfold_consts; nia).
  assert (N2 : 0 <= (n - 1) * slen sep < two32) by (unfold_consts; nia).
  rewrite (u64_small (n * slen s)), (u64_small ((n - 1) * slen sep)), u64_small by (unfold_consts; lia).
  pose proof (reps_copies (Z.to_nat (n - 1)) s sep) as C. replace (Z.of_nat (Z.to_nat (n - 1)) + 1) with n in C by lia.
  destruct (copies_len _ _ _ _ C) as [_ CL].
  rewrite rep_loop_ok by (rewrite slen_nil; lia). cbn [bind app]. rewrite CL, Z.eqb_refl.
  eexists. split; [reflexivity|]. split; assumption.
Qed.
Theorem rep_nonpos : forall s n sep, n <= 0 -> str_rep s n sep = Ok [].
Proof. intros. unfold str_rep. destruct (Z.leb_spec n 0); [reflexivity|lia]. Qed.
Theorem rep_too_long : forall s n sep, slen s <= maxint -> slen sep <= maxint -> is_s64 n -> 0 < n ->
  MAXSIZE < n * (slen s + slen sep) -> str_rep s n sep = Err ETooLong.
Proof.
  intros s n sep Ls Lp Sn Hn H. unfold str_rep. pose proof (slen_nonneg s). pose proof (slen_nonneg sep).
  destruct (Z.leb_spec n 0); [lia|]. rewrite (u64_small (slen s + slen sep)) by (unfold_consts; lia).
  destruct (Z.ltb_spec (slen s + slen sep) (slen s)); [reflexivity|]. cbn [orb].
  destruct (Z.ltb_spec (MAXSIZE / n) (slen s + slen sep)); [reflexivity|].
  exfalso. assert (n * (MAXSIZE / n) <= MAXSIZE) by (apply Z.mul_div_le; lia). nia.
Qed.

Theorem char_ok : forall args, Forall is_s64 args ->
  (Forall is_byte args -> str_char args = Ok args) /\ (~ Forall is_byte args -> str_char args = Err EArg).
Proof.
  induction args as [|c r IH]; intros S.
  - split; intros; [reflexivity|]. exfalso. apply H. constructor.
  - inversion S; subst. specialize (IH H2). cbn [str_char]. unfold is_s64 in H1. split.
    + intros F. inversion F; subst. unfold is_byte in H3. rewrite (u64_small c) by (unfold_consts; lia).
      destruct (Z.ltb_spec 255 c); [lia|]. rewrite (proj1 IH) by assumption. reflexivity.
    + intros NF. destruct (Z.ltb_spec 255 (u64 c)); [reflexivity|].
      assert (C : is_byte c).
      { unfold is_byte. destruct (Z.lt_ge_cases c 0) as [N|N].
        - destruct (u64_eqm c) as [k K]. pose proof (u64_range c). unfold_consts. lia.
        - rewrite u64_small in H by (unfold_consts; lia). lia. }
      rewrite (proj2 IH); [reflexivity|]. intros F. apply NF. constructor; assumption.
Qed.

(* ---- plain find ---- *)
Definition match_at (s p : list Z) (q : Z) : Prop := 0 <= q /\ q + slen p <= slen s /\ firstn (length p) (skipn (Z.to_nat q) s) = p.

Lemma occurs_match : forall s p a, occurs s p a <-> match_at s p (a - 1).
Proof.
  intros s p a. unfold occurs, match_at. split.
  - intros (H & u & v & -> & L). split; [lia|]. rewrite !slen_app. pose proof (slen_nonneg v). split; [lia|].
    unfold slen in L. replace (Z.to_nat (a - 1)) with (length u) by lia. rewrite skipn_app, skipn_all, Nat.sub_diag. cbn [app skipn].
    rewrite firstn_app, firstn_all, Nat.sub_diag. cbn [firstn]. apply app_nil_r.
  - intros (H & HL & E). split; [lia|]. exists (firstn (Z.to_nat (a - 1)) s), (skipn (length p) (skipn (Z.to_nat (a - 1)) s)).
    split.
    + rewrite <- E at 1. rewrite firstn_skipn, firstn_skipn. reflexivity.
    + unfold slen in *. rewrite firstn_length. lia.
Qed.

Lemma memchr_some : forall n s p c q, 0 <= p -> p + Z.of_nat n <= slen s -> memchr s p c n = Ok (Some q) ->
  p <= q < p + Z.of_nat n /\ nth (Z.to_nat q) s 0 = c /\ forall k, p <= k < q -> nth (Z.to_nat k) s 0 <> c.
Proof.
  induction n; intros s p c q Hp H E; cbn [memchr] in E; [discriminate|].
  rewrite sbyte_in in E by lia. cbn [bind] in E. destruct (Z.eqb_spec (nth (Z.to_nat p) s 0) c) as [C|C].
  - injection E as <-. split; [lia|]. split; [assumption|]. intros; lia.
  - destruct (IHn s (p + 1) c q) as (A & B & D); [lia|lia|assumption|]. split; [lia|]. split; [assumption|].
    intros k Hk. destruct (Z.eq_dec k p); [subst; assumption|]. apply D. lia.
Qed.
Lemma memchr_none : forall n s p c, 0 <= p -> p + Z.of_nat n <= slen s -> memchr s p c n = Ok None ->
  forall k, p <= k < p + Z.of_nat n -> nth (Z.to_nat k) s 0 <> c.
Proof.
  induction n; intros s p c Hp H E k Hk; [lia|]. cbn [memchr] in E.
  rewrite sbyte_in in E by lia. cbn [bind] in E. destruct (Z.eqb_spec (nth (Z.to_nat p) s 0) c) as [C|C]; [discriminate|].
  destruct (Z.eq_dec k p); [subst; assumption|]. apply (IHn s (p + 1) c); try lia. assumption.
Qed.
Lemma memchr_total : forall n s p c, 0 <= p -> p + Z.of_nat n <= slen s -> exists o, memchr s p c n = Ok o.
Proof.
  induction n; intros s p c Hp H; cbn [memchr]; [eexists; reflexivity|].
  rewrite sbyte_in by lia. cbn [bind]. destruct (nth (Z.to_nat p) s 0 =? c); [eexists; reflexivity|]. apply IHn; lia.
Qed.

Lemma memeq_ok : forall n s p t q, 0 <= p -> p + Z.of_nat n <= slen s -> 0 <= q -> q + Z.of_nat n <= slen t ->
  exists b, memeq s p t q n = Ok b /\
  (b = true <-> forall k, 0 <= k < Z.of_nat n -> nth (Z.to_nat (p + k)) s 0 = nth (Z.to_nat (q + k)) t 0).
Proof.
  induction n; intros s p t q Hp H1 Hq H2; cbn [memeq].
  - exists true. split; [reflexivity|]. split; [intros; lia|reflexivity].
  - rewrite !sbyte_in by lia. cbn [bind]. destruct (Z.eqb_spec (nth (Z.to_nat p) s 0) (nth (Z.to_nat q) t 0)) as [E|E].
    + destruct (IHn s (p + 1) t (q + 1)) as (b & EB & S); try lia. exists b. split; [assumption|]. rewrite S. split; intros F k Hk.
      * destruct (Z.eq_dec k 0); [subst; rewrite !Z.add_0_r; assumption|].
        specialize (F (k - 1)). replace (p + 1 + (k - 1)) with (p + k) in F by lia. replace (q + 1 + (k - 1)) with (q + k) in F by lia. apply F. lia.
      * specialize (F (k + 1)). replace (p + (k + 1)) with (p + 1 + k) in F by lia. replace (q + (k + 1)) with (q + 1 + k) in F by lia. apply F. lia.
    + exists false. split; [reflexivity|]. split; [discriminate|]. intros F. exfalso. apply E. specialize (F 0). rewrite !Z.add_0_r in F. apply F. lia.
Qed.

Lemma match_at_nth : forall s p q, 0 <= q -> q + slen p <= slen s ->
  (match_at s p q <-> forall k, 0 <= k < slen p -> nth (Z.to_nat (q + k)) s 0 = nth (Z.to_nat k) p 0).
Proof.
  intros s p q Hq H. unfold match_at. split.
  - intros (_ & _ & E) k Hk. rewrite <- E. unfold slen in *.
    assert (G : forall (l : list Z) n j, (j < n)%nat -> nth j (firstn n l) 0 = nth j l 0).
    { induction l; destruct n; destruct j; intros; cbn; try reflexivity; try lia. apply IHl. lia. }
    rewrite G by lia. rewrite nth_skipn_Z. f_equal. lia.
  - intros F. split; [assumption|]. split; [assumption|]. apply nth_ext with (d := 0) (d' := 0).
    + unfold slen in *. rewrite firstn_length, skipn_length. lia.
    + intros n Hn. rewrite firstn_length in Hn. specialize (F (Z.of_nat n)).
      assert (G : forall (l : list Z) n j, (j < n)%nat -> nth j (firstn n l) 0 = nth j l 0).
      { induction l; destruct n0; destruct j; intros; cbn; try reflexivity; try lia. apply IHl. lia. }
      rewrite G by lia. rewrite nth_skipn_Z. unfold slen in F. rewrite Nat2Z.id in F. rewrite <- F by lia. f_equal. lia.
Qed.

Lemma lmemfind_loop_ok : forall fuel s s1 l1 p l2, slen p = l2 + 1 -> 0 <= l2 -> 0 <= s1 -> 0 <= l1 ->
  s1 + l1 + l2 = slen s -> slen s <= maxint -> (Z.to_nat l1 < fuel)%nat ->
  exists o, lmemfind_loop fuel s s1 l1 p l2 = Ok o /\
  match o with
  | Some q => s1 <= q /\ match_at s p q /\ forall k, s1 <= k < q -> ~ match_at s p k
  | None => forall k, s1 <= k -> ~ match_at s p k
  end.
Proof.
  induction fuel; intros s s1 l1 p l2 HP H2 Hs Hl HS HM HF; [lia|]. cbn [lmemfind_loop].
  destruct (Z.ltb_spec 0 l1); cbn [negb].
  - rewrite sbyte_in by lia. cbn [bind].
    destruct (memchr_total (Z.to_nat l1) s s1 (nth (Z.to_nat 0) p 0)) as [o O]; [lia|lia|]. rewrite O. cbn [bind].
    destruct o as [q|].
    + destruct (memchr_some (Z.to_nat l1) s s1 _ q Hs ltac:(lia) O) as (Q1 & Q2 & Q3).
      destruct (memeq_ok (Z.to_nat l2) s (q + 1) p 1) as (b & EB & SB); try lia. rewrite EB. cbn [bind].
      assert (MA : b = true <-> match_at s p q).
      { rewrite match_at_nth by lia. rewrite SB. split; intros F k Hk.
        - destruct (Z.eq_dec k 0); [subst k; rewrite Z.add_0_r; assumption|].
          specialize (F (k - 1)). replace (q + 1 + (k - 1)) with (q + k) in F by lia. replace (1 + (k - 1)) with k in F by lia. apply F. lia.
        - specialize (F (k + 1)). replace (q + (k + 1)) with (q + 1 + k) in F by lia. replace (k + 1) with (1 + k) in F by lia. apply F. lia. }
      assert (NB : forall k, s1 <= k < q -> ~ match_at s p k).
      { intros k Hk [K1 [K2 K3]]. assert (M : match_at s p k) by (split; auto). rewrite (match_at_nth s p k K1 K2) in M.
        specialize (M 0 ltac:(lia)). rewrite Z.add_0_r in M. apply (Q3 k Hk). assumption. }
      destruct b.
      * exists (Some q). replace (q + 1 - 1) with q by lia. split; [reflexivity|]. split; [lia|]. split; [apply MA; reflexivity|assumption].
      * rewrite u64_small by (unfold_consts; lia).
        destruct (IHfuel s (q + 1) (l1 - (q + 1 - s1)) p l2) as (o & EO & SO); try lia.
        exists o. split; [assumption|].
        assert (NQ : ~ match_at s p q) by (intros M; apply MA in M; discriminate).
        destruct o as [r|].
        -- destruct SO as (A & B & C). split; [lia|]. split; [assumption|]. intros k Hk.
           destruct (Z.lt_ge_cases k q); [apply NB; lia|]. destruct (Z.eq_dec k q); [subst; assumption|]. apply C. lia.
        -- intros k Hk. destruct (Z.lt_ge_cases k q); [apply NB; lia|]. destruct (Z.eq_dec k q); [subst; assumption|]. apply SO. lia.
    + exists None. split; [reflexivity|]. intros k Hk [K1 [K2 K3]].
      pose proof (memchr_none (Z.to_nat l1) s s1 _ Hs ltac:(lia) O k ltac:(lia)) as N. apply N.
      assert (M : match_at s p k) by (split; auto). rewrite (match_at_nth s p k K1 K2) in M.
      specialize (M 0 ltac:(lia)). rewrite Z.add_0_r in M. assumption.
  - exists None. split; [reflexivity|]. intros k Hk [K1 [K2 K3]]. lia.
Qed.

Lemma lmemfind_ok : forall s s1 p, 0 <= s1 <= slen s -> slen s <= maxint ->
  exists o, lmemfind s s1 (slen s - s1) p = Ok o /\
  match o with
  | Some q => s1 <= q /\ match_at s p q /\ forall k, s1 <= k < q -> ~ match_at s p k
  | None => forall k, s1 <= k -> ~ match_at s p k
  end.
Proof.
  intros s s1 p H HM. unfold lmemfind. pose proof (slen_nonneg p). destruct (Z.eqb_spec (slen p) 0) as [E|E].
  - exists (Some s1). split; [reflexivity|]. split; [lia|]. split; [|intros; lia].
    split; [lia|]. split; [lia|]. destruct p; [reflexivity|]. rewrite slen_cons in E. pose proof (slen_nonneg p). lia.
  - destruct (Z.ltb_spec (slen s - s1) (slen p)).
    + exists None. split; [reflexivity|]. intros k Hk [K1 [K2 K3]]. lia.
    + apply lmemfind_loop_ok; try lia. unfold slen in *. lia.
Qed.

(* nospecials *)
Definition special (c : Z) : Prop := In c SPECIALS.
Lemma special_magic : forall c, special c <-> magic c.
Proof. intros c. unfold special, SPECIALS, magic. cbn [In]. lia. Qed.
Lemma special_dec : forall c, existsb (Z.eqb c) SPECIALS = true <-> special c.
Proof.
  intros. rewrite existsb_exists. unfold special. split.
  - intros (x & H & E). apply Z.eqb_eq in E. subst. assumption.
  - intros H. exists c. split; [assumption|apply Z.eqb_refl].
Qed.

(* one zero-terminated segment starting at q *)
Lemma segment_ok : forall fuel p q, 0 <= q <= slen p -> (Z.to_nat (slen p - q) < fuel)%nat ->
  exists e, strend fuel p q = Ok e /\ q <= e <= slen p /\ nth (Z.to_nat e) p 0 = 0 /\
  exists b, strpbrk fuel p q = Ok b /\ (b = true <-> exists k, q <= k < e /\ special (nth (Z.to_nat k) p 0)).
Proof.
  induction fuel; intros p q H F; [lia|]. cbn [strend strpbrk]. rewrite sbyte_ok by lia. cbn [bind].
  destruct (Z.eqb_spec (nth (Z.to_nat q) p 0) 0) as [E|E].
  - exists q. split; [reflexivity|]. split; [lia|]. split; [assumption|]. exists false. split; [reflexivity|].
    split; [discriminate|]. intros (k & K & _). lia.
  - assert (q < slen p).
    { destruct (Z.eq_dec q (slen p)); [|lia]. subst. exfalso. apply E. apply nth_overflow. unfold slen. lia. }
    destruct (IHfuel p (q + 1)) as (e & E1 & E2 & E3 & b & B1 & B2); [lia|lia|].
    exists e. split; [assumption|]. split; [lia|]. split; [assumption|].
    destruct (existsb (Z.eqb (nth (Z.to_nat q) p 0)) SPECIALS) eqn:SP.
    + exists true. split; [reflexivity|]. split; [|reflexivity]. intros _. exists q. split; [lia|]. apply special_dec. assumption.
    + exists b. split; [assumption|]. rewrite B2. split.
      * intros (k & K & S). exists k. split; [lia|assumption].
      * intros (k & K & S). destruct (Z.eq_dec k q).
        -- subst. apply special_dec in S. congruence.
        -- exists k. split; [lia|assumption].
Qed.

Lemma nospecials_loop_ok : forall fuel p q, 0 <= q <= slen p -> (Z.to_nat (slen p - q) < fuel)%nat ->
  exists b, nospecials_loop fuel p q = Ok b /\
  (b = true <-> forall k, q <= k < slen p -> ~ special (nth (Z.to_nat k) p 0)).
Proof.
  induction fuel; intros p q H F; [lia|]. cbn [nospecials_loop].
  destruct (segment_ok (S (length p)) p q H) as (e & E1 & E2 & E3 & b & B1 & B2); [unfold slen in *; lia|].
  rewrite B1. cbn [bind]. destruct b.
  - exists false. split; [reflexivity|]. split; [discriminate|]. intros N. destruct (proj1 B2 eq_refl) as (k & K & S).
    exfalso. apply (N k); [lia|assumption].
  - rewrite E1. cbn [bind]. assert (NS : forall k, q <= k < e -> ~ special (nth (Z.to_nat k) p 0)).
    { intros k K S. assert (false = true) by (apply B2; exists k; auto). discriminate. }
    assert (N0 : ~ special 0) by (unfold special; cbn; intuition discriminate).
    destruct (Z.leb_spec (e + 1) (slen p)).
    + destruct (IHfuel p (e + 1)) as (b & EB & SB); [lia|lia|]. exists b. split; [assumption|]. rewrite SB. split; intros N k K.
      * destruct (Z.lt_ge_cases k e); [apply NS; lia|]. destruct (Z.eq_dec k e); [subst; rewrite E3; assumption|]. apply N. lia.
      * apply N. lia.
    + exists true. split; [reflexivity|]. split; [|reflexivity]. intros _ k K. apply NS. lia.
Qed.

Theorem nospecials_ok : forall p, exists b, nospecials p = Ok b /\ (b = true <-> forall c, In c p -> ~ magic c).
Proof.
  intros p. unfold nospecials. destruct (nospecials_loop_ok (S (length p)) p 0) as (b & E & S).
  - pose proof (slen_nonneg p). lia.
  - unfold slen. lia.
  - exists b. split; [assumption|]. rewrite S. split.
    + intros N c I. destruct (In_nth p c 0 I) as (n & L & <-). specialize (N (Z.of_nat n)). rewrite Nat2Z.id in N. rewrite <- special_magic. apply N. unfold slen. lia.
    + intros N k K. rewrite special_magic. apply N. apply nth_In. unfold slen in K. lia.
Qed.

Theorem find_ok : forall s p oi plain, slen s <= maxint ->
  let i := match oi with Some i => i | None => 1 end in
  is_s64 i ->
  plain = true \/ (forall c, In c p -> ~ magic c) ->
  exists o, str_find_plain s p oi plain = Ok (Some o) /\
  match o with
  | Some (a, b) => first_pos (slen s) i <= a /\ occurs s p a /\ b = a + slen p - 1 /\
                   forall a', first_pos (slen s) i <= a' < a -> ~ occurs s p a'
  | None => forall a', first_pos (slen s) i <= a' -> ~ occurs s p a'
  end.
Proof.
  intros s p oi plain HM i Si HP. unfold str_find_plain. fold i. pose proof (slen_nonneg s).
  rewrite posrelatI_ok by (auto; lia). set (a0 := first_pos (slen s) i). assert (A : 1 <= a0) by (unfold a0, first_pos; lia).
  assert (A2 : a0 <= maxint + 1).
  { unfold a0, first_pos, translate. unfold is_s64 in Si. destruct (Z.ltb_spec i 0); unfold_consts; lia. }
  rewrite u64_small by (unfold_consts; lia). destruct (Z.ltb_spec (slen s) (a0 - 1)).
  - exists None. split; [reflexivity|]. intros a' Ha O. apply occurs_match in O. destruct O as (O1 & O2 & _). pose proof (slen_nonneg p). lia.
  - assert (B : (if plain then Ok true else nospecials p) = Ok true).
    { destruct plain; [reflexivity|]. destruct HP as [HP|HP]; [discriminate|].
      destruct (nospecials_ok p) as (b & E & S). rewrite E. rewrite (proj2 S HP). reflexivity. }
    rewrite B. cbn [bind]. destruct (lmemfind_ok s (a0 - 1) p) as (o & EO & SO); [lia|assumption|].
    rewrite EO. cbn [bind]. destruct o as [q|].
    + exists (Some (q + 1, q + slen p)). split; [reflexivity|]. destruct SO as (Q1 & Q2 & Q3).
      split; [lia|]. split; [apply occurs_match; replace (q + 1 - 1) with q by lia; assumption|]. split; [lia|].
      intros a' Ha O. apply occurs_match in O. apply (Q3 (a' - 1)); [lia|assumption].
    + exists None. split; [reflexivity|]. intros a' Ha O. apply occurs_match in O. apply (SO (a' - 1)); [lia|assumption].
Qed.
Theorem find_special : forall s p oi, slen s <= maxint ->
  let i := match oi with Some i => i | None => 1 end in
  is_s64 i -> first_pos (slen s) i <= slen s + 1 ->
  (exists c, In c p /\ magic c) -> str_find_plain s p oi false = Ok None.
Proof.
  intros s p oi HM i Si HL (c & C1 & C2). unfold str_find_plain. fold i. pose proof (slen_nonneg s).
  rewrite posrelatI_ok by (auto; lia). assert (1 <= first_pos (slen s) i) by (unfold first_pos; lia).
  rewrite u64_small by (unfold_consts; lia). destruct (Z.ltb_spec (slen s) (first_pos (slen s) i - 1)); [lia|].
  destruct (nospecials_ok p) as (b & E & S). rewrite E. cbn [bind]. destruct b; [|reflexivity].
  exfalso. apply (proj1 S eq_refl c); assumption.
Qed.
