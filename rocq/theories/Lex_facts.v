(* The stream and the buffer seen as lists; the small readers of the lexer. *)
Require Import ZArith List Bool String Lia.
From Verif Require Import Base Base_facts Str Ctype_model Ctype_proofs Num_model Num_spec Utf8_model Utf8_spec Utf8_proofs Lex_model Lex_spec.
Import ListNotations.
Open Scope Z_scope.

(* ** Character classes *)
Definition char (c : Z) : Prop := -1 <= c < 256.
Lemma cls_digit : forall c, char c -> (lisdigit c = true <-> digit c).
Proof.
  intros c Hc. destruct (Z.eq_dec c (-1)) as [->|Hn]; [split; [discriminate | unfold digit; lia]|].
  rewrite lisdigit_ok by (unfold char in Hc; lia). unfold ascii_digit, digit. rewrite andb_true_iff, !Z.leb_le. tauto.
Qed.
Lemma cls_xdigit : forall c, char c -> (lisxdigit c = true <-> xdigit c).
Proof.
  intros c Hc. destruct (Z.eq_dec c (-1)) as [->|Hn]; [split; [discriminate | unfold xdigit, digit; lia]|].
  rewrite lisxdigit_ok by (unfold char in Hc; lia). unfold ascii_xdigit, ascii_digit, xdigit, digit.
  rewrite !orb_true_iff, !andb_true_iff, !Z.leb_le. tauto.
Qed.
Lemma cls_letter : forall c, char c -> (lislalpha c = true <-> letter c).
Proof.
  intros c Hc. destruct (Z.eq_dec c (-1)) as [->|Hn]; [split; [discriminate | unfold letter; lia]|].
  rewrite lislalpha_ok by (unfold char in Hc; lia). unfold ascii_upper, ascii_lower, letter.
  rewrite !orb_true_iff, !andb_true_iff, !Z.leb_le, Z.eqb_eq. tauto.
Qed.
Lemma cls_alnum : forall c, char c -> (lislalnum c = true <-> alnum c).
Proof.
  intros c Hc. destruct (Z.eq_dec c (-1)) as [->|Hn]; [split; [discriminate | unfold alnum, letter, digit; lia]|].
  rewrite lislalnum_ok by (unfold char in Hc; lia). unfold ascii_upper, ascii_lower, ascii_digit, alnum, letter, digit.
  rewrite !orb_true_iff, !andb_true_iff, !Z.leb_le, Z.eqb_eq. tauto.
Qed.
Lemma cls_space : forall c, char c -> (lisspace c = true <-> white c \/ newline c).
Proof.
  intros c Hc. destruct (Z.eq_dec c (-1)) as [->|Hn]; [split; [discriminate | unfold white, newline; lia]|].
  rewrite lisspace_ok by (unfold char in Hc; lia). unfold ascii_space, white, newline.
  rewrite !orb_true_iff, !andb_true_iff, !Z.leb_le, Z.eqb_eq. lia.
Qed.
Lemma cls_newline : forall c, isnewline c = true <-> newline c.
Proof. intros c. unfold isnewline, newline. rewrite orb_true_iff, !Z.eqb_eq. tauto. Qed.
Lemma not_true : forall b P, (b = true <-> P) -> ~ P -> b = false.
Proof. intros [|] P H N; [exfalso; apply N, H; reflexivity | reflexivity]. Qed.
Lemma not_false : forall b P, (b = true <-> P) -> b = false -> ~ P.
Proof. intros b P H E p. apply H in p. congruence. Qed.
Lemma hexavalue_ok : forall c, xdigit c -> hexavalue c = xval c.
Proof.
  intros c H. assert (Hc : 0 <= c < 256) by (unfold xdigit, digit in H; lia). revert H.
  pattern c. apply (fun P (d : forall c, 0 <= c < 256 -> P c) => d c Hc). clear c Hc.
  intros c Hc. destruct (lisxdigit c) eqn:E.
  - intros _. apply Z.eqb_eq.
    assert (G : (implb (lisxdigit c) (hexavalue c =? xval c)) = true).
    { revert c Hc E. intros c Hc _. revert c Hc. apply all_bytes. vm_compute. reflexivity. }
    rewrite E in G. exact G.
  - intros H. exfalso. apply (not_false _ _ (cls_xdigit c ltac:(unfold char; lia)) E H).
Qed.
Lemma xval_bound : forall c, xdigit c -> 0 <= xval c < 16.
Proof. intros c H. unfold xdigit, digit in H. unfold xval. destruct (c <=? 57) eqn:E1; [apply Z.leb_le in E1; lia|]. apply Z.leb_gt in E1. destruct (c <=? 70) eqn:E2; [apply Z.leb_le in E2; lia | apply Z.leb_gt in E2; lia]. Qed.

(* ** The stream as a list *)
Notation blocks := joined.
Definition at_ (s : ls) (i b : list Z) (n : Z) : Prop :=
  buf s = b /\ line s = n /\ wf_str i /\
  match i with
  | [] => current s = -1
  | c :: r => current s = c /\ zend s = false /\ r = zcur s ++ blocks (zrest s)
  end.

Lemma at_cur : forall s i b n, at_ s i b n -> current s = hd (-1) i.
Proof. intros s [|c i] b n (_ & _ & _ & H); [exact H | apply H]. Qed.
Lemma at_char : forall s i b n, at_ s i b n -> char (current s).
Proof.
  intros s i b n H. rewrite (at_cur _ _ _ _ H). destruct H as (_ & _ & W & _). destruct i as [|c i]; cbn; unfold char; [lia|].
  inversion W as [|? ? X]; subst. unfold is_byte in X. lia.
Qed.
Lemma at_wf : forall s i b n, at_ s i b n -> wf_str i. Proof. intros s i b n H. apply H. Qed.
Lemma at_buf : forall s i b n, at_ s i b n -> buf s = b. Proof. intros s i b n H. apply H. Qed.

Lemma next_at : forall s c i b n, at_ s (c :: i) b n -> exists s', next s = Ok s' /\ at_ s' i b n.
Proof.
  intros s c i b n (Hb & Hl & W & Hc & He & Hi). unfold next. inversion W; subst.
  destruct (zcur s) as [|d t] eqn:Ez.
  - rewrite He. destruct (zrest s) as [|[|d t] r] eqn:Er; eexists; (split; [reflexivity|]); unfold at_; cbn; auto.
    repeat split; auto.
  - eexists; split; [reflexivity|]. unfold at_; cbn. repeat split; auto.
Qed.
Lemma save_at : forall s i b n c, at_ s i b n -> at_ (save s c) i (b ++ [c]) n.
Proof. intros s i b n c (Hb & Hl & W & H). unfold at_, save; cbn. subst b. repeat split; auto. Qed.
Lemma san_at : forall s c i b n, at_ s (c :: i) b n -> exists s', save_and_next s = Ok s' /\ at_ s' i (b ++ [c]) n.
Proof.
  intros s c i b n H. unfold save_and_next. rewrite (at_cur _ _ _ _ H). cbn [hd]. apply next_at with c. apply save_at, H.
Qed.
Lemma remove_at : forall s i b x n k, at_ s i (b ++ x) n -> List.length x = k -> exists s', buffremove s k = Ok s' /\ at_ s' i b n.
Proof.
  intros s i b x n k (Hb & Hl & W & H) Hk. unfold buffremove. rewrite Hb, app_length, Hk.
  destruct (Nat.ltb (List.length b + k) k) eqn:E; [apply Nat.ltb_lt in E; lia|].
  eexists; split; [reflexivity|]. unfold at_; cbn. rewrite Nat.add_sub, firstn_app, Nat.sub_diag, firstn_all. cbn. rewrite app_nil_r. repeat split; auto.
Qed.
Lemma reset_at : forall s i b n, at_ s i b n -> at_ (resetbuffer s) i [] n.
Proof. intros s i b n (Hb & Hl & W & H). unfold at_, resetbuffer; cbn. repeat split; auto. Qed.

(* the head of the text *)
Lemma at_nonempty : forall s i b n, at_ s i b n -> current s <> -1 -> exists r, i = current s :: r.
Proof. intros s [|c i] b n (_ & _ & _ & H) Hn; [congruence|]. destruct H as [<- _]. exists i. reflexivity. Qed.
Lemma at_eoz : forall s i b n, at_ s i b n -> current s = -1 -> i = [].
Proof. intros s [|c i] b n (_ & _ & W & H) E; [reflexivity|]. inversion W as [|? ? X]; subst. unfold is_byte in X. lia. Qed.
Lemma stops_at : forall s i b n (P : Z -> Prop), at_ s i b n -> ~ P (current s) -> stops P i.
Proof. intros s i b n P H N c r -> p. apply N. rewrite (at_cur _ _ _ _ H). exact p. Qed.
Lemma stops_cur : forall s i b n (P : Z -> Prop), at_ s i b n -> stops P i -> P (current s) -> current s = -1.
Proof.
  intros s i b n P H St p. destruct (Z.eq_dec (current s) (-1)) as [E|E]; [exact E|].
  destruct (at_nonempty _ _ _ _ H E) as [r ->]. exfalso. apply (St _ _ eq_refl p).
Qed.

Ltac step_next H s' H' := let E := fresh "Enx" in destruct (next_at _ _ _ _ _ H) as (s' & E & H'); rewrite E; cbn [bind].
Ltac step_save H s' H' := let E := fresh "Enx" in destruct (san_at _ _ _ _ _ H) as (s' & E & H'); rewrite E; cbn [bind].

(* ** Line breaks *)
Lemma incl_sound : forall s a r b n, at_ s (a :: r) b n -> newline a ->
  (exists s' i' n', inclinenumber s = Ok s' /\ line_break n (a :: r) i' n' /\ at_ s' i' b n' /\ (List.length i' <= List.length r)%nat) \/ inclinenumber s = Err ETooLong.
Proof.
  intros s a r b n H Na. unfold inclinenumber. rewrite (at_cur _ _ _ _ H). cbn [hd]. step_next H s1 H1.
  assert (Ln : forall s' i', at_ s' i' b n -> (MAX_INT <=? line s' + 1) = false -> n + 1 < 2147483647).
  { intros s' i' (_ & Hl & _) E. apply Z.leb_gt in E. unfold MAX_INT in E. lia. }
  assert (Fin : forall s' i', at_ s' i' b n -> at_ (mkls (current s') (zcur s') (zrest s') (zend s') (buf s') (line s' + 1)) i' b (n + 1)).
  { intros s' i' (X1 & X2 & X3 & X4). unfold at_; cbn. subst n. repeat split; auto. }
  destruct (isnewline (current s1) && negb (current s1 =? a)) eqn:E2.
  - apply andb_true_iff in E2. destruct E2 as [E2 E3]. apply cls_newline in E2. apply negb_true_iff, Z.eqb_neq in E3.
    destruct (at_nonempty _ _ _ _ H1) as [r' Er]; [unfold newline in E2; lia|]. subst r.
    step_next H1 s2 H2. destruct (MAX_INT <=? line s2 + 1) eqn:E4; [right; reflexivity|]. left.
    eexists; eexists; exists (n + 1). split; [reflexivity|]. split; [apply lb_two; eauto|]. split; [apply Fin, H2 | cbn; lia].
  - cbn [bind]. destruct (MAX_INT <=? line s1 + 1) eqn:E4; [right; reflexivity|]. left.
    eexists; eexists; exists (n + 1). split; [reflexivity|]. split; [apply lb_one; eauto|split; [apply Fin, H1 | lia]].
    apply (stops_at _ _ _ _ _ H1). intros [N1 N2]. apply cls_newline in N1. rewrite N1 in E2. cbn in E2. apply negb_false_iff, Z.eqb_eq in E2. congruence.
Qed.
Lemma incl_complete : forall s i b n i' n', at_ s i b n -> line_break n i i' n' -> exists s', inclinenumber s = Ok s' /\ at_ s' i' b n'.
Proof.
  intros s i b n i' n' H L.
  assert (Fin : forall s' i', at_ s' i' b n -> at_ (mkls (current s') (zcur s') (zrest s') (zend s') (buf s') (line s' + 1)) i' b (n + 1)).
  { intros s' j (X1 & X2 & X3 & X4). unfold at_; cbn. subst n. repeat split; auto. }
  assert (Ln : forall s' i', at_ s' i' b n -> n + 1 < 2147483647 -> (MAX_INT <=? line s' + 1) = false).
  { intros s' j (_ & Hl & _) E. apply Z.leb_gt. unfold MAX_INT. lia. }
  destruct L as [n a c r Na Nc Nac Hn | n a r Na St Hn]; unfold inclinenumber; rewrite (at_cur _ _ _ _ H); cbn [hd]; step_next H s1 H1.
  - rewrite (at_cur _ _ _ _ H1). cbn [hd]. rewrite (proj2 (cls_newline c) Nc), (proj2 (Z.eqb_neq c a)) by congruence. cbn [andb negb].
    step_next H1 s2 H2. rewrite (Ln _ _ H2 Hn). eexists; split; [reflexivity | apply Fin, H2].
  - destruct (isnewline (current s1) && negb (current s1 =? a)) eqn:E2.
    + apply andb_true_iff in E2. destruct E2 as [E2 E3]. apply cls_newline in E2. apply negb_true_iff, Z.eqb_neq in E3.
      pose proof (stops_cur _ _ _ _ _ H1 St (conj E2 (not_eq_sym E3))) as Q. unfold newline in E2. lia.
    + cbn [bind]. rewrite (Ln _ _ H1 Hn). eexists; split; [reflexivity | apply Fin, H1].
Qed.
Lemma lb_head : forall n i i' n', line_break n i i' n' -> exists a r, i = a :: r /\ newline a.
Proof. intros n i i' n' [? a b r ? ? ? ?|? a r ? ? ?]; eexists; eexists; (split; [reflexivity|]); assumption. Qed.
Lemma lb_len : forall n i i' n', line_break n i i' n' -> (List.length i' < List.length i)%nat.
Proof. intros n i i' n' []; cbn; lia. Qed.
(* ** \z *)
Lemma zap_sound : forall fuel s i b n, at_ s i b n -> (List.length i < fuel)%nat ->
  (exists s' i' n', zap_loop fuel s = Ok s' /\ spaces n i i' n' /\ at_ s' i' b n' /\ (List.length i' <= List.length i)%nat) \/ zap_loop fuel s = Err ETooLong.
Proof.
  induction fuel as [|f IH]; intros s i b n H Hf; [lia|]. cbn [zap_loop].
  destruct (lisspace (current s)) eqn:Es.
  - apply (cls_space _ (at_char _ _ _ _ H)) in Es.
    destruct (at_nonempty _ _ _ _ H) as [r Er]; [unfold white, newline in Es; lia|].
    rewrite Er in H, Hf. destruct (isnewline (current s)) eqn:En.
    + destruct (incl_sound _ _ _ _ _ H (proj1 (cls_newline _) En)) as [(s' & i1 & n1 & E & L & H1 & Hl)|E]; rewrite E; [|right; reflexivity]. cbn [bind].
      cbn in Hf. destruct (IH s' i1 b n1 H1 ltac:(lia)) as [(s2 & i2 & n2 & E2 & S2 & H2 & L2)|E2]; [left | right; exact E2].
      exists s2, i2, n2. split; [exact E2|]. rewrite Er. split; [eapply sp_line; eauto|]. split; [exact H2 | cbn; lia].
    + step_next H s1 H1. cbn in Hf. destruct (IH s1 r b n H1 ltac:(lia)) as [(s2 & i2 & n2 & E2 & S2 & H2 & L2)|E2]; [left | right; exact E2].
      exists s2, i2, n2. split; [exact E2|]. rewrite Er. split; [apply sp_white; auto|split; [exact H2 | cbn; lia]].
      destruct Es as [Es|Es]; [exact Es|]. apply cls_newline in Es. congruence.
  - left. exists s, i, n. split; [reflexivity|]. split; [|split; [exact H | lia]]. apply sp_end. apply (stops_at _ _ _ _ _ H).
    apply (not_false _ _ (cls_space _ (at_char _ _ _ _ H)) Es).
Qed.
Lemma zap_complete : forall n i i' n', spaces n i i' n' -> forall fuel s b, at_ s i b n -> (List.length i < fuel)%nat ->
  exists s', zap_loop fuel s = Ok s' /\ at_ s' i' b n'.
Proof.
  induction 1 as [n i St|n c i i' n' Wc Sp IH|n i i1 n1 i' n' L Sp IH]; intros [|f] s b H Hf; try lia; cbn [zap_loop].
  - destruct (lisspace (current s)) eqn:Es; [|exists s; split; [reflexivity | exact H]].
    apply (cls_space _ (at_char _ _ _ _ H)) in Es. pose proof (stops_cur _ _ _ _ _ H St Es). unfold white, newline in Es. lia.
  - rewrite (proj2 (cls_space _ (at_char _ _ _ _ H))) by (rewrite (at_cur _ _ _ _ H); auto).
    rewrite (not_true _ _ (cls_newline _)) by (rewrite (at_cur _ _ _ _ H); cbn; unfold white, newline in *; lia).
    step_next H s1 H1. cbn in Hf. apply IH; [exact H1 | lia].
  - destruct (lb_head _ _ _ _ L) as (a & r & -> & Na). pose proof (lb_len _ _ _ _ L) as Hl.
    rewrite (proj2 (cls_space _ (at_char _ _ _ _ H))) by (rewrite (at_cur _ _ _ _ H); auto).
    rewrite (proj2 (cls_newline _)) by (rewrite (at_cur _ _ _ _ H); exact Na).
    destruct (incl_complete _ _ _ _ _ _ H L) as (s1 & E & H1). rewrite E. cbn [bind]. apply IH; [exact H1 | lia].
Qed.
