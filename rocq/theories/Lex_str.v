(* String literals. *)
Require Import ZArith List Bool String Lia.
From Verif Require Import Base Base_facts Str Ctype_model Ctype_proofs Num_model Num_spec Utf8_model Utf8_spec Utf8_proofs Lex_model Lex_spec Lex_facts.
Import ListNotations.
Open Scope Z_scope.

Lemma app1 : forall (b : list Z) c x, (b ++ [c]) ++ x = b ++ c :: x.
Proof. intros. rewrite <- app_assoc. reflexivity. Qed.

(* a failing check reads one more character, never behind the end *)
Lemma esccheck_err : forall A s i b n (k : outcome A), at_ s i b n -> esccheck s false k = Err EFormat.
Proof.
  intros A s i b n k H. unfold esccheck. destruct (current s =? EOZ) eqn:E; [reflexivity|]. apply Z.eqb_neq in E.
  destruct (at_nonempty _ _ _ _ H E) as [r Er]. rewrite Er in H. step_save H s1 H1. reflexivity.
Qed.

Lemma gethexa_sound : forall s c i b n, at_ s (c :: i) b n ->
  (exists x r s', i = x :: r /\ xdigit x /\ gethexa s = Ok (xval x, s') /\ at_ s' (x :: r) (b ++ [c]) n) \/ gethexa s = Err EFormat.
Proof.
  intros s c i b n H. unfold gethexa. step_save H s1 H1. destruct (lisxdigit (current s1)) eqn:E.
  - apply (cls_xdigit _ (at_char _ _ _ _ H1)) in E. left. destruct (at_nonempty _ _ _ _ H1) as [r Er]; [unfold xdigit, digit in E; lia|].
    exists (current s1), r, s1. cbn [esccheck]. rewrite (hexavalue_ok _ E). rewrite <- Er. repeat split; auto; apply H1.
  - right. apply (esccheck_err _ _ _ _ _ _ H1).
Qed.
Lemma gethexa_complete : forall s c x i b n, at_ s (c :: x :: i) b n -> xdigit x ->
  exists s', gethexa s = Ok (xval x, s') /\ at_ s' (x :: i) (b ++ [c]) n.
Proof.
  intros s c x i b n H X. unfold gethexa. step_save H s1 H1. exists s1.
  assert (C : current s1 = x) by (rewrite (at_cur _ _ _ _ H1); reflexivity).
  rewrite (proj2 (cls_xdigit _ (at_char _ _ _ _ H1))) by (rewrite C; exact X). cbn [esccheck]. rewrite C, (hexavalue_ok _ X). auto.
Qed.

(* \x *)
Lemma hex_sound : forall s c i b n, at_ s (c :: i) b n ->
  (exists x y r s', i = x :: y :: r /\ xdigit x /\ xdigit y /\ readhexaesc s = Ok (value 16 [x; y], s') /\ at_ s' (y :: r) b n) \/ readhexaesc s = Err EFormat.
Proof.
  intros s c i b n H. unfold readhexaesc. destruct (gethexa_sound _ _ _ _ _ H) as [(x & r & s1 & -> & X & E & H1)|E]; rewrite E; [|right; reflexivity]. cbn [bind].
  destruct (gethexa_sound _ _ _ _ _ H1) as [(y & r2 & s2 & -> & Y & E2 & H2)|E2]; rewrite E2; [|right; reflexivity]. cbn [bind].
  rewrite app1 in H2. destruct (remove_at _ _ b [c; x] _ 2 H2 eq_refl) as (s3 & E3 & H3). rewrite E3. cbn [bind]. left.
  exists x, y, r2, s3. repeat split; auto; apply H3.
Qed.
Lemma hex_complete : forall s c x y i b n, at_ s (c :: x :: y :: i) b n -> xdigit x -> xdigit y ->
  exists s', readhexaesc s = Ok (value 16 [x; y], s') /\ at_ s' (y :: i) b n.
Proof.
  intros s c x y i b n H X Y. unfold readhexaesc. destruct (gethexa_complete _ _ _ _ _ _ H X) as (s1 & E & H1). rewrite E. cbn [bind].
  destruct (gethexa_complete _ _ _ _ _ _ H1 Y) as (s2 & E2 & H2). rewrite E2. cbn [bind].
  rewrite app1 in H2. destruct (remove_at _ _ b [c; x] _ 2 H2 eq_refl) as (s3 & E3 & H3). rewrite E3. cbn [bind].
  exists s3. split; [|exact H3]. unfold value. cbn [fold_left]. do 3 f_equal.
Qed.

Lemma value_app : forall base ds c, value base (ds ++ [c]) = value base ds * base + xval c.
Proof. intros. unfold value. rewrite fold_left_app. reflexivity. Qed.
Lemma value_nonneg : forall base ds, 0 <= base -> Forall xdigit ds -> 0 <= value base ds.
Proof.
  intros base ds Hb. induction ds as [|c ds IH] using rev_ind; intros F; [cbn; lia|]. apply Forall_app in F. destruct F as [F1 F2].
  inversion F2; subst. rewrite value_app. pose proof (xval_bound c ltac:(assumption)). specialize (IH F1). nia.
Qed.
Lemma digit_xval : forall c, digit c -> xval c = c - 48.
Proof. intros c H. unfold digit in H. unfold xval. destruct (c <=? 57) eqn:E; [reflexivity | apply Z.leb_gt in E; lia]. Qed.

(* \ddd *)
Lemma dec_sound : forall k s i b x n ds, at_ s i (b ++ x) n -> List.length x = List.length ds -> Forall digit ds ->
  exists ds' i' s' x', i = ds' ++ i' /\ Forall digit ds' /\ (List.length ds' <= k)%nat /\ (List.length ds' = k \/ stops digit i') /\
    dec_esc k s (value 10 ds) (List.length ds) = Ok (value 10 (ds ++ ds'), List.length (ds ++ ds'), s') /\ at_ s' i' (b ++ x') n /\ List.length x' = List.length (ds ++ ds').
Proof.
  induction k as [|k IH]; intros s i b x n ds H Hx Fd; cbn [dec_esc].
  - exists [], i, s, x. rewrite app_nil_r. split; [reflexivity|]. repeat split; auto; try apply H.
  - destruct (lisdigit (current s)) eqn:E.
    + apply (cls_digit _ (at_char _ _ _ _ H)) in E. destruct (at_nonempty _ _ _ _ H) as [r Er]; [unfold digit in E; lia|].
      set (c := current s) in *. rewrite Er in H. step_save H s1 H1. rewrite <- app_assoc in H1.
      replace (10 * value 10 ds + c - 48) with (value 10 (ds ++ [c])) by (rewrite value_app, (digit_xval _ E); lia).
      replace (S (List.length ds)) with (List.length (ds ++ [c])) by (rewrite app_length; cbn; lia).
      destruct (IH s1 r b (x ++ [c]) n (ds ++ [c]) H1) as (ds' & i' & s' & x' & -> & F & L & St & Eq & H' & Lx).
      * rewrite !app_length, Hx. reflexivity.
      * apply Forall_app; auto.
      * exists (c :: ds'), i', s', x'. rewrite <- app_assoc in Eq, Lx. cbn [app] in Eq, Lx. repeat split; auto; cbn; try lia; try apply H'.
        destruct St; [left; lia | right; auto].
    + exists [], i, s, x. rewrite app_nil_r. split; [reflexivity|]. split; [constructor|]. split; [cbn; lia|].
      split; [right; apply (stops_at _ _ _ _ _ H); apply (not_false _ _ (cls_digit _ (at_char _ _ _ _ H)) E)|]. repeat split; auto; apply H.
Qed.
Lemma dec_complete : forall ds' k s i b x n ds, at_ s (ds' ++ i) (b ++ x) n -> List.length x = List.length ds -> Forall digit ds' ->
  (List.length ds' <= k)%nat -> (List.length ds' = k \/ stops digit i) ->
  exists s' x', dec_esc k s (value 10 ds) (List.length ds) = Ok (value 10 (ds ++ ds'), List.length (ds ++ ds'), s') /\ at_ s' i (b ++ x') n /\ List.length x' = List.length (ds ++ ds').
Proof.
  induction ds' as [|c ds' IH]; intros k s i b x n ds H Hx Fd Hk St.
  - rewrite app_nil_r. cbn [app] in H. exists s, x. destruct k as [|k]; cbn [dec_esc]; [auto|].
    destruct St as [St|St]; [cbn in St; lia|]. destruct (lisdigit (current s)) eqn:E; [|auto].
    apply (cls_digit _ (at_char _ _ _ _ H)) in E. pose proof (stops_cur _ _ _ _ _ H St E). unfold digit in E. lia.
  - destruct k as [|k]; [cbn in Hk; lia|]. cbn [dec_esc]. inversion Fd; subst.
    assert (C : current s = c) by (rewrite (at_cur _ _ _ _ H); reflexivity). rewrite C.
    rewrite (proj2 (cls_digit c ltac:(rewrite <- C; apply (at_char _ _ _ _ H)))) by assumption. cbn [app] in H. step_save H s1 H1. rewrite <- app_assoc in H1.
    replace (10 * value 10 ds + c - 48) with (value 10 (ds ++ [c])) by (rewrite value_app, digit_xval by assumption; lia).
    replace (S (List.length ds)) with (List.length (ds ++ [c])) by (rewrite app_length; cbn; lia).
    destruct (IH k s1 i b (x ++ [c]) n (ds ++ [c]) H1) as (s' & x' & E & H' & L); auto.
    + rewrite !app_length, Hx. reflexivity.
    + cbn in Hk. lia.
    + destruct St; [left; cbn in *; lia | auto].
    + exists s', x'. rewrite <- app_assoc in E, L. auto.
Qed.
Lemma decesc_sound : forall s i b n, at_ s i b n -> digit (current s) ->
  (exists ds i' s', i = ds ++ i' /\ (1 <= List.length ds <= 3)%nat /\ Forall digit ds /\ (List.length ds = 3%nat \/ stops digit i') /\ value 10 ds < 256 /\
    readdecesc s = Ok (value 10 ds, s') /\ at_ s' i' b n) \/ readdecesc s = Err EFormat.
Proof.
  intros s i b n H D. unfold readdecesc. rewrite <- (app_nil_r b) in H.
  destruct (dec_sound 3 s i b [] n [] H eq_refl (Forall_nil _)) as (ds & i' & s' & x & -> & F & L & St & E & H' & Lx).
  cbn [app] in E, Lx. change (value 10 []) with 0 in E. change (List.length (@nil Z)) with 0%nat in E. rewrite E. cbn [bind].
  destruct (value 10 ds <=? 255) eqn:V; [|right; apply (esccheck_err _ _ _ _ _ _ H')]. cbn [esccheck].
  destruct (remove_at _ _ b x _ _ H' Lx) as (s2 & E2 & H2). rewrite E2. cbn [bind]. left. exists ds, i', s2. apply Z.leb_le in V.
  repeat split; auto; try lia; try apply H2. destruct ds as [|c ds]; [|cbn; lia]. exfalso. destruct St as [St|St]; [cbn in St; lia|].
  pose proof (stops_cur _ _ _ _ _ H St D). unfold digit in D. lia.
Qed.
Lemma decesc_complete : forall s ds i b n, at_ s (ds ++ i) b n -> (1 <= List.length ds <= 3)%nat -> Forall digit ds -> (List.length ds = 3%nat \/ stops digit i) -> value 10 ds < 256 ->
  exists s', readdecesc s = Ok (value 10 ds, s') /\ at_ s' i b n.
Proof.
  intros s ds i b n H L F St V. unfold readdecesc. rewrite <- (app_nil_r b) in H.
  destruct (dec_complete ds 3 s i b [] n [] H eq_refl F ltac:(lia) St) as (s' & x & E & H' & Lx).
  cbn [app] in E, Lx. change (value 10 []) with 0 in E. change (List.length (@nil Z)) with 0%nat in E. rewrite E. cbn [bind].
  rewrite (proj2 (Z.leb_le (value 10 ds) 255)) by lia. cbn [esccheck].
  destruct (remove_at _ _ b x _ _ H' Lx) as (s2 & E2 & H2). rewrite E2. cbn [bind]. eauto.
Qed.

(* \u{...} *)
Lemma utf8_sound : forall fuel s c i b x n ds, at_ s (c :: i) (b ++ x) n -> (List.length i < fuel)%nat -> Forall xdigit ds -> value 16 ds < 2^31 ->
  (exists ds' i' s' x', i = ds' ++ i' /\ Forall xdigit ds' /\ stops xdigit i' /\ value 16 (ds ++ ds') < 2^31 /\
    utf8_loop fuel s (value 16 ds) (S (List.length x)) = Ok (value 16 (ds ++ ds'), List.length x', s') /\ at_ s' i' (b ++ x') n) \/
  utf8_loop fuel s (value 16 ds) (S (List.length x)) = Err EFormat.
Proof.
  induction fuel as [|f IH]; intros s c i b x n ds H Hf Fd V; [lia|]. cbn [utf8_loop]. step_save H s1 H1. rewrite <- app_assoc in H1.
  destruct (lisxdigit (current s1)) eqn:E.
  - apply (cls_xdigit _ (at_char _ _ _ _ H1)) in E. destruct (at_nonempty _ _ _ _ H1) as [r Er]; [unfold xdigit, digit in E; lia|].
    set (d := current s1) in *. destruct (value 16 ds <=? 134217727) eqn:V2; [|right; apply (esccheck_err _ _ _ _ _ _ H1)]. cbn [esccheck]. apply Z.leb_le in V2.
    rewrite (hexavalue_ok _ E). pose proof (xval_bound _ E) as XB. rewrite <- value_app. rewrite Er in H1, Hf. cbn in Hf.
    replace (S (S (List.length x))) with (S (List.length (x ++ [c]))) by (rewrite app_length; cbn; lia).
    destruct (IH s1 d r b (x ++ [c]) n (ds ++ [d]) H1 ltac:(lia)) as [(ds' & i' & s' & x' & -> & F & St & V' & Eq & H')|Eq].
    + apply Forall_app; auto.
    + rewrite value_app. lia.
    + left. exists (d :: ds'), i', s', x'. rewrite <- app_assoc in Eq, V'. cbn [app] in Eq, V'. split; [exact Er|]. repeat split; auto; apply H'.
    + right. exact Eq.
  - left. exists [], i, s1, (x ++ [c]). rewrite app_nil_r. split; [reflexivity|]. split; [constructor|].
    split; [apply (stops_at _ _ _ _ _ H1); apply (not_false _ _ (cls_xdigit _ (at_char _ _ _ _ H1)) E)|]. split; [exact V|].
    rewrite app_length. cbn [List.length]. rewrite Nat.add_1_r. auto.
Qed.
Lemma utf8_complete : forall ds' fuel s c i b x n ds, at_ s (c :: ds' ++ i) (b ++ x) n -> (List.length (ds' ++ i) < fuel)%nat -> Forall xdigit ds -> Forall xdigit ds' -> stops xdigit i -> value 16 (ds ++ ds') < 2^31 ->
  exists s' x', utf8_loop fuel s (value 16 ds) (S (List.length x)) = Ok (value 16 (ds ++ ds'), List.length x', s') /\ at_ s' i (b ++ x') n.
Proof.
  induction ds' as [|d ds' IH]; intros [|f] s c i b x n ds H Hf F0 Fd St V; try lia; cbn [utf8_loop]; step_save H s1 H1; rewrite <- app_assoc in H1.
  - cbn [app] in H1. destruct (lisxdigit (current s1)) eqn:E.
    + apply (cls_xdigit _ (at_char _ _ _ _ H1)) in E. pose proof (stops_cur _ _ _ _ _ H1 St E). unfold xdigit, digit in E. lia.
    + exists s1, (x ++ [c]). rewrite app_nil_r, app_length. cbn [List.length]. rewrite Nat.add_1_r. auto.
  - inversion Fd as [|? ? Xd Fd']; subst. cbn [app] in H1.
    assert (C : current s1 = d) by (rewrite (at_cur _ _ _ _ H1); reflexivity). rewrite C.
    rewrite (proj2 (cls_xdigit d ltac:(rewrite <- C; apply (at_char _ _ _ _ H1)))) by assumption.
    assert (V2 : value 16 ds <= 134217727).
    { assert (G : forall l v, Forall xdigit l -> 0 <= v -> v <= fold_left (fun v c => v * 16 + xval c) l v).
      { induction l as [|a l IHl]; intros v Fl Hv; cbn [fold_left]; [lia|]. inversion Fl; subst. pose proof (xval_bound a ltac:(assumption)). specialize (IHl (v * 16 + xval a) ltac:(assumption) ltac:(lia)). lia. }
      pose proof (value_nonneg 16 ds ltac:(lia) F0) as Hn. pose proof (xval_bound d Xd) as Hd.
      assert (Q : value 16 (ds ++ [d]) <= value 16 (ds ++ d :: ds')).
      { change (ds ++ d :: ds') with (ds ++ [d] ++ ds'). rewrite app_assoc. unfold value at 2. rewrite fold_left_app. apply G; [exact Fd'|].
        fold (value 16 (ds ++ [d])). rewrite value_app. lia. }
      rewrite value_app in Q. change (2^31) with 2147483648 in V. lia. }
    rewrite (proj2 (Z.leb_le _ _) V2). cbn [esccheck]. rewrite (hexavalue_ok _ Xd), <- value_app.
    replace (S (S (List.length x))) with (S (List.length (x ++ [c]))) by (rewrite app_length; cbn; lia).
    change (d :: ds') with ([d] ++ ds') in V |- *. rewrite (app_assoc ds) in V |- *. cbn in Hf. apply (IH f s1 d i b (x ++ [c]) n (ds ++ [d])); auto; [lia | apply Forall_app; auto].
Qed.
Lemma fold_save : forall l s i b n, at_ s i b n -> at_ (fold_left save l s) i (b ++ l) n.
Proof. induction l as [|c l IH]; intros s i b n H; cbn [fold_left]; [rewrite app_nil_r; exact H|]. rewrite <- app1. apply IH, save_at, H. Qed.

Lemma utf8esc_sound : forall fuel s c i b n, at_ s (c :: i) (b ++ [92]) n -> (List.length i <= fuel)%nat ->
  (exists ds i' s', i = 123 :: ds ++ 125 :: i' /\ ds <> [] /\ Forall xdigit ds /\ value 16 ds < 2^31 /\ Lex_model.utf8esc fuel s = Ok s' /\ at_ s' i' (b ++ utf8 (value 16 ds)) n) \/
  Lex_model.utf8esc fuel s = Err EFormat.
Proof.
  intros fuel s c i b n H Hf. unfold Lex_model.utf8esc, readutf8esc. step_save H s1 H1.
  destruct (current s1 =? 123) eqn:E; [|right; rewrite (esccheck_err _ _ _ _ _ _ H1); reflexivity]. apply Z.eqb_eq in E. cbn [esccheck].
  destruct (at_nonempty _ _ _ _ H1) as [r Er]; [lia|]. rewrite E in Er. subst i.
  destruct (gethexa_sound _ _ _ _ _ H1) as [(x & r2 & s2 & -> & X & E2 & H2)|E2]; rewrite E2; [|right; reflexivity]. cbn [bind].
  rewrite !app1 in H2. replace (xval x) with (value 16 [x]) by (cbn; lia). cbn in Hf. pose proof (xval_bound _ X).
  destruct (utf8_sound fuel s2 x r2 b [92; c; 123] n [x] H2 ltac:(lia)) as [(ds & i' & s3 & x' & -> & F & St & V & Eq & H3)|Eq].
  - constructor; auto.
  - change (value 16 [x]) with (0 * 16 + xval x). change (2^31) with 2147483648. lia.
  - cbn [List.length] in Eq. rewrite Eq. cbn [bind]. destruct (current s3 =? 125) eqn:E3; [|right; rewrite (esccheck_err _ _ _ _ _ _ H3); reflexivity].
    apply Z.eqb_eq in E3. cbn [esccheck]. destruct (at_nonempty _ _ _ _ H3) as [r3 Er3]; [lia|]. rewrite E3 in Er3. subst i'.
    step_next H3 s4 H4. destruct (remove_at _ _ b x' _ _ H4 eq_refl) as (s5 & E5 & H5). rewrite E5. cbn [bind].
    assert (Q : Forall xdigit (x :: ds)) by (constructor; auto). pose proof (value_nonneg 16 (x :: ds) ltac:(lia) Q).
    rewrite utf8esc_ok by (split; assumption). cbn [bind]. left. exists (x :: ds), r3. eexists. split; [reflexivity|]. split; [discriminate|]. split; [exact Q|].
    split; [exact V|]. split; [reflexivity | apply fold_save, H5].
  - cbn [List.length] in Eq. rewrite Eq. right. reflexivity.
Qed.
Lemma utf8esc_complete : forall fuel s c ds i b n, at_ s (c :: 123 :: ds ++ 125 :: i) (b ++ [92]) n -> (List.length (ds ++ 125%Z :: i) <= fuel)%nat -> ds <> [] -> Forall xdigit ds -> value 16 ds < 2^31 ->
  exists s', Lex_model.utf8esc fuel s = Ok s' /\ at_ s' i (b ++ utf8 (value 16 ds)) n.
Proof.
  intros fuel s c ds i b n H Hf Nd F V. unfold Lex_model.utf8esc, readutf8esc. step_save H s1 H1.
  rewrite (at_cur _ _ _ _ H1). cbn [hd]. change (123 =? 123) with true. cbn [esccheck]. destruct ds as [|x ds]; [congruence|]. inversion F as [|? ? X F']; subst. cbn [app] in H1.
  destruct (gethexa_complete _ _ _ _ _ _ H1 X) as (s2 & E2 & H2). rewrite E2. cbn [bind]. rewrite !app1 in H2.
  replace (xval x) with (value 16 [x]) by (cbn; lia). cbn in Hf.
  destruct (utf8_complete ds fuel s2 x (125 :: i) b [92; c; 123] n [x] H2 ltac:(lia)) as (s3 & x' & E3 & H3); auto.
  { intros q r Q. injection Q as <- <-. unfold xdigit, digit. lia. }
  cbn [List.length] in E3. rewrite E3. cbn [bind]. rewrite (at_cur _ _ _ _ H3). cbn [hd]. change (125 =? 125) with true. cbn [esccheck]. step_next H3 s4 H4.
  destruct (remove_at _ _ b x' _ _ H4 eq_refl) as (s5 & E5 & H5). rewrite E5. cbn [bind]. pose proof (value_nonneg 16 (x :: ds) ltac:(lia) F).
  rewrite utf8esc_ok by (split; assumption). cbn [bind]. eexists; split; [reflexivity | apply fold_save, H5].
Qed.

(* ** One escape sequence *)
Lemma escape_char_in : forall c e, escape_char c = Some e -> In (c, e) escapes.
Proof.
  intros c e. unfold escape_char.
  repeat match goal with |- (if ?c =? ?k then _ else _) = _ -> _ => destruct (c =? k) eqn:?; [intros [= <-]; apply Z.eqb_eq in Heqb; subst; cbn; tauto | clear Heqb] | |- _ => idtac end;
  repeat match goal with |- (if ?x then _ else _) = _ -> _ => destruct x eqn:? end; try discriminate; intros [= <-];
  repeat match goal with H : (_ =? _) = true |- _ => apply Z.eqb_eq in H; subst | H : (_ || _) = true |- _ => apply orb_true_iff in H; destruct H end; cbn; tauto.
Qed.
Lemma escape_in_char : forall c e, In (c, e) escapes -> escape_char c = Some e.
Proof. intros c e H. cbn in H. repeat (destruct H as [H|H]; [injection H as <- <-; reflexivity|]). destruct H. Qed.
Lemma escape_none : forall c, ~ (In c [97; 98; 102; 110; 114; 116; 118; 92; 34; 39]) -> escape_char c = None.
Proof. intros c H. destruct (escape_char c) as [e|] eqn:E; [|reflexivity]. exfalso. apply escape_char_in in E. apply H. cbn in E |- *. repeat (destruct E as [E|E]; [injection E as <- _; tauto|]). destruct E. Qed.

Lemma only_save_at : forall s i b n c, at_ s i (b ++ [92]) n -> exists s', only_save s c = Ok s' /\ at_ s' i (b ++ [c]) n.
Proof. intros s i b n c H. unfold only_save. destruct (remove_at _ _ b [92] _ 1 H eq_refl) as (s1 & E & H1). rewrite E. cbn [bind]. eexists; split; [reflexivity | apply save_at, H1]. Qed.
Lemma read_save_at : forall s d i b n c, at_ s (d :: i) (b ++ [92]) n -> exists s', read_save s c = Ok s' /\ at_ s' i (b ++ [c]) n.
Proof. intros s d i b n c H. unfold read_save. step_next H s1 H1. apply only_save_at, H1. Qed.

Lemma escape_sound : forall fuel s i b n, at_ s i (b ++ [92]) n -> (List.length i < fuel)%nat ->
  (exists e i' n' s', escape_seq n i e i' n' /\ escape fuel s = Ok s' /\ at_ s' i' (b ++ e) n' /\ (List.length i' <= List.length i)%nat) \/
  (i = [] /\ escape fuel s = Ok s) \/ (exists e, escape fuel s = Err e).
Proof.
  intros fuel s i b n H Hf. unfold escape. destruct (escape_char (current s)) as [e|] eqn:Ee.
  - pose proof (escape_char_in _ _ Ee) as In_. destruct (at_nonempty _ _ _ _ H) as [r Er]; [intros Q; rewrite Q in Ee; discriminate|].
    rewrite Er in H. destruct (read_save_at _ _ _ _ _ e H) as (s1 & E1 & H1). left. exists [e], r, n, s1. rewrite Er. repeat split; auto; try apply H1. apply e_char, In_. cbn; lia.
  - destruct (current s =? 120) eqn:Ex.
    { apply Z.eqb_eq in Ex. destruct (at_nonempty _ _ _ _ H) as [r Er]; [lia|]. rewrite Ex in Er. subst i.
      destruct (hex_sound _ _ _ _ _ H) as [(x & y & r2 & s1 & -> & X & Y & E1 & H1)|E1]; rewrite E1; [|right; right; eexists; reflexivity]. cbn [bind].
      destruct (read_save_at _ _ _ _ _ (value 16 [x; y]) H1) as (s2 & E2 & H2). left. eexists; eexists; eexists; eexists. split; [apply e_hex; auto|]. split; [exact E2|]. split; [exact H2|]. cbn; lia. }
    destruct (current s =? 117) eqn:Eu.
    { apply Z.eqb_eq in Eu. destruct (at_nonempty _ _ _ _ H) as [r Er]; [lia|]. rewrite Eu in Er. subst i. cbn in Hf.
      destruct (utf8esc_sound fuel _ _ _ _ _ H ltac:(lia)) as [(ds & i' & s1 & -> & Nd & F & V & E1 & H1)|E1]; [|right; right; eexists; exact E1].
      left. eexists; eexists; eexists; eexists. split; [apply e_utf8; eauto|]. split; [exact E1|]. split; [exact H1|]. cbn. rewrite app_length. cbn. lia. }
    destruct (isnewline (current s)) eqn:En.
    { apply cls_newline in En. destruct (at_nonempty _ _ _ _ H) as [r Er]; [unfold newline in En; lia|]. rewrite Er in H.
      destruct (incl_sound _ _ _ _ _ H En) as [(s1 & i1 & n1 & E1 & L & H1 & Hl)|E1]; rewrite E1; [|right; right; eexists; reflexivity]. cbn [bind].
      destruct (only_save_at _ _ _ _ 10 H1) as (s2 & E2 & H2). left. exists [10], i1, n1, s2. rewrite Er. split; [apply e_line; exact L|]. split; [exact E2|]. split; [exact H2 | cbn; lia]. }
    destruct (current s =? EOZ) eqn:Ez.
    { apply Z.eqb_eq in Ez. right; left. split; [apply (at_eoz _ _ _ _ H Ez) | reflexivity]. }
    destruct (current s =? 122) eqn:Eq.
    { apply Z.eqb_eq in Eq. destruct (at_nonempty _ _ _ _ H) as [r Er]; [lia|]. rewrite Eq in Er. subst i. cbn in Hf.
      destruct (remove_at _ _ b [92] _ 1 H eq_refl) as (s1 & E1 & H1). rewrite E1. cbn [bind]. step_next H1 s2 H2.
      destruct (zap_sound fuel _ _ _ _ H2 ltac:(lia)) as [(s3 & i3 & n3 & E3 & Sp & H3 & Hl)|E3]; [|right; right; eexists; exact E3].
      left. exists [], i3, n3, s3. split; [apply e_zap; exact Sp|]. split; [exact E3|]. rewrite app_nil_r. split; [exact H3 | cbn; lia]. }
    destruct (lisdigit (current s)) eqn:Ed; [|right; right; eexists; apply (esccheck_err _ _ _ _ _ _ H)]. cbn [esccheck].
    apply (cls_digit _ (at_char _ _ _ _ H)) in Ed.
    destruct (decesc_sound _ _ _ _ H Ed) as [(ds & i' & s1 & -> & L & F & St & V & E1 & H1)|E1]; rewrite E1; [|right; right; eexists; reflexivity]. cbn [bind].
    destruct (only_save_at _ _ _ _ (value 10 ds) H1) as (s2 & E2 & H2). left. exists [value 10 ds], i', n, s2. split; [apply e_dec; auto|]. split; [exact E2|]. split; [exact H2|]. rewrite app_length. lia.
Qed.
Lemma escape_complete : forall n i e i' n', escape_seq n i e i' n' -> forall fuel s b, at_ s i (b ++ [92]) n -> (List.length i < fuel)%nat ->
  exists s', escape fuel s = Ok s' /\ at_ s' i' (b ++ e) n'.
Proof.
  assert (Small : forall c, digit c \/ newline c -> escape_char c = None).
  { intros c D. apply escape_none. cbn. unfold digit, newline in D. lia. }
  intros n i e i' n' S0 fuel s b H Hf. pose proof (at_cur _ _ _ _ H) as C. unfold escape. destruct S0 as [n c e i In_|n x y i X Y|n ds i L F St V|n ds i Nd F V|n i i1 n1 L|n i i1 n1 Sp].
  - rewrite C. cbn [hd]. rewrite (escape_in_char _ _ In_). apply (read_save_at _ _ _ _ _ e H).
  - rewrite C. cbn [hd]. change (escape_char 120) with (@None Z). change (120 =? 120) with true. cbv iota.
    destruct (hex_complete _ _ _ _ _ _ _ H X Y) as (s1 & E1 & H1). rewrite E1. cbn [bind]. apply (read_save_at _ _ _ _ _ _ H1).
  - destruct ds as [|d ds]; [cbn in L; lia|]. cbn [app hd] in C. pose proof (Forall_inv F) as D. rewrite C.
    rewrite (Small d (or_introl D)). rewrite (proj2 (Z.eqb_neq d 120)), (proj2 (Z.eqb_neq d 117)) by (unfold digit in D; lia).
    rewrite (not_true _ _ (cls_newline d)) by (unfold newline, digit in *; lia). rewrite (proj2 (Z.eqb_neq d EOZ)), (proj2 (Z.eqb_neq d 122)) by (unfold digit, EOZ in *; lia).
    rewrite (proj2 (cls_digit d ltac:(rewrite <- C; apply (at_char _ _ _ _ H))) D). cbn [esccheck].
    destruct (decesc_complete _ (d :: ds) _ _ _ H L F St V) as (s1 & E1 & H1). rewrite E1. cbn [bind]. apply (only_save_at _ _ _ _ _ H1).
  - rewrite C. cbn [hd]. change (escape_char 117) with (@None Z). change (117 =? 120) with false. change (117 =? 117) with true. cbv iota. cbn in Hf.
    apply (utf8esc_complete fuel _ _ ds i b n H); auto. lia.
  - destruct (lb_head _ _ _ _ L) as (a & r & -> & Na). cbn [hd] in C. rewrite C. rewrite (Small a (or_intror Na)).
    rewrite (proj2 (Z.eqb_neq a 120)), (proj2 (Z.eqb_neq a 117)) by (unfold newline in Na; lia). rewrite (proj2 (cls_newline a) Na).
    destruct (incl_complete _ _ _ _ _ _ H L) as (s1 & E1 & H1). rewrite E1. cbn [bind]. apply (only_save_at _ _ _ _ _ H1).
  - rewrite C. cbn [hd]. change (escape_char 122) with (@None Z). change (122 =? 120) with false. change (122 =? 117) with false. change (isnewline 122) with false. change (122 =? EOZ) with false. change (122 =? 122) with true. cbv iota.
    destruct (remove_at _ _ b [92] _ 1 H eq_refl) as (s1 & E1 & H1). rewrite E1. cbn [bind]. step_next H1 s2 H2. rewrite app_nil_r. cbn in Hf. apply (zap_complete _ _ _ _ Sp _ _ _ H2). lia.
Qed.

(* ** The body of a string *)
Lemma body_sound : forall fuel s i b n del, at_ s i b n -> (List.length i < fuel)%nat -> del = 34 \/ del = 39 ->
  (exists c i' n' s', body del n i c i' n' /\ string_loop fuel s del = Ok s' /\ at_ s' (del :: i') (b ++ c) n' /\ (List.length i' < List.length i)%nat) \/
  (exists e, string_loop fuel s del = Err e).
Proof.
  induction fuel as [|f IH]; intros s i b n del H Hf Hd; [lia|]. cbn [string_loop].
  destruct (current s =? del) eqn:E1.
  { apply Z.eqb_eq in E1. destruct (at_nonempty _ _ _ _ H) as [r Er]; [lia|]. rewrite E1 in Er. subst i. left. exists [], r, n, s. rewrite app_nil_r.
    split; [apply b_end|]. split; [reflexivity|]. split; [exact H | cbn; lia]. }
  apply Z.eqb_neq in E1. destruct ((current s =? EOZ) || isnewline (current s)) eqn:E2; [right; eexists; reflexivity|].
  apply orb_false_iff in E2. destruct E2 as [E2 E3]. apply Z.eqb_neq in E2. destruct (at_nonempty _ _ _ _ H E2) as [r Er].
  assert (Hf' : (List.length r < f)%nat) by (rewrite Er in Hf; cbn in Hf; lia).
  destruct (current s =? 92) eqn:E4.
  - apply Z.eqb_eq in E4. rewrite E4 in Er. subst i. step_save H s1 H1.
    destruct (escape_sound f s1 r b n H1 Hf') as [(e & i' & n' & s2 & S2 & Es & H2 & Hl)|[[-> Es]|[e Es]]]; rewrite Es; cbn [bind]; [| |right; eexists; reflexivity].
    + destruct (IH s2 i' (b ++ e) n' del H2 ltac:(lia) Hd) as [(c & i3 & n3 & s3 & B & E5 & H3 & L3)|[e5 E5]]; [left | right; eexists; exact E5].
      exists (e ++ c), i3, n3, s3. split; [eapply b_escape; eauto|]. split; [exact E5|]. rewrite app_assoc. split; [exact H3 | cbn; lia].
    + destruct (IH s1 [] (b ++ [92]) n del H1 ltac:(cbn; lia) Hd) as [(c & i3 & n3 & s3 & B & E5 & H3 & L3)|[e5 E5]]; [cbn in L3; lia | right; eexists; exact E5].
  - apply Z.eqb_neq in E4. rewrite Er in H. step_save H s1 H1.
    destruct (IH s1 r _ n del H1 Hf' Hd) as [(c & i3 & n3 & s3 & B & E5 & H3 & L3)|[e5 E5]]; [left | right; eexists; exact E5].
    exists (current s :: c), i3, n3, s3. rewrite Er. split; [apply b_char; auto; apply (not_false _ _ (cls_newline _) E3)|]. split; [exact E5|]. rewrite <- app1. split; [exact H3 | cbn; lia].
Qed.
Lemma spaces_len : forall n i i' n', spaces n i i' n' -> (List.length i' <= List.length i)%nat.
Proof. induction 1 as [| |? ? ? ? ? ? L]; cbn; try lia. apply lb_len in L. lia. Qed.
Lemma esc_len : forall n i e i' n', escape_seq n i e i' n' -> (List.length i' <= List.length i)%nat.
Proof. intros n i e i' n' [ | | | | ? ? ? ? L| ? ? ? ? L]; cbn; rewrite ?app_length; cbn; try lia. - apply lb_len in L. lia. - apply spaces_len in L. lia. Qed.
Lemma esc_nonempty : forall n i e i' n', escape_seq n i e i' n' -> i <> [].
Proof. intros n i e i' n' [? ? ? ? ?| | ? ds ? Ln ? ? ?| | ? ? ? ? L|]; try discriminate; [destruct ds; [cbn in Ln; lia | discriminate] | destruct (lb_head _ _ _ _ L) as (? & ? & -> & _); discriminate]. Qed.
Lemma body_complete : forall del n i c i' n', body del n i c i' n' -> del = 34 \/ del = 39 -> forall fuel s b, at_ s i b n -> (List.length i < fuel)%nat ->
  exists s', string_loop fuel s del = Ok s' /\ at_ s' (del :: i') (b ++ c) n'.
Proof.
  induction 1 as [n i|n c i x i' n' N1 N2 N3 B IH|n i e i1 n1 x i' n' Es B IH]; intros Hd [|f] s b H Hf; try lia; cbn [string_loop]; pose proof (at_cur _ _ _ _ H) as C; cbn [hd] in C; rewrite C.
  - rewrite Z.eqb_refl. exists s. rewrite app_nil_r. auto.
  - rewrite (proj2 (Z.eqb_neq c del) N1), (not_true _ _ (cls_newline c) N2), (proj2 (Z.eqb_neq c 92) N3). pose proof (at_wf _ _ _ _ H) as W. inversion W as [|? ? X]; subst.
    rewrite (proj2 (Z.eqb_neq (current s) EOZ)) by (unfold is_byte, EOZ in *; lia). cbn [orb]. step_save H s1 H1. rewrite <- app1. cbn in Hf. apply IH; auto. lia.
  - rewrite (proj2 (Z.eqb_neq 92 del)) by lia. change ((92 =? EOZ) || isnewline 92) with false. change (92 =? 92) with true. cbv iota. step_save H s1 H1. cbn in Hf.
    destruct (escape_complete _ _ _ _ _ Es f s1 b H1 ltac:(lia)) as (s2 & E2 & H2). rewrite E2. cbn [bind]. rewrite app_assoc. apply IH; auto. pose proof (esc_len _ _ _ _ _ Es). lia.
Qed.

Lemma read_string_sound : forall F fuel s i n del, at_ s (del :: i) [] n -> (List.length i < fuel)%nat -> del = 34 \/ del = 39 ->
  (exists c i' n' s', body del n i c i' n' /\ read_string (F:=F) fuel s del = Ok (SStr c, s') /\ at_ s' i' (buf s') n' /\ (List.length i' < List.length i)%nat) \/
  (exists e, read_string (F:=F) fuel s del = Err e).
Proof.
  intros F fuel s i n del H Hf Hd. unfold read_string. step_save H s1 H1. cbn [app] in H1.
  destruct (body_sound fuel s1 i [del] n del H1 Hf Hd) as [(c & i' & n' & s2 & B & E2 & H2 & L)|[e E2]]; rewrite E2; cbn [bind]; [|right; eexists; reflexivity].
  step_save H2 s3 H3. rewrite (at_buf _ _ _ _ H3). left. exists c, i', n', s3. split; [exact B|].
  rewrite !app_length. cbn [List.length]. destruct (Nat.ltb (1 + List.length c + 1) 2) eqn:Q; [apply Nat.ltb_lt in Q; lia|]. cbn [app skipn].
  replace (1 + List.length c + 1 - 2)%nat with (List.length c) by lia. rewrite firstn_app, Nat.sub_diag, firstn_all. cbn [firstn]. rewrite app_nil_r. repeat split; auto; apply H3.
Qed.
Lemma read_string_complete : forall F fuel s i n del c i' n', at_ s (del :: i) [] n -> (List.length i < fuel)%nat -> del = 34 \/ del = 39 -> body del n i c i' n' ->
  exists s', read_string (F:=F) fuel s del = Ok (SStr c, s') /\ at_ s' i' (buf s') n'.
Proof.
  intros F fuel s i n del c i' n' H Hf Hd B. unfold read_string. step_save H s1 H1. cbn [app] in H1.
  destruct (body_complete _ _ _ _ _ _ B Hd fuel s1 [del] H1 Hf) as (s2 & E2 & H2). rewrite E2. cbn [bind].
  step_save H2 s3 H3. rewrite (at_buf _ _ _ _ H3). exists s3.
  rewrite !app_length. cbn [List.length]. destruct (Nat.ltb (1 + List.length c + 1) 2) eqn:Q; [apply Nat.ltb_lt in Q; lia|]. cbn [app skipn].
  replace (1 + List.length c + 1 - 2)%nat with (List.length c) by lia. rewrite firstn_app, Nat.sub_diag, firstn_all. cbn [firstn]. rewrite app_nil_r. repeat split; auto; apply H3.
Qed.
