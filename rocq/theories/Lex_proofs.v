(* The token stream, and reading back what %q writes. *)
Require Import ZArith List Bool String Lia.
From Verif Require Import Base Base_facts Str Ctype_model Ctype_proofs Num_model Num_spec Num_proofs Lex_model Lex_spec Lex_facts Lex_str Lex_long Lex_num Lex_tok.
Import ListNotations.
Open Scope Z_scope.

(* ** Lengths *)
Lemma body_len : forall del n i c i' n', body del n i c i' n' -> (List.length i' < List.length i)%nat.
Proof. intros del n i c i' n' B. induction B as [n i|n c i s i' n' N1 N2 N3 B IH|n i e i1 n1 s i' n' E B IH]; cbn; [lia | lia | pose proof (esc_len _ _ _ _ _ E); lia]. Qed.

Section Len.
Context {sem : Type} (none : sem) (str : list Z -> sem) (number cast : list Z -> Z * sem -> Prop).
Lemma tok_len : forall n i t v i' n', tokens none str number cast n i t v i' n' -> t = T_EOS \/ (List.length i' < List.length i)%nat.
Proof.
  intros n i t v i' n' T. induction T as [n|n c i t v i' n' Wc T IH|n i i1 n1 t v i' n' L T IH|n com i t v i' n' No Fc Si T IH|n i st i1 n1 t v i' n' L T IH|n q i st i' n' Eq B|n i st i' n' L
    |n i w t v i' R Nv|n c i w t v i' D R Nv|n c w t i Lc Fw Sw I|n c w i Lc Fw Sw No|n w t i I Lg|n c i N1 N2 N3 N4 N5 N6 B1 B2 B3 Hd Hs|n w b1 b2 i t v Fw B1 B2 Sw Ec]; cbn; try (right; rewrite ?app_length; lia).
  - left. reflexivity.
  - destruct IH; [auto | right; lia].
  - pose proof (lb_len _ _ _ _ L). destruct IH; [auto | right; lia].
  - destruct IH; [auto | right; rewrite app_length; lia].
  - pose proof (long_len2 _ _ _ _ _ L). destruct IH; [auto | right; lia].
  - right. pose proof (body_len _ _ _ _ _ _ B). lia.
  - right. apply (long_len2 _ _ _ _ _ L).
  - right. destruct (numeral_split _ _ _ R) as [-> N]. rewrite app_length. destruct w; [contradiction|]. cbn. lia.
  - right. destruct (numeral_split _ _ _ R) as [Q _]. assert (E : List.length (c :: i) = List.length (w ++ i')) by (rewrite Q; reflexivity). rewrite app_length in E. cbn in E. lia.
  - right. rewrite app_length. assert (w <> []). { intros ->. revert I. vm_compute. intuition discriminate. } destruct w; [contradiction|]. cbn. lia.
Qed.
End Len.

(* ** The token stream *)
Section Stream.
Context {F : Type} (str2d : list Z -> option F).
Notation casting := (fun w tv => casttoken (F:=F) w = tv).
Notation tok := (tokens SNone SStr (number_of str2d SInt SFlt) casting).
Notation str := (stream SNone SStr (number_of str2d SInt SFlt) casting).

Lemma setinput_at : forall bl, wf_str (joined bl) -> exists s, setinput bl = Ok s /\ at_ s (joined bl) [] 1.
Proof.
  intros bl W. unfold setinput, next. cbn [zcur zend zrest buf line]. destruct bl as [|[|c b] bl]; cbn [joined] in *; eexists; (split; [reflexivity|]); unfold at_; cbn [buf line current zcur zrest zend]; repeat split; auto.
Qed.

Lemma tokenize_sound : forall m fuel s i b n, at_ s i b n -> (List.length i < m)%nat -> (List.length i < fuel)%nat ->
  (exists l, tokenize str2d m fuel s = Ok l /\ str n i l) \/ (exists e, tokenize str2d m fuel s = Err e).
Proof.
  induction m as [|m IH]; intros fuel s i b n H Hm Hf; [lia|]. cbn [tokenize]. unfold llex.
  destruct (lex_sound str2d fuel _ i n (reset_at _ _ _ _ H) Hf) as [(t & v & i' & n' & s' & T & E & H1)|[e E]]; rewrite E; cbn [bind]; [|right; eexists; reflexivity].
  assert (Ln : line s' = n') by apply H1.
  destruct (Z.eqb_spec t TK_EOS) as [-> |Nt].
  - left. eexists. split; [reflexivity|]. rewrite Ln. eapply st_end, T.
  - destruct (tok_len _ _ _ _ _ _ _ _ _ _ T) as [Q|Hl]; [contradiction|].
    destruct (IH fuel s' i' _ n' H1 ltac:(lia) ltac:(lia)) as [(l & E2 & S2)|[e E2]]; rewrite E2; cbn [bind]; [left | right; eexists; reflexivity].
    eexists. split; [reflexivity|]. rewrite Ln. eapply st_more; eauto.
Qed.
Lemma tokenize_complete : forall m fuel s i b n l, at_ s i b n -> (List.length i < m)%nat -> (List.length i < fuel)%nat -> str n i l -> tokenize str2d m fuel s = Ok l.
Proof.
  induction m as [|m IH]; intros fuel s i b n l H Hm Hf S; [lia|]. cbn [tokenize]. unfold llex.
  destruct S as [n i v i' n' T|n i t v i' n' l T Nt S2]; destruct (lex_complete str2d _ _ _ _ _ _ T fuel _ (reset_at _ _ _ _ H) Hf) as (s' & E & H1); rewrite E; cbn [bind]; assert (Ln : line s' = n') by apply H1.
  - cbn [Z.eqb T_EOS TK_EOS Pos.eqb]. rewrite Ln. reflexivity.
  - destruct (Z.eqb_spec t TK_EOS) as [-> |_]; [contradiction|]. destruct (tok_len _ _ _ _ _ _ _ _ _ _ T) as [Q|Hl]; [contradiction|].
    rewrite (IH fuel s' i' _ n' l H1) by (assumption || lia). cbn [bind]. rewrite Ln. reflexivity.
Qed.

Definition scan (bl : list (list Z)) : outcome (list (Z * sem (F:=F) * Z)) :=
  bind (setinput bl) (fun s => tokenize str2d (S (List.length (joined bl))) (S (List.length (joined bl))) s).
Lemma scan_sound : forall bl, wf_str (joined bl) -> (exists l, scan bl = Ok l /\ str 1 (joined bl) l) \/ (exists e, scan bl = Err e).
Proof. intros bl W. unfold scan. destruct (setinput_at bl W) as (s & E & H). rewrite E. cbn [bind]. eapply tokenize_sound; [exact H | lia | lia]. Qed.
Lemma scan_complete : forall bl l, wf_str (joined bl) -> str 1 (joined bl) l -> scan bl = Ok l.
Proof. intros bl l W S. unfold scan. destruct (setinput_at bl W) as (s & E & H). rewrite E. cbn [bind]. eapply tokenize_complete; [exact H | lia | lia | exact S]. Qed.
End Stream.

(* ** Casts *)
Lemma begins_dec : forall w x, strncmp0 w x = true <-> begins w x.
Proof.
  intros w x. unfold strncmp0, begins. destruct (list_eq_dec Z.eq_dec w (firstn (List.length w) x)) as [E|E]; split; intros H; try discriminate; auto.
  - exists (skipn (List.length w) x). rewrite E at 1. symmetry. apply firstn_skipn.
  - exfalso. apply E. destruct H as [r ->]. rewrite firstn_app, Nat.sub_diag, firstn_all. cbn. rewrite app_nil_r. reflexivity.
Qed.
Fixpoint look {A} (w : list Z) (l : list (list Z * Z)) (d : A) (k : Z -> A) : A := match l with [] => d | (x, t) :: l => if strncmp0 w x then k t else look w l d k end.
Lemma look_iff : forall w l r, first_match w l r <-> look w l None Some = r.
Proof.
  intros w l. induction l as [|[x t] l IH]; intros r; cbn [look]; split; intros H.
  - inversion H; reflexivity.
  - subst r. constructor.
  - inversion H as [|? ? ? B|? ? ? ? N M]; subst; [apply begins_dec in B; rewrite B; reflexivity|]. destruct (strncmp0 w x) eqn:E; [exfalso; apply N, begins_dec, E|]. apply IH, M.
  - destruct (strncmp0 w x) eqn:E; [subst r; apply fm_here, begins_dec, E|]. apply fm_later; [|apply IH, H]. intros B. apply begins_dec in B. congruence.
Qed.
Lemma look_casttoken : forall F w, casttoken (F:=F) w = look w cast_order (64, SStr (skipn 1 w)) (fun t => (t, SNone)).
Proof. reflexivity. Qed.
Lemma look_map : forall A w l (d : A) k, look w l d k = match look w l None Some with Some t => k t | None => d end.
Proof. intros A w l d k. induction l as [|[x t] l IH]; cbn [look]; [reflexivity|]. destruct (strncmp0 w x); [reflexivity | exact IH]. Qed.
Lemma casttoken_iff : forall F w tv, casttoken (F:=F) w = tv <-> prefix_cast SNone SStr w tv.
Proof.
  intros F w tv. rewrite look_casttoken, look_map. unfold prefix_cast. setoid_rewrite look_iff. destruct (look w cast_order None Some) as [t|]; split; intros H.
  - left. exists t. auto.
  - destruct H as [(t' & [= <-] & ->)|[Q _]]; [reflexivity | discriminate].
  - right. auto.
  - destruct H as [(t' & Q & _)|[_ ->]]; [discriminate | reflexivity].
Qed.

Section Cast.
Context {sem : Type} (none : sem) (str : list Z -> sem) (number c1 c2 : list Z -> Z * sem -> Prop).
Lemma tokens_cast : forall (P : list Z -> Prop), (forall w b1 b2 i tv, P (64 :: w ++ b1 ++ b2 ++ i) -> c1 (64 :: w ++ b1 ++ b2) tv -> c2 (64 :: w ++ b1 ++ b2) tv) ->
  (forall x i, P (x ++ i) -> P i) -> forall n i t v i' n', tokens none str number c1 n i t v i' n' -> P i -> tokens none str number c2 n i t v i' n' /\ P i'.
Proof.
  intros P Hc Hs n i t v i' n' T.
  assert (Lb : forall n i i1 n1, line_break n i i1 n1 -> exists x, i = x ++ i1). { intros ? ? ? ? [? a b ?|? a ?]; [exists [a; b] | exists [a]]; reflexivity. }
  assert (Sp : forall n i i1 n1, spaces n i i1 n1 -> exists x, i = x ++ i1).
  { intros ? ? ? ? S. induction S as [|? c ? ? ? ? ? [x ->]|? ? ? ? ? ? L ? [x ->]]; [exists nil; reflexivity | exists (c :: x); reflexivity|]. destruct (Lb _ _ _ _ L) as [y ->]. exists (y ++ x). rewrite app_assoc. reflexivity. }
  assert (Es : forall n i e i1 n1, escape_seq n i e i1 n1 -> exists x, i = x ++ i1).
  { intros ? ? ? ? ? [? c ? ? ?|? a b ? ? ?|? ds ? ? ? ? ?|? ds ? ? ? ?|? ? ? ? L|? ? ? ? S]; [exists [c] | exists [120; a; b] | exists ds | exists (117 :: 123 :: ds ++ [125]) | eapply Lb; eauto |]; try reflexivity.
    - cbn. rewrite <- app_assoc. reflexivity.
    - destruct (Sp _ _ _ _ S) as [x ->]. exists (122 :: x). reflexivity. }
  assert (Bo : forall q n i s i1 n1, body q n i s i1 n1 -> exists x, i = x ++ i1).
  { intros ? ? ? ? ? ? S. induction S as [? ?|? c ? ? ? ? ? ? ? ? [x ->]|? ? ? ? ? ? ? ? E ? [x ->]]; [exists [q]; reflexivity | exists (c :: x); reflexivity|]. destruct (Es _ _ _ _ _ E) as [y ->]. exists (92 :: y ++ x). cbn. rewrite <- app_assoc. reflexivity. }
  assert (Bl : forall k n i s i1 n1, long_body k n i s i1 n1 -> exists x, i = x ++ i1).
  { intros ? ? ? ? ? ? S. induction S as [? ?|? c ? ? ? ? ? ? ? [x ->]|? ? ? ? ? ? ? L ? [x ->]]; [exists (closing k); reflexivity | exists (c :: x); reflexivity|]. destruct (Lb _ _ _ _ L) as [y ->]. exists (y ++ x). rewrite app_assoc. reflexivity. }
  assert (Lo : forall n i s i1 n1, long n i s i1 n1 -> exists x, i = x ++ i1).
  { intros ? ? ? ? ? [k ? ? ? ? ? ? L B|k ? ? ? ? ? B]; destruct (Bl _ _ _ _ _ _ B) as [x ->]; [destruct (Lb _ _ _ _ L) as [y ->]; exists (opening k ++ y ++ x) | exists (opening k ++ x)]; rewrite ?app_assoc; reflexivity. }
  induction T as [n|n c i t v i' n' Wc T IH|n i i1 n1 t v i' n' L T IH|n com i t v i' n' No Fc Si T IH|n i st i1 n1 t v i' n' L T IH|n q i st i' n' Eq B|n i st i' n' L
    |n i w t v i' R Nv|n c i w t v i' D R Nv|n c w t i Lc Fw Sw I|n c w i Lc Fw Sw No|n w t i I Lg|n c i N1 N2 N3 N4 N5 N6 B1 B2 B3 Hd Hs'|n w b1 b2 i t v Fw B1 B2 Sw Ec]; intros Pi.
  - split; [apply t_eos | exact Pi].
  - destruct IH as [A B]; [apply (Hs [c]), Pi|]. split; [apply t_white; assumption | exact B].
  - destruct (Lb _ _ _ _ L) as [x Q]. destruct IH as [A B]; [apply (Hs x); rewrite <- Q; exact Pi|]. split; [eapply t_line; eauto | exact B].
  - destruct IH as [A B]; [apply (Hs (45 :: 45 :: com)), Pi|]. split; [eapply t_comment; eauto | exact B].
  - destruct (Lo _ _ _ _ _ L) as [x Q]. destruct IH as [A B]; [apply (Hs (45 :: 45 :: x)); cbn; rewrite <- Q; exact Pi|]. split; [eapply t_long_comment; eauto | exact B].
  - split; [eapply t_string; eauto|]. destruct (Bo _ _ _ _ _ _ B) as [x ->]. apply (Hs (q :: x)), Pi.
  - split; [eapply t_long; eauto|]. destruct (Lo _ _ _ _ _ L) as [x ->]. apply (Hs x), Pi.
  - split; [eapply t_number; eauto|]. destruct (numeral_split _ _ _ R) as [-> _]. apply (Hs w), Pi.
  - split; [eapply t_dot_number; eauto|]. destruct (numeral_split _ _ _ R) as [Q _]. rewrite Q in Pi. apply (Hs (46 :: w)), Pi.
  - split; [eapply t_reserved; eauto|]. apply (Hs (c :: w)), Pi.
  - split; [eapply t_name; eauto|]. apply (Hs (c :: w)), Pi.
  - split; [eapply t_symbol; eauto|]. apply (Hs w), Pi.
  - split; [eapply t_char; eauto|]. apply (Hs [c]), Pi.
  - split; [eapply t_cast; eauto|]. apply (Hs (64 :: w ++ b1 ++ b2)). cbn. rewrite <- !app_assoc. exact Pi.
Qed.
Lemma stream_cast : forall (P : list Z -> Prop), (forall w b1 b2 i tv, P (64 :: w ++ b1 ++ b2 ++ i) -> c1 (64 :: w ++ b1 ++ b2) tv -> c2 (64 :: w ++ b1 ++ b2) tv) ->
  (forall x i, P (x ++ i) -> P i) -> forall n i l, stream none str number c1 n i l -> P i -> stream none str number c2 n i l.
Proof.
  intros P Hc Hs n i l S. induction S as [n i v i' n' T|n i t v i' n' l T Nt S IH]; intros Pi; destruct (tokens_cast P Hc Hs _ _ _ _ _ _ T Pi) as [T2 P2]; [eapply st_end; eauto | eapply st_more; eauto].
Qed.
End Cast.

(* ** Theorems about the stream *)
Theorem lex_stream : forall (F : Type) (str2d : list Z -> option F) (bl : list (list Z)), wf_str (joined bl) ->
  (forall l, scan str2d bl = Ok l <-> stream SNone SStr (number_of str2d SInt SFlt) (prefix_cast SNone SStr) 1 (joined bl) l) /\
  ((exists l, scan str2d bl = Ok l) \/ (exists e, scan str2d bl = Err e)).
Proof.
  intros F str2d bl W. split.
  - intros l. split; intros H.
    + destruct (scan_sound str2d bl W) as [(l' & E & S)|[e E]]; [|congruence]. assert (l' = l) by congruence. subst l'.
      refine (stream_cast _ _ _ _ _ (fun _ => True) _ (fun _ _ _ => I) _ _ _ S I). intros. apply casttoken_iff. assumption.
    + apply scan_complete; [exact W|]. refine (stream_cast _ _ _ _ _ (fun _ => True) _ (fun _ _ _ => I) _ _ _ H I). intros. apply casttoken_iff. assumption.
  - destruct (scan_sound str2d bl W) as [(l' & E & S)|[e E]]; eauto.
Qed.
Theorem lex_no_cast : forall (F : Type) (str2d : list Z -> option F) (bl : list (list Z)), wf_str (joined bl) -> ~ In 64 (joined bl) ->
  forall l, scan str2d bl = Ok l <-> stream SNone SStr (number_of str2d SInt SFlt) (exact_cast SNone SStr) 1 (joined bl) l.
Proof.
  intros F str2d bl W N l. rewrite (proj1 (lex_stream F str2d bl W) l). split; intros S; refine (stream_cast _ _ _ _ _ (fun i => ~ In 64 i) _ _ _ _ _ S N).
  1, 3: intros w b1 b2 i tv H; exfalso; apply H; left; reflexivity.
  1, 2: intros x i H X; apply H; apply in_or_app; right; exact X.
Qed.
Theorem lex_blocks : forall (F : Type) (str2d : list Z -> option F) (bl bl' : list (list Z)), wf_str (joined bl) -> joined bl = joined bl' ->
  forall l, scan str2d bl = Ok l <-> scan str2d bl' = Ok l.
Proof.
  intros F str2d bl bl' W E l. rewrite (proj1 (lex_stream F str2d bl W) l). rewrite E in W. rewrite (proj1 (lex_stream F str2d bl' W) l), E. tauto.
Qed.
Theorem lex_deterministic : forall (F : Type) (str2d : list Z -> option F) (i : list Z) l l', wf_str i ->
  stream SNone SStr (number_of str2d SInt SFlt) (prefix_cast SNone SStr) 1 i l -> stream SNone SStr (number_of str2d SInt SFlt) (prefix_cast SNone SStr) 1 i l' -> l = l'.
Proof.
  intros F str2d i l l' W S1 S2. destruct i as [|c i].
  - pose proof (proj1 (lex_stream F str2d [] W)) as X. cbn [joined] in X. apply X in S1. apply X in S2. congruence.
  - assert (J : joined [c :: i] = c :: i) by (cbn; rewrite app_nil_r; reflexivity). rewrite <- J in *. pose proof (proj1 (lex_stream F str2d [c :: i] W)) as X. rewrite J in *. apply X in S1. apply X in S2. congruence.
Qed.

(* ** %q *)
Lemma digits_of_byte : forall c, 0 <= c < 256 -> Forall digit (int2str c) /\ (1 <= List.length (int2str c) <= 3)%nat /\ value 10 (int2str c) = c /\
  Forall digit (dec3 c) /\ value 10 (dec3 c) = c.
Proof.
  assert (X : forallb (fun k => let c := Z.of_nat k in forallb (fun d => (48 <=? d) && (d <=? 57)) (int2str c) && (Nat.leb 1 (List.length (int2str c)) && Nat.leb (List.length (int2str c)) 3) &&
    (value 10 (int2str c) =? c) && forallb (fun d => (48 <=? d) && (d <=? 57)) (dec3 c) && (value 10 (dec3 c) =? c)) (seq 0 256) = true) by (vm_compute; reflexivity).
  intros c Hc. rewrite forallb_forall in X. specialize (X (Z.to_nat c)). cbv zeta in X. rewrite Z2Nat.id in X by lia.
  rewrite !andb_true_iff, !Nat.leb_le, !Z.eqb_eq, !forallb_forall in X. destruct X as [[[[X1 [X2 X3]] X4] X5] X6]. { apply in_seq. lia. }
  repeat split; auto; apply Forall_forall; intros d I; [apply X1 in I | apply X5 in I]; rewrite andb_true_iff, !Z.leb_le in I; exact I.
Qed.

Section QuoteFacts.
Context (iscntrl : Z -> bool) (Cr : iscntrl 13 = true).
Lemma quote_head : forall t rest, wf_str t -> isdigit (hd 0 t) = false -> stops digit (quote_loop iscntrl t ++ 34 :: rest).
Proof.
  intros [|c t] rest W D x r E X; cbn [quote_loop app] in E.
  - injection E as <- _. unfold digit in X. lia.
  - destruct ((c =? 34) || (c =? 92) || (c =? 10)); [injection E as <- _; unfold digit in X; lia|]. destruct (iscntrl c).
    + destruct (negb (isdigit (hd 0 t))); injection E as <- _; unfold digit in X; lia.
    + injection E as <- _. cbn [hd] in D. unfold isdigit in D. unfold digit in X. apply andb_false_iff in D. rewrite !Z.leb_gt in D. lia.
Qed.
Lemma quote_not_cr : forall t rest, stops (fun b => newline b /\ 10 <> b) (quote_loop iscntrl t ++ 34 :: rest).
Proof.
  intros [|c t] rest x r E [X N]; cbn [quote_loop app] in E.
  - injection E as <- _. unfold newline in X. lia.
  - destruct ((c =? 34) || (c =? 92) || (c =? 10)) eqn:E1; [injection E as <- _; unfold newline in X; lia|]. destruct (iscntrl c) eqn:Ec.
    + destruct (negb (isdigit (hd 0 t))); injection E as <- _; unfold newline in X; lia.
    + injection E as <- _. assert (c = 13) by (unfold newline in X; lia). subst c. congruence.
Qed.
Lemma quote_body : forall s n rest, wf_str s -> n + lines s < 2147483647 -> body 34 n (quote_loop iscntrl s ++ 34 :: rest) s rest (n + lines s).
Proof.
  induction s as [|c t IH]; intros n rest W Hn.
  - replace (n + lines []) with n by (unfold lines; cbn; lia). apply b_end.
  - inversion W as [|? ? Wc Wt]; subst. unfold is_byte in Wc. cbn [quote_loop].
    assert (Ln : lines (c :: t) = (if Z.eq_dec c 10 then 1 else 0) + lines t). { unfold lines. cbn [count_occ]. destruct (Z.eq_dec c 10); lia. }
    assert (Pos : 0 <= lines t) by (unfold lines; lia).
    destruct ((c =? 34) || (c =? 92) || (c =? 10)) eqn:E1.
    + rewrite !orb_true_iff, !Z.eqb_eq in E1. cbn [app]. destruct (Z.eq_dec c 10) as [->|Nc].
      * replace (n + lines (10 :: t)) with ((n + 1) + lines t) by lia. apply (b_escape 34 n _ [10] (quote_loop iscntrl t ++ 34 :: rest) (n + 1) t); [|apply IH; [exact Wt | lia]].
        apply e_line, lb_one; [unfold newline; lia | apply quote_not_cr | lia].
      * replace (n + lines (c :: t)) with (n + lines t) by lia. apply (b_escape 34 n _ [c] (quote_loop iscntrl t ++ 34 :: rest) n t); [|apply IH; [exact Wt | lia]].
        apply e_char. destruct E1 as [[-> | ->]|E1]; [vm_compute; tauto | vm_compute; tauto | contradiction].
    + rewrite !orb_false_iff, !Z.eqb_neq in E1. destruct (Z.eq_dec c 10) as [|_]; [lia|]. replace (n + lines (c :: t)) with (n + lines t) by lia. destruct (iscntrl c) eqn:Ec.
      * destruct (digits_of_byte c Wc) as (F1 & L1 & V1 & F2 & V2). destruct (negb (isdigit (hd 0 t))) eqn:Ed; cbn [app]; rewrite <- app_assoc.
        -- replace (c :: t) with ([value 10 (int2str c)] ++ t) by (rewrite V1; reflexivity). apply (b_escape 34 n _ [value 10 (int2str c)] (quote_loop iscntrl t ++ 34 :: rest) n t); [|apply IH; [exact Wt | lia]].
           apply e_dec; [exact L1 | exact F1 | right; apply quote_head; [exact Wt | apply negb_true_iff, Ed] | lia].
        -- replace (c :: t) with ([value 10 (dec3 c)] ++ t) by (rewrite V2; reflexivity). apply (b_escape 34 n _ [value 10 (dec3 c)] (quote_loop iscntrl t ++ 34 :: rest) n t); [|apply IH; [exact Wt | lia]].
           apply e_dec; [cbn; lia | exact F2 | left; reflexivity | lia].
      * cbn [app]. apply b_char; [lia | | lia | apply IH; [exact Wt | lia]]. unfold newline. intros [->| ->]; [lia | congruence].
Qed.
End QuoteFacts.

(* ** Reading back *)
Lemma at_inj : forall s i j b c n m, at_ s i b n -> at_ s j c m -> i = j /\ n = m.
Proof.
  intros s i j b c n m (_ & L1 & W1 & H1) (_ & L2 & W2 & H2). split; [|congruence].
  destruct i as [|x i], j as [|y j]; try reflexivity.
  - destruct H2 as [H2 _]. inversion W2 as [|? ? X]; subst. unfold is_byte in X. lia.
  - destruct H1 as [H1 _]. inversion W1 as [|? ? X]; subst. unfold is_byte in X. lia.
  - destruct H1 as (H1 & _ & H1'), H2 as (H2 & _ & H2'). congruence.
Qed.
Lemma digits_rest : forall ds rest, Forall digit ds -> stops (fun c => alnum c \/ c = 46) rest -> numeral_rest (fun c => c = 69 \/ c = 101) (ds ++ rest) ds rest.
Proof.
  intros ds rest Fd St. induction Fd as [|c ds D Fd IH]; cbn [app].
  - apply n_end. intros c r E X. apply (St c r E). unfold xdigit, digit, alnum, letter, digit in *. lia.
  - apply n_digit; [unfold digit in D; lia | left; left; exact D | exact IH].
Qed.
Lemma digits_text : forall ds rest, ds <> [] -> Forall digit ds -> stops (fun c => alnum c \/ c = 46) rest -> numeral_text (ds ++ rest) ds rest.
Proof.
  intros [|c ds] rest N Fd St; [contradiction|]. inversion Fd as [|? ? D Fd']; subst. cbn [app]. apply num_dec; [exact D | | apply digits_rest; assumption].
  intros _ x r E X. destruct ds as [|d ds]; cbn in E; [apply (St x r E); unfold alnum, letter; lia|]. injection E as -> _. inversion Fd' as [|? ? D' ?]; subst. unfold digit in D'. lia.
Qed.
Lemma udigits_ok : forall fuel n, 0 <= n -> (0 < fuel)%nat -> Forall digit (udigits fuel n) /\ udigits fuel n <> [].
Proof.
  induction fuel as [|f IH]; intros n Hn Hf; [lia|]. cbn [udigits]. destruct (Z.ltb_spec n 10).
  - split; [constructor; [unfold digit; lia | constructor] | discriminate].
  - split; [|intros Q; apply app_eq_nil in Q; destruct Q; discriminate]. apply Forall_app. split; [|constructor; [unfold digit; pose proof (Z.mod_pos_bound n 10); lia | constructor]].
    destruct f as [|f]; [constructor|]. apply IH; [apply Z.div_pos; lia | lia].
Qed.
Lemma digit_wf : forall ds, Forall digit ds -> wf_str ds.
Proof. intros ds Fd. eapply Forall_impl; [|exact Fd]. intros c D. unfold digit in D. unfold is_byte. lia. Qed.
Section Back.
Context {F : Type} (str2d : list Z -> option F).
Notation casting := (fun w tv => casttoken (F:=F) w = tv).
Notation tok := (tokens SNone SStr (number_of str2d SInt SFlt) casting).
Notation str := (stream SNone SStr (number_of str2d SInt SFlt) casting).
Lemma tok_det : forall n i t v i' n' t2 v2 i2 n2, wf_str i -> tok n i t v i' n' -> tok n i t2 v2 i2 n2 -> t = t2 /\ v = v2 /\ i' = i2 /\ n' = n2.
Proof.
  intros n i t v i' n' t2 v2 i2 n2 W T1 T2.
  assert (exists s, at_ s i [] n) as [s H].
  { destruct i as [|c i]; [exists (mkls (-1) [] [] true [] n) | exists (mkls c i [] false [] n)]; unfold at_; cbn [buf line current zcur zrest zend joined]; rewrite ?app_nil_r; repeat split; auto. }
  destruct (lex_complete str2d _ _ _ _ _ _ T1 (S (List.length i)) s H ltac:(lia)) as (s1 & E1 & H1).
  destruct (lex_complete str2d _ _ _ _ _ _ T2 (S (List.length i)) s H ltac:(lia)) as (s2 & E2 & H2).
  rewrite E1 in E2. injection E2 as <- <- <-. destruct (at_inj _ _ _ _ _ _ _ H1 H2) as [-> ->]. auto.
Qed.
Lemma stream_head : forall n i t v i' n' l, wf_str i -> tok n i t v i' n' -> t <> T_EOS -> (str n i ((t, v, n') :: l) <-> str n' i' l).
Proof.
  intros n i t v i' n' l W T Nt. split; intros S; [|eapply st_more; eauto].
  inversion S as [? ? ? i2 ? T2|? ? ? ? i2 ? ? T2 Nt2 S2]; subst; destruct (tok_det _ _ _ _ _ _ _ _ _ _ W T T2) as (Q1 & _ & Q2 & _); [contradiction|]. subst i2. exact S2.
Qed.
Lemma scan_head : forall bl t v i' n' l, wf_str (joined bl) -> tok 1 (joined bl) t v i' n' -> t <> T_EOS ->
  (scan str2d bl = Ok ((t, v, n') :: l) <-> stream SNone SStr (number_of str2d SInt SFlt) (prefix_cast SNone SStr) n' i' l).
Proof.
  intros bl t v i' n' l W T Nt.
  assert (X : str 1 (joined bl) ((t, v, n') :: l) <-> scan str2d bl = Ok ((t, v, n') :: l)).
  { split; intros H; [apply scan_complete; assumption|]. destruct (scan_sound str2d bl W) as [(l' & E & S)|[e E]]; congruence. }
  rewrite <- X, (stream_head _ _ _ _ _ _ l W T Nt). split; intros S; refine (stream_cast _ _ _ _ _ (fun _ => True) _ (fun _ _ _ => I) _ _ _ S I); intros; apply casttoken_iff; assumption.
Qed.

Lemma int_tok : forall k n rest, 0 <= n -> is_s64 n -> stops (fun c => alnum c \/ c = 46) rest -> tok k (int2str n ++ rest) T_INT (SInt n) rest k.
Proof.
  intros k n rest Hn Hs St. assert (E : int2str n = udigits 20 n) by (unfold int2str; destruct (Z.ltb_spec n 0); [lia | reflexivity]).
  destruct (udigits_ok 20 n Hn ltac:(lia)) as [Fd Nd]. eapply t_number; [rewrite E; apply digits_text; assumption|]. left. exists n. split; [|reflexivity].
  apply integer_iff; [apply digit_wf, Fd|]. rewrite <- E. apply int2str_roundtrip, Hs.
Qed.
Lemma eos_tok : forall k, str k [] [(T_EOS, SNone, k)].
Proof. intros k. eapply st_end, t_eos. Qed.
Lemma minint_tok : forall k, str k (quoteint minint) [(T_INT, SInt minint, k); (T_EOS, SNone, k)].
Proof.
  intros k. eapply st_more; [|discriminate|apply eos_tok]. replace (quoteint minint) with [48; 120; 56; 48; 48; 48; 48; 48; 48; 48; 48; 48; 48; 48; 48; 48; 48; 48] by (vm_compute; reflexivity). eapply t_number.
  - eapply num_hex; [left; reflexivity|]. repeat (eapply n_digit; [lia | left; left; unfold digit; lia|]). apply n_end. intros c r E. discriminate.
  - left. exists minint. split; [|reflexivity]. apply integer_iff; [repeat constructor; unfold is_byte; lia | vm_compute; reflexivity].
Qed.
Lemma minus_tok : forall k d i, digit d -> tok k (45 :: d :: i) 45 SNone (d :: i) k.
Proof.
  intros k d i D. unfold digit in D. apply plain; try lia; try (unfold white, newline, alnum, letter, digit; lia). intros _ c r [= <- _] X. lia.
Qed.
Lemma int_stream : forall k n, is_s64 n -> str k (quoteint n)
  (if (n <? 0) && negb (n =? minint) then [(45, SNone, k); (T_INT, SInt (- n), k); (T_EOS, SNone, k)] else [(T_INT, SInt n, k); (T_EOS, SNone, k)]).
Proof.
  intros k n Hs. destruct (Z.eqb_spec n minint) as [->|Nm]; [apply minint_tok|]. unfold quoteint. rewrite (proj2 (Z.eqb_neq _ _) Nm). cbn [negb andb].
  assert (St : stops (fun c => alnum c \/ c = 46) []) by (intros c r E; discriminate).
  destruct (Z.ltb_spec n 0); cbn [andb].
  - assert (E : int2str n = 45 :: int2str (- n)). { unfold int2str. destruct (Z.ltb_spec n 0), (Z.ltb_spec (- n) 0); try lia. reflexivity. }
    rewrite E. destruct (udigits_ok 20 (- n) ltac:(lia) ltac:(lia)) as [Fd Nd]. assert (E2 : int2str (- n) = udigits 20 (- n)) by (unfold int2str; destruct (Z.ltb_spec (- n) 0); [lia | reflexivity]).
    assert (Sn : is_s64 (- n)) by (unfold is_s64, minint, maxint in *; lia).
    pose proof (int_tok k (- n) [] ltac:(lia) Sn St) as T. rewrite app_nil_r in T.
    eapply st_more; [|discriminate|eapply st_more; [exact T | discriminate | apply eos_tok]]. rewrite E2. destruct (udigits 20 (- n)) as [|d ds]; [contradiction|]. apply minus_tok. inversion Fd; assumption.
  - pose proof (int_tok k n [] H Hs St) as T. rewrite app_nil_r in T. eapply st_more; [exact T | discriminate | apply eos_tok].
Qed.

Lemma tok_quote : forall n i t v i' n', tok n (34 :: i) t v i' n' -> exists s, body 34 n i s i' n'.
Proof.
  intros n i t v i' n' T. remember (34 :: i) as z eqn:Q. destruct T as [n|n c j t v i' n' Wc T|n j i1 n1 t v i' n' L T|n com j t v i' n' No Fc Si T|n j st i1 n1 t v i' n' L T|n q j st i' n' Eq B|n j st i' n' L
    |n j w t v i' R Nv|n c j w t v i' D R Nv|n c w t j Lc Fw Sw I|n c w j Lc Fw Sw No|n w t j I Lg|n c j N1 N2 N3 N4 N5 N6 B1 B2 B3 Hd Hs|n w b1 b2 j t v Fw B1 B2 Sw Ec]; try discriminate Q; try (injection Q as -> _; unfold white, letter in *; lia); try (injection Q; intros; lia).
  - subst j. destruct (lb_head _ _ _ _ L) as (a & r & E & Na). injection E as <- <-. unfold newline in Na. lia.
  - injection Q as -> ->. eauto.
  - destruct (long_len _ _ _ _ _ L) as (k & q & E & _). rewrite Q in E. discriminate.
  - destruct R as [x r w1 ? Ex R|c r w1 ? D St R]; [discriminate|]. injection Q as -> _. unfold digit in D. lia.
  - exfalso. revert I Q. unfold symbols. cbn [In]. intros I Q. repeat (destruct I as [I|I]; [injection I as <- <-; cbn in Q; discriminate|]). contradiction.
Qed.
End Back.

Theorem quote_string : forall (F : Type) (str2d : list Z -> option F) (iscntrl : Z -> bool), iscntrl 13 = true ->
  forall s bl rest l, wf_str s -> wf_str rest -> 1 + lines s < 2147483647 -> joined bl = addquoted iscntrl s ++ rest ->
  (scan str2d bl = Ok ((T_STRING, SStr s, 1 + lines s) :: l) <->
   stream SNone SStr (number_of str2d SInt SFlt) (prefix_cast SNone SStr) (1 + lines s) rest l).
Proof.
  intros F str2d iscntrl Cr s bl rest l W Wr Hl J.
  assert (T : tokens SNone SStr (number_of str2d SInt SFlt) (fun w tv => casttoken (F:=F) w = tv) 1 (joined bl) T_STRING (SStr s) rest (1 + lines s)).
  { rewrite J. unfold addquoted. cbn [app]. rewrite <- app_assoc. apply t_string; [left; reflexivity|]. apply quote_body; assumption. }
  apply scan_head; [|exact T|discriminate].
  rewrite J. apply Forall_app. split; [|exact Wr]. unfold addquoted. constructor; [unfold is_byte; lia|]. apply Forall_app. split; [|constructor; [unfold is_byte; lia | constructor]].
  clear T J Hl. induction W as [|c t Wc Wt IH]; [constructor|]. cbn [quote_loop]. apply Forall_app. split; [|exact IH]. unfold is_byte in Wc. destruct (digits_of_byte c Wc) as (F1 & _ & _ & F2 & _).
  destruct ((c =? 34) || (c =? 92) || (c =? 10)); [repeat constructor; unfold is_byte; lia|]. destruct (iscntrl c); [|repeat constructor; unfold is_byte; lia].
  destruct (negb (isdigit (hd 0 t))); (constructor; [unfold is_byte; lia | apply digit_wf; assumption]).
Qed.
Theorem quote_whole : forall (F : Type) (str2d : list Z -> option F) (iscntrl : Z -> bool), iscntrl 13 = true ->
  forall s bl, wf_str s -> 1 + lines s < 2147483647 -> joined bl = addquoted iscntrl s ->
  scan str2d bl = Ok [(T_STRING, SStr s, 1 + lines s); (T_EOS, SNone, 1 + lines s)].
Proof.
  intros F str2d iscntrl Cr s bl W Hl J. apply (quote_string F str2d iscntrl Cr s bl []); auto; [constructor | rewrite app_nil_r; exact J|]. eapply st_end, t_eos.
Qed.
Theorem quote_integer : forall (F : Type) (str2d : list Z -> option F) n bl, is_s64 n -> joined bl = quoteint n ->
  scan str2d bl = Ok (if (n <? 0) && negb (n =? minint) then [(45, SNone, 1); (T_INT, SInt (- n), 1); (T_EOS, SNone, 1)] else [(T_INT, SInt n, 1); (T_EOS, SNone, 1)]).
Proof.
  intros F str2d n bl Hs J. apply scan_complete; [|rewrite J; apply int_stream, Hs]. rewrite J. unfold quoteint. destruct (Z.eqb_spec n minint) as [->|]; [apply Forall_forall; intros x I; vm_compute in I; unfold is_byte; lia|].
  unfold int2str. destruct (Z.ltb_spec n 0); [constructor; [unfold is_byte; lia|]|]; apply digit_wf, udigits_ok; lia.
Qed.
Lemma body_lines : forall k iscntrl n s i' n', body 34 n (quote_loop iscntrl (repeat 10 k) ++ [34]) s i' n' -> k = 0%nat \/ n + Z.of_nat k < 2147483647.
Proof.
  induction k as [|k IH]; intros iscntrl n s i' n' B; [left; reflexivity|right]. cbn [repeat quote_loop Z.eqb Pos.eqb orb app] in B.
  inversion B as [|? ? ? ? ? ? N1 N2 N3 B2|? ? e i1 n1 ? ? ? E B2]; subst; [contradiction|].
  assert (L : line_break n (10 :: quote_loop iscntrl (repeat 10 k) ++ [34]) i1 n1).
  { remember (10 :: quote_loop iscntrl (repeat 10 k) ++ [34]) as z eqn:Q. destruct E as [? c ? ? I|? a b ? ? ?|? ds ? Hl Fd ? ?|? ds ? ? ? ?|? ? ? ? L|? ? ? ? S]; try discriminate Q.
    - injection Q as -> _. exfalso. revert I. unfold escapes. cbn [In]. intuition discriminate.
    - destruct ds as [|d ds]; [cbn in Hl; lia|]. injection Q as -> _. inversion Fd as [|? ? D ?]; subst. unfold digit in D. lia.
    - exact L. }
  assert (Lh : i1 = quote_loop iscntrl (repeat 10 k) ++ [34] /\ n1 = n + 1 /\ n + 1 < 2147483647).
  { inversion L as [? a b r N1 N2 N3 N4|? a r N1 St N4]; subst; auto. exfalso. match goal with X : _ :: _ = _ |- _ => destruct k; cbn in X; injection X as -> _ end; unfold newline in N2; lia. }
  destruct Lh as (-> & -> & Hn). destruct (IH _ _ _ _ _ B2) as [->|X]; lia.
Qed.
Theorem quote_lines_refuted : ~ (forall (F : Type) (str2d : list Z -> option F) (iscntrl : Z -> bool), iscntrl 13 = true ->
  forall s bl, wf_str s -> joined bl = addquoted iscntrl s -> exists n, scan str2d bl = Ok [(T_STRING, SStr s, n); (T_EOS, SNone, n)]).
Proof.
  intros H. set (k := Z.to_nat 2147483647). assert (Hk : Z.of_nat k = 2147483647) by (unfold k; lia). clearbody k. set (q := addquoted (fun _ => true) (repeat 10 k)).
  assert (J : joined [q] = q) by (unfold q, addquoted; cbn [joined app]; rewrite app_nil_r; reflexivity).
  assert (Wk : wf_str (repeat 10 k)). { clear. induction k; constructor; [unfold is_byte; lia | assumption]. }
  destruct (H unit (fun _ => None) (fun _ => true) eq_refl (repeat 10 k) [q] Wk J) as [n E].
  assert (W : wf_str (joined [q])).
  { rewrite J. unfold q, addquoted. constructor; [unfold is_byte; lia|]. apply Forall_app. split; [|constructor; [unfold is_byte; lia | constructor]].
    clear. induction k; cbn [repeat quote_loop Z.eqb Pos.eqb orb]; [constructor|]. apply Forall_app. split; [repeat constructor; unfold is_byte; lia | assumption]. }
  destruct (scan_sound (fun _ : list Z => @None unit) [q] W) as [(l & E2 & S)|[e E2]]; [|congruence]. rewrite J in S. unfold q, addquoted in S. cbn [app] in S.
  assert (exists t v i' n', tokens SNone SStr (number_of (fun _ : list Z => @None unit) SInt SFlt) (fun w tv => casttoken (F:=unit) w = tv) 1 (34 :: quote_loop (fun _ => true) (repeat 10 k) ++ [34]) t v i' n') as (t & v & i' & n' & T).
  { inversion S; subst; eauto 6. }
  destruct (tok_quote _ _ _ _ _ _ _ T) as [s B]. destruct (body_lines _ _ _ _ _ _ B); lia.
Qed.
Theorem lex_cast_refuted : ~ (forall (F : Type) (str2d : list Z -> option F) (bl : list (list Z)), wf_str (joined bl) ->
  forall l, scan str2d bl = Ok l <-> stream SNone SStr (number_of str2d SInt SFlt) (exact_cast SNone SStr) 1 (joined bl) l).
Proof.
  intros H. specialize (H unit (fun _ => None) [text "@int"]). assert (W : wf_str (joined [text "@int"])) by (repeat constructor; unfold is_byte; lia).
  assert (S : stream (SNone (F:=unit)) SStr (number_of (fun _ => None) SInt SFlt) (exact_cast SNone SStr) 1 (joined [text "@int"]) [(64, SStr (text "int"), 1); (T_EOS, SNone, 1)]).
  { eapply st_more; [|discriminate|eapply st_end, t_eos]. change (joined [text "@int"]) with (64 :: text "int" ++ [] ++ [] ++ []). apply t_cast.
    - repeat constructor; unfold alnum, letter, digit; cbn; lia.
    - right. split; [reflexivity | intros c r E; discriminate].
    - right. split; [reflexivity | intros c r E; discriminate].
    - intros c r E. discriminate.
    - right. split; [|reflexivity]. intros t I. revert I. vm_compute. intuition discriminate. }
  apply (H W) in S. vm_compute in S. discriminate.
Qed.
