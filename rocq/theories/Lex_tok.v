(* Tokens: llex against the lexical grammar. *)
Require Import ZArith List Bool String Lia.
From Verif Require Import Base Base_facts Str Ctype_model Ctype_proofs Num_model Num_spec Num_proofs Lex_model Lex_spec Lex_facts Lex_str Lex_long Lex_num.
Import ListNotations.
Open Scope Z_scope.

Lemma position_sound : forall w t, position w luaX_reserved FIRST_RESERVED = Some t -> In (w, t) reserved.
Proof.
  intros w t. unfold luaX_reserved, FIRST_RESERVED. cbn [position].
  repeat match goal with |- context [if list_eq_dec Z.eq_dec w ?x then _ else _] => destruct (list_eq_dec Z.eq_dec w x) as [->|]; [intros [= <-]; unfold reserved; cbn [In]; tauto|] end.
  discriminate.
Qed.
Lemma position_complete : forall w t, In (w, t) reserved -> position w luaX_reserved FIRST_RESERVED = Some t.
Proof. intros w t I. unfold reserved in I. cbn [In] in I. repeat (destruct I as [I|I]; [injection I as <- <-; vm_compute; reflexivity|]). contradiction. Qed.
Lemma position_none : forall w, position w luaX_reserved FIRST_RESERVED = None -> forall t, ~ In (w, t) reserved.
Proof. intros w E t I. rewrite (position_complete _ _ I) in E. discriminate. Qed.

Lemma wf_app : forall a b, wf_str (a ++ b) -> wf_str a /\ wf_str b. Proof. intros a b. apply Forall_app. Qed.

Section Tok.
Context {F : Type} (str2d : list Z -> option F).
Notation tok := (tokens SNone SStr (number_of str2d SInt SFlt) (fun w tv => casttoken (F:=F) w = tv)).
Notation lex := (llex_loop str2d).

(* all symbols, as needed for "no symbol starts here" and "no longer one" *)
Ltac all_symbols I := unfold symbols in I; cbn in I; repeat (destruct I as [I|I]; [injection I as <- <-|]); [..|contradiction].

Definition res (n : Z) (i : list Z) (r : outcome (Z * sem (F:=F) * ls)) : Prop :=
  (exists t v i' n' s', tok n i t v i' n' /\ r = Ok (t, v, s') /\ at_ s' i' (buf s') n') \/ (exists e, r = Err e).

Lemma at_any : forall s i b n, at_ s i b n -> at_ s i (buf s) n. Proof. intros s i b n H. rewrite (at_buf _ _ _ _ H). exact H. Qed.
Lemma res_ok : forall n i t v i' n' s b, tok n i t v i' n' -> at_ s i' b n' -> res n i (Ok (t, v, s)).
Proof. intros n i t v i' n' s b T H. left. exists t, v, i', n', s. split; [exact T|]. split; [reflexivity | eapply at_any; eauto]. Qed.

Lemma plain : forall n c i, (c = 45 -> stops (fun d => d = 45) i) -> (c = 46 -> stops (fun d => d = 46) i /\ stops digit i) -> (c = 91 -> stops (fun d => d = 91) i /\ stops (fun d => d = 61) i) ->
  (c = 61 \/ c = 60 \/ c = 62 \/ c = 126 -> stops (fun d => d = 61) i) -> (c = 60 -> stops (fun d => d = 60) i) -> (c = 62 -> stops (fun d => d = 62) i) ->
  (c = 47 -> stops (fun d => d = 47) i) -> (c = 58 -> stops (fun d => d = 58) i) ->
  ~ white c -> ~ newline c -> ~ alnum c -> c <> 34 -> c <> 39 -> c <> 64 -> tok n (c :: i) c SNone i n.
Proof.
  intros n c i H1 H2 H3 H4 H5 H6 H7 H8 N1 N2 N3 N4 N5 N6. apply t_char; auto.
  - intros [q Q]. cbn in Q. injection Q as -> ->. eapply (H1 eq_refl); reflexivity.
  - intros [q Q]. cbn in Q. injection Q as -> ->. eapply (proj2 (H3 eq_refl)); reflexivity.
  - intros [q Q]. cbn in Q. injection Q as -> ->. eapply (proj1 (H3 eq_refl)); reflexivity.
  - intros E. apply H2, E.
  - intros w' t' I [q Q]. all_symbols I; cbn in Q; injection Q as -> ->.
    all: first [eapply (H7 eq_refl); reflexivity | eapply (proj1 (H2 eq_refl)); reflexivity | eapply (H8 eq_refl); reflexivity | eapply (H5 eq_refl); reflexivity | eapply (H6 eq_refl); reflexivity | eapply H4; [|reflexivity|reflexivity]; tauto].
Qed.

Lemma sym2 : forall n a b i t, In ([a; b], t) symbols -> (a = 46 -> stops (fun d => d = 46) i) -> tok n (a :: b :: i) t SNone i n.
Proof.
  intros n a b i t I St. apply (t_symbol _ _ _ _ n [a; b] t i I). intros w' t' I' [q Q]. all_symbols I'; cbn; try lia. exfalso. cbn in Q. injection Q as -> -> ->. eapply St; reflexivity.
Qed.
Lemma sym3 : forall n i, tok n (46 :: 46 :: 46 :: i) 282 SNone i n.
Proof. intros n i. apply (t_symbol _ _ _ _ n (text "...") 282 i). { vm_compute. tauto. } intros w' t' I' _. all_symbols I'; cbn; lia. Qed.

Lemma two_sound : forall s c c2 t2 i b n, at_ s (c :: i) b n -> In ([c; c2], t2) symbols -> c <> 46 -> c2 <> -1 ->
  (stops (fun d => d = c2) i -> tok n (c :: i) c SNone i n) -> res n (c :: i) (two s c c2 t2).
Proof.
  intros s c c2 t2 i b n H I Nd N2 Hs. unfold two. step_next H s1 H1. destruct (check1_at _ _ _ _ c2 H1 N2) as [(r & s2 & -> & E & H2)|[St E]]; rewrite E; cbn [bind]; unfold simple.
  - eapply res_ok; [apply sym2; [exact I | lia] | exact H2].
  - eapply res_ok; [apply Hs, St | exact H1].
Qed.
Lemma three_sound : forall s c c2 t2 c3 t3 i b n, at_ s (c :: i) b n -> In ([c; c2], t2) symbols -> In ([c; c3], t3) symbols -> c <> 46 -> c2 <> -1 -> c3 <> -1 ->
  (stops (fun d => d = c2) i -> stops (fun d => d = c3) i -> tok n (c :: i) c SNone i n) -> res n (c :: i) (three s c c2 t2 c3 t3).
Proof.
  intros s c c2 t2 c3 t3 i b n H I I3 Nd N2 N3 Hs. unfold three. step_next H s1 H1. destruct (check1_at _ _ _ _ c2 H1 N2) as [(r & s2 & -> & E & H2)|[St E]]; rewrite E; cbn [bind]; unfold simple.
  - eapply res_ok; [apply sym2; [exact I | lia] | exact H2].
  - destruct (check1_at _ _ _ _ c3 H1 N3) as [(r & s2 & -> & E3 & H2)|[St3 E3]]; rewrite E3; cbn [bind].
    + eapply res_ok; [apply sym2; [exact I3 | lia] | exact H2].
    + eapply res_ok; [apply Hs; assumption | exact H1].
Qed.

Lemma res_imp : forall n i n1 i1 r, (forall t v i' n', tok n1 i1 t v i' n' -> tok n i t v i' n') -> res n1 i1 r -> res n i r.
Proof. intros n i n1 i1 r Imp [(t & v & i' & n' & s' & T & E & H)|E]; [left | right; exact E]. exists t, v, i', n', s'. auto. Qed.

Lemma opening_split : forall k i, opening k ++ i = 91 :: repeat 61 k ++ 91 :: i.
Proof. intros k i. unfold opening. cbn [app]. rewrite <- app_assoc. reflexivity. Qed.
Lemma no_opening : forall k r, stops (fun c => c = 61) r -> stops (fun c => c = 91) r -> forall m, ~ begins (opening m) (91 :: repeat 61 k ++ r).
Proof.
  intros k r S1 S2 m [q Q]. rewrite opening_split in Q. injection Q as Q. destruct (repeat_unique 61 k m r (91 :: q)) as [_ ->]; auto.
  - intros c x [= <- <-]. lia.
  - eapply S2; reflexivity.
Qed.
Lemma sep2 : forall k r, (2 <=? (if hd (-1) r =? 91 then Z.of_nat k + 2 else if Nat.eqb k 0 then 1 else 0)) = true -> exists q, r = 91 :: q.
Proof. intros k [|c r] E; cbn in E; [destruct k; discriminate|]. destruct (c =? 91) eqn:C; [apply Z.eqb_eq in C; subst; eauto | destruct k; discriminate]. Qed.
Lemma sep_not2 : forall k r, (2 <=? (if hd (-1) r =? 91 then Z.of_nat k + 2 else if Nat.eqb k 0 then 1 else 0)) = false -> stops (fun c => c = 91) r.
Proof. intros k r E c q -> ->. cbn [hd] in E. rewrite Z.eqb_refl in E. apply Z.leb_gt in E. lia. Qed.

Lemma no_newline_sep : forall k, Forall (fun c => ~ newline c) (91 :: repeat 61 k).
Proof. intros k. constructor; [unfold newline; lia|]. induction k; constructor; [unfold newline; lia | assumption]. Qed.

(* ** Soundness *)
Lemma lex_sound : forall fuel s i n, at_ s i [] n -> (List.length i < fuel)%nat -> res n i (lex fuel s).
Proof.
  induction fuel as [|f IH]; intros s i n H Hf; [lia|]. cbn [llex_loop]. cbv zeta.
  pose proof (at_char _ _ _ _ H) as Ch. pose proof (at_cur _ _ _ _ H) as Cu. set (c := current s) in *.
  destruct (isnewline c) eqn:En.
  { apply cls_newline in En. destruct (at_nonempty _ _ _ _ H) as [r Er]; [fold c; unfold EOZ, newline in *; lia|]. rewrite Er in H, Hf. cbn in Hf. rewrite Er.
    destruct (incl_sound _ _ _ _ _ H En) as [(s1 & i1 & n1 & E4 & L & H1 & Hl)|E4]; rewrite E4; cbn [bind]; [|right; eexists; reflexivity].
    eapply res_imp; [|apply (IH s1 i1 n1 H1); lia]. intros. eapply t_line; eauto. }
  apply (not_false _ _ (cls_newline _)) in En.
  destruct ((c =? 32) || (c =? 12) || (c =? 9) || (c =? 11)) eqn:Ew.
  { rewrite !orb_true_iff, !Z.eqb_eq in Ew. destruct (at_nonempty _ _ _ _ H) as [r Er]; [fold c; unfold EOZ; lia|]. rewrite Er in H, Hf. cbn in Hf. rewrite Er. step_next H s1 H1.
    eapply res_imp; [|apply (IH s1 r n H1); lia]. intros. eapply t_white; eauto. unfold white. fold c. lia. }
  rewrite !orb_false_iff, !Z.eqb_neq in Ew.
  destruct (c =? 45) eqn:E45.
  { apply Z.eqb_eq in E45. destruct (at_nonempty _ _ _ _ H) as [r Er]; [fold c; unfold EOZ; lia|]. fold c in Er. rewrite E45 in Er. subst i. cbn in Hf. step_next H s1 H1.
    destruct (current s1 =? 45) eqn:E1; cbn [negb].
    2: { apply Z.eqb_neq in E1. unfold simple. eapply res_ok; [apply plain; try lia; try (unfold white, newline, alnum, letter, digit; lia); intros _; apply (stops_at _ _ _ _ _ H1 E1) | exact H1]. }
    apply Z.eqb_eq in E1. destruct (at_nonempty _ _ _ _ H1) as [r1 Er]; [unfold EOZ; lia|]. rewrite E1 in Er. subst r. cbn in Hf. step_next H1 s2 H2.
    assert (Sh : forall s3 r3 com0, at_ s3 r3 [] n -> (List.length r3 < f)%nat -> r1 = com0 ++ r3 -> (forall k, ~ begins (opening k) r1) -> Forall (fun c => ~ newline c) com0 ->
       res n (45 :: 45 :: r1) (bind (comment_loop f s3) (lex f))).
    { intros s3 r3 com0 H3 Hl Er No Fc. destruct (comment_at f s3 r3 _ n H3 Hl) as (w & r & s' & -> & Fw & Sr & E3 & H4). rewrite E3. cbn [bind].
      eapply res_imp; [|apply (IH s' r n H4)]. 2: { rewrite app_length in Hl. lia. }
      intros t v i' n' T. rewrite Er, app_assoc in No |- *. apply t_comment; auto. apply Forall_app. auto. }
    destruct (current s2 =? 91) eqn:E2.
    - apply Z.eqb_eq in E2. destruct (at_nonempty _ _ _ _ H2) as [r Er]; [unfold EOZ; lia|]. rewrite E2 in Er. subst r1. cbn in Hf.
      destruct (skip_sep_at f s2 91 r _ n H2 ltac:(lia)) as (k & q & s3 & -> & St & H3 & E3). rewrite E3. cbn [bind]. rewrite app_length in Hf.
      destruct (2 <=? _) eqn:E4.
      + destruct (sep2 _ _ E4) as [q' ->]. cbn [hd]. rewrite Z.eqb_refl. apply reset_at in H3. cbn in Hf.
        destruct (long_string_sound F f _ q' _ n k false H3 ltac:(lia)) as [(c' & i' & n' & s' & v & L & E5 & H5 & _ & Hl)|[e E5]]; [discriminate| |]; rewrite E5; cbn [bind]; [|right; eexists; reflexivity].
        eapply res_imp; [|apply (IH _ i' n' (reset_at _ _ _ _ H5)); lia]. intros. rewrite opening_split in L. eapply t_long_comment; eauto.
      + apply sep_not2 in E4. apply reset_at in H3. eapply (Sh _ q (91 :: repeat 61 k) H3); [lia | reflexivity | apply no_opening; assumption | apply no_newline_sep].
    - apply Z.eqb_neq in E2. apply (Sh s2 r1 [] H2); [lia | reflexivity | | constructor]. intros k [q Q]. rewrite opening_split in Q. subst r1. apply E2. rewrite (at_cur _ _ _ _ H2). reflexivity. }
  apply Z.eqb_neq in E45.
  destruct (c =? 91) eqn:E91.
  { apply Z.eqb_eq in E91. destruct (at_nonempty _ _ _ _ H) as [r Er]; [fold c; unfold EOZ; lia|]. fold c in Er. rewrite E91 in Er. subst i. cbn in Hf.
    destruct (skip_sep_at f s 91 r _ n H ltac:(lia)) as (k & q & s3 & -> & St & H3 & E3). rewrite E3. cbn [bind]. rewrite app_length in Hf.
    destruct (2 <=? _) eqn:E4.
    - destruct (sep2 _ _ E4) as [q' ->]. cbn [hd]. rewrite Z.eqb_refl. cbn in Hf.
      destruct (long_string_sound F f _ q' _ n k true H3 ltac:(lia) ltac:(reflexivity)) as [(c' & i' & n' & s' & v & L & E5 & H5 & V & Hl)|[e E5]]; rewrite E5; cbn [bind]; [|right; eexists; reflexivity].
      rewrite (V eq_refl). eapply res_ok; [|exact H5]. rewrite opening_split in L. apply t_long, L.
    - apply sep_not2 in E4. assert (Hh : (hd (-1) q =? 91) = false).
      { destruct q as [|x q]; [reflexivity|]. cbn. apply Z.eqb_neq. intros ->. eapply E4; reflexivity. }
      rewrite Hh. destruct k as [|k]; cbn [Nat.eqb Z.eqb]; [|right; eexists; reflexivity]. unfold simple. cbn [repeat app] in *.
      eapply res_ok; [apply plain; try lia; try (unfold white, newline, alnum, letter, digit; lia); auto | exact H3]. }
  apply Z.eqb_neq in E91.
  assert (Ne : c <> EOZ -> exists r, i = c :: r) by (intros N; apply (at_nonempty _ _ _ _ H N)).
  destruct (c =? 61) eqn:E61; [apply Z.eqb_eq in E61; destruct (Ne ltac:(unfold EOZ; lia)) as [r Er]; rewrite E61 in Er; subst i|apply Z.eqb_neq in E61].
  { eapply two_sound; [exact H | vm_compute; tauto | lia | lia |]. intros St. apply plain; try lia; try (unfold white, newline, alnum, letter, digit; lia); auto. }
  destruct (c =? 60) eqn:E60; [apply Z.eqb_eq in E60; destruct (Ne ltac:(unfold EOZ; lia)) as [r Er]; rewrite E60 in Er; subst i|apply Z.eqb_neq in E60].
  { eapply three_sound; [exact H | vm_compute; tauto | vm_compute; tauto | lia | lia | lia |]. intros St St2. apply plain; try lia; try (unfold white, newline, alnum, letter, digit; lia); auto. }
  destruct (c =? 62) eqn:E62; [apply Z.eqb_eq in E62; destruct (Ne ltac:(unfold EOZ; lia)) as [r Er]; rewrite E62 in Er; subst i|apply Z.eqb_neq in E62].
  { eapply three_sound; [exact H | vm_compute; tauto | vm_compute; tauto | lia | lia | lia |]. intros St St2. apply plain; try lia; try (unfold white, newline, alnum, letter, digit; lia); auto. }
  destruct (c =? 47) eqn:E47; [apply Z.eqb_eq in E47; destruct (Ne ltac:(unfold EOZ; lia)) as [r Er]; rewrite E47 in Er; subst i|apply Z.eqb_neq in E47].
  { eapply two_sound; [exact H | vm_compute; tauto | lia | lia |]. intros St. apply plain; try lia; try (unfold white, newline, alnum, letter, digit; lia); auto. }
  destruct (c =? 126) eqn:E126; [apply Z.eqb_eq in E126; destruct (Ne ltac:(unfold EOZ; lia)) as [r Er]; rewrite E126 in Er; subst i|apply Z.eqb_neq in E126].
  { eapply two_sound; [exact H | vm_compute; tauto | lia | lia |]. intros St. apply plain; try lia; try (unfold white, newline, alnum, letter, digit; lia); auto. }
  destruct (c =? 58) eqn:E58; [apply Z.eqb_eq in E58; destruct (Ne ltac:(unfold EOZ; lia)) as [r Er]; rewrite E58 in Er; subst i|apply Z.eqb_neq in E58].
  { eapply two_sound; [exact H | vm_compute; tauto | lia | lia |]. intros St. apply plain; try lia; try (unfold white, newline, alnum, letter, digit; lia); auto. }
  destruct ((c =? 34) || (c =? 39)) eqn:Eq.
  { apply orb_true_iff in Eq. rewrite !Z.eqb_eq in Eq. destruct (Ne ltac:(unfold EOZ; lia)) as [r Er]. subst i. cbn in Hf.
    destruct (read_string_sound F f s r n c H ltac:(lia) ltac:(tauto)) as [(st & i' & n' & s' & B & E & H1 & _)|[e E]]; rewrite E; cbn [bind]; [|right; eexists; reflexivity].
    eapply res_ok; [apply t_string; [exact Eq | exact B] | exact H1]. }
  apply orb_false_iff in Eq. rewrite !Z.eqb_neq in Eq.
  destruct (c =? 46) eqn:E46; [apply Z.eqb_eq in E46; destruct (Ne ltac:(unfold EOZ; lia)) as [r Er]; rewrite E46 in Er; subst i|apply Z.eqb_neq in E46].
  { step_save H s1 H1. cbn in Hf. destruct (check1_at _ _ _ _ 46 H1 ltac:(lia)) as [(r1 & s2 & -> & E & H2)|[St E]]; rewrite E; cbn [bind].
    - destruct (check1_at _ _ _ _ 46 H2 ltac:(lia)) as [(r2 & s3 & -> & E3 & H3)|[St E3]]; rewrite E3; cbn [bind]; unfold simple.
      + eapply res_ok; [apply sym3 | exact H3].
      + eapply res_ok; [apply sym2; [vm_compute; tauto | auto] | exact H2].
    - destruct (lisdigit (current s1)) eqn:Ed; cbn [negb].
      + apply (cls_digit _ (at_char _ _ _ _ H1)) in Ed. destruct (at_nonempty _ _ _ _ H1) as [r1 Er]; [unfold EOZ, digit in *; lia|]. set (d := current s1) in *. subst r. cbn in Hf.
        destruct (numeral_sound str2d f s1 d r1 _ n H1 Ed ltac:(lia)) as (w & i' & s' & R & E3 & H3). rewrite E3.
        assert (W : wf_str (46 :: w)). { destruct (numeral_split _ _ _ R) as [Q _]. pose proof (at_wf _ _ _ _ H) as W. rewrite Q in W. apply (wf_app (46 :: w) i') in W. apply W. }
        destruct (value_sound str2d (46 :: w) s' W) as [(t & v & Nv & E4)|E4]; cbn [app]; rewrite E4; [|right; eexists; reflexivity].
        eapply res_ok; [eapply t_dot_number; eauto | apply save_at, H3].
      + apply (not_false _ _ (cls_digit _ (at_char _ _ _ _ H1))) in Ed. unfold simple.
        eapply res_ok; [apply plain; try lia; try (unfold white, newline, alnum, letter, digit; lia); auto; intros _; split; [exact St | apply (stops_at _ _ _ _ _ H1 Ed)] | exact H1]. }
  destruct ((48 <=? c) && (c <=? 57)) eqn:Ed.
  { apply andb_true_iff in Ed. rewrite !Z.leb_le in Ed. destruct (Ne ltac:(unfold EOZ; lia)) as [r Er]. subst i. cbn in Hf.
    destruct (numeral_sound str2d f s c r _ n H Ed ltac:(lia)) as (w & i' & s' & R & E3 & H3). rewrite E3. cbn [app] in *.
    assert (W : wf_str w). { destruct (numeral_split _ _ _ R) as [Q _]. pose proof (at_wf _ _ _ _ H) as W. rewrite Q in W. apply (wf_app w i') in W. apply W. }
    destruct (value_sound str2d w s' W) as [(t & v & Nv & E4)|E4]; rewrite E4; [|right; eexists; reflexivity].
    eapply res_ok; [eapply t_number; eauto | apply save_at, H3]. }
  assert (Nd : ~ digit c). { unfold digit. intros X. apply andb_false_iff in Ed. rewrite !Z.leb_gt in Ed. lia. }
  destruct (c =? EOZ) eqn:Ez.
  { apply Z.eqb_eq in Ez. pose proof (at_eoz _ _ _ _ H Ez) as Qi. subst i. unfold simple. eapply res_ok; [apply t_eos | exact H]. }
  apply Z.eqb_neq in Ez. destruct (Ne Ez) as [r Er]. subst i. cbn in Hf.
  destruct (c =? 64) eqn:E64; [apply Z.eqb_eq in E64|apply Z.eqb_neq in E64].
  { rewrite E64 in *. step_save H s1 H1. destruct (alnum_at f s1 r _ n H1 ltac:(lia)) as (w & r1 & s2 & -> & Fw & Sw & E2 & H2). rewrite E2. cbn [bind].
    assert (exists b1 s3 r3 x, r1 = b1 ++ r3 /\ (b1 = [91] \/ b1 = [] /\ stops (fun c => c = 91) r3) /\ check_save_next s2 91 91 = Ok (x, s3) /\ at_ s3 r3 (64 :: w ++ b1) n) as (b1 & s3 & r3 & x & -> & B1 & E3 & H3).
    { destruct (check_save_at _ _ _ _ 91 91 H2 ltac:(lia) ltac:(lia)) as [(y & q & s3 & Ey & -> & E3 & H3)|[St E3]].
      - assert (y = 91) by tauto. subst y. exists [91], s3, q, true. split; [reflexivity|]. split; [left; reflexivity|]. split; [exact E3|]. cbn [app] in H3. exact H3.
      - exists [], s2, r1, false. split; [reflexivity|]. split; [right; split; [reflexivity | intros d q Q X; eapply St; [exact Q | left; exact X]]|]. split; [exact E3|]. rewrite app_nil_r. exact H2. }
    rewrite E3. cbn [bind].
    assert (exists b2 s4 r4 x, r3 = b2 ++ r4 /\ (b2 = [93] \/ b2 = [] /\ stops (fun c => c = 93) r4) /\ check_save_next s3 93 93 = Ok (x, s4) /\ at_ s4 r4 (64 :: w ++ b1 ++ b2) n) as (b2 & s4 & r4 & x2 & -> & B2 & E4 & H4).
    { destruct (check_save_at _ _ _ _ 93 93 H3 ltac:(lia) ltac:(lia)) as [(y & q & s4 & Ey & -> & E4 & H4)|[St E4]].
      - assert (y = 93) by tauto. subst y. exists [93], s4, q, true. split; [reflexivity|]. split; [left; reflexivity|]. split; [exact E4|]. cbn [app] in H4. rewrite <- app_assoc in H4. exact H4.
      - exists [], s3, r3, false. split; [reflexivity|]. split; [right; split; [reflexivity | intros d q Q X; eapply St; [exact Q | left; exact X]]|]. split; [exact E4|]. rewrite app_nil_r. exact H3. }
    rewrite E4. cbn [bind]. rewrite (at_buf _ _ _ _ H4). destruct (casttoken (64 :: w ++ b1 ++ b2)) as [t v] eqn:Ec.
    destruct (remove_at s4 r4 [] (64 :: w ++ b1 ++ b2) n _ H4 eq_refl) as (s5 & E5 & H5). rewrite E5. cbn [bind].
    eapply res_ok; [apply t_cast; eauto | exact H5]. }
  destruct (lislalpha c) eqn:Ea.
  { apply (cls_letter _ Ch) in Ea. step_save H s1 H1. destruct (alnum_at f s1 r _ n H1 ltac:(lia)) as (w & r1 & s2 & -> & Fw & Sw & E2 & H2). rewrite E2. cbn [bind].
    rewrite (at_buf _ _ _ _ H2). cbn [app] in *. destruct (position (c :: w) luaX_reserved FIRST_RESERVED) as [t|] eqn:Ep.
    - eapply res_ok; [apply t_reserved; auto; apply position_sound, Ep | exact H2].
    - eapply res_ok; [apply t_name; auto; apply position_none, Ep | exact H2]. }
  apply (not_false _ _ (cls_letter _ Ch)) in Ea. step_next H s1 H1. unfold simple.
  eapply res_ok; [apply plain; try lia; auto; unfold alnum, white; fold c; tauto | exact H1].
Qed.

(* ** Completeness *)
Lemma span_nl : forall a b x y, Forall (fun c => ~ newline c) a -> Forall (fun c => ~ newline c) b -> (x = [] \/ exists c r, x = c :: r /\ newline c) -> (y = [] \/ exists c r, y = c :: r /\ newline c) ->
  a ++ x = b ++ y -> a = b /\ x = y.
Proof.
  intros a b x y Fa Fb Sx Sy. apply (span_unique (fun c => ~ newline c)); auto; intros c r -> X; [destruct Sx as [|(? & ? & [= <- <-] & N)] | destruct Sy as [|(? & ? & [= <- <-] & N)]]; try discriminate; contradiction.
Qed.

Lemma check1_no : forall s i b n c, at_ s i b n -> c <> -1 -> stops (fun d => d = c) i -> check_next1 s c = Ok (false, s).
Proof. intros s i b n c H N St. destruct (check1_at _ _ _ _ c H N) as [(r & s' & -> & _)|[_ E]]; [exfalso; eapply St; reflexivity | exact E]. Qed.
Lemma check1_yes : forall s i b n c, at_ s (c :: i) b n -> c <> -1 -> exists s', check_next1 s c = Ok (true, s') /\ at_ s' i b n.
Proof. intros s i b n c H N. destruct (check1_at _ _ _ _ c H N) as [(r & s' & Q & E & H')|[St E]]; [injection Q as <-; eauto | exfalso; eapply St; reflexivity]. Qed.

Ltac cur H := cbn [llex_loop]; cbv zeta; rewrite (at_cur _ _ _ _ H); cbn [hd].
Ltac other := repeat match goal with
  | |- context [isnewline ?c] => rewrite (not_true _ _ (cls_newline c)) by (unfold white, newline, alnum, letter, digit in *; lia)
  | |- context [?c =? ?k] => rewrite (proj2 (Z.eqb_neq c k)) by (unfold EOZ, white, newline, alnum, letter, digit in *; lia) end; cbn [orb].

Definition good (n : Z) (i : list Z) (t : Z) (v : sem (F:=F)) (i' : list Z) (n' : Z) : Prop :=
  forall fuel s, at_ s i [] n -> (List.length i < fuel)%nat -> exists s', lex fuel s = Ok (t, v, s') /\ at_ s' i' (buf s') n'.

Lemma good_ok : forall s t v i' b n', at_ s i' b n' -> exists s', @Ok (Z * sem (F:=F) * ls) (t, v, s) = Ok (t, v, s') /\ at_ s' i' (buf s') n'.
Proof. intros s t v i' b n' H. exists s. split; [reflexivity | eapply at_any; eauto]. Qed.

Lemma good_char : forall n c i, ~ white c -> ~ newline c -> ~ alnum c -> c <> 34 -> c <> 39 -> c <> 64 ->
    ~ begins (text "--") (c :: i) -> ~ begins (text "[=") (c :: i) -> ~ begins (text "[[") (c :: i) ->
    (c = 46 -> stops digit i) -> (forall w' t', In (w', t') symbols -> ~ begins w' (c :: i)) -> good n (c :: i) c SNone i n.
Proof.
  intros n c i N1 N2 N3 N4 N5 N6 B1 B2 B3 Hd Hs [|f] s H Hf; [lia|]. cbn in Hf. cur H.
  assert (Sy : forall d t, In ([c; d], t) symbols -> stops (fun x => x = d) i). { intros d t I x r -> ->. eapply Hs; [exact I|]. exists r. reflexivity. }
  pose proof (at_char _ _ _ _ H) as Ch. rewrite (at_cur _ _ _ _ H) in Ch. cbn in Ch.
  assert (Ce : c <> EOZ). { pose proof (at_wf _ _ _ _ H) as W. inversion W as [|? ? X]; subst. unfold is_byte in X. unfold EOZ. lia. }
  rewrite (not_true _ _ (cls_newline c) N2). replace ((c =? 32) || (c =? 12) || (c =? 9) || (c =? 11)) with false.
  2: { symmetry. rewrite !orb_false_iff, !Z.eqb_neq. unfold white in N1. lia. }
  destruct (Z.eqb_spec c 45) as [->|E45].
  { step_next H s1 H1. destruct (current s1 =? 45) eqn:E.
    - exfalso. apply B1. apply Z.eqb_eq in E. destruct (at_nonempty _ _ _ _ H1) as [r ->]; [unfold EOZ; lia|]. rewrite E. exists r. reflexivity.
    - cbn [negb]. eapply good_ok, H1. }
  destruct (Z.eqb_spec c 91) as [->|E91].
  { destruct (skip_sep_at f s 91 i _ n H ltac:(lia)) as (k & q & s3 & -> & St & H3 & E3). rewrite E3. cbn [bind].
    destruct k as [|k]; [|exfalso; apply B2; eexists; reflexivity]. cbn [repeat app Nat.eqb] in *.
    destruct (Z.eqb_spec (hd (-1) q) 91) as [E|E]; [exfalso; apply B3; destruct q as [|x q]; [discriminate|]; cbn in E; subst x; eexists; reflexivity|].
    cbn [Z.leb Z.compare Pos.compare Pos.compare_cont Z.eqb]. eapply good_ok, H3. }
  destruct (Z.eqb_spec c 61) as [->|E61].
  { unfold two. step_next H s1 H1. rewrite (check1_no _ _ _ _ 61 H1) by (try lia; eapply Sy; vm_compute; tauto). cbn [bind]. eapply good_ok, H1. }
  destruct (Z.eqb_spec c 60) as [->|E60].
  { unfold three. step_next H s1 H1. rewrite (check1_no _ _ _ _ 61 H1) by (try lia; eapply Sy; vm_compute; tauto). cbn [bind]. rewrite (check1_no _ _ _ _ 60 H1) by (try lia; eapply Sy; vm_compute; tauto). cbn [bind]. eapply good_ok, H1. }
  destruct (Z.eqb_spec c 62) as [->|E62].
  { unfold three. step_next H s1 H1. rewrite (check1_no _ _ _ _ 61 H1) by (try lia; eapply Sy; vm_compute; tauto). cbn [bind]. rewrite (check1_no _ _ _ _ 62 H1) by (try lia; eapply Sy; vm_compute; tauto). cbn [bind]. eapply good_ok, H1. }
  destruct (Z.eqb_spec c 47) as [->|E47].
  { unfold two. step_next H s1 H1. rewrite (check1_no _ _ _ _ 47 H1) by (try lia; eapply Sy; vm_compute; tauto). cbn [bind]. eapply good_ok, H1. }
  destruct (Z.eqb_spec c 126) as [->|E126].
  { unfold two. step_next H s1 H1. rewrite (check1_no _ _ _ _ 61 H1) by (try lia; eapply Sy; vm_compute; tauto). cbn [bind]. eapply good_ok, H1. }
  destruct (Z.eqb_spec c 58) as [->|E58].
  { unfold two. step_next H s1 H1. rewrite (check1_no _ _ _ _ 58 H1) by (try lia; eapply Sy; vm_compute; tauto). cbn [bind]. eapply good_ok, H1. }
  rewrite (proj2 (Z.eqb_neq c 34) N4), (proj2 (Z.eqb_neq c 39) N5). cbn [orb].
  destruct (Z.eqb_spec c 46) as [->|E46].
  { step_save H s1 H1. rewrite (check1_no _ _ _ _ 46 H1) by (try lia; eapply Sy; vm_compute; tauto). cbn [bind].
    destruct (lisdigit (current s1)) eqn:Ed; cbn [negb]; [|eapply good_ok, H1]. exfalso. apply (cls_digit _ (at_char _ _ _ _ H1)) in Ed.
    pose proof (stops_cur _ _ _ _ _ H1 (Hd eq_refl) Ed). unfold digit in Ed. lia. }
  assert (Nd : (48 <=? c) && (c <=? 57) = false). { apply andb_false_iff. rewrite !Z.leb_gt. unfold alnum, digit in N3. lia. }
  rewrite Nd. rewrite (proj2 (Z.eqb_neq c EOZ) Ce), (proj2 (Z.eqb_neq c 64) N6).
  rewrite (not_true _ _ (cls_letter c Ch)) by (unfold alnum in N3; tauto). step_next H s1 H1. eapply good_ok, H1.
Qed.

Lemma good_symbol : forall n w t i, In (w, t) symbols -> (forall w' t', In (w', t') symbols -> begins w' (w ++ i) -> (List.length w' <= List.length w)%nat) -> good n (w ++ i) t SNone i n.
Proof.
  intros n w t i I Lg [|f] s H Hf; [lia|].
  assert (Dots : w = text ".." -> stops (fun d => d = 46) i).
  { intros -> c r -> ->. specialize (Lg (text "...") 282 ltac:(vm_compute; tauto)). cbn in Lg. assert ((3 <= 2)%nat); [|lia]. apply Lg. exists r. reflexivity. }
  unfold symbols in I. cbn [In] in I. change (text "//") with [47; 47] in I. change (text "..") with [46; 46] in *. change (text "...") with [46; 46; 46] in I.
  change (text "==") with [61; 61] in I. change (text ">=") with [62; 61] in I. change (text "<=") with [60; 61] in I. change (text "~=") with [126; 61] in I.
  change (text "<<") with [60; 60] in I. change (text ">>") with [62; 62] in I. change (text "::") with [58; 58] in I.
  repeat (destruct I as [I|I]; [injection I as <- <-|]); [..|contradiction]; cbn [app] in H; cur H; cbn [isnewline Z.eqb Pos.eqb orb].
  - unfold two. step_next H s1 H1. destruct (check1_yes _ _ _ _ _ H1 ltac:(lia)) as (s2 & E & H2). rewrite E. cbn [bind]. eapply good_ok, H2.
  - step_save H s1 H1. destruct (check1_yes _ _ _ _ _ H1 ltac:(lia)) as (s2 & E & H2). rewrite E. cbn [bind]. rewrite (check1_no _ _ _ _ 46 H2) by (try lia; auto). cbn [bind]. eapply good_ok, H2.
  - step_save H s1 H1. destruct (check1_yes _ _ _ _ _ H1 ltac:(lia)) as (s2 & E & H2). rewrite E. cbn [bind]. destruct (check1_yes _ _ _ _ _ H2 ltac:(lia)) as (s3 & E3 & H3). rewrite E3. cbn [bind]. eapply good_ok, H3.
  - unfold two. step_next H s1 H1. destruct (check1_yes _ _ _ _ _ H1 ltac:(lia)) as (s2 & E & H2). rewrite E. cbn [bind]. eapply good_ok, H2.
  - unfold three. step_next H s1 H1. destruct (check1_yes _ _ _ _ _ H1 ltac:(lia)) as (s2 & E & H2). rewrite E. cbn [bind]. eapply good_ok, H2.
  - unfold three. step_next H s1 H1. destruct (check1_yes _ _ _ _ _ H1 ltac:(lia)) as (s2 & E & H2). rewrite E. cbn [bind]. eapply good_ok, H2.
  - unfold two. step_next H s1 H1. destruct (check1_yes _ _ _ _ _ H1 ltac:(lia)) as (s2 & E & H2). rewrite E. cbn [bind]. eapply good_ok, H2.
  - unfold three. step_next H s1 H1. rewrite (check1_no _ _ _ _ 61 H1) by (try lia; intros c r [= <- _]; lia). cbn [bind]. destruct (check1_yes _ _ _ _ _ H1 ltac:(lia)) as (s2 & E & H2). rewrite E. cbn [bind]. eapply good_ok, H2.
  - unfold three. step_next H s1 H1. rewrite (check1_no _ _ _ _ 61 H1) by (try lia; intros c r [= <- _]; lia). cbn [bind]. destruct (check1_yes _ _ _ _ _ H1 ltac:(lia)) as (s2 & E & H2). rewrite E. cbn [bind]. eapply good_ok, H2.
  - unfold two. step_next H s1 H1. destruct (check1_yes _ _ _ _ _ H1 ltac:(lia)) as (s2 & E & H2). rewrite E. cbn [bind]. eapply good_ok, H2.
Qed.

Lemma long_len : forall n i c i' n', long n i c i' n' -> exists k q, i = 91 :: repeat 61 k ++ 91 :: q /\ long n (opening k ++ q) c i' n'.
Proof. intros n i c i' n' [k q i1 n1 ? ? ? Lb B|k q ? ? ? St B]; exists k, q; (split; [apply opening_split|]); [eapply long_line; eauto | eapply long_plain; eauto]. Qed.
Lemma sep_two : forall k q, (if hd (-1) (91 :: q) =? 91 then Z.of_nat k + 2 else if Nat.eqb k 0 then 1 else 0) = Z.of_nat k + 2. Proof. reflexivity. Qed.
Lemma open_eq : forall k m q r, repeat 61 k ++ 91 :: q = repeat 61 m ++ r -> stops (fun c => c = 61) r -> k = m /\ r = 91 :: q.
Proof. intros k m q r E St. destruct (repeat_unique 61 k m (91 :: q) r) as [-> <-]; auto. intros c x [= <- <-]. lia. Qed.

Lemma long_body_len : forall k n i c i' n', long_body k n i c i' n' -> (List.length i' < List.length i)%nat.
Proof. intros k n i c i' n' B. induction B as [n i|n c i s i' n' N1 N2 B IH|n i i1 n1 s i' n' L B IH]; [unfold closing; cbn; rewrite app_length; lia | cbn; lia | pose proof (lb_len _ _ _ _ L); lia]. Qed.
Lemma long_len2 : forall n i c i' n', long n i c i' n' -> (List.length i' < List.length i)%nat.
Proof.
  intros n i c i' n' [k q i1 n1 ? ? ? Lb B|k q ? ? ? St B]; pose proof (long_body_len _ _ _ _ _ _ B); rewrite app_length; [pose proof (lb_len _ _ _ _ Lb)|]; lia.
Qed.

Lemma lex_complete : forall n i t v i' n', tok n i t v i' n' -> good n i t v i' n'.
Proof.
  intros n i t v i' n' T. induction T as [n|n c i t v i' n' Wc T IH|n i i1 n1 t v i' n' L T IH|n com i t v i' n' No Fc Si T IH|n i st i1 n1 t v i' n' L T IH|n q i st i' n' Eq B|n i st i' n' L
    |n i w t v i' R Nv|n c i w t v i' D R Nv|n c w t i Lc Fw Sw I|n c w i Lc Fw Sw No|n w t i I Lg|n c i N1 N2 N3 N4 N5 N6 B1 B2 B3 Hd Hs|n w b1 b2 i t v Fw B1 B2 Sw Ec]; [| | | | | | | | | | |apply good_symbol; assumption|apply good_char; assumption|]; intros [|f] s H Hf; try lia.
  - cur H. cbn [isnewline Z.eqb Pos.eqb orb EOZ Z.leb Z.compare andb]. eapply good_ok, H.
  - cbn in Hf. cur H. rewrite (not_true _ _ (cls_newline c)) by (unfold newline, white in *; lia). replace ((c =? 32) || (c =? 12) || (c =? 9) || (c =? 11)) with true.
    2: { symmetry. rewrite !orb_true_iff, !Z.eqb_eq. unfold white in Wc. lia. }
    step_next H s1 H1. apply IH; [exact H1 | lia].
  - destruct (lb_head _ _ _ _ L) as (a & r & -> & Na). pose proof (lb_len _ _ _ _ L). cur H. rewrite (proj2 (cls_newline a) Na). destruct (incl_complete _ _ _ _ _ _ H L) as (s1 & E & H1). rewrite E. cbn [bind]. apply IH; [exact H1 | lia].
  - cbn in Hf. rewrite app_length in Hf. cur H. cbn [isnewline Z.eqb Pos.eqb orb]. step_next H s1 H1. rewrite (at_cur _ _ _ _ H1). cbn [hd Z.eqb Pos.eqb negb]. step_next H1 s2 H2.
    assert (Sh : forall s3 r3 com0, at_ s3 r3 [] n -> (List.length r3 < f)%nat -> com ++ i = com0 ++ r3 -> Forall (fun c => ~ newline c) com0 ->
       exists s', bind (comment_loop f s3) (lex f) = Ok (t, v, s') /\ at_ s' i' (buf s') n').
    { intros s3 r3 com0 H3 Hl Er F0. destruct (comment_at f s3 r3 _ n H3 Hl) as (w & r & s' & -> & Fw & Sr & E3 & H4). rewrite E3. cbn [bind].
      rewrite app_assoc in Er. destruct (span_nl com (com0 ++ w) i r) as [_ <-]; auto. { apply Forall_app; auto. } apply IH; [exact H4 | lia]. }
    destruct (Z.eqb_spec (current s2) 91) as [E2|E2].
    + destruct (at_nonempty _ _ _ _ H2) as [r Er]; [unfold EOZ; lia|]. rewrite E2 in Er. rewrite Er in H2.
      assert (Hr : (List.length com + List.length i = S (List.length r))%nat) by (rewrite <- app_length, Er; reflexivity).
      destruct (skip_sep_at f s2 91 r _ n H2 ltac:(lia)) as (k & q & s3 & -> & St & H3 & E3). rewrite E3. cbn [bind].
      destruct (2 <=? _) eqn:E4.
      * destruct (sep2 _ _ E4) as [q' ->]. exfalso. apply (No k). exists q'. rewrite Er. symmetry. apply opening_split.
      * rewrite app_length in Hr. eapply (Sh _ q (91 :: repeat 61 k)); [apply (reset_at _ _ _ _ H3) | lia | exact Er | apply no_newline_sep].
    + apply (Sh s2 (com ++ i) []); [exact H2 | rewrite app_length; lia | reflexivity | constructor].
  - destruct (long_len _ _ _ _ _ L) as (k & q & -> & L2). pose proof (long_len2 _ _ _ _ _ L) as Hl. cbn in Hf, Hl. cur H. cbn [isnewline Z.eqb Pos.eqb orb]. step_next H s1 H1. rewrite (at_cur _ _ _ _ H1). cbn [hd Z.eqb Pos.eqb negb]. step_next H1 s2 H2.
    rewrite (at_cur _ _ _ _ H2). cbn [hd Z.eqb Pos.eqb]. destruct (skip_sep_at f s2 91 _ _ n H2 ltac:(lia)) as (m & r & s3 & Q & St & H3 & E3). destruct (open_eq _ _ _ _ Q St) as [<- ->]. rewrite E3. cbn [bind]. rewrite sep_two.
    rewrite (proj2 (Z.leb_le 2 (Z.of_nat k + 2))) by lia. rewrite app_length in Hf. cbn in Hf.
    destruct (long_string_complete F f _ q _ n k false _ _ _ (reset_at _ _ _ _ H3) ltac:(lia) ltac:(discriminate) L2) as (s' & v' & E5 & H5 & _). rewrite E5. cbn [bind].
    apply IH; [apply (reset_at _ _ _ _ H5) | rewrite app_length in Hl; cbn in Hl; lia].
  - cbn in Hf. cur H. other. replace ((q =? 34) || (q =? 39)) with true by (symmetry; apply orb_true_iff; rewrite !Z.eqb_eq; exact Eq).
    destruct (read_string_complete F f s i n q _ _ _ H ltac:(lia) Eq B) as (s' & E & H1).
    rewrite E. cbn [bind]. eapply good_ok, H1.
  - destruct (long_len _ _ _ _ _ L) as (k & q & -> & L2). cbn in Hf. cur H. cbn [isnewline Z.eqb Pos.eqb orb].
    destruct (skip_sep_at f s 91 _ _ n H ltac:(lia)) as (m & r & s3 & Q & St & H3 & E3). destruct (open_eq _ _ _ _ Q St) as [<- ->]. rewrite E3. cbn [bind]. rewrite sep_two.
    rewrite (proj2 (Z.leb_le 2 (Z.of_nat k + 2))) by lia. rewrite app_length in Hf. cbn in Hf.
    destruct (long_string_complete F f _ q _ n k true _ _ _ H3 ltac:(lia) ltac:(reflexivity) L2) as (s' & v' & E5 & H5 & V). rewrite E5. cbn [bind]. rewrite (V eq_refl). eapply good_ok, H5.
  - assert (exists c j, i = c :: j /\ digit c) as (c & j & -> & D). { destruct R; eexists; eexists; (split; [reflexivity|]); unfold digit in *; lia. }
    cbn in Hf. cur H. unfold digit in D. other. replace ((48 <=? c) && (c <=? 57)) with true by (symmetry; apply andb_true_iff; rewrite !Z.leb_le; lia).
    destruct (numeral_complete str2d f s c j _ n _ _ H ltac:(lia) R) as (s' & E3 & H3). rewrite E3. cbn [app] in *.
    assert (W : wf_str w). { destruct (numeral_split _ _ _ R) as [Q _]. pose proof (at_wf _ _ _ _ H) as W. rewrite Q in W. apply (wf_app w i') in W. apply W. }
    rewrite (value_complete str2d w s' t v W Nv). eapply good_ok, save_at, H3.
  - cbn in Hf. cur H. cbn [isnewline Z.eqb Pos.eqb orb]. step_save H s1 H1. rewrite (check1_no _ _ _ _ 46 H1) by (try lia; intros d r [= <- _]; unfold digit in D; lia). cbn [bind].
    rewrite (proj2 (cls_digit _ (at_char _ _ _ _ H1))) by (rewrite (at_cur _ _ _ _ H1); exact D). cbn [negb].
    destruct (numeral_complete str2d f s1 c i _ n _ _ H1 ltac:(lia) R) as (s' & E3 & H3). rewrite E3. cbn [app] in *.
    assert (W : wf_str (46 :: w)). { destruct (numeral_split _ _ _ R) as [Q _]. pose proof (at_wf _ _ _ _ H) as W. rewrite Q in W. apply (wf_app (46 :: w) i') in W. apply W. }
    rewrite (value_complete str2d _ s' t v W Nv). eapply good_ok, save_at, H3.
  - cbn in Hf. rewrite app_length in Hf. pose proof (at_char _ _ _ _ H) as Ch. rewrite (at_cur _ _ _ _ H) in Ch. cur H. other. replace ((48 <=? c) && (c <=? 57)) with false by (symmetry; apply andb_false_iff; rewrite !Z.leb_gt; unfold letter in Lc; lia).
    rewrite (proj2 (cls_letter c Ch) Lc). step_save H s1 H1. destruct (alnum_at f s1 _ _ n H1 ltac:(rewrite app_length; lia)) as (w2 & r1 & s2 & Q & Fw2 & Sw2 & E2 & H2).
    destruct (span_unique alnum _ _ _ _ Fw Fw2 Sw Sw2 Q) as [<- <-]. rewrite E2. cbn [bind]. rewrite (at_buf _ _ _ _ H2). cbn [app] in *. rewrite (position_complete _ _ I). eapply good_ok, H2.
  - cbn in Hf. rewrite app_length in Hf. pose proof (at_char _ _ _ _ H) as Ch. rewrite (at_cur _ _ _ _ H) in Ch. cur H. other. replace ((48 <=? c) && (c <=? 57)) with false by (symmetry; apply andb_false_iff; rewrite !Z.leb_gt; unfold letter in Lc; lia).
    rewrite (proj2 (cls_letter c Ch) Lc). step_save H s1 H1. destruct (alnum_at f s1 _ _ n H1 ltac:(rewrite app_length; lia)) as (w2 & r1 & s2 & Q & Fw2 & Sw2 & E2 & H2).
    destruct (span_unique alnum _ _ _ _ Fw Fw2 Sw Sw2 Q) as [<- <-]. rewrite E2. cbn [bind]. rewrite (at_buf _ _ _ _ H2). cbn [app] in *.
    destruct (position (c :: w) luaX_reserved FIRST_RESERVED) as [t|] eqn:Ep; [exfalso; eapply No, position_sound, Ep|]. eapply good_ok, H2.
  - cbn in Hf. rewrite !app_length in Hf. cur H. cbn [isnewline Z.eqb Pos.eqb orb EOZ Z.leb Z.compare Pos.compare Pos.compare_cont andb]. step_save H s1 H1.
    destruct (alnum_at f s1 _ _ n H1 ltac:(rewrite !app_length; lia)) as (w2 & r1 & s2 & Q & Fw2 & Sw2 & E2 & H2). destruct (span_unique alnum _ _ _ _ Fw Fw2 Sw Sw2 Q) as [<- <-]. rewrite E2. cbn [bind].
    assert (exists s3 x, check_save_next s2 91 91 = Ok (x, s3) /\ at_ s3 (b2 ++ i) (64 :: w ++ b1) n) as (s3 & x & E3 & H3).
    { destruct (check_save_at _ _ _ _ 91 91 H2 ltac:(lia) ltac:(lia)) as [(y & q & s3 & Ey & Q3 & E3 & H3)|[St E3]].
      - assert (y = 91) by tauto. subst y. destruct B1 as [-> |[-> Sb]]; [injection Q3 as <-; exists s3, true; auto | exfalso; eapply Sb; [exact Q3 | reflexivity]].
      - destruct B1 as [-> |[-> Sb]]; [exfalso; eapply St; [reflexivity | tauto]|]. exists s2, false. rewrite app_nil_r. auto. }
    rewrite E3. cbn [bind].
    assert (exists s4 x, check_save_next s3 93 93 = Ok (x, s4) /\ at_ s4 i (64 :: w ++ b1 ++ b2) n) as (s4 & x2 & E4 & H4).
    { destruct (check_save_at _ _ _ _ 93 93 H3 ltac:(lia) ltac:(lia)) as [(y & q & s4 & Ey & Q3 & E4 & H4)|[St E4]].
      - assert (y = 93) by tauto. subst y. destruct B2 as [-> |[-> Sb]]; [injection Q3 as <-; exists s4, true; cbn [app] in H4; rewrite <- app_assoc in H4; auto | exfalso; eapply Sb; [exact Q3 | reflexivity]].
      - destruct B2 as [-> |[-> Sb]]; [exfalso; eapply St; [reflexivity | tauto]|]. exists s3, false. rewrite app_nil_r. auto. }
    rewrite E4. cbn [bind]. rewrite (at_buf _ _ _ _ H4), Ec.
    destruct (remove_at s4 i [] (64 :: w ++ b1 ++ b2) n _ H4 eq_refl) as (s5 & E5 & H5). rewrite E5. cbn [bind]. eapply good_ok, H5.
Qed.
End Tok.
