(* Numerals. *)
Require Import ZArith List Bool String Lia.
From Verif Require Import Base Base_facts Str Ctype_model Ctype_proofs Num_model Num_spec Num_proofs Lex_model Lex_spec Lex_facts Lex_str.
Import ListNotations.
Open Scope Z_scope.

Lemma check1_at : forall s i b n c, at_ s i b n -> c <> -1 ->
  (exists r s', i = c :: r /\ check_next1 s c = Ok (true, s') /\ at_ s' r b n) \/ (stops (fun d => d = c) i /\ check_next1 s c = Ok (false, s)).
Proof.
  intros s i b n c H N. unfold check_next1. destruct (current s =? c) eqn:E.
  - apply Z.eqb_eq in E. destruct (at_nonempty _ _ _ _ H) as [r Er]; [unfold EOZ; lia|]. rewrite E in Er. subst i. left. step_next H s1 H1. exists r, s1. auto.
  - apply Z.eqb_neq in E. right. split; [apply (stops_at _ _ _ _ _ H E) | reflexivity].
Qed.
Lemma check_save_at : forall s i b n c d, at_ s i b n -> c <> -1 -> d <> -1 ->
  (exists x r s', (x = c \/ x = d) /\ i = x :: r /\ check_save_next s c d = Ok (true, s') /\ at_ s' r (b ++ [x]) n) \/
  (stops (fun x => x = c \/ x = d) i /\ check_save_next s c d = Ok (false, s)).
Proof.
  intros s i b n c d H N1 N2. unfold check_save_next. destruct ((current s =? c) || (current s =? d)) eqn:E.
  - apply orb_true_iff in E. rewrite !Z.eqb_eq in E. destruct (at_nonempty _ _ _ _ H) as [r Er]; [unfold EOZ; lia|]. left. set (x := current s) in *. rewrite Er in H. step_save H s1 H1. exists x, r, s1. auto.
  - apply orb_false_iff in E. rewrite !Z.eqb_neq in E. right. split; [apply (stops_at _ _ _ _ _ H); tauto | reflexivity].
Qed.

Definition expo (e1 e2 c : Z) : Prop := c = e1 \/ c = e2.
Definition tail (fuel : nat) (s : ls) (e1 e2 : Z) : outcome ls :=
  bind (numeral_loop fuel s e1 e2) (fun s => if lislalpha (current s) then save_and_next s else Ok s).

Lemma tail_step : forall f s e1 e2, tail (S f) s e1 e2 =
  bind (check_save_next s e1 e2) (fun '(b, s) =>
  if b then bind (check_save_next s 45 43) (fun '(_, s) => tail f s e1 e2)
  else if lisxdigit (current s) || (current s =? 46) then bind (save_and_next s) (fun s => tail f s e1 e2)
  else if lislalpha (current s) then save_and_next s else Ok s).
Proof.
  intros f s e1 e2. unfold tail at 1. cbn [numeral_loop]. destruct (check_save_next s e1 e2) as [[[|] s1]|e| |]; cbn [bind]; try reflexivity.
  - destruct (check_save_next s1 45 43) as [[? s2]|e| |]; reflexivity.
  - destruct (lisxdigit (current s1) || (current s1 =? 46)); [destruct (save_and_next s1); reflexivity | reflexivity].
Qed.

Lemma tail_sound : forall fuel e1 e2 s i b n, e1 <> -1 -> e2 <> -1 -> at_ s i b n -> (List.length i < fuel)%nat ->
  exists w i' s', numeral_rest (expo e1 e2) i w i' /\ tail fuel s e1 e2 = Ok s' /\ at_ s' i' (b ++ w) n.
Proof.
  induction fuel as [|f IH]; intros e1 e2 s i b n N1 N2 H Hf; [lia|]. rewrite tail_step.
  destruct (check_save_at _ _ _ _ e1 e2 H N1 N2) as [(x & r & s1 & Ex & -> & E & H1)|[St E]]; rewrite E; cbn [bind]; cbn in Hf.
  - destruct (check_save_at _ _ _ _ 45 43 H1 ltac:(lia) ltac:(lia)) as [(g & r2 & s2 & Eg & -> & E2 & H2)|[St2 E2]]; rewrite E2; cbn [bind]; cbn in Hf.
    + destruct (IH e1 e2 s2 r2 _ n N1 N2 H2 ltac:(lia)) as (w & i' & s' & R & E3 & H3). exists (x :: g :: w), i', s'. split; [apply n_sign; [exact Ex | lia | exact R]|].
      rewrite <- !app_assoc in H3. auto.
    + destruct (IH e1 e2 s1 r _ n N1 N2 H1 ltac:(lia)) as (w & i' & s' & R & E3 & H3). exists (x :: w), i', s'. split; [apply n_expo; [exact Ex | intros c q Q X; apply (St2 c q Q); cbv beta in X; tauto | exact R]|].
      rewrite <- !app_assoc in H3. auto.
  - destruct (lisxdigit (current s) || (current s =? 46)) eqn:E1.
    + apply orb_true_iff in E1. rewrite Z.eqb_eq, (cls_xdigit _ (at_char _ _ _ _ H)) in E1. destruct (at_nonempty _ _ _ _ H) as [r Er]; [unfold EOZ, xdigit, digit in *; lia|].
      set (c := current s) in *. rewrite Er in *. step_save H s1 H1. destruct (IH e1 e2 s1 r _ n N1 N2 H1 ltac:(cbn in Hf; lia)) as (w & i' & s' & R & E3 & H3).
      exists (c :: w), i', s'. rewrite app1 in H3. split; [apply n_digit; [apply (St c r eq_refl) | tauto | exact R]|]. auto.
    + apply orb_false_iff in E1. destruct E1 as [E1 E2]. apply (not_false _ _ (cls_xdigit _ (at_char _ _ _ _ H))) in E1. apply Z.eqb_neq in E2.
      destruct (lislalpha (current s)) eqn:E3.
      * apply (cls_letter _ (at_char _ _ _ _ H)) in E3. destruct (at_nonempty _ _ _ _ H) as [r Er]; [unfold EOZ, letter in *; lia|]. set (c := current s) in *. rewrite Er in *.
        destruct (san_at _ _ _ _ _ H) as (s1 & E4 & H1). exists [c], r, s1. split; [apply n_letter; auto; apply (St c r eq_refl)|]. auto.
      * apply (not_false _ _ (cls_letter _ (at_char _ _ _ _ H))) in E3. exists [], i, s. rewrite app_nil_r. split; [|auto]. apply n_end. intros c q ->.
        rewrite (at_cur _ _ _ _ H) in E1, E2, E3. cbn in E1, E2, E3. pose proof (St c q eq_refl) as X. unfold expo. tauto.
Qed.
Lemma tail_complete : forall fuel e1 e2 s i b n w i', e1 <> -1 -> e2 <> -1 -> at_ s i b n -> (List.length i < fuel)%nat -> numeral_rest (expo e1 e2) i w i' ->
  exists s', tail fuel s e1 e2 = Ok s' /\ at_ s' i' (b ++ w) n.
Proof.
  intros fuel e1 e2 s i b n w i' N1 N2 H Hf R. revert fuel s b n H Hf. induction R as [c g i w i' Ec Eg R IH|c i w i' Ec St R IH|c i w i' Ec Ed R IH|c i Ec Ex El|i St]; intros [|f] s b n H Hf; try lia; rewrite tail_step; cbn in Hf.
  - destruct (check_save_at _ _ _ _ e1 e2 H N1 N2) as [(x & r & s1 & Ex & Q & E & H1)|[St E]]; [|exfalso; eapply St; [reflexivity | exact Ec]]. injection Q as <- <-. rewrite E. cbn [bind].
    destruct (check_save_at _ _ _ _ 45 43 H1 ltac:(lia) ltac:(lia)) as [(y & r2 & s2 & Ey & Q & E2 & H2)|[St2 E2]]; [|exfalso; eapply St2; [reflexivity | lia]]. injection Q as <- <-. rewrite E2. cbn [bind].
    destruct (IH f s2 _ n H2 ltac:(lia)) as (s' & E3 & H3). exists s'. rewrite <- !app_assoc in H3. auto.
  - destruct (check_save_at _ _ _ _ e1 e2 H N1 N2) as [(x & r & s1 & Ex & Q & E & H1)|[St1 E]]; [|exfalso; eapply St1; [reflexivity | exact Ec]]. injection Q as <- <-. rewrite E. cbn [bind].
    destruct (check_save_at _ _ _ _ 45 43 H1 ltac:(lia) ltac:(lia)) as [(y & r2 & s2 & Ey & -> & E2 & H2)|[St2 E2]]; [exfalso; eapply St; [reflexivity | lia]|]. rewrite E2. cbn [bind].
    destruct (IH f s1 _ n H1 ltac:(lia)) as (s' & E3 & H3). exists s'. rewrite <- !app_assoc in H3. auto.
  - destruct (check_save_at _ _ _ _ e1 e2 H N1 N2) as [(x & r & s1 & Ex & Q & E & H1)|[St1 E]]; [injection Q as -> <-; exfalso; apply Ec; exact Ex|]. rewrite E. cbn [bind].
    rewrite (proj2 (orb_true_iff _ _)).
    2: { rewrite (cls_xdigit _ (at_char _ _ _ _ H)), Z.eqb_eq, (at_cur _ _ _ _ H). exact Ed. }
    step_save H s1 H1. destruct (IH f s1 _ n H1 ltac:(lia)) as (s' & E3 & H3). exists s'. rewrite app1 in H3. auto.
  - destruct (check_save_at _ _ _ _ e1 e2 H N1 N2) as [(x & r & s1 & Exx & Q & E & H1)|[St1 E]]; [injection Q as -> <-; exfalso; apply Ec; exact Exx|]. rewrite E. cbn [bind].
    pose proof (at_cur _ _ _ _ H) as Cu. cbn in Cu. rewrite (not_true _ _ (cls_xdigit _ (at_char _ _ _ _ H))) by (rewrite Cu; exact Ex).
    rewrite (proj2 (Z.eqb_neq _ 46)) by (rewrite Cu; unfold letter in El; lia). cbn [orb]. rewrite (proj2 (cls_letter _ (at_char _ _ _ _ H))) by (rewrite Cu; exact El).
    destruct (san_at _ _ _ _ _ H) as (s1 & E4 & H1). eauto.
  - assert (Sc : ~ (expo e1 e2 (current s) \/ xdigit (current s) \/ current s = 46 \/ letter (current s))).
    { intros X. pose proof (stops_cur _ _ _ _ _ H St X) as Q. rewrite Q in X. unfold expo, xdigit, digit, letter in X. lia. }
    destruct (check_save_at _ _ _ _ e1 e2 H N1 N2) as [(x & r & s1 & Exx & -> & E & H1)|[St1 E]]; [exfalso; eapply St; [reflexivity | left; exact Exx]|]. rewrite E. cbn [bind].
    rewrite (not_true _ _ (cls_xdigit _ (at_char _ _ _ _ H))) by tauto. rewrite (proj2 (Z.eqb_neq (current s) 46)) by tauto. cbn [orb].
    rewrite (not_true _ _ (cls_letter _ (at_char _ _ _ _ H))) by tauto. exists s. rewrite app_nil_r. auto.
Qed.

Lemma rest_len : forall e i w i', numeral_rest e i w i' -> i = w ++ i'.
Proof. intros e i w i' R. induction R; cbn; congruence. Qed.
Lemma numeral_split : forall i w i', numeral_text i w i' -> i = w ++ i' /\ w <> [].
Proof. intros i w i' [x j w1 ? Ex R|c j w1 ? D St R]; rewrite (rest_len _ _ _ _ R); split; try reflexivity; discriminate. Qed.

Lemma integer_iff : forall w n, wf_str w -> (integer_numeral w n <-> str2int w = Some n).
Proof. intros w n W. unfold integer_numeral. rewrite str2int_iff by exact W. tauto. Qed.
Section Numbers.
Context {F : Type} (str2d : list Z -> option F).
Definition num_value (b : list Z) (s : ls) : outcome (Z * sem (F:=F) * ls) :=
  match str2num str2d b with None => Err EFormat | Some (SInt n) => Ok (TK_INT, SInt n, save s 0) | Some v => Ok (TK_FLT, v, save s 0) end.
Lemma read_numeral_eq : forall fuel s, read_numeral str2d fuel s =
  bind (save_and_next s) (fun s1 =>
  bind (if current s =? 48 then check_save_next s1 120 88 else Ok (false, s1)) (fun '(hex, s) =>
  bind (if hex then tail fuel s 80 112 else tail fuel s 69 101) (fun s => num_value (buf s) s))).
Proof.
  intros fuel s. unfold read_numeral. destruct (save_and_next s) as [s1|e| |]; cbn [bind]; try reflexivity.
  destruct (if current s =? 48 then check_save_next s1 120 88 else Ok (false, s1)) as [[hex s2]|e| |]; cbn [bind]; try reflexivity.
  destruct hex; unfold tail; destruct (numeral_loop _ _ _ _) as [s3|e| |]; cbn [bind]; try reflexivity; destruct (lislalpha (current s3)); try reflexivity.
Qed.
Lemma numeral_sound : forall fuel s c i b n, at_ s (c :: i) b n -> digit c -> (List.length i < fuel)%nat ->
  exists w i' s', numeral_text (c :: i) w i' /\ read_numeral str2d fuel s = num_value (b ++ w) s' /\ at_ s' i' (b ++ w) n.
Proof.
  intros fuel s c i b n H D Hf. rewrite read_numeral_eq. rewrite (at_cur _ _ _ _ H). cbn [hd]. step_save H s1 H1.
  assert (Dec : (c = 48 -> stops (fun x => x = 120 \/ x = 88) i) -> exists w i' s', numeral_text (c :: i) w i' /\ bind (tail fuel s1 69 101) (fun s => num_value (buf s) s) = num_value (b ++ w) s' /\ at_ s' i' (b ++ w) n).
  { intros St. destruct (tail_sound fuel 69 101 s1 i _ n ltac:(lia) ltac:(lia) H1 Hf) as (w & i' & s' & R & E & H2). exists (c :: w), i', s'. rewrite app1 in H2. split; [apply num_dec; auto|].
    rewrite E. cbn [bind]. rewrite (at_buf _ _ _ _ H2). auto. }
  destruct (c =? 48) eqn:E.
  - apply Z.eqb_eq in E. subst c. destruct (check_save_at _ _ _ _ 120 88 H1 ltac:(lia) ltac:(lia)) as [(x & r & s2 & Ex & -> & E2 & H2)|[St E2]]; rewrite E2; cbn [bind]; [|auto].
    destruct (tail_sound fuel 80 112 s2 r _ n ltac:(lia) ltac:(lia) H2 ltac:(cbn in Hf; lia)) as (w & i' & s' & R & E3 & H3). exists (48 :: x :: w), i', s'. rewrite <- !app_assoc in H3. cbn [app] in H3.
    split; [apply num_hex; [lia | exact R]|]. rewrite E3. cbn [bind]. rewrite (at_buf _ _ _ _ H3). auto.
  - apply Z.eqb_neq in E. cbn [bind]. apply Dec. lia.
Qed.
Lemma numeral_complete : forall fuel s c i b n w i', at_ s (c :: i) b n -> (List.length i < fuel)%nat -> numeral_text (c :: i) w i' ->
  exists s', read_numeral str2d fuel s = num_value (b ++ w) s' /\ at_ s' i' (b ++ w) n.
Proof.
  intros fuel s c i b n w i' H Hf R. rewrite read_numeral_eq. rewrite (at_cur _ _ _ _ H). cbn [hd]. step_save H s1 H1.
  inversion R as [x j w1 ? Ex R1|? j w1 ? D St R1]; subst.
  - cbn [Z.eqb Pos.eqb]. destruct (check_save_at _ _ _ _ 120 88 H1 ltac:(lia) ltac:(lia)) as [(y & r & s2 & Ey & Q & E2 & H2)|[St E2]]; [|exfalso; eapply St; [reflexivity | exact Ex]]. injection Q as <- <-.
    rewrite E2. cbn [bind]. destruct (tail_complete fuel 80 112 s2 j _ n _ _ ltac:(lia) ltac:(lia) H2 ltac:(cbn in Hf; lia) R1) as (s' & E3 & H3). exists s'. rewrite <- !app_assoc in H3. cbn [app] in H3.
    rewrite E3. cbn [bind]. rewrite (at_buf _ _ _ _ H3). auto.
  - replace (if c =? 48 then check_save_next s1 120 88 else Ok (false, s1)) with (Ok (false, s1)).
    2: { destruct (c =? 48) eqn:E; [|reflexivity]. apply Z.eqb_eq in E. destruct (check_save_at _ _ _ _ 120 88 H1 ltac:(lia) ltac:(lia)) as [(y & r & s2 & Ey & -> & E2 & H2)|[St1 E2]]; [|auto].
         exfalso. apply (St E y r eq_refl Ey). }
    cbn [bind]. destruct (tail_complete fuel 69 101 s1 i _ n _ _ ltac:(lia) ltac:(lia) H1 Hf R1) as (s' & E3 & H3). exists s'. rewrite app1 in H3.
    rewrite E3. cbn [bind]. rewrite (at_buf _ _ _ _ H3). auto.
Qed.
(* the value of a numeral *)
Lemma value_sound : forall w s, wf_str w ->
  (exists t v, number_of str2d SInt SFlt w (t, v) /\ num_value w s = Ok (t, v, save s 0)) \/ (num_value w s = Err EFormat).
Proof.
  intros w s W. unfold num_value, str2num. destruct (str2int w) as [m|] eqn:E.
  - left. exists TK_INT, (SInt m). split; [|reflexivity]. left. exists m. split; [apply integer_iff; assumption | reflexivity].
  - destruct (str2d w) as [x|] eqn:E2; [left | right; reflexivity]. exists TK_FLT, (SFlt x). split; [|reflexivity]. right. split; [|eauto].
    intros m I. apply integer_iff in I; [congruence | exact W].
Qed.
Lemma value_complete : forall w s t v, wf_str w -> number_of str2d SInt SFlt w (t, v) -> num_value w s = Ok (t, v, save s 0).
Proof.
  intros w s t v W [(m & I & Q)|(N & x & E & Q)]; injection Q as -> ->; unfold num_value, str2num.
  - apply integer_iff in I; [|exact W]. rewrite I. reflexivity.
  - destruct (str2int w) as [m|] eqn:E1; [exfalso; apply (N m); apply integer_iff; assumption|]. rewrite E. reflexivity.
Qed.
End Numbers.
