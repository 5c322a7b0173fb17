(* Long brackets, numerals, names and comments. *)
Require Import ZArith List Bool String Lia.
From Verif Require Import Base Base_facts Str Ctype_model Ctype_proofs Num_model Num_spec Lex_model Lex_spec Lex_facts Lex_str.
Import ListNotations.
Open Scope Z_scope.

Lemma span_unique : forall (P : Z -> Prop) a b x y, Forall P a -> Forall P b -> stops P x -> stops P y -> a ++ x = b ++ y -> a = b /\ x = y.
Proof.
  induction a as [|c a IH]; intros [|d b] x y Fa Fb Sx Sy E; cbn in E.
  - auto.
  - subst x. inversion Fb; subst. exfalso. eapply Sx; eauto.
  - subst y. inversion Fa; subst. exfalso. eapply Sy; eauto.
  - injection E as -> E. inversion Fa; inversion Fb; subst. destruct (IH b x y) as [-> ->]; auto.
Qed.
Lemma repeat_forall : forall (c : Z) k, Forall (fun x => x = c) (repeat c k).
Proof. induction k; constructor; auto. Qed.
Lemma repeat_unique : forall (c : Z) k m x y, stops (fun d => d = c) x -> stops (fun d => d = c) y -> repeat c k ++ x = repeat c m ++ y -> k = m /\ x = y.
Proof.
  intros c k m x y Sx Sy E. destruct (span_unique (fun d => d = c) _ _ _ _ (repeat_forall c k) (repeat_forall c m) Sx Sy E) as [Er ->].
  split; [|reflexivity]. rewrite <- (repeat_length c k), Er, repeat_length. reflexivity.
Qed.

(* ** skip_sep *)
Lemma sep_at : forall fuel s i b n cnt, at_ s i b n -> (List.length i < fuel)%nat ->
  exists k r s', i = repeat 61 k ++ r /\ stops (fun c => c = 61) r /\ sep_loop fuel s cnt = Ok (cnt + Z.of_nat k, s') /\ at_ s' r (b ++ repeat 61 k) n.
Proof.
  induction fuel as [|f IH]; intros s i b n cnt H Hf; [lia|]. cbn [sep_loop]. destruct (current s =? 61) eqn:E.
  - apply Z.eqb_eq in E. destruct (at_nonempty _ _ _ _ H) as [r Er]; [lia|]. rewrite E in Er. subst i. step_save H s1 H1. cbn in Hf.
    destruct (IH s1 r (b ++ [61]) n (cnt + 1) H1 ltac:(lia)) as (k & r' & s' & -> & St & Es & H'). exists (S k), r', s'. split; [reflexivity|]. split; [exact St|].
    split; [rewrite Es; do 2 f_equal; lia|]. rewrite app1 in H'. exact H'.
  - apply Z.eqb_neq in E. exists 0%nat, i, s. cbn [repeat app]. rewrite app_nil_r, Z.add_0_r. split; [reflexivity|]. split; [apply (stops_at _ _ _ _ _ H E)|]. auto.
Qed.
Lemma skip_sep_at : forall fuel s c i b n, at_ s (c :: i) b n -> (List.length i < fuel)%nat ->
  exists k r s', i = repeat 61 k ++ r /\ stops (fun c => c = 61) r /\ at_ s' r (b ++ c :: repeat 61 k) n /\
    skip_sep fuel s = Ok (if hd (-1) r =? c then Z.of_nat k + 2 else if Nat.eqb k 0 then 1 else 0, s').
Proof.
  intros fuel s c i b n H Hf. unfold skip_sep. step_save H s1 H1. destruct (sep_at fuel s1 i _ n 0 H1 Hf) as (k & r & s' & -> & St & E & H').
  exists k, r, s'. rewrite app1 in H'. split; [reflexivity|]. split; [exact St|]. split; [exact H'|]. rewrite E. cbn [bind]. rewrite (at_cur _ _ _ _ H), (at_cur _ _ _ _ H'). cbn [hd].
  do 2 f_equal. rewrite Z.add_0_l. destruct (hd (-1) r =? c); [reflexivity|]. destruct k; reflexivity.
Qed.

Lemma not_closing : forall k m r, stops (fun c => c = 61) r -> ~ (k = m /\ exists q, r = 93 :: q) -> ~ begins (closing k) (93 :: repeat 61 m ++ r).
Proof.
  intros k m r St N [q E]. apply N. unfold closing in E. cbn [app] in E. injection E as E. rewrite <- app_assoc in E. cbn [app] in E.
  symmetry in E. destruct (repeat_unique 61 k m (93 :: q) r) as [-> <-]; eauto. intros c x [= <- <-]. lia.
Qed.
Lemma not_closing_eq : forall k i, ~ begins (closing k) (61 :: i).
Proof. intros k i [q E]. unfold closing in E. cbn in E. discriminate. Qed.
Lemma peel_on : forall m k n r c i' n', long_body k n r c i' n' -> long_body k n (repeat 61 m ++ r) (repeat 61 m ++ c) i' n'.
Proof. induction m as [|m IH]; intros k n r c i' n' L; cbn [repeat app]; [exact L|]. apply l_char; [unfold newline; lia | apply not_closing_eq | apply IH, L]. Qed.
Lemma peel_off : forall m k n r c i' n', long_body k n (repeat 61 m ++ r) c i' n' -> exists c', c = repeat 61 m ++ c' /\ long_body k n r c' i' n'.
Proof.
  induction m as [|m IH]; intros k n r c i' n' L; cbn [repeat app] in *; [eauto|]. inversion L as [? ? Q|? ? ? ? ? ? N1 N2 L2|? ? ? ? ? ? ? Lb L2]; subst.
  - destruct (IH _ _ _ _ _ _ L2) as (c' & -> & L3). exists c'. auto.
  - destruct (lb_head _ _ _ _ Lb) as (a & r2 & E & Na). injection E as <- <-. unfold newline in Na. lia.
Qed.

Lemma sep_eq : forall k m r, (if hd (-1) r =? 93 then Z.of_nat m + 2 else if Nat.eqb m 0 then 1 else 0) = Z.of_nat k + 2 -> m = k /\ exists q, r = 93 :: q.
Proof.
  intros k m r E. destruct (hd (-1) r =? 93) eqn:C; [|destruct (Nat.eqb m 0); lia]. apply Z.eqb_eq in C. split; [lia|]. destruct r as [|x r]; cbn in C; [lia|]. subst x. eauto.
Qed.

Lemma long_sound : forall fuel s i b n k str, at_ s i b n -> (List.length i < fuel)%nat ->
  (exists c i' n' s' b', long_body k n i c i' n' /\ long_loop fuel s (Z.of_nat k + 2) str = Ok s' /\ at_ s' i' b' n' /\ (str = true -> b' = b ++ c ++ closing k) /\ (List.length i' < List.length i)%nat) \/
  (exists e, long_loop fuel s (Z.of_nat k + 2) str = Err e).
Proof.
  induction fuel as [|f IH]; intros s i b n k str H Hf; [lia|]. cbn [long_loop].
  destruct (current s =? EOZ) eqn:E1; [right; eexists; reflexivity|]. apply Z.eqb_neq in E1. destruct (at_nonempty _ _ _ _ H E1) as [r Er].
  destruct (current s =? 93) eqn:E2.
  - apply Z.eqb_eq in E2. rewrite E2 in Er. subst i. cbn in Hf. destruct (skip_sep_at f s 93 r b n H ltac:(lia)) as (m & q & s1 & -> & St & H1 & E3). rewrite E3. cbn [bind].
    destruct ((if hd (-1) q =? 93 then Z.of_nat m + 2 else if Nat.eqb m 0 then 1 else 0) =? Z.of_nat k + 2) eqn:E4.
    + apply Z.eqb_eq in E4. destruct (sep_eq _ _ _ E4) as [-> [q' ->]]. destruct (san_at _ _ _ _ _ H1) as (s2 & E5 & H2). left.
      exists [], q', n, s2. eexists. split; [replace (93 :: repeat 61 k ++ 93 :: q') with (closing k ++ q') by (unfold closing; cbn [app]; rewrite <- app_assoc; reflexivity); apply l_end|].
      split; [exact E5|]. split; [exact H2|]. split; [intros _; unfold closing; cbn [app]; rewrite <- app_assoc; reflexivity|]. cbn. rewrite app_length. cbn. lia.
    + apply Z.eqb_neq in E4. rewrite app_length in Hf. destruct (IH s1 q _ n k str H1 ltac:(lia)) as [(c & i' & n' & s2 & b' & L & E5 & H2 & Hb & Hl)|[e E5]]; [left | right; eexists; exact E5].
      exists (93 :: repeat 61 m ++ c), i', n', s2, b'. split.
      * apply l_char; [unfold newline; lia| |apply peel_on, L]. apply not_closing; [exact St|]. intros [<- [q' ->]]. apply E4. cbn [hd]. reflexivity.
      * split; [exact E5|]. split; [exact H2|]. split; [intros T; rewrite (Hb T), <- !app_assoc; cbn [app]; rewrite <- !app_assoc; reflexivity|]. cbn. rewrite app_length. lia.
  - apply Z.eqb_neq in E2. destruct (isnewline (current s)) eqn:E3.
    + apply cls_newline in E3. rewrite Er in H, Hf. pose proof (save_at _ _ _ _ 10 H) as H0.
      destruct (incl_sound _ _ _ _ _ H0 E3) as [(s1 & i1 & n1 & E4 & L & H1 & Hl)|E4]; rewrite E4; [|right; eexists; reflexivity]. cbn [bind]. cbn in Hf.
      assert (exists b1, at_ (if str then s1 else resetbuffer s1) i1 b1 n1 /\ (str = true -> b1 = b ++ [10])) as (b1 & H2 & Hb1).
      { destruct str; [eauto | exists []; split; [apply (reset_at _ _ _ _ H1) | discriminate]]. }
      destruct (IH _ i1 b1 n1 k str H2 ltac:(lia)) as [(c & i' & n' & s2 & b' & L2 & E5 & H3 & Hb & Hl2)|[e E5]]; [left | right; eexists; exact E5].
      exists (10 :: c), i', n', s2, b'. rewrite Er. split; [eapply l_line; eauto|]. split; [exact E5|]. split; [exact H3|]. split; [intros T; rewrite (Hb T), (Hb1 T), app1; reflexivity | cbn; lia].
    + rewrite Er in H, Hf. cbn in Hf.
      assert (exists s1 b1, (if str then save_and_next s else next s) = Ok s1 /\ at_ s1 r b1 n /\ (str = true -> b1 = b ++ [current s])) as (s1 & b1 & E4 & H1 & Hb1).
      { destruct str; [destruct (san_at _ _ _ _ _ H) as (s1 & E4 & H1); exists s1; eexists; eauto | destruct (next_at _ _ _ _ _ H) as (s1 & E4 & H1); exists s1, b; split; [exact E4 | split; [exact H1 | discriminate]]]. }
      rewrite E4. cbn [bind]. destruct (IH s1 r b1 n k str H1 ltac:(lia)) as [(c & i' & n' & s2 & b' & L2 & E5 & H3 & Hb & Hl2)|[e E5]]; [left | right; eexists; exact E5].
      exists (current s :: c), i', n', s2, b'. rewrite Er. split; [apply l_char; [apply (not_false _ _ (cls_newline _) E3)| |exact L2]|].
      * intros [q E]. unfold closing in E. cbn in E. injection E as E _. apply E2, E.
      * split; [exact E5|]. split; [exact H3|]. split; [intros T; rewrite (Hb T), (Hb1 T), app1; reflexivity | cbn; lia].
Qed.
Lemma long_complete : forall fuel s i b n k str c i' n', at_ s i b n -> (List.length i < fuel)%nat -> long_body k n i c i' n' ->
  exists s' b', long_loop fuel s (Z.of_nat k + 2) str = Ok s' /\ at_ s' i' b' n' /\ (str = true -> b' = b ++ c ++ closing k).
Proof.
  induction fuel as [|f IH]; intros s i b n k str c i' n' H Hf L; [lia|]. cbn [long_loop].
  assert (Ne : i <> []).
  { destruct L as [|? ? ? ? ? ? ? ? ?|? ? ? ? ? ? ? Lb ?]; try discriminate. destruct (lb_head _ _ _ _ Lb) as (? & ? & -> & _). discriminate. }
  assert (E1 : current s <> EOZ). { intros Q. apply Ne. apply (at_eoz _ _ _ _ H Q). }
  rewrite (proj2 (Z.eqb_neq _ _) E1). destruct (at_nonempty _ _ _ _ H E1) as [r Er].
  destruct (current s =? 93) eqn:E2.
  - apply Z.eqb_eq in E2. rewrite E2 in Er. subst i. cbn in Hf. destruct (skip_sep_at f s 93 r b n H ltac:(lia)) as (m & q & s1 & -> & St & H1 & E3). rewrite E3. cbn [bind].
    destruct ((if hd (-1) q =? 93 then Z.of_nat m + 2 else if Nat.eqb m 0 then 1 else 0) =? Z.of_nat k + 2) eqn:E4.
    + apply Z.eqb_eq in E4. destruct (sep_eq _ _ _ E4) as [-> [q' ->]]. destruct (san_at _ _ _ _ _ H1) as (s2 & E5 & H2).
      assert (Q : 93 :: repeat 61 k ++ 93 :: q' = closing k ++ q') by (unfold closing; cbn [app]; rewrite <- app_assoc; reflexivity).
      inversion L as [? ? Q1|? ? ? ? ? ? N1 N2 L2|? ? ? ? ? ? ? Lb L2]; subst.
      * assert (i' = q'). { rewrite <- app_assoc in *. match goal with X : repeat 61 k ++ _ = repeat 61 k ++ _ |- _ => apply app_inv_head in X; rename X into H0 end. cbn in H0. congruence. }
        subst q'. exists s2. eexists. split; [exact E5|]. split; [exact H2|]. intros _. unfold closing. cbn [app]. rewrite <- app_assoc. reflexivity.
      * exfalso. apply N2. exists q'. exact Q.
      * destruct (lb_head _ _ _ _ Lb) as (a & r2 & E & Na). injection E as <- <-. unfold newline in Na. lia.
    + apply Z.eqb_neq in E4. rewrite app_length in Hf.
      assert (exists c', c = 93 :: repeat 61 m ++ c' /\ long_body k n q c' i' n') as (c' & -> & L').
      { inversion L as [? ? Q1|? ? ? ? ? ? N1 N2 L2|? ? ? ? ? ? ? Lb L2]; subst.
        - exfalso. assert (B : begins (closing k) (93 :: repeat 61 m ++ q)) by (exists i'; unfold closing; cbn [app]; f_equal; symmetry; assumption). revert B. apply not_closing; [exact St|].
          intros [<- [q' ->]]. apply E4. reflexivity.
        - destruct (peel_off _ _ _ _ _ _ _ L2) as (c' & -> & L3). eauto.
        - destruct (lb_head _ _ _ _ Lb) as (a & r2 & E & Na). injection E as <- <-. unfold newline in Na. lia. }
      destruct (IH s1 q _ n k str _ _ _ H1 ltac:(lia) L') as (s2 & b' & E5 & H2 & Hb). exists s2, b'. split; [exact E5|]. split; [exact H2|].
      intros T. rewrite (Hb T), <- !app_assoc. cbn [app]. rewrite <- !app_assoc. reflexivity.
  - apply Z.eqb_neq in E2. rewrite Er in L. inversion L as [? ? Q1|? ? ? ? ? ? N1 N2 L2|? ? ? ? ? ? ? Lb L2]; subst.
    + exfalso. apply E2. congruence.
    + rewrite (not_true _ _ (cls_newline _) N1). cbn in Hf.
      assert (exists s1 b1, (if str then save_and_next s else next s) = Ok s1 /\ at_ s1 r b1 n /\ (str = true -> b1 = b ++ [current s])) as (s1 & b1 & E4 & H1 & Hb1).
      { destruct str; [destruct (san_at _ _ _ _ _ H) as (s1 & E4 & H1); exists s1; eexists; eauto | destruct (next_at _ _ _ _ _ H) as (s1 & E4 & H1); exists s1, b; split; [exact E4 | split; [exact H1 | discriminate]]]. }
      rewrite E4. cbn [bind]. destruct (IH s1 r b1 n k str _ _ _ H1 ltac:(lia) L2) as (s2 & b' & E5 & H3 & Hb). exists s2, b'. split; [exact E5|]. split; [exact H3|].
      intros T. rewrite (Hb T), (Hb1 T), app1. reflexivity.
    + destruct (lb_head _ _ _ _ Lb) as (a & r2 & E & Na). injection E as <- <-. rewrite (proj2 (cls_newline _) Na).
      pose proof (save_at _ _ _ _ 10 H) as H0. destruct (incl_complete _ _ _ _ _ _ H0 Lb) as (s1 & E4 & H1). rewrite E4. cbn [bind]. pose proof (lb_len _ _ _ _ Lb) as Hl. cbn in Hf, Hl.
      assert (exists b1, at_ (if str then s1 else resetbuffer s1) i1 b1 n1 /\ (str = true -> b1 = b ++ [10])) as (b1 & H2 & Hb1).
      { destruct str; [eauto | exists []; split; [apply (reset_at _ _ _ _ H1) | discriminate]]. }
      destruct (IH _ i1 b1 n1 k str _ _ _ H2 ltac:(lia) L2) as (s2 & b' & E5 & H3 & Hb). exists s2, b'. split; [exact E5|]. split; [exact H3|].
      intros T. rewrite (Hb T), (Hb1 T), app1. reflexivity.
Qed.

Lemma slice : forall k c, let b := (91 :: repeat 61 k) ++ [91] ++ c ++ closing k in
  firstn (Z.to_nat (Z.of_nat (List.length b) - 2 * (Z.of_nat k + 2))) (skipn (Z.to_nat (Z.of_nat k + 2)) b) = c /\ (Z.of_nat (List.length b) <? 2 * (Z.of_nat k + 2)) = false.
Proof.
  intros k c b. assert (Lb : List.length b = (2 * (k + 2) + List.length c)%nat).
  { unfold b, closing. repeat (rewrite ?app_length, ?repeat_length; cbn [List.length]). lia. }
  rewrite Lb. split; [|apply Z.ltb_ge; lia].
  replace (Z.to_nat (Z.of_nat k + 2)) with (List.length (91 :: repeat 61 k ++ [91])) by (cbn [List.length]; rewrite app_length, repeat_length; cbn; lia).
  replace b with ((91 :: repeat 61 k ++ [91]) ++ c ++ closing k) by (unfold b; cbn [app]; rewrite <- !app_assoc; reflexivity).
  rewrite skipn_app, skipn_all, Nat.sub_diag. cbn [skipn app]. replace (Z.to_nat _) with (List.length c) by lia. rewrite firstn_app, Nat.sub_diag, firstn_all. cbn. apply app_nil_r.
Qed.

Lemma long_string_sound : forall F fuel s i b n k str, at_ s (91 :: i) b n -> (List.length i < fuel)%nat -> (str = true -> b = 91 :: repeat 61 k) ->
  (exists c i' n' s' v, long n (opening k ++ i) c i' n' /\ read_long_string (F:=F) fuel s (Z.of_nat k + 2) str = Ok (v, s') /\ at_ s' i' (buf s') n' /\ (str = true -> v = SStr c) /\ (List.length i' < List.length i)%nat) \/
  (exists e, read_long_string (F:=F) fuel s (Z.of_nat k + 2) str = Err e).
Proof.
  intros F fuel s i b n k str H Hf Hb. unfold read_long_string. step_save H s1 H1.
  assert (Fin : forall c s' i' n' b', long n (opening k ++ i) c i' n' -> at_ s' i' b' n' -> (str = true -> b' = (b ++ [91]) ++ c ++ closing k) -> (List.length i' < List.length i)%nat ->
    exists c i' n' s2 v, long n (opening k ++ i) c i' n' /\ (if str then if Z.of_nat (List.length (buf s')) <? 2 * (Z.of_nat k + 2) then UB else
        Ok (SStr (firstn (Z.to_nat (Z.of_nat (List.length (buf s')) - 2 * (Z.of_nat k + 2))) (skipn (Z.to_nat (Z.of_nat k + 2)) (buf s'))), s') else Ok (SNone (F:=F), s')) = Ok (v, s2) /\
      at_ s2 i' (buf s2) n' /\ (str = true -> v = SStr c) /\ (List.length i' < List.length i)%nat).
  { intros c s' i' n' b' L H2 Hb' Hl. pose proof (at_buf _ _ _ _ H2) as Bf. exists c, i', n', s'.
    destruct str.
    - assert (V : (91 :: repeat 61 k) ++ [91] ++ c ++ closing k = buf s') by (rewrite Bf, (Hb' eq_refl), (Hb eq_refl), <- app_assoc; reflexivity).
      destruct (slice k c) as [S1 S2]. rewrite V in S1, S2. rewrite S2, S1. rewrite <- Bf in H2. eexists. split; [exact L|]. split; [reflexivity|]. split; [exact H2|]. auto.
    - eexists. split; [exact L|]. split; [reflexivity|]. rewrite Bf. split; [exact H2|]. split; [discriminate | exact Hl]. }
  destruct (isnewline (current s1)) eqn:E1.
  - apply cls_newline in E1. destruct (at_nonempty _ _ _ _ H1) as [r Er]; [unfold newline in E1; lia|]. rewrite Er in H1.
    destruct (incl_sound _ _ _ _ _ H1 E1) as [(s2 & i1 & n1 & E2 & Lb & H2 & Hl)|E2]; rewrite E2; [|right; eexists; reflexivity]. cbn [bind].
    assert (Hi : (List.length i = S (List.length r))%nat) by (rewrite Er; reflexivity).
    destruct (long_sound fuel s2 i1 _ n1 k str H2 ltac:(lia)) as [(c & i' & n' & s3 & b' & L & E3 & H3 & Hb3 & Hl3)|[e E3]]; rewrite E3; cbn [bind]; [left | right; eexists; reflexivity].
    apply (Fin c s3 i' n' b'); auto; [|lia]. rewrite <- Er in Lb. eapply long_line; eauto.
  - cbn [bind]. destruct (long_sound fuel s1 i _ n k str H1 Hf) as [(c & i' & n' & s3 & b' & L & E3 & H3 & Hb3 & Hl3)|[e E3]]; rewrite E3; cbn [bind]; [left | right; eexists; reflexivity].
    apply (Fin c s3 i' n' b'); auto. apply long_plain; [|exact L]. apply (stops_at _ _ _ _ _ H1). apply (not_false _ _ (cls_newline _) E1).
Qed.
Lemma opening_unique : forall k m i j, opening k ++ i = opening m ++ j -> k = m /\ i = j.
Proof.
  intros k m i j E. unfold opening in E. cbn [app] in E. injection E as E. rewrite <- !app_assoc in E. cbn [app] in E.
  destruct (repeat_unique 61 k m (91 :: i) (91 :: j)) as [-> Q]; auto; try (intros c x [= <- <-]; lia). injection Q as ->. auto.
Qed.
Lemma long_string_complete : forall F fuel s i b n k str c i' n', at_ s (91 :: i) b n -> (List.length i < fuel)%nat -> (str = true -> b = 91 :: repeat 61 k) -> long n (opening k ++ i) c i' n' ->
  exists s' v, read_long_string (F:=F) fuel s (Z.of_nat k + 2) str = Ok (v, s') /\ at_ s' i' (buf s') n' /\ (str = true -> v = SStr c).
Proof.
  intros F fuel s i b n k str c i' n' H Hf Hb L. unfold read_long_string. step_save H s1 H1.
  assert (Fin : forall s' b', at_ s' i' b' n' -> (str = true -> b' = (b ++ [91]) ++ c ++ closing k) ->
    exists s2 v, (if str then if Z.of_nat (List.length (buf s')) <? 2 * (Z.of_nat k + 2) then UB else
        Ok (SStr (firstn (Z.to_nat (Z.of_nat (List.length (buf s')) - 2 * (Z.of_nat k + 2))) (skipn (Z.to_nat (Z.of_nat k + 2)) (buf s'))), s') else Ok (SNone (F:=F), s')) = Ok (v, s2) /\
      at_ s2 i' (buf s2) n' /\ (str = true -> v = SStr c)).
  { intros s' b' H2 Hb'. pose proof (at_buf _ _ _ _ H2) as Bf. exists s'.
    destruct str.
    - assert (V : (91 :: repeat 61 k) ++ [91] ++ c ++ closing k = buf s') by (rewrite Bf, (Hb' eq_refl), (Hb eq_refl), <- app_assoc; reflexivity).
      destruct (slice k c) as [S1 S2]. rewrite V in S1, S2. rewrite S2, S1. rewrite <- Bf in H2. eexists. split; [reflexivity|]. split; [exact H2|]. auto.
    - eexists. split; [reflexivity|]. rewrite Bf. split; [exact H2|]. discriminate. }
  remember (opening k ++ i) as z eqn:Qz. inversion L as [m j i1 n1 ? ? ? Lb B Q|m j ? ? ? St B Q]; rewrite Qz in Q; destruct (opening_unique _ _ _ _ Q); subst; clear Q.
  - destruct (lb_head _ _ _ _ Lb) as (a & r & -> & Na). rewrite (proj2 (cls_newline _)) by (rewrite (at_cur _ _ _ _ H1); exact Na).
    destruct (incl_complete _ _ _ _ _ _ H1 Lb) as (s2 & E2 & H2). rewrite E2. cbn [bind]. pose proof (lb_len _ _ _ _ Lb).
    destruct (long_complete fuel s2 i1 _ n1 k str _ _ _ H2 ltac:(lia) B) as (s3 & b' & E3 & H3 & Hb3). rewrite E3. cbn [bind]. apply (Fin s3 b'); auto.
  - destruct (isnewline (current s1)) eqn:E1.
    { apply cls_newline in E1. pose proof (stops_cur _ _ _ _ _ H1 St E1). unfold newline in E1. lia. }
    cbn [bind]. destruct (long_complete fuel s1 i _ n k str _ _ _ H1 Hf B) as (s3 & b' & E3 & H3 & Hb3). rewrite E3. cbn [bind]. apply (Fin s3 b'); auto.
Qed.

(* ** Names and comments *)
Lemma alnum_at : forall fuel s i b n, at_ s i b n -> (List.length i < fuel)%nat ->
  exists w r s', i = w ++ r /\ Forall alnum w /\ stops alnum r /\ alnum_loop fuel s = Ok s' /\ at_ s' r (b ++ w) n.
Proof.
  induction fuel as [|f IH]; intros s i b n H Hf; [lia|]. cbn [alnum_loop]. destruct (lislalnum (current s)) eqn:E.
  - apply (cls_alnum _ (at_char _ _ _ _ H)) in E. destruct (at_nonempty _ _ _ _ H) as [r Er]; [unfold alnum, letter, digit in E; lia|]. set (c := current s) in *. rewrite Er in H, Hf. step_save H s1 H1. cbn in Hf.
    destruct (IH s1 r _ n H1 ltac:(lia)) as (w & r' & s' & -> & F & St & E2 & H2). exists (c :: w), r', s'. rewrite app1 in H2. split; [exact Er|]. auto.
  - exists [], i, s. rewrite app_nil_r. split; [reflexivity|]. split; [constructor|]. split; [apply (stops_at _ _ _ _ _ H); apply (not_false _ _ (cls_alnum _ (at_char _ _ _ _ H)) E)|]. auto.
Qed.
Lemma comment_at : forall fuel s i b n, at_ s i b n -> (List.length i < fuel)%nat ->
  exists w r s', i = w ++ r /\ Forall (fun c => ~ newline c) w /\ (r = [] \/ exists c q, r = c :: q /\ newline c) /\ comment_loop fuel s = Ok s' /\ at_ s' r b n.
Proof.
  induction fuel as [|f IH]; intros s i b n H Hf; [lia|]. cbn [comment_loop]. destruct (negb (isnewline (current s)) && negb (current s =? EOZ)) eqn:E.
  - apply andb_true_iff in E. destruct E as [E1 E2]. apply negb_true_iff in E1, E2. apply Z.eqb_neq in E2. apply (not_false _ _ (cls_newline _)) in E1.
    destruct (at_nonempty _ _ _ _ H E2) as [r Er]. set (c := current s) in *. rewrite Er in H, Hf. step_next H s1 H1. cbn in Hf.
    destruct (IH s1 r _ n H1 ltac:(lia)) as (w & r' & s' & -> & F & St & E3 & H2). exists (c :: w), r', s'. split; [exact Er|]. auto.
  - exists [], i, s. split; [reflexivity|]. split; [constructor|]. split; [|auto]. apply andb_false_iff in E. destruct E as [E|E]; apply negb_false_iff in E.
    + apply cls_newline in E. destruct (at_nonempty _ _ _ _ H) as [r Er]; [unfold newline in E; lia|]. right. exists (current s), r. auto.
    + apply Z.eqb_eq in E. left. apply (at_eoz _ _ _ _ H E).
Qed.
