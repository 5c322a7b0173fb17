Require Import ZArith List Bool Lia.
From Verif Require Import Base Base_facts Str Str_facts Strlib_model Strlib_spec Strlib_proofs Match_model Match_spec.
Import ListNotations.
Open Scope Z_scope.

(* ---- classes ---- *)
Definition bytes : list Z := map Z.of_nat (seq 0 256).
Lemma bytes_in : forall b, is_byte b -> In b bytes.
Proof. intros b B. unfold is_byte in B. apply in_map_iff. exists (Z.to_nat b). split; [lia|]. apply in_seq. lia. Qed.
Lemma classes_agree : forallb (fun l => forallb (fun c => Bool.eqb (match_class c l) (in_class l c)) bytes) bytes = true.
Proof. vm_compute. reflexivity. Qed.
Lemma class_ok : forall c l, is_byte c -> is_byte l -> match_class c l = in_class l c.
Proof.
  intros c l C L. pose proof classes_agree as H. rewrite forallb_forall in H. specialize (H l (bytes_in l L)). cbv beta in H. rewrite forallb_forall in H. specialize (H c (bytes_in c C)). apply Bool.eqb_prop in H. exact H.
Qed.

Lemma skipn_skipn : forall (l : list Z) x y, skipn x (skipn y l) = skipn (x + y) l.
Proof. intros l x y. revert l. induction y as [|y IH]; intros l; [rewrite Nat.add_0_r; reflexivity|]. destruct l as [|c l]; [rewrite !skipn_nil; reflexivity|]. rewrite Nat.add_succ_r. cbn [skipn]. apply IH. Qed.
Lemma set_rest_eq : forall c l, set_rest (c :: l) = if c =? 93 then Some ([], l) else set_body (c :: l).
Proof. intros c l. cbn [set_rest set_body]. destruct (c =? 93); reflexivity. Qed.
Lemma set_body_len : forall n l b r, (length l <= n)%nat -> set_body l = Some (b, r) -> l = b ++ 93 :: r /\ b <> [].
Proof.
  induction n as [|n IH]; intros l b r L E; [destruct l; [discriminate|cbn in L; lia]|]. destruct l as [|c l]; [discriminate|]. cbn [set_body] in E. destruct l as [|x l]; [discriminate|].
  assert (R : forall m b' r', (length m <= n)%nat -> set_rest m = Some (b', r') -> m = b' ++ 93 :: r').
  { intros [|y m] b' r' LM EM; [discriminate|]. rewrite set_rest_eq in EM. destruct (Z.eqb_spec y 93) as [->|]; [injection EM as <- <-; reflexivity|]. apply (IH (y :: m)); assumption. }
  cbn [length] in L. destruct (c =? 37).
  - destruct (set_rest l) as [[b' r']|] eqn:ER; [|discriminate]. cbn [prefixed] in E. injection E as <- <-. apply R in ER; [|lia]. rewrite ER. split; [reflexivity|discriminate].
  - destruct (set_rest (x :: l)) as [[b' r']|] eqn:ER; [|discriminate]. cbn [prefixed] in E. injection E as <- <-. apply R in ER; [|cbn; lia]. rewrite ER. split; [reflexivity|discriminate].
Qed.
Lemma set_len' : forall l k r, set l = Some (k, r) -> (length r < length l)%nat.
Proof.
  intros l k r E. unfold set in E. set (neg := match l with c :: _ => c =? 94 | [] => false end) in E. destruct (set_body (if neg then tl l else l)) as [[b r']|] eqn:EB; [|discriminate]. injection E as _ <-. destruct (set_body_len _ _ _ _ (le_n _) EB) as [EL NB]. apply (f_equal (@length Z)) in EL. rewrite app_length in EL. cbn [length] in EL. destruct neg; [destruct l; cbn [tl length] in *; lia|lia].
Qed.
Lemma single_len : forall x l k r, single (x :: l) = Some (k, r) -> (length r <= length l)%nat.
Proof.
  intros x l k r E. cbn [single] in E. destruct (x =? 46); [injection E as _ <-; lia|]. destruct (x =? 37); [destruct l; [discriminate|injection E as _ <-; cbn; lia]|]. destruct (x =? 91); [apply set_len' in E; lia|injection E as _ <-; lia].
Qed.
Lemma tl_len : forall (l : list Z), (length (tl l) <= length l)%nat. Proof. intros [|x l]; cbn; lia. Qed.
Lemma parse_enough : forall n k l, (length l < n)%nat -> (length l < k)%nat -> parse_n n l = parse_n k l.
Proof.
  induction n as [|n IH]; intros k l N K; [lia|]. destruct k as [|k]; [lia|]. cbn [parse_n]. destruct l as [|x l]; [reflexivity|]. cbn [length] in N, K. assert (R : forall r, (length r <= length l)%nat -> parse_n n r = parse_n k r) by (intros r L; apply IH; lia). pose proof (tl_len l) as TL.
  assert (I : match single (x :: l) with None => Bad | Some (q, r) => if next r =? 42 then Star q (parse_n n (tl r)) else if next r =? 43 then Plus q (parse_n n (tl r)) else if next r =? 45 then Minus q (parse_n n (tl r)) else if next r =? 63 then Option q (parse_n n (tl r)) else One q (parse_n n r) end =
    match single (x :: l) with None => Bad | Some (q, r) => if next r =? 42 then Star q (parse_n k (tl r)) else if next r =? 43 then Plus q (parse_n k (tl r)) else if next r =? 45 then Minus q (parse_n k (tl r)) else if next r =? 63 then Option q (parse_n k (tl r)) else One q (parse_n k r) end).
  { destruct (single (x :: l)) as [[q r]|] eqn:E; [|reflexivity]. apply single_len in E. pose proof (tl_len r). rewrite !R by lia. reflexivity. }
  rewrite I. rewrite !R by lia. destruct (x =? 40); [reflexivity|]. destruct (x =? 41); [reflexivity|]. destruct ((x =? 36) && _); [reflexivity|]. destruct (x =? 37); [|reflexivity]. destruct l as [|y l]; [reflexivity|]. cbn [length] in *. destruct (y =? 98).
  { destruct l as [|b [|e l]]; try reflexivity. cbn [length] in *. rewrite R by lia. reflexivity. }
  destruct (y =? 102); [|rewrite R by lia; reflexivity]. destruct (next l =? 91); [|reflexivity]. destruct (set (tl l)) as [[q r]|] eqn:ES; [|reflexivity]. apply set_len' in ES. pose proof (tl_len l). rewrite R by lia. reflexivity.
Qed.
Lemma balanced_len : forall b e l n k, balanced b e n l = Some k -> (k <= length l)%nat.
Proof.
  intros b e. induction l as [|c l IH]; intros n k E; [discriminate|]. cbn [balanced length] in *. destruct (c =? e).
  - destruct n as [|[|n]]; [|injection E as <-; lia|]; (destruct (balanced b e _ l) as [j|] eqn:EB; [|discriminate]); injection E as <-; apply IH in EB; lia.
  - destruct (c =? b); (destruct (balanced b e _ l) as [j|] eqn:EB; [|discriminate]); injection E as <-; apply IH in EB; lia.
Qed.
Section MATCH.
Variables src pat : list Z.
Hypothesis WS : wf_str src.
Hypothesis WP : wf_str pat.

(* position p of the pattern, where l is left *)
Definition At (p : Z) (l : list Z) : Prop := 0 <= p /\ skipn (Z.to_nat p) pat = l /\ p + slen l = slen pat.
Lemma At_nil : forall p, At p [] -> p = slen pat /\ sbyte pat p = Ok 0.
Proof. intros p (P & E & L). rewrite slen_nil in L. assert (p = slen pat) as -> by lia. split; [reflexivity|apply sbyte_end]. Qed.
Lemma At_cons : forall p c l, At p (c :: l) -> p < slen pat /\ sbyte pat p = Ok c /\ At (p + 1) l /\ is_byte c.
Proof.
  intros p c l (P & E & L). rewrite slen_cons in L. pose proof (slen_nonneg l). split; [lia|]. assert (N : nth (Z.to_nat p) pat 0 = c) by (rewrite <- (Nat.add_0_r (Z.to_nat p)), <- nth_skipn_Z, E; reflexivity). split; [rewrite sbyte_ok by lia; rewrite N; reflexivity|]. split; [|rewrite <- N; apply wf_nth; exact WP].
  split; [lia|]. split; [|lia]. replace (Z.to_nat (p + 1)) with (1 + Z.to_nat p)%nat by lia. rewrite <- (skipn_skipn pat 1 (Z.to_nat p)). rewrite E. reflexivity.
Qed.
Lemma At_app : forall w p l, At p (w ++ l) -> At (p + slen w) l.
Proof.
  induction w as [|c w IH]; intros p l A; cbn [app] in A; [rewrite slen_nil, Z.add_0_r; exact A|]. apply At_cons in A. destruct A as (_ & _ & A & _). apply IH in A. rewrite slen_cons. replace (p + (slen w + 1)) with (p + 1 + slen w) by lia. exact A.
Qed.
Lemma At_at : forall p, 0 <= p <= slen pat -> At p (skipn (Z.to_nat p) pat).
Proof. intros p P. split; [lia|]. split; [reflexivity|]. rewrite slen_skipn by exact P. lia. Qed.
Lemma At_byte : forall p l, At p l -> sbyte pat p = Ok (match l with c :: _ => c | [] => 0 end).
Proof. intros p [|c l] A; [apply At_nil, A|apply At_cons in A; apply A]. Qed.
Lemma At_le : forall p l, At p l -> 0 <= p <= slen pat. Proof. intros p l (P & _ & L). pose proof (slen_nonneg l). lia. Qed.
Lemma At_len : forall p l, At p l -> (length l <= length pat)%nat. Proof. intros p l (P & _ & L). unfold slen in L. lia. Qed.

Lemma classend_loop_ok : forall fuel p l, At p l -> (length l < fuel)%nat ->
  classend_loop pat fuel p = match set_body l with Some (b, _) => Ok (p + slen b + 1) | None => Err EFormat end.
Proof.
  induction fuel as [|fuel IH]; intros p l A L; [lia|]. cbn [classend_loop]. unfold p_end. destruct l as [|c l].
  - destruct (At_nil p A) as [-> _]. rewrite Z.eqb_refl. reflexivity.
  - destruct (At_cons _ _ _ A) as (LT & SB & A1 & _). destruct (Z.eqb_spec p (slen pat)); [lia|]. rewrite SB. cbn [bind]. cbn [length] in L.
    assert (step : forall q m, At q m -> (length m < fuel)%nat -> bind (sbyte pat q) (fun c => if negb (c =? 93) then classend_loop pat fuel q else Ok (q + 1)) = match set_rest m with Some (b, _) => Ok (q + slen b + 1) | None => Err EFormat end).
    { intros q m AM LM. rewrite (At_byte _ _ AM). cbn [bind]. destruct m as [|y m].
      - change (0 =? 93) with false. cbn [negb]. rewrite (IH q [] AM) by (cbn; lia). reflexivity.
      - rewrite set_rest_eq. destruct (Z.eqb_spec y 93) as [->|]; cbn [negb]; [rewrite slen_nil; f_equal; lia|]. rewrite (IH q (y :: m) AM LM). reflexivity. }
    cbn [set_body]. destruct l as [|x l].
    + destruct (At_nil _ A1) as [EQ _]. destruct (Z.ltb_spec (p + 1) (slen pat)); [lia|]. rewrite andb_false_r. rewrite (step _ _ A1) by (cbn; lia). reflexivity.
    + destruct (At_cons _ _ _ A1) as (LT1 & _ & A2 & _). destruct (Z.ltb_spec (p + 1) (slen pat)); [|lia]. rewrite andb_true_r. cbn [length] in L. destruct (c =? 37).
      * rewrite (step _ _ A2) by lia. destruct (set_rest l) as [[b r]|]; [|reflexivity]. cbn [prefixed app]. rewrite !slen_cons. f_equal. lia.
      * rewrite (step _ _ A1) by (cbn; lia). destruct (set_rest (x :: l)) as [[b r]|]; [|reflexivity]. cbn [prefixed app]. rewrite !slen_cons. f_equal. lia.
Qed.
Lemma bracket_ok : forall fuel c p b r sig, is_byte c -> At (p + 1) (b ++ 93 :: r) -> (length b < fuel)%nat ->
  bracket_loop pat fuel c p (p + 1 + slen b) sig = Ok (if existsb (in_elem c) (elements b) then sig else negb sig).
Proof.
  induction fuel as [|fuel IH]; intros c p b r sig C A L; [lia|]. cbn [bracket_loop]. destruct b as [|x b].
  { rewrite slen_nil. destruct (Z.ltb_spec (p + 1) (p + 1 + 0)); [lia|]. reflexivity. }
  rewrite slen_cons. pose proof (slen_nonneg b). destruct (Z.ltb_spec (p + 1) (p + 1 + (slen b + 1))); [|lia]. cbn [negb]. cbn [app] in A. destruct (At_cons _ _ _ A) as (_ & -> & A1 & BX). cbn [bind]. cbn [length] in L. cbn [elements]. destruct (x =? 37).
  - rewrite (At_byte _ _ A1). destruct b as [|y b]; cbn [app bind]; cbn [app] in A1; destruct (At_cons _ _ _ A1) as (_ & _ & A2 & BY); rewrite (class_ok c _ C BY).
    + cbn [existsb in_elem]. rewrite orb_false_r. destruct (in_class 93 c); [reflexivity|]. destruct fuel as [|fuel]; [cbn in L; lia|]. cbn [bracket_loop]. rewrite slen_nil. destruct (Z.ltb_spec (p + 1 + 1 + 1) (p + 1 + (0 + 1))); [lia|]. reflexivity.
    + cbn [existsb in_elem]. destruct (in_class y c); [reflexivity|]. cbn [orb]. rewrite slen_cons. replace (p + 1 + (slen b + 1 + 1)) with (p + 1 + 1 + 1 + slen b) by lia. apply (IH c (p + 1 + 1) b r sig C A2). cbn [length] in L. lia.
  - rewrite (At_byte _ _ A1). cbn [bind].
    assert (plain : (if x =? c then Ok sig else bracket_loop pat fuel c (p + 1) (p + 1 + (slen b + 1)) sig) = Ok (if existsb (in_elem c) (EChar x :: elements b) then sig else negb sig)).
    { cbn [existsb in_elem]. rewrite (Z.eqb_sym c x). destruct (x =? c); [reflexivity|]. cbn [orb]. replace (p + 1 + (slen b + 1)) with (p + 1 + 1 + slen b) by lia. apply (IH c (p + 1) b r sig C A1). lia. }
    destruct b as [|d b]; cbn [app] in *.
    + change (93 =? 45) with false. cbn [andb]. exact plain.
    + destruct b as [|h b].
      * destruct (Z.ltb_spec (p + 1 + 2) (p + 1 + (slen [d] + 1))) as [LT|_]; [change (slen [d]) with 1 in LT; lia|]. rewrite andb_false_r. exact plain.
      * rewrite !slen_cons in *. pose proof (slen_nonneg b). destruct (Z.ltb_spec (p + 1 + 2) (p + 1 + (slen b + 1 + 1 + 1))); [|lia]. rewrite andb_true_r. destruct (d =? 45); [|exact plain].
        replace (p + 1 + 2 - 2) with (p + 1) by lia. destruct (At_cons _ _ _ A) as (_ & -> & _ & _). cbn [bind]. destruct (At_cons _ _ _ A1) as (_ & _ & A2 & _). cbn [app] in A2. destruct (At_cons _ _ _ A2) as (_ & SH & A3 & _). replace (p + 1 + 2) with (p + 1 + 1 + 1) by lia. rewrite SH. cbn [bind existsb in_elem]. change (between (x, h) c) with ((x <=? c) && (c <=? h)). destruct ((x <=? c) && (c <=? h)); [reflexivity|]. cbn [orb].
        replace (p + 1 + (slen b + 1 + 1 + 1)) with (p + 1 + 1 + 1 + 1 + slen b) by lia. apply (IH c (p + 1 + 1 + 1) b r sig C A3). cbn [length] in L. lia.
Qed.
(* a set after its '[' *)
Lemma set_ok : forall p l, At p (91 :: l) ->
  match set l with
  | None => classend pat p = Err EFormat
  | Some (k, r) => exists ep, classend pat p = Ok ep /\ At ep r /\ p < ep /\ forall c, is_byte c -> matchbracketclass pat c p (ep - 1) = Ok (mem k c)
  end.
Proof.
  intros p l A. destruct (At_cons _ _ _ A) as (_ & SB & A1 & _). unfold set. set (neg := match l with c :: _ => c =? 94 | [] => false end). set (q := if neg then p + 2 else p + 1). set (l' := if neg then tl l else l).
  assert (A2 : At q l'). { unfold q, l'. destruct neg eqn:EN; [|exact A1]. destruct l as [|c l]; [discriminate EN|]. replace (p + 2) with (p + 1 + 1) by lia. apply At_cons in A1. apply A1. }
  assert (CE : classend pat p = match set_body l' with Some (b, _) => Ok (q + slen b + 1) | None => Err EFormat end).
  { unfold classend. rewrite SB. cbn [bind]. change (91 =? 37) with false. change (91 =? 91) with true. cbv iota. rewrite (At_byte _ _ A1). cbn [bind]. rewrite <- (classend_loop_ok (S (length pat)) q l' A2) by (pose proof (At_len _ _ A2); lia). f_equal. unfold q, neg. destruct l as [|c l]; [reflexivity|]. destruct (c =? 94); lia. }
  rewrite CE. destruct (set_body l') as [[b r]|] eqn:EB; [|reflexivity]. destruct (set_body_len _ _ _ _ (le_n _) EB) as [EL NB]. rewrite EL in A2. exists (q + slen b + 1). split; [reflexivity|]. split; [pose proof (At_app b _ _ A2) as A3; apply At_cons in A3; apply A3|]. split; [pose proof (slen_nonneg b); unfold q; destruct neg; lia|].
  intros c C. unfold matchbracketclass. rewrite (At_byte _ _ A1). cbn [bind mem]. pose proof (At_len _ _ A2) as LB. rewrite app_length in LB. cbn [length] in LB. replace (q + slen b + 1 - 1) with (q - 1 + 1 + slen b) by lia. assert (B := fun sig => bracket_ok (S (length pat)) c (q - 1) b r sig C ltac:(replace (q - 1 + 1) with q by lia; exact A2) ltac:(lia)).
  unfold q, neg in *. destruct l as [|x l].
  - cbn [xorb]. change (0 =? 94) with false. cbv iota. replace (p + 1 - 1) with p in * by lia. rewrite B. destruct (existsb _ _); reflexivity.
  - destruct (x =? 94).
    + replace (p + 2 - 1) with (p + 1) in * by lia. rewrite B. destruct (existsb _ _); reflexivity.
    + replace (p + 1 - 1) with p in * by lia. rewrite B. destruct (existsb _ _); reflexivity.
Qed.
Lemma single_ok : forall p x l, At p (x :: l) ->
  match single (x :: l) with
  | None => classend pat p = Err EFormat
  | Some (k, r) => exists ep, classend pat p = Ok ep /\ At ep r /\ p < ep /\
      forall s, 0 <= s <= slen src -> singlematch src pat s p ep = Ok (match run k (from src s) with O => false | S _ => true end)
  end.
Proof.
  intros p x l A. destruct (At_cons _ _ _ A) as (LT & SB & A1 & BX). assert (fin : forall k ep, (forall c, is_byte c -> bind (sbyte pat p) (fun x => if x =? 46 then Ok true else if x =? 37 then bind (sbyte pat (p + 1)) (fun cl => Ok (match_class c cl)) else if x =? 91 then matchbracketclass pat c p (ep - 1) else Ok (x =? c)) = Ok (mem k c)) ->
    forall s, 0 <= s <= slen src -> singlematch src pat s p ep = Ok (match run k (from src s) with O => false | S _ => true end)).
  { intros k ep H s S. unfold singlematch, src_end. destruct (Z.leb_spec (slen src) s) as [GE|LS].
    - assert (s = slen src) as -> by lia. unfold from. replace (Z.to_nat (slen src)) with (length src) by (unfold slen; lia). rewrite skipn_all. reflexivity.
    - rewrite sbyte_in by lia. cbn [bind]. rewrite H by (apply wf_nth; exact WS). f_equal. unfold from. destruct (skipn (Z.to_nat s) src) as [|c t] eqn:ES.
      + apply (f_equal (@length Z)) in ES. rewrite skipn_length in ES. cbn [length] in ES. unfold slen in LS. lia.
      + assert (nth (Z.to_nat s) src 0 = c) as -> by (rewrite <- (Nat.add_0_r (Z.to_nat s)), <- nth_skipn_Z, ES; reflexivity). cbn [run]. destruct (mem k c); reflexivity. }
  cbn [single]. unfold classend. rewrite SB in *. cbn [bind] in *. destruct (Z.eqb_spec x 46) as [->|N1].
  - change (46 =? 37) with false. change (46 =? 91) with false. cbv iota. exists (p + 1). split; [reflexivity|]. split; [exact A1|]. split; [lia|]. apply fin. intros c _. reflexivity.
  - destruct (Z.eqb_spec x 37) as [->|N2].
    + destruct l as [|y l].
      * destruct (At_nil _ A1) as [EQ _]. unfold p_end. rewrite EQ, Z.eqb_refl. reflexivity.
      * destruct (At_cons _ _ _ A1) as (LT1 & SB1 & A2 & BY). unfold p_end. destruct (Z.eqb_spec (p + 1) (slen pat)); [lia|]. exists (p + 1 + 1). split; [reflexivity|]. split; [exact A2|]. split; [lia|]. apply fin. intros c C. rewrite SB1. cbn [bind mem]. rewrite (class_ok c y C BY). reflexivity.
    + destruct (Z.eqb_spec x 91) as [->|N3].
      * pose proof (set_ok p l A) as H. destruct (set l) as [[k r]|].
        -- destruct H as (ep & CE & AE & LE & MB). exists ep. unfold classend in CE. rewrite SB in CE. cbn [bind] in CE. change (91 =? 37) with false in CE. change (91 =? 91) with true in CE. cbv iota in CE. split; [exact CE|]. split; [exact AE|]. split; [exact LE|]. apply fin. intros c C. apply MB. exact C.
        -- unfold classend in H. rewrite SB in H. cbn [bind] in H. exact H.
      * exists (p + 1). split; [reflexivity|]. split; [exact A1|]. split; [lia|]. apply fin. intros c C. cbn [mem]. rewrite Z.eqb_sym. reflexivity.
Qed.

(* ---- captures ---- *)
Definition enc (c : cap) : capture := match c with COpen i => (i, -1) | CPos i => (i, -2) | CClosed i n => (i, n) end.
Definition cap_ok (s : Z) (c : cap) : Prop :=
  match c with COpen i => 0 <= i <= s | CPos i => 0 <= i <= slen src | CClosed i n => 0 <= i /\ 0 <= n /\ i + n <= slen src end.
Lemma close_some : forall c e c', close c e = Some c' -> exists c1 j c2, c = c1 ++ COpen j :: c2 /\ (forall x, ~ In (COpen x) c2) /\ c' = c1 ++ CClosed j (e - j) :: c2.
Proof.
  assert (N : forall c e, close c e = None -> forall x, ~ In (COpen x) c).
  { induction c as [|y c IH]; intros e E x IN; [destruct IN|]. cbn [close] in E. destruct (close c e) eqn:EC; [discriminate|]. destruct IN as [->|IN]; [discriminate|]. apply (IH e EC x IN). }
  induction c as [|x c IH]; intros e c' E; [discriminate|]. cbn [close] in E. destruct (close c e) as [r|] eqn:EC.
  - injection E as <-. destruct (IH e r EC) as (c1 & j & c2 & -> & NO & ->). exists (x :: c1), j, c2. auto.
  - destruct x; try discriminate. injection E as <-. exists [], i, c. split; [reflexivity|]. split; [apply (N c e EC)|reflexivity].
Qed.
Lemma close_none : forall c e, close c e = None -> forall x, ~ In (COpen x) c.
Proof.
  induction c as [|y c IH]; intros e E x IN; [destruct IN|]. cbn [close] in E. destruct (close c e) eqn:EC; [discriminate|]. destruct IN as [->|IN]; [discriminate|]. apply (IH e EC x IN).
Qed.
Lemma enc_open : forall s c, cap_ok s c -> (forall x, c <> COpen x) -> (snd (enc c) =? CAP_UNFINISHED) = false.
Proof. intros s [i|i n|i] G N; cbn [enc snd cap_ok] in *; [exfalso; apply (N i); reflexivity| |reflexivity]. unfold CAP_UNFINISHED. apply Z.eqb_neq. lia. Qed.
Lemma to_close_none : forall s n c, Forall (cap_ok s) c -> (forall x, ~ In (COpen x) c) -> (n <= length c)%nat -> to_close (map enc c) n = Err EFormat.
Proof.
  intros s. induction n as [|n IH]; intros c G N L; [reflexivity|]. cbn [to_close]. rewrite (nth_indep _ (0, 0) (enc (CPos 0))) by (rewrite map_length; lia). rewrite map_nth. assert (IN : In (nth n c (CPos 0)) c) by (apply nth_In; lia). rewrite (enc_open s); [apply IH; try assumption; lia|rewrite Forall_forall in G; apply G; exact IN|]. intros x E. rewrite E in IN. exact (N x IN).
Qed.
Lemma to_close_some : forall s c1 j c2, Forall (cap_ok s) c2 -> (forall x, ~ In (COpen x) c2) -> capture_to_close (map enc (c1 ++ COpen j :: c2)) = Ok (length c1).
Proof.
  intros s c1 j c2 G N. unfold capture_to_close. rewrite map_length, app_length. cbn [length].
  assert (H : forall k, (k <= length c2)%nat -> to_close (map enc (c1 ++ COpen j :: c2)) (length c1 + S k) = Ok (length c1)); [|apply H; lia].
  induction k as [|k IH]; intros K; rewrite Nat.add_succ_r; cbn [to_close]; rewrite (nth_indep _ (0, 0) (enc (CPos 0))) by (rewrite map_length, app_length; cbn [length]; lia); rewrite map_nth.
  - rewrite Nat.add_0_r, app_nth2, Nat.sub_diag by lia. reflexivity.
  - rewrite app_nth2 by lia. replace (length c1 + S k - length c1)%nat with (S k) by lia. cbn [nth]. assert (IN : In (nth k c2 (CPos 0)) c2) by (apply nth_In; lia). rewrite (enc_open s); [apply IH; lia|rewrite Forall_forall in G; apply G; exact IN|]. intros x E. rewrite E in IN. exact (N x IN).
Qed.
Lemma set_len_mid : forall (a : list capture) i n b m, set_len (a ++ (i, n) :: b) (length a) m = a ++ (i, m) :: b.
Proof. intros a i n b k. unfold set_len. rewrite firstn_app, firstn_all, Nat.sub_diag, firstn_O, app_nil_r, skipn_app, skipn_all, Nat.sub_diag. reflexivity. Qed.
Lemma memeq_lists : forall n a b p q, 0 <= p -> p + Z.of_nat n <= slen a -> 0 <= q -> q + Z.of_nat n <= slen b ->
  memeq a p b q n = Ok (if list_eq_dec Z.eq_dec (firstn n (skipn (Z.to_nat p) a)) (firstn n (skipn (Z.to_nat q) b)) then true else false).
Proof.
  assert (SK : forall (a : list Z) p, 0 <= p < slen a -> skipn (Z.to_nat p) a = nth (Z.to_nat p) a 0 :: skipn (Z.to_nat (p + 1)) a).
  { intros a p P. replace (Z.to_nat (p + 1)) with (1 + Z.to_nat p)%nat by lia. rewrite <- skipn_skipn. rewrite <- (Nat.add_0_r (Z.to_nat p)) at 2. rewrite <- nth_skipn_Z. destruct (skipn (Z.to_nat p) a) eqn:E; [|reflexivity]. apply (f_equal (@length Z)) in E. rewrite skipn_length in E. unfold slen in P. cbn in E. lia. }
  induction n as [|n IH]; intros a b p q P1 P2 Q1 Q2; cbn [memeq]; [reflexivity|]. rewrite !sbyte_in by lia. cbn [bind]. rewrite IH by lia. rewrite (SK a p), (SK b q) by lia. cbn [firstn].
  destruct (Z.eqb_spec (nth (Z.to_nat p) a 0) (nth (Z.to_nat q) b 0)) as [E|NE].
  - destruct (list_eq_dec Z.eq_dec (firstn n _) (firstn n _)) as [E1|N1]; destruct (list_eq_dec Z.eq_dec (_ :: _) (_ :: _)) as [E2|N2]; try reflexivity; exfalso; [apply N2; f_equal; assumption|apply N1; injection E2; auto].
  - destruct (list_eq_dec Z.eq_dec (_ :: _) (_ :: _)) as [E2|N2]; [exfalso; apply NE; injection E2; auto|reflexivity].
Qed.

(* ---- the answer to a list of matches ---- *)
Definition answer (c : caps) (l : match_list) : mres :=
  match l with [] => Ok (None, map enc c) | None :: _ => Err EFormat | Some (e, c) :: _ => Ok (Some e, map enc c) end.
Definition okl (d n : nat) (c : caps) (l : match_list) (r : mres) : Prop := r = answer c l \/ (r = Err ELoop /\ (d <= n)%nat).
Lemma okl_weak : forall d n d' n' c l r, okl d n c l r -> (d <= n -> d' <= n')%nat -> okl d' n' c l r.
Proof. intros d n d' n' c l r [H|[H1 H2]] W; [left; exact H|right; split; auto]. Qed.
Lemma okl_app : forall d n c l1 l2 r (k : list capture -> mres), okl d n c l1 r -> okl d n c l2 (k (map enc c)) ->
  okl d n c (l1 ++ l2) (bind r (fun '(x, cap) => match x with Some e => Ok (Some e, cap) | None => k cap end)).
Proof.
  intros d n c l1 l2 r k [->|[-> L]] H2; [|right; split; [reflexivity|exact L]]. destruct l1 as [|[[e c']|] l1]; cbn [answer bind app]; [exact H2|left; reflexivity|left; reflexivity].
Qed.

Hypothesis LS : slen src <= maxint.
Lemma cap_mono : forall s s' c, Forall (cap_ok s) c -> s <= s' -> Forall (cap_ok s') c.
Proof. intros s s' c G L. eapply Forall_impl; [|exact G]. intros [i|i n|i] H; cbn [cap_ok] in *; lia || exact H. Qed.
Section REC.
Variable rec : list capture -> Z -> Z -> mres.
Variable d : nat.
Hypothesis REC : forall c s p l, Forall (cap_ok s) c -> 0 <= s <= slen src -> At p l -> okl d (nesting (parse l)) c (matches src (parse l) c s) (rec (map enc c) s p).

Lemma from_run : forall k s r, 0 <= s -> run k (from src s) = S r -> s < slen src /\ run k (from src (s + 1)) = r /\ mem k (char src s) = true.
Proof.
  intros k s r S0 E. unfold from, char in *. destruct (Z.le_gt_cases (slen src) s) as [GE|LT].
  - rewrite skipn_all2 in E by (unfold slen in GE; lia). discriminate.
  - split; [exact LT|]. replace (Z.to_nat (s + 1)) with (1 + Z.to_nat s)%nat by lia. rewrite <- skipn_skipn. rewrite <- (Nat.add_0_r (Z.to_nat s)) at 2. rewrite <- nth_skipn_Z. destruct (skipn (Z.to_nat s) src) as [|c t]; [discriminate|]. cbn [run] in E. cbn [skipn nth]. destruct (mem k c); [|discriminate]. injection E as E. split; [exact E|reflexivity].
Qed.
Lemma run_bound : forall k s, 0 <= s <= slen src -> s + Z.of_nat (run k (from src s)) <= slen src.
Proof.
  intros k s S. assert (H : forall l, (run k l <= length l)%nat) by (induction l as [|c l IH]; cbn [run length]; [lia|destruct (mem k c); lia]). specialize (H (from src s)). unfold from in *. rewrite skipn_length in H. unfold slen in *. lia.
Qed.
Lemma count_ok : forall p ep k, (forall s, 0 <= s <= slen src -> singlematch src pat s p ep = Ok (match run k (from src s) with O => false | S _ => true end)) ->
  forall fuel s i, 0 <= s -> s + Z.of_nat i <= slen src -> slen src - (s + Z.of_nat i) < Z.of_nat fuel -> count src pat fuel s p ep i = Ok (i + run k (from src (s + Z.of_nat i)))%nat.
Proof.
  intros p ep k SM. induction fuel as [|fuel IH]; intros s i S0 LE F; [lia|]. cbn [count]. rewrite SM by lia. cbn [bind]. destruct (run k (from src (s + Z.of_nat i))) as [|r] eqn:E; [f_equal; lia|]. apply from_run in E; [|lia]. destruct E as (LT & E & _). rewrite IH by lia. f_equal. replace (s + Z.of_nat (S i)) with (s + Z.of_nat i + 1) by lia. rewrite E. lia.
Qed.
Lemma max_loop_ok : forall k c s ep l, Forall (cap_ok s) c -> 0 <= s -> s + Z.of_nat k <= slen src + 1 -> At (ep + 1) l ->
  okl d (nesting (parse l)) c (flat_map (fun n => matches src (parse l) c (s + Z.of_nat n)) (rev (seq 0 k))) (max_loop rec k (map enc c) s ep).
Proof.
  induction k as [|k IH]; intros c s ep l G S0 LE A; [left; reflexivity|]. rewrite seq_S, rev_app_distr. cbn [rev app flat_map Nat.add max_loop]. apply (okl_app _ _ _ _ _ _ (fun cap => max_loop rec k cap s ep)); [apply REC; [apply (cap_mono s); [exact G|lia]|lia|exact A]|apply IH; try assumption; lia].
Qed.
Lemma min_expand_ok : forall p ep k, (forall s, 0 <= s <= slen src -> singlematch src pat s p ep = Ok (match run k (from src s) with O => false | S _ => true end)) ->
  forall fuel c s l, Forall (cap_ok s) c -> 0 <= s <= slen src -> slen src - s < Z.of_nat fuel -> At (ep + 1) l ->
  okl d (nesting (parse l)) c (flat_map (fun n => matches src (parse l) c (s + Z.of_nat n)) (seq 0 (S (run k (from src s))))) (min_expand src pat rec fuel (map enc c) s p ep).
Proof.
  intros p ep k SM. induction fuel as [|fuel IH]; intros c s l G S0 F A; [lia|]. cbn [min_expand seq flat_map]. rewrite Z.add_0_r. apply (okl_app _ _ _ _ _ _ (fun cap => bind (singlematch src pat s p ep) (fun m => if m then min_expand src pat rec fuel cap (s + 1) p ep else Ok (None, cap)))); [apply REC; assumption|]. rewrite SM by lia. cbn [bind]. destruct (run k (from src s)) as [|r] eqn:E; [left; reflexivity|]. apply from_run in E; [|lia]. destruct E as (LT & E & _).
  specialize (IH c (s + 1) l (cap_mono s (s + 1) c G ltac:(lia)) ltac:(lia) ltac:(lia) A). rewrite E in IH. rewrite <- seq_shift, flat_map_concat_map, map_map. rewrite flat_map_concat_map in IH. erewrite map_ext; [exact IH|]. intros n. cbv beta. f_equal. lia.
Qed.
Lemma balance_ok : forall fuel s b e n, 0 <= s < slen src -> (0 < n)%nat -> slen src - s < Z.of_nat fuel + 1 -> 
  balance_loop src fuel s b e (Z.of_nat n) = Ok (match balanced b e n (from src (s + 1)) with Some k => Some (s + 1 + Z.of_nat k) | None => None end).
Proof.
  induction fuel as [|fuel IH]; intros s b e n S0 N F; [lia|]. cbn [balance_loop]. unfold src_end. destruct (Z.ltb_spec (s + 1) (slen src)) as [LT|GE].
  - rewrite sbyte_in by lia. cbn [bind]. assert (EF : from src (s + 1) = nth (Z.to_nat (s + 1)) src 0 :: from src (s + 1 + 1)).
    { unfold from. replace (Z.to_nat (s + 1 + 1)) with (1 + Z.to_nat (s + 1))%nat by lia. rewrite <- skipn_skipn. rewrite <- (Nat.add_0_r (Z.to_nat (s + 1))) at 2. rewrite <- nth_skipn_Z. destruct (skipn (Z.to_nat (s + 1)) src) eqn:E; [|reflexivity]. apply (f_equal (@length Z)) in E. rewrite skipn_length in E. unfold slen in LT. cbn in E. lia. }
    rewrite EF. cbn [balanced]. set (x := nth (Z.to_nat (s + 1)) src 0). destruct (x =? e).
    + destruct n as [|[|n]]; [lia|reflexivity|]. destruct (Z.eqb_spec (Z.of_nat (S (S n)) - 1) 0); [lia|]. replace (Z.of_nat (S (S n)) - 1) with (Z.of_nat (S n)) by lia. rewrite IH by lia. cbn [pred]. destruct (balanced b e (S n) _); cbn [option_map]; [f_equal; f_equal; lia|reflexivity].
    + destruct (x =? b).
      * replace (Z.of_nat n + 1) with (Z.of_nat (S n)) by lia. rewrite IH by lia. destruct (balanced b e (S n) _); cbn [option_map]; [f_equal; f_equal; lia|reflexivity].
      * rewrite IH by lia. destruct (balanced b e n _); cbn [option_map]; [f_equal; f_equal; lia|reflexivity].
  - unfold from. rewrite skipn_all2 by (unfold slen in *; lia). reflexivity.
Qed.
Lemma from_cons : forall s, 0 <= s < slen src -> from src s = char src s :: from src (s + 1).
Proof.
  intros s S0. unfold from, char. replace (Z.to_nat (s + 1)) with (1 + Z.to_nat s)%nat by lia. rewrite <- skipn_skipn. rewrite <- (Nat.add_0_r (Z.to_nat s)) at 2. rewrite <- nth_skipn_Z. destruct (skipn (Z.to_nat s) src) eqn:E; [|reflexivity]. apply (f_equal (@length Z)) in E. rewrite skipn_length in E. unfold slen in S0. cbn in E. lia.
Qed.
Lemma from_end : from src (slen src) = []. Proof. unfold from. apply skipn_all2. unfold slen. lia. Qed.
Lemma matchbalance_ok : forall s p l, 0 <= s <= slen src -> At p l ->
  matchbalance src pat s p = match l with
    | b :: e :: _ => Ok (match from src s with x :: t => if x =? b then match balanced b e 1 t with Some n => Some (s + 1 + Z.of_nat n) | None => None end else None | [] => None end)
    | _ => Err EFormat
    end.
Proof.
  intros s p l S0 A. unfold matchbalance, p_end. assert (L : p + slen l = slen pat) by apply A. destruct l as [|b [|e l]].
  - rewrite slen_nil in L. destruct (Z.leb_spec (slen pat - 1) p); [reflexivity|lia].
  - rewrite slen_cons, slen_nil in L. destruct (Z.leb_spec (slen pat - 1) p); [reflexivity|lia].
  - rewrite !slen_cons in L. pose proof (slen_nonneg l). destruct (Z.leb_spec (slen pat - 1) p); [lia|]. destruct (At_cons _ _ _ A) as (_ & SB & A1 & _). destruct (At_cons _ _ _ A1) as (_ & SE & _ & _). rewrite sbyte_ok by lia. cbn [bind]. rewrite SB. cbn [bind]. rewrite SE. cbn [bind]. destruct (Z.eq_dec s (slen src)) as [->|NE].
    + rewrite from_end. destruct (_ =? b); [|reflexivity]. cbn [negb]. unfold balance_loop. fold balance_loop. unfold src_end. destruct (Z.ltb_spec (slen src + 1) (slen src)); [lia|reflexivity].
    + rewrite from_cons by lia. fold (char src s). destruct (Z.eqb_spec (char src s) b); [|reflexivity]. cbn [negb]. apply (balance_ok (S (length src)) s b e 1); [lia|lia|unfold slen; lia].
Qed.
Lemma match_capture_ok : forall c s y, Forall (cap_ok s) c -> 0 <= s <= slen src ->
  match_capture src (map enc c) s y =
    (let n := y - 48 in
     if (n <=? 0) || (Z.of_nat (length c) <? n) then Err EFormat
     else match nth (Z.to_nat (n - 1)) c (CPos 0) with
          | COpen _ => Err EFormat
          | CPos _ => Ok None
          | CClosed j len => Ok (if list_eq_dec Z.eq_dec (firstn (Z.to_nat len) (from src s)) (firstn (Z.to_nat len) (from src j)) then Some (s + len) else None)
          end).
Proof.
  intros c s y G S0. unfold match_capture, check_capture. rewrite map_length. replace (y - 49) with (y - 48 - 1) by lia. set (n := y - 48). cbv zeta.
  destruct (Z.leb_spec n 0) as [LE|GT]; [destruct (Z.ltb_spec (n - 1) 0); [reflexivity|lia]|]. destruct (Z.ltb_spec (n - 1) 0); [lia|]. cbn [orb]. destruct (Z.ltb_spec (Z.of_nat (length c)) n) as [LT|GE]; [destruct (Z.leb_spec (Z.of_nat (length c)) (n - 1)); [reflexivity|lia]|]. destruct (Z.leb_spec (Z.of_nat (length c)) (n - 1)); [lia|]. cbn [orb].
  rewrite (nth_indep _ (0, 0) (enc (CPos 0))) by (rewrite map_length; lia). rewrite map_nth. assert (IN : In (nth (Z.to_nat (n - 1)) c (CPos 0)) c) by (apply nth_In; lia). rewrite Forall_forall in G. specialize (G _ IN). destruct (nth (Z.to_nat (n - 1)) c (CPos 0)) as [i|i k|i] eqn:EN; cbn [enc snd cap_ok] in *.
  - reflexivity.
  - unfold CAP_UNFINISHED. destruct (Z.eqb_spec k (-1)); [lia|]. cbn [bind]. rewrite (nth_indep _ (0, 0) (enc (CPos 0))) by (rewrite map_length; lia). rewrite map_nth, EN. cbn [enc]. rewrite u64_id by (unfold is_u64; unfold_consts; unfold maxint in LS; lia). unfold src_end. destruct (Z.leb_spec k (slen src - s)) as [LE|LT].
    + rewrite memeq_lists by lia. cbn [bind]. unfold from. destruct (list_eq_dec Z.eq_dec (firstn (Z.to_nat k) (skipn (Z.to_nat i) src)) _) as [E1|N1]; destruct (list_eq_dec Z.eq_dec (firstn (Z.to_nat k) (skipn (Z.to_nat s) src)) _) as [E2|N2]; try reflexivity; exfalso; congruence.
    + destruct (list_eq_dec Z.eq_dec _ _) as [E1|N1]; [|reflexivity]. exfalso. apply (f_equal (@length Z)) in E1. unfold from in E1. rewrite !firstn_length, !skipn_length in E1. unfold slen in *. lia.
  - change (-2 =? CAP_UNFINISHED) with false. cbn [bind]. rewrite (nth_indep _ (0, 0) (enc (CPos 0))) by (rewrite map_length; lia). rewrite map_nth, EN. cbn [enc]. unfold src_end. destruct (Z.leb_spec (u64 (-2)) (slen src - s)) as [LE|LT]; [exfalso; change (u64 (-2)) with 18446744073709551614 in LE; unfold maxint, two63 in LS; lia|reflexivity].
Qed.
Lemma parse_tail : forall n r, (length r <= n)%nat -> parse_n (S n) r = parse r.
Proof. intros n r L. unfold parse. apply parse_enough; lia. Qed.
Lemma At_tl : forall p x l, At p (x :: l) -> At (p + 1) l. Proof. intros p x l A. apply At_cons in A. apply A. Qed.
Lemma byte_next : forall p l z, At p l -> z <> 0 -> exists x, sbyte pat p = Ok x /\ (x =? z) = (next l =? z) /\ (next l =? z = true -> At (p + 1) (tl l)) \/ z = -1.
Proof.
  intros p l z A N. rewrite (At_byte _ _ A). destruct l as [|c l]; cbn [next tl].
  - exists 0. destruct (Z.eq_dec z (-1)); [right; assumption|]. left. split; [reflexivity|]. split; [|intros E; apply Z.eqb_eq in E; lia]. destruct (Z.eqb_spec 0 z), (Z.eqb_spec (-1) z); try lia; reflexivity.
  - exists c. left. split; [reflexivity|]. split; [reflexivity|]. intros _. apply (At_tl _ _ _ A).
Qed.
Definition suffix (l : list Z) : Z := match l with c :: _ => c | [] => 0 end.
Lemma suffix_next : forall l z, z <> 0 -> z <> -1 -> (suffix l =? z) = (next l =? z).
Proof. intros [|c l] z N1 N2; cbn [suffix next]; [|reflexivity]. destruct (Z.eqb_spec 0 z), (Z.eqb_spec (-1) z); try lia; reflexivity. Qed.
Lemma dflt_ok : forall again c s p x l, Forall (cap_ok s) c -> 0 <= s <= slen src -> At p (x :: l) ->
  (forall s' q r, s <= s' <= slen src -> At q r -> (length r <= length l)%nat -> okl (S d) (nesting (parse r)) c (matches src (parse r) c s') (again (map enc c) s' q)) ->
  let t := match single (x :: l) with
      | None => Bad
      | Some (k, r) =>
        if next r =? 42 then Star k (parse (tl r)) else if next r =? 43 then Plus k (parse (tl r)) else if next r =? 45 then Minus k (parse (tl r))
        else if next r =? 63 then Option k (parse (tl r)) else One k (parse r)
      end in
  okl (S d) (nesting t) c (matches src t c s) (dflt src pat rec again (map enc c) s p).
Proof.
  intros again c s p x l G S0 A AG. pose proof (single_ok p x l A) as H. pose proof (single_len x l) as SL. unfold dflt. destruct (single (x :: l)) as [[k r]|]; cbv zeta; [|rewrite H; left; reflexivity].
  destruct H as (ep & -> & AE & LE & SM). cbn [bind]. rewrite SM by exact S0. cbn [bind]. rewrite (At_byte _ _ AE). cbn [bind]. fold (suffix r). rewrite !suffix_next by lia. specialize (SL k r eq_refl).
  assert (AT : forall z, next r =? z = true -> z <> -1 -> At (ep + 1) (tl r) /\ (length (tl r) <= length l)%nat). { intros z E N. destruct r as [|y r]; [cbn [next] in E; apply Z.eqb_eq in E; lia|]. split; [apply (At_tl _ _ _ AE)|cbn [tl length] in *; lia]. }
  destruct (run k (from src s)) as [|n] eqn:ER; cbn [negb].
  - (* no character of the class *)
    assert (skip : forall z, next r =? z = true -> z <> -1 -> okl (S d) (S (nesting (parse (tl r)))) c (matches src (parse (tl r)) c s) (again (map enc c) s (ep + 1))).
    { intros z E N. destruct (AT z E N) as [AE1 LT]. eapply okl_weak; [apply AG; [lia|exact AE1|exact LT]|lia]. }
    destruct (next r =? 42) eqn:E1; cbn [orb].
    { cbn [nesting matches]. rewrite ER. cbn [seq rev app flat_map]. rewrite Z.add_0_r, app_nil_r. apply (skip 42 E1). lia. }
    destruct (next r =? 43) eqn:E2.
    { apply Z.eqb_eq in E2. rewrite E2. change (43 =? 63) with false. change (43 =? 45) with false. cbn [orb nesting matches]. rewrite ER. left. reflexivity. }
    destruct (next r =? 45) eqn:E3.
    { rewrite orb_true_r. cbn [nesting matches]. rewrite ER. cbn [seq flat_map]. rewrite Z.add_0_r, app_nil_r. apply (skip 45 E3). lia. }
    destruct (next r =? 63) eqn:E4; cbn [orb]; cbn [nesting matches]; rewrite ER; [apply (skip 63 E4); lia|left; reflexivity].
  - destruct (from_run k s n ltac:(lia) ER) as (LT & ER1 & _).
    destruct (next r =? 42) eqn:E1.
    { apply Z.eqb_eq in E1 as E1'. rewrite E1'. change (42 =? 63) with false. change (42 =? 43) with false. cbv iota. destruct (AT 42 E1 ltac:(lia)) as [AE1 _]. cbn [nesting matches]. unfold max_expand. rewrite (count_ok p ep k SM) by (try lia; unfold slen; lia). cbn [bind]. rewrite Z.add_0_r, ER, Nat.add_0_l. eapply okl_weak; [apply max_loop_ok; [apply (cap_mono s); [exact G|lia]|lia|pose proof (run_bound k s S0); lia|exact AE1]|lia]. }
    destruct (next r =? 43) eqn:E2.
    { apply Z.eqb_eq in E2 as E2'. rewrite E2'. change (43 =? 63) with false. cbv iota. destruct (AT 43 E2 ltac:(lia)) as [AE1 _]. cbn [nesting matches]. unfold max_expand. rewrite (count_ok p ep k SM) by (try lia; unfold slen; lia). cbn [bind]. rewrite Z.add_0_r, ER1, Nat.add_0_l, ER. rewrite <- seq_shift, <- map_rev, flat_map_concat_map, map_map, <- flat_map_concat_map.
      assert (EQ : forall L, flat_map (fun n => matches src (parse (tl r)) c (s + Z.of_nat (S n))) L = flat_map (fun n => matches src (parse (tl r)) c (s + 1 + Z.of_nat n)) L) by (intros L; rewrite !flat_map_concat_map; f_equal; apply map_ext; intros a; f_equal; lia). rewrite EQ.
      eapply okl_weak; [apply max_loop_ok; [apply (cap_mono s); [exact G|lia]|lia|pose proof (run_bound k s S0); lia|exact AE1]|lia]. }
    destruct (next r =? 45) eqn:E3.
    { apply Z.eqb_eq in E3 as E3'. rewrite E3'. change (45 =? 63) with false. cbv iota. destruct (AT 45 E3 ltac:(lia)) as [AE1 _]. cbn [nesting matches]. eapply okl_weak; [apply (min_expand_ok p ep k SM); try assumption; unfold slen; lia|lia]. }
    destruct (next r =? 63) eqn:E4.
    { destruct (AT 63 E4 ltac:(lia)) as [AE1 LR]. cbn [nesting matches]. rewrite ER. apply (okl_app _ _ _ _ _ _ (fun cap => again cap s (ep + 1))); [eapply okl_weak; [apply REC; [apply (cap_mono s); [exact G|lia]|lia|exact AE1]|lia]|eapply okl_weak; [apply AG; try assumption; lia|lia]]. }
    cbn [nesting matches]. rewrite ER. apply AG; [lia|exact AE|lia].
Qed.
Lemma init_loop_ok : forall fuel c s p l, Forall (cap_ok s) c -> 0 <= s <= slen src -> At p l -> (length l < fuel)%nat ->
  okl (S d) (nesting (parse l)) c (matches src (parse l) c s) (init_loop src pat rec fuel (map enc c) s p).
Proof.
  induction fuel as [|fuel IH]; intros c s p l G S0 A F; [lia|]. cbn [init_loop]. unfold p_end. destruct l as [|x l].
  { destruct (At_nil _ A) as [-> _]. rewrite Z.eqb_refl. left. reflexivity. }
  destruct (At_cons _ _ _ A) as (LT & SB & A1 & BX). destruct (Z.eqb_spec p (slen pat)) as [|NP]; [lia|]. rewrite SB. cbn [bind]. cbn [length] in F. unfold parse. cbn [length].
  assert (DF : let t := match single (x :: l) with None => Bad | Some (k, r) =>
        if next r =? 42 then Star k (parse_n (S (length l)) (tl r)) else if next r =? 43 then Plus k (parse_n (S (length l)) (tl r)) else if next r =? 45 then Minus k (parse_n (S (length l)) (tl r))
        else if next r =? 63 then Option k (parse_n (S (length l)) (tl r)) else One k (parse_n (S (length l)) r) end in
    okl (S d) (nesting t) c (matches src t c s) (dflt src pat rec (init_loop src pat rec fuel) (map enc c) s p)).
  { pose proof (dflt_ok (init_loop src pat rec fuel) c s p x l G S0 A) as H. cbv zeta in H |- *. pose proof (single_len x l) as SL. destruct (single (x :: l)) as [[k r]|].
    - specialize (SL k r eq_refl). pose proof (tl_len r). rewrite !parse_tail by lia. apply H. intros s' q r' S' A' L'. apply IH; try assumption; [apply (cap_mono s); [exact G|lia]|lia|lia].
    - apply H. intros s' q r' S' A' L'. apply IH; try assumption; [apply (cap_mono s); [exact G|lia]|lia|lia]. }
  remember (S (length l)) as n eqn:En. cbn [parse_n]. cbv zeta in DF.
  destruct (x =? 40).
  { rewrite (At_byte _ _ A1). cbn [bind]. fold (suffix l). rewrite suffix_next by lia. assert (CAP : forall q r what w, At q r -> cap_ok s w -> enc w = (s, what) -> okl (S d) (S (nesting (parse r))) c (if 32 <=? Z.of_nat (length c) then [None] else matches src (parse r) (c ++ [w]) s) (start_capture rec (map enc c) s q what)).
    { intros q r what w AQ GW EW. unfold start_capture, MAXCAPTURES. rewrite map_length. destruct (32 <=? Z.of_nat (length c)); [left; reflexivity|]. rewrite <- EW. change [enc w] with (map enc [w]). rewrite <- map_app. destruct (REC (c ++ [w]) s q r) as [E|[E L]]; [apply Forall_app; split; [exact G|constructor; [exact GW|constructor]]|exact S0|exact AQ| |].
      - rewrite E. left. destruct (matches src (parse r) (c ++ [w]) s) as [|[[e c']|] m]; cbn [answer bind]; [|reflexivity|reflexivity]. rewrite map_app. cbn [map]. rewrite removelast_last. reflexivity.
      - rewrite E. right. split; [reflexivity|]. lia. }
    destruct (next l =? 41) eqn:E41.
    - destruct l as [|y l]; [discriminate E41|]. cbn [tl]. replace (p + 2) with (p + 1 + 1) by lia. cbn [nesting matches]. rewrite En, parse_tail by (cbn; lia). apply (CAP _ _ _ (CPos s)); [apply (At_tl _ _ _ A1)|exact S0|reflexivity].
    - cbn [nesting matches]. rewrite En, parse_tail by lia. apply (CAP _ _ _ (COpen s)); [exact A1|cbn [cap_ok]; lia|reflexivity]. }
  destruct (x =? 41).
  { cbn [nesting matches]. rewrite En, parse_tail by lia. unfold end_capture. destruct (close c s) as [c'|] eqn:EC.
    - destruct (close_some _ _ _ EC) as (c1 & j & c2 & -> & NO & ->). apply Forall_app in G. destruct G as [G1 G2]. inversion G2 as [|? ? GJ G3]; subst. rewrite (to_close_some s) by assumption. cbn [bind]. rewrite !map_app. cbn [map enc]. assert (NT : @nth capture (length c1) (map enc c1 ++ (j, -1) :: map enc c2) (0, 0) = (j, -1)) by (rewrite app_nth2 by (rewrite map_length; lia); rewrite map_length, Nat.sub_diag; reflexivity). match goal with |- context [nth (length c1) ?L ?D] => replace (nth (length c1) L D) with (j, -1) by (symmetry; exact NT) end. cbn [fst]. pose proof (map_length enc c1) as ML. rewrite <- ML. rewrite set_len_mid. rewrite ML.
      assert (G' : Forall (cap_ok s) (c1 ++ CClosed j (s - j) :: c2)) by (cbn [cap_ok] in GJ; apply Forall_app; split; [exact G1|constructor; [cbn [cap_ok]; lia|exact G3]]).
      destruct (REC (c1 ++ CClosed j (s - j) :: c2) s (p + 1) l G' S0 A1) as [E|[E L]]; rewrite map_app in E; cbn [map enc] in E; rewrite E.
      + left. destruct (matches src (parse l) (c1 ++ CClosed j (s - j) :: c2) s) as [|[[e c']|] m]; cbn [answer bind]; [|reflexivity|reflexivity]. rewrite !map_app. cbn [map enc]. rewrite <- ML, set_len_mid. reflexivity.
      + right. split; [reflexivity|lia].
    - unfold capture_to_close. rewrite map_length. rewrite (to_close_none s); [left; reflexivity|exact G|apply (close_none c s EC)|lia]. }
  destruct ((x =? 36) && (match l with [] => true | _ => false end)) eqn:E36.
  { apply andb_true_iff in E36. destruct E36 as [-> E36]. destruct l; [|discriminate]. destruct (At_nil _ A1) as [EQ _]. rewrite EQ, Z.eqb_refl. cbn [andb]. left. cbn [matches]. unfold src_end. destruct (s =? slen src); reflexivity. }
  assert (E36' : (x =? 36) && (p + 1 =? slen pat) = false). { destruct (x =? 36); [|reflexivity]. cbn [andb] in *. destruct l as [|y l]; [discriminate|]. apply At_cons in A1. destruct A1 as (L1 & _). apply Z.eqb_neq. lia. } rewrite E36'.
  destruct (Z.eqb_spec x 37) as [->|N37]; [|exact DF]. rewrite (At_byte _ _ A1). cbn [bind]. destruct l as [|y l].
  { change (0 =? 98) with false. change (0 =? 102) with false. change (isdigit 0) with false. cbv iota. exact DF. }
  destruct (At_cons _ _ _ A1) as (_ & _ & A2 & BY). replace (p + 1 + 1) with (p + 2) in A2 by lia. cbn [length] in F, En. destruct (y =? 98).
  { rewrite (matchbalance_ok s (p + 2) l S0 A2). destruct l as [|b [|e l]]; cbn [bind]; [left; reflexivity|left; reflexivity|]. cbn [nesting matches]. apply At_tl, At_tl in A2. replace (p + 2 + 1 + 1) with (p + 4) in A2 by lia. cbn [length] in F, En. rewrite En, parse_tail by lia. destruct (from src s) as [|z t] eqn:EF; [left; reflexivity|]. destruct (z =? b); [|left; reflexivity].
    destruct (balanced b e 1 t) as [k|] eqn:EB; [|left; reflexivity]. assert (SL : s < slen src) by (destruct (Z.eq_dec s (slen src)) as [->|]; [rewrite from_end in EF; discriminate|lia]). assert (BL : (k <= length t)%nat) by (apply (balanced_len b e t 1); exact EB). assert (length t = length src - Z.to_nat s - 1)%nat by (apply (f_equal (@length Z)) in EF; unfold from in EF; rewrite skipn_length in EF; cbn [length] in EF; lia).
    apply IH; [apply (cap_mono s); [exact G|lia]|unfold slen in *; lia|exact A2|lia]. }
  destruct (y =? 102).
  { rewrite (At_byte _ _ A2). cbn [bind]. fold (suffix l). rewrite suffix_next by lia. destruct (next l =? 91) eqn:E91; cbn [negb]; [|left; reflexivity]. destruct l as [|z l]; [discriminate E91|]. cbn [next tl] in *. apply Z.eqb_eq in E91. subst z. pose proof (set_ok (p + 2) l A2) as H. pose proof (set_len' l) as SL. destruct (set l) as [[k r]|]; [|rewrite H; left; reflexivity]. destruct H as (ep & -> & AE & LE & MB). specialize (SL k r eq_refl). cbn [bind length] in *. cbn [nesting matches]. rewrite En, parse_tail by lia.
    assert (EP : (if s =? 0 then Ok 0 else sbyte src (s - 1)) = Ok (if s =? 0 then 0 else char src (s - 1))) by (destruct (Z.eqb_spec s 0); [reflexivity|]; rewrite sbyte_in by lia; reflexivity). rewrite EP. cbn [bind]. rewrite MB by (destruct (s =? 0); [unfold is_byte; lia|apply wf_nth; exact WS]). cbn [bind]. destruct (mem k (if s =? 0 then 0 else char src (s - 1))); cbn [negb andb]; [left; reflexivity|]. rewrite sbyte_ok by lia. cbn [bind]. fold (char src s). rewrite MB by (apply wf_nth; exact WS). cbn [bind]. destruct (mem k (char src s)); [|left; reflexivity]. apply IH; try assumption. lia. }
  change (isdigit y) with ((48 <=? y) && (y <=? 57)). destruct ((48 <=? y) && (y <=? 57)); [|exact DF].
  rewrite match_capture_ok by assumption. cbn [nesting matches]. cbv zeta. rewrite En, parse_tail by lia. destruct ((y - 48 <=? 0) || (Z.of_nat (length c) <? y - 48)) eqn:EN; [left; reflexivity|]. apply orb_false_iff in EN. destruct EN as [N1 N2]. apply Z.leb_gt in N1. apply Z.ltb_ge in N2. assert (IN : In (nth (Z.to_nat (y - 48 - 1)) c (CPos 0)) c) by (apply nth_In; lia). destruct (nth (Z.to_nat (y - 48 - 1)) c (CPos 0)) as [i|i k|i]; cbn [bind]; [left; reflexivity| |left; reflexivity].
  pose proof G as G'. rewrite Forall_forall in G'. specialize (G' _ IN). cbn [cap_ok] in G'. destruct (list_eq_dec Z.eq_dec _ _) as [E1|N3]; [|left; reflexivity]. assert (s + k <= slen src). { apply (f_equal (@length Z)) in E1. unfold from in E1. rewrite !firstn_length, !skipn_length in E1. unfold slen in *. lia. }
  apply IH; [apply (cap_mono s); [exact G|lia]|lia|exact A2|lia].
Qed.
End REC.
Lemma match_ok : forall d c s p l, Forall (cap_ok s) c -> 0 <= s <= slen src -> At p l -> okl d (nesting (parse l)) c (matches src (parse l) c s) (match_ src pat d (map enc c) s p).
Proof.
  induction d as [|d IH]; intros c s p l G S0 A; [right; split; [reflexivity|lia]|]. cbn [match_]. apply init_loop_ok; try assumption. pose proof (At_len _ _ A). lia.
Qed.
End MATCH.

(* ---- the list of matches and the relation ---- *)
Section SUBJECT.
Variable s : list Z.
Lemma from_len : forall i, 0 <= i <= slen s -> Z.of_nat (length (from s i)) = slen s - i.
Proof. intros i I. unfold from. rewrite skipn_length. unfold slen in *. lia. Qed.
Lemma run_iff : forall k l n, (n <= run k l)%nat <-> (n <= length l)%nat /\ in_all k (firstn n l).
Proof.
  intros k. induction l as [|c l IH]; intros n; cbn [run length].
  - split; [intros H; split; [lia|]|lia]. assert (n = 0)%nat as -> by lia. intros x [].
  - destruct n as [|n]; [split; [intros _; split; [lia|intros x []]|lia]|]. cbn [firstn]. destruct (mem k c) eqn:E.
    + rewrite <- Nat.succ_le_mono, IH. split; intros [L H]; split; try lia.
      * intros x [->|IN]; [exact E|apply H; exact IN].
      * intros x IN. apply H. right. exact IN.
    + split; [lia|]. intros [_ H]. specialize (H c (or_introl eq_refl)). congruence.
Qed.
Lemma reps_run : forall k i j, 0 <= i <= slen s -> reps s k i j <-> exists n, j = i + Z.of_nat n /\ (n <= run k (from s i))%nat.
Proof.
  intros k i j I. pose proof (from_len i I) as L. unfold reps. split.
  - intros [J H]. exists (Z.to_nat (j - i)). split; [lia|]. apply run_iff. split; [lia|exact H].
  - intros (n & -> & H). apply run_iff in H. destruct H as [N H]. split; [lia|]. replace (Z.to_nat (i + Z.of_nat n - i)) with n by lia. exact H.
Qed.
Lemma balanced_iff : forall b e l k n, (1 <= k)%nat -> balanced b e k l = Some n <->
  (n <= length l)%nat /\ level b e (firstn n l) = - Z.of_nat k /\ (forall u v, firstn n l = u ++ v -> v <> [] -> - Z.of_nat k < level b e u).
Proof.
  intros b e. induction l as [|c l IH]; intros k n K.
  - cbn [balanced length]. split; [discriminate|]. intros (L & E & _). assert (n = 0)%nat as -> by lia. cbn in E. lia.
  - assert (S1 : forall n d, (exists k', (1 <= k')%nat /\ balanced b e k' l = Some n /\ Z.of_nat k' = Z.of_nat k + d) -> (if c =? e then -1 else if c =? b then 1 else 0) = d ->
       (S n <= length (c :: l))%nat /\ level b e (firstn (S n) (c :: l)) = - Z.of_nat k /\ (forall u v, firstn (S n) (c :: l) = u ++ v -> v <> [] -> - Z.of_nat k < level b e u)).
    { intros n' d (k' & K1 & E & EK) ED. apply IH in E; [|exact K1]. destruct E as (L & E & P). cbn [length firstn level]. rewrite ED. split; [lia|]. split; [lia|]. intros u v EU NV. destruct u as [|x u]; [cbn [level]; lia|]. cbn [app] in EU. injection EU as -> EU. cbn [level]. rewrite ED. specialize (P u v EU NV). lia. }
    assert (S2 : forall n k' d, (1 <= k')%nat -> Z.of_nat k' = Z.of_nat k + d -> (if c =? e then -1 else if c =? b then 1 else 0) = d ->
       (S n <= length (c :: l))%nat /\ level b e (firstn (S n) (c :: l)) = - Z.of_nat k /\ (forall u v, firstn (S n) (c :: l) = u ++ v -> v <> [] -> - Z.of_nat k < level b e u) -> balanced b e k' l = Some n).
    { intros n' k' d K1 EK ED (L & E & P). apply IH; [exact K1|]. cbn [length firstn level] in *. rewrite ED in E. split; [lia|]. split; [lia|]. intros u v EU NV. specialize (P (c :: u) v). cbn [level app] in P. rewrite ED, EU in P. specialize (P eq_refl NV). lia. }
    assert (N0 : n = 0%nat -> ~ ((n <= length (c :: l))%nat /\ level b e (firstn n (c :: l)) = - Z.of_nat k /\ (forall u v, firstn n (c :: l) = u ++ v -> v <> [] -> - Z.of_nat k < level b e u))) by (intros -> (_ & E & _); cbn in E; lia).
    cbn [balanced]. destruct (c =? e) eqn:EE.
    + destruct k as [|[|k]]; [lia| |].
      * split.
        -- intros E. injection E as <-. cbn [length firstn level]. rewrite EE. split; [lia|]. split; [lia|]. intros [|x u] v EU NV; [cbn; lia|]. injection EU as -> EU. symmetry in EU. apply app_eq_nil in EU. destruct EU as [_ ->]. congruence.
        -- intros (L & E & P). destruct n as [|n]; [exfalso; apply N0; auto|]. destruct n as [|n]; [reflexivity|]. exfalso. destruct l as [|y l]; [cbn in L; lia|]. specialize (P [c] (y :: firstn n l) eq_refl ltac:(discriminate)). cbn [level] in P. rewrite EE in P. lia.
      * cbn [pred]. split.
        -- intros E. destruct (balanced b e (S k) l) as [n'|] eqn:EB; [|discriminate]. injection E as <-. apply (S1 n' (-1)); [exists (S k); split; [lia|split; [exact EB|lia]]|reflexivity].
        -- intros H. destruct n as [|n]; [exfalso; apply N0; auto|]. rewrite (S2 n (S k) (-1)); [reflexivity|lia|lia|reflexivity|exact H].
    + destruct (c =? b) eqn:EB.
      * split.
        -- intros E. destruct (balanced b e (S k) l) as [n'|] eqn:EC; [|discriminate]. injection E as <-. apply (S1 n' 1); [exists (S k); split; [lia|split; [exact EC|lia]]|reflexivity].
        -- intros H. destruct n as [|n]; [exfalso; apply N0; auto|]. rewrite (S2 n (S k) 1); [reflexivity|lia|lia|reflexivity|exact H].
      * split.
        -- intros E. destruct (balanced b e k l) as [n'|] eqn:EC; [|discriminate]. injection E as <-. apply (S1 n' 0); [exists k; split; [lia|split; [exact EC|lia]]|reflexivity].
        -- intros H. destruct n as [|n]; [exfalso; apply N0; auto|]. rewrite (S2 n k 0); [reflexivity|lia|lia|reflexivity|exact H].
Qed.
Lemma close_split : forall c1 j c2 e, (forall x, ~ In (COpen x) c2) -> close (c1 ++ COpen j :: c2) e = Some (c1 ++ CClosed j (e - j) :: c2).
Proof.
  intros c1 j c2 e N. assert (H : close c2 e = None). { induction c2 as [|y c2 IH]; [reflexivity|]. cbn [close]. rewrite IH by (intros x IN; apply (N x); right; exact IN). destruct y; [|reflexivity|reflexivity]. exfalso. apply (N i). left. reflexivity. }
  induction c1 as [|y c1 IH]; cbn [app close]; [rewrite H; reflexivity|]. rewrite IH. reflexivity.
Qed.
(* matches stay inside the subject *)
Lemma matches_in : forall t c i e c', 0 <= i <= slen s -> Forall (cap_ok s i) c -> In (Some (e, c')) (matches s t c i) -> i <= e <= slen s /\ Forall (cap_ok s e) c'.
Proof.
  assert (M := cap_mono s).
  assert (FM : forall t c i L, (forall j e c', i <= j <= slen s -> Forall (cap_ok s j) c -> In (Some (e, c')) (matches s t c j) -> j <= e <= slen s /\ Forall (cap_ok s e) c') -> Forall (cap_ok s i) c -> 0 <= i ->
     (forall n, In n L -> i + Z.of_nat n <= slen s) -> forall e c', In (Some (e, c')) (flat_map (fun n => matches s t c (i + Z.of_nat n)) L) -> i <= e <= slen s /\ Forall (cap_ok s e) c').
  { intros t c i L IH G I0 B e c' IN. apply in_flat_map in IN. destruct IN as (n & NL & IN). specialize (B n NL). apply IH in IN; [|lia|apply (M i); [exact G|lia]]. split; [lia|apply IN]. }
  induction t as [| |t IH|t IH|t IH| |b x t IH|k t IH|n t IH|k t IH|k t IH|k t IH|k t IH|k t IH]; intros c i e c' I G IN; cbn [matches] in IN.
  - destruct IN as [E|[]]. injection E as <- <-. split; [lia|exact G].
  - destruct IN as [E|[]]. discriminate.
  - destruct (32 <=? _); [destruct IN as [E|[]]; discriminate|]. apply IH in IN; [exact IN|exact I|]. apply Forall_app. split; [exact G|constructor; [cbn [cap_ok]; lia|constructor]].
  - destruct (32 <=? _); [destruct IN as [E|[]]; discriminate|]. apply IH in IN; [exact IN|exact I|]. apply Forall_app. split; [exact G|constructor; [cbn [cap_ok]; lia|constructor]].
  - destruct (close c i) as [c1|] eqn:EC; [|destruct IN as [E|[]]; discriminate]. apply IH in IN; [exact IN|exact I|]. destruct (close_some _ _ _ EC) as (a & j & b & -> & _ & ->). apply Forall_app in G. destruct G as [G1 G2]. inversion G2 as [|? ? GJ G3]; subst. cbn [cap_ok] in GJ. apply Forall_app. split; [exact G1|constructor; [cbn [cap_ok]; lia|exact G3]].
  - destruct (i =? slen s); [|destruct IN]. destruct IN as [E|[]]. injection E as <- <-. split; [lia|exact G].
  - pose proof (from_len i I) as FL. destruct (from s i) as [|y l]; [destruct IN|]. destruct (y =? b); [|destruct IN]. destruct (balanced b x 1 l) as [n|] eqn:EB; [|destruct IN]. apply balanced_len in EB. cbn [length] in FL. apply IH in IN; [split; [lia|apply IN]|lia|apply (M i); [exact G|lia]].
  - destruct (negb _ && _); [|destruct IN]. apply IH in IN; assumption.
  - destruct ((n <=? 0) || (Z.of_nat (length c) <? n)) eqn:EN; [destruct IN as [E|[]]; discriminate|]. apply orb_false_iff in EN. destruct EN as [N1 N2]. apply Z.leb_gt in N1. apply Z.ltb_ge in N2. assert (IN' : In (nth (Z.to_nat (n - 1)) c (CPos 0)) c) by (apply nth_In; lia). rewrite Forall_forall in G. pose proof (G _ IN') as GN. rewrite <- Forall_forall in G. destruct (nth (Z.to_nat (n - 1)) c (CPos 0)) as [j|j len|j]; [destruct IN as [E|[]]; discriminate| |destruct IN]. destruct (list_eq_dec Z.eq_dec _ _) as [E1|]; [|destruct IN]. cbn [cap_ok] in GN.
    assert (i + len <= slen s). { apply (f_equal (@length Z)) in E1. unfold from in E1. rewrite !firstn_length, !skipn_length in E1. unfold slen in *. lia. }
    apply IH in IN; [split; [lia|apply IN]|lia|apply (M i); [exact G|lia]].
  - destruct (run k (from s i)) as [|r] eqn:ER; [destruct IN|]. apply from_run in ER; [|lia]. destruct ER as (LT & _). apply IH in IN; [split; [lia|apply IN]|lia|apply (M i); [exact G|lia]].
  - apply (FM t c i) in IN; [exact IN|intros j e' c1 J GJ; apply IH; [lia|exact GJ]|exact G|lia|]. intros n NL. apply in_rev in NL. apply in_seq in NL. pose proof (run_bound s k i I). lia.
  - apply (FM t c i) in IN; [exact IN|intros j e' c1 J GJ; apply IH; [lia|exact GJ]|exact G|lia|]. intros n NL. apply in_rev in NL. apply in_seq in NL. pose proof (run_bound s k i I). lia.
  - apply (FM t c i) in IN; [exact IN|intros j e' c1 J GJ; apply IH; [lia|exact GJ]|exact G|lia|]. intros n NL. apply in_seq in NL. pose proof (run_bound s k i I). lia.
  - destruct (run k (from s i)) as [|r] eqn:ER; [apply IH in IN; assumption|]. apply from_run in ER; [|lia]. destruct ER as (LT & _). apply in_app_or in IN. destruct IN as [IN|IN]; [apply IH in IN; [split; [lia|apply IN]|lia|apply (M i); [exact G|lia]]|apply IH in IN; assumption].
Qed.
Lemma matches_iff : forall t c i e c', 0 <= i <= slen s -> Forall (cap_ok s i) c -> In (Some (e, c')) (matches s t c i) <-> m s t c i c' e.
Proof.
  assert (M := cap_mono s).
  assert (FM : forall t c i L (P : nat -> Prop), (forall j e c', 0 <= j <= slen s -> Forall (cap_ok s j) c -> In (Some (e, c')) (matches s t c j) <-> m s t c j c' e) -> Forall (cap_ok s i) c -> 0 <= i ->
     (forall n, In n L <-> P n) -> (forall n, P n -> i + Z.of_nat n <= slen s) -> forall e c', In (Some (e, c')) (flat_map (fun n => matches s t c (i + Z.of_nat n)) L) <-> exists n, P n /\ m s t c (i + Z.of_nat n) c' e).
  { intros t c i L P IH G I0 PL B e c'. rewrite in_flat_map. split; intros (n & NL & IN); exists n; (split; [apply PL; exact NL|]).
    - apply IH in IN; [exact IN|apply PL in NL; specialize (B n NL); lia|apply (M i); [exact G|lia]].
    - apply IH; [specialize (B n NL); lia|apply (M i); [exact G|lia]|exact IN]. }
  induction t as [| |t IH|t IH|t IH| |b x t IH|k t IH|n t IH|k t IH|k t IH|k t IH|k t IH|k t IH]; intros c i e c' I G; cbn [matches].
  - split; [intros [E|[]]; injection E as <- <-; constructor|]. intros H. inversion H; subst. left. reflexivity.
  - split; [intros [E|[]]; discriminate|]. intros H. inversion H.
  - destruct (Z.leb_spec 32 (Z.of_nat (length c))) as [GE|LT].
    + split; [intros [E|[]]; discriminate|]. intros H. inversion H; subst. lia.
    + assert (G' : Forall (cap_ok s i) (c ++ [COpen i])) by (apply Forall_app; split; [exact G|constructor; [cbn [cap_ok]; lia|constructor]]). rewrite IH by assumption. split; [intros H; constructor; [lia|exact H]|intros H; inversion H; subst; assumption].
  - destruct (Z.leb_spec 32 (Z.of_nat (length c))) as [GE|LT].
    + split; [intros [E|[]]; discriminate|]. intros H. inversion H; subst. lia.
    + assert (G' : Forall (cap_ok s i) (c ++ [CPos i])) by (apply Forall_app; split; [exact G|constructor; [cbn [cap_ok]; lia|constructor]]). rewrite IH by assumption. split; [intros H; constructor; [lia|exact H]|intros H; inversion H; subst; assumption].
  - destruct (close c i) as [c1|] eqn:EC.
    + pose proof EC as EC'. destruct (close_some _ _ _ EC) as (a & j & b & -> & NO & ->). assert (G' : Forall (cap_ok s i) (a ++ CClosed j (i - j) :: b)). { apply Forall_app in G. destruct G as [G1 G2]. inversion G2 as [|? ? GJ G3]; subst. cbn [cap_ok] in GJ. apply Forall_app. split; [exact G1|constructor; [cbn [cap_ok]; lia|exact G3]]. }
      rewrite IH by assumption. split; [intros H; constructor; assumption|]. intros H. inversion H as [| | |t' a' j' b' i' c'' e' NO' H' ET EC1 EI| | | | | | | | |]; subst. rewrite <- EC1 in EC'. rewrite (close_split a' j' b' i NO') in EC'. injection EC' as EC'. rewrite <- EC'. exact H'.
    + split; [intros [E|[]]; discriminate|]. intros H. inversion H as [| | |t' a' j' b' i' c'' e' NO' H' ET EC1 EI| | | | | | | | |]; subst. rewrite (close_split a' j' b' i NO') in EC. discriminate.
  - destruct (Z.eqb_spec i (slen s)) as [->|NE]; [split; [intros [E|[]]; injection E as <- <-; constructor|intros H; inversion H; subst; left; reflexivity]|]. split; [intros []|]. intros H. inversion H; subst. congruence.
  - pose proof (from_len i I) as FL. split.
    + destruct (from s i) as [|y l] eqn:EF; [intros []|]. destruct (Z.eqb_spec y b) as [->|]; [|intros []]. destruct (balanced b x 1 l) as [n|] eqn:EB; [|intros []]. pose proof (balanced_len _ _ _ _ _ EB) as BL. cbn [length] in FL. intros IN. apply IH in IN; [|lia|apply (M i); [exact G|lia]]. apply (balanced_iff b x l 1 n) in EB; [|lia]. destruct EB as (_ & EL & EP).
      apply (MBalance s b x t c i (i + 1 + Z.of_nat n) c' e (firstn n l)); [lia| |exact EL| |exact IN].
      * replace (Z.to_nat (i + 1 + Z.of_nat n - i)) with (S n) by lia. rewrite EF. reflexivity.
      * intros u v EU NV. specialize (EP u v EU NV). lia.
    + intros H. inversion H as [| | | | |b' x' t' c1 i' j c2 e' w LT EW EL EP H'| | | | | | |]; subst. destruct (from s i) as [|y l] eqn:EF; [rewrite firstn_nil in EW; discriminate|]. cbn [length] in FL. destruct (Z.to_nat (j - i)) as [|n] eqn:EJ; [lia|]. cbn [firstn] in EW. injection EW as -> EW. rewrite Z.eqb_refl.
      assert (EB : balanced b x 1 l = Some n). { apply balanced_iff; [lia|]. split; [lia|]. rewrite EW. split; [exact EL|]. intros u v EU NV. specialize (EP u v EU NV). lia. }
      rewrite EB. replace (i + 1 + Z.of_nat n) with j by lia. apply IH; [lia|apply (M i); [exact G|lia]|exact H'].
  - destruct (mem k (if i =? 0 then 0 else char s (i - 1))) eqn:E1; cbn [negb andb]; [split; [intros []|intros H; inversion H; subst; congruence]|]. destruct (mem k (char s i)) eqn:E2; [|split; [intros []|intros H; inversion H; subst; congruence]]. rewrite IH by assumption. split; [intros H; constructor; assumption|intros H; inversion H; subst; assumption].
  - destruct ((n <=? 0) || (Z.of_nat (length c) <? n)) eqn:EN.
    { split; [intros [E|[]]; discriminate|]. intros H. inversion H as [| | | | | | |n' t' c1 i' j len c2 e' EC L0 LE EF H'| | | | |]; subst. assert (NE : nth_error c n' <> None) by congruence. apply nth_error_Some in NE. apply orb_true_iff in EN. destruct EN as [EN|EN]; [apply Z.leb_le in EN|apply Z.ltb_lt in EN]; lia. }
    apply orb_false_iff in EN. destruct EN as [N1 N2]. apply Z.leb_gt in N1. apply Z.ltb_ge in N2. assert (IN' : In (nth (Z.to_nat (n - 1)) c (CPos 0)) c) by (apply nth_In; lia). pose proof G as G0. rewrite Forall_forall in G0. specialize (G0 _ IN'). assert (NE : nth_error c (Z.to_nat (n - 1)) = Some (nth (Z.to_nat (n - 1)) c (CPos 0))) by (apply nth_error_nth'; lia). destruct (nth (Z.to_nat (n - 1)) c (CPos 0)) as [j|j len|j].
    + split; [intros [E|[]]; discriminate|]. intros H. inversion H as [| | | | | | |n' t' c1 i' j' len c2 e' EC L0 LE EF H'| | | | |]; subst. replace (Z.to_nat (Z.of_nat n' + 1 - 1)) with n' in NE by lia. congruence.
    + cbn [cap_ok] in G0. destruct (list_eq_dec Z.eq_dec _ _) as [E1|NEQ].
      * assert (i + len <= slen s). { apply (f_equal (@length Z)) in E1. unfold from in E1. rewrite !firstn_length, !skipn_length in E1. unfold slen in *. lia. }
        rewrite IH by (first [lia | apply (M i); [exact G|lia]]). split.
        -- intros H1. replace n with (Z.of_nat (Z.to_nat (n - 1)) + 1) by lia. apply (MBack s _ t c i j len); try assumption. lia.
        -- intros H1. inversion H1 as [| | | | | | |n' t' c1 i' j' len' c2 e' EC L0 LE EF H'| | | | |]; subst. replace (Z.to_nat (Z.of_nat n' + 1 - 1)) with n' in NE by lia. assert (EQ : CClosed j' len' = CClosed j len) by congruence. injection EQ as <- <-. exact H'.
      * split; [intros []|]. intros H1. inversion H1 as [| | | | | | |n' t' c1 i' j' len' c2 e' EC L0 LE EF H'| | | | |]; subst. replace (Z.to_nat (Z.of_nat n' + 1 - 1)) with n' in NE by lia. assert (EQ : CClosed j' len' = CClosed j len) by congruence. injection EQ as <- <-. congruence.
    + split; [intros []|]. intros H. inversion H as [| | | | | | |n' t' c1 i' j' len c2 e' EC L0 LE EF H'| | | | |]; subst. replace (Z.to_nat (Z.of_nat n' + 1 - 1)) with n' in NE by lia. congruence.
  - destruct (run k (from s i)) as [|r] eqn:ER.
    + split; [intros []|]. intros H. inversion H; subst. rewrite (from_cons s) in ER by lia. cbn [run] in ER. match goal with X : mem k (char s i) = true |- _ => rewrite X in ER end. discriminate.
    + apply from_run in ER; [|lia]. destruct ER as (LT & _ & MK). rewrite IH by (first [lia | apply (M i); [exact G|lia]]). split; [intros H; constructor; assumption|intros H; inversion H; subst; assumption].
  - rewrite (FM t c i _ (fun n => (n <= run k (from s i))%nat)); [|intros; apply IH; assumption|exact G|lia|intros n; rewrite <- in_rev, in_seq; lia|intros n N; pose proof (run_bound s k i I); lia]. split.
    + intros (n & N & H). apply (MStar s k t c i (i + Z.of_nat n)); [apply reps_run; [exact I|exists n; auto]|exact H].
    + intros H. inversion H as [| | | | | | | | |k' t' c1 i' j c2 e' R H'| | |]; subst. apply reps_run in R; [|exact I]. destruct R as (n & -> & N). exists n. auto.
  - rewrite (FM t c i _ (fun n => (1 <= n <= run k (from s i))%nat)); [|intros; apply IH; assumption|exact G|lia|intros n; rewrite <- in_rev, in_seq; lia|intros n N; pose proof (run_bound s k i I); lia]. split.
    + intros (n & N & H). apply (MPlus s k t c i (i + Z.of_nat n)); [apply reps_run; [exact I|exists n; split; [reflexivity|lia]]|lia|exact H].
    + intros H. inversion H as [| | | | | | | | | |k' t' c1 i' j c2 e' R LT H'| |]; subst. apply reps_run in R; [|exact I]. destruct R as (n & -> & N). exists n. split; [lia|exact H'].
  - rewrite (FM t c i _ (fun n => (n <= run k (from s i))%nat)); [|intros; apply IH; assumption|exact G|lia|intros n; rewrite in_seq; lia|intros n N; pose proof (run_bound s k i I); lia]. split.
    + intros (n & N & H). apply (MMinus s k t c i (i + Z.of_nat n)); [apply reps_run; [exact I|exists n; auto]|exact H].
    + intros H. inversion H as [| | | | | | | | | | |k' t' c1 i' j c2 e' R H'|]; subst. apply reps_run in R; [|exact I]. destruct R as (n & -> & N). exists n. auto.
  - assert (H1 : m s (Option k t) c i c' e <-> exists n, (n <= run k (from s i))%nat /\ (n <= 1)%nat /\ m s t c (i + Z.of_nat n) c' e).
    { split.
      - intros H. inversion H as [| | | | | | | | | | | |k' t' c1 i' j c2 e' R LE H']; subst. apply reps_run in R; [|exact I]. destruct R as (n & -> & N). exists n. split; [exact N|split; [lia|exact H']].
      - intros (n & N & N1 & H). apply (MOption s k t c i (i + Z.of_nat n)); [apply reps_run; [exact I|exists n; auto]|lia|exact H]. }
    rewrite H1. destruct (run k (from s i)) as [|r] eqn:ER.
    + rewrite IH by assumption. split; [intros H; exists O; rewrite Z.add_0_r; auto|]. intros (n & N & _ & H). assert (n = 0)%nat as -> by lia. rewrite Z.add_0_r in H. exact H.
    + apply from_run in ER; [|lia]. destruct ER as (LT & _). rewrite in_app_iff. rewrite (IH c i) by assumption. rewrite (IH c (i + 1)) by (first [lia | apply (M i); [exact G|lia]]). split.
      * intros [H|H]; [exists 1%nat; split; [lia|split; [lia|exact H]]|exists O; rewrite Z.add_0_r; split; [lia|split; [lia|exact H]]].
      * intros (n & N & N1 & H). destruct n as [|[|n]]; [right; rewrite Z.add_0_r in H; exact H|left; exact H|lia].
Qed.
End SUBJECT.
