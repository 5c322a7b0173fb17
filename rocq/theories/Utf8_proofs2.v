Require Import ZArith List Bool Lia.
From Verif Require Import Base Base_facts Str Str_facts Utf8_model Utf8_spec Utf8_proofs.
Import ListNotations.
Open Scope Z_scope.

Lemma cont_sbyte : forall s p, wf_str s -> 0 <= p <= slen s ->
  exists b, sbyte s p = Ok b /\ iscont b = contat s p.
Proof.
  intros s p W H. exists (nth (Z.to_nat p) s 0). split; [apply sbyte_ok; assumption|].
  unfold contat. apply iscont_byte. apply wf_nth. assumption.
Qed.

Lemma contat_end : forall s p, slen s <= p -> contat s p = false.
Proof. intros s p H. unfold contat. rewrite nth_overflow by (unfold slen in *; lia). reflexivity. Qed.

Lemma fwd_cont_ok : forall fuel s p, wf_str s -> 0 <= p <= slen s -> slen s - p < Z.of_nat fuel ->
  exists r, fwd_cont fuel s p = Ok r /\ p <= r <= slen s /\ contat s r = false /\
    forall q, p <= q < r -> contat s q = true.
Proof.
  induction fuel; intros s p W Hp Hf; [lia|]. cbn [fwd_cont].
  destruct (cont_sbyte s p W Hp) as (b & Eb & Cb). rewrite Eb. cbn [bind]. rewrite Cb.
  destruct (contat s p) eqn:C.
  - assert (p <> slen s) by (intros ->; rewrite contat_end in C by lia; discriminate).
    destruct (IHfuel s (p + 1) W ltac:(lia) ltac:(lia)) as (r & E & R & N & A).
    exists r. split; [assumption|]. split; [lia|]. split; [assumption|].
    intros q Hq. destruct (Z.eq_dec q p); [subst; assumption|]. apply A. lia.
  - exists p. split; [reflexivity|]. split; [lia|]. split; [assumption|]. intros; lia.
Qed.

Lemma back_cont_ok : forall fuel s p, wf_str s -> 0 <= p <= slen s -> p <= Z.of_nat fuel ->
  exists r, back_cont fuel s p = Ok r /\ 0 <= r <= p /\ (r = 0 \/ contat s r = false) /\
    forall q, r < q <= p -> contat s q = true.
Proof.
  induction fuel; intros s p W Hp Hf; cbn [back_cont].
  - assert (p = 0) by lia. subst. exists 0. repeat split; auto; lia.
  - destruct (Z.ltb_spec 0 p); cbn [negb].
    + destruct (cont_sbyte s p W Hp) as (b & Eb & Cb). rewrite Eb. cbn [bind]. rewrite Cb.
      destruct (contat s p) eqn:C.
      * destruct (IHfuel s (p - 1) W ltac:(lia) ltac:(lia)) as (r & E & R & N & A).
        exists r. split; [assumption|]. split; [lia|]. split; [assumption|].
        intros q Hq. destruct (Z.eq_dec q p); [subst; assumption|]. apply A. lia.
      * exists p. split; [reflexivity|]. split; [lia|]. split; [auto|]. intros; lia.
    + assert (p = 0) by lia. subst. exists 0. repeat split; auto; lia.
Qed.

Lemma cnt_add : forall j k s a, cnt s a (j + k) = cnt s a j + cnt s (a + Z.of_nat j) k.
Proof.
  induction j; intros k s a.
  - simpl. rewrite Z.add_0_r. reflexivity.
  - cbn [Nat.add cnt]. rewrite IHj. replace (a + 1 + Z.of_nat j) with (a + Z.of_nat (S j)) by lia. lia.
Qed.

Lemma nstarts_split : forall s a b c, a <= b <= c -> nstarts s a c = nstarts s a b + nstarts s b c.
Proof.
  intros s a b c H. unfold nstarts.
  replace (Z.to_nat (c - a)) with (Z.to_nat (b - a) + Z.to_nat (c - b))%nat by lia.
  rewrite cnt_add. do 2 f_equal. lia.
Qed.

Lemma cnt_zero : forall k s a, (forall q, a <= q < a + Z.of_nat k -> contat s q = true) -> cnt s a k = 0.
Proof.
  induction k; intros s a H; [reflexivity|]. cbn [cnt]. rewrite H by lia. rewrite IHk; [reflexivity|].
  intros q Hq. apply H. lia.
Qed.

Lemma cnt_nonneg : forall k s a, 0 <= cnt s a k.
Proof. induction k; intros; cbn [cnt]; [lia|]. specialize (IHk s (a+1)). destruct (contat s a); lia. Qed.

Lemma nstarts_one : forall s a, nstarts s a (a + 1) = if contat s a then 0 else 1.
Proof.
  intros. unfold nstarts. replace (Z.to_nat (a + 1 - a)) with 1%nat by lia. cbn [cnt].
  destruct (contat s a); lia.
Qed.

Lemma nstarts_zero : forall s a b, (forall q, a <= q < b -> contat s q = true) -> nstarts s a b = 0.
Proof. intros s a b H. apply cnt_zero. intros q Hq. apply H. lia. Qed.

Lemma nstarts_nonneg : forall s a b, 0 <= nstarts s a b.
Proof. intros. apply cnt_nonneg. Qed.

(* moving forward *)
Lemma move_fwd_ok : forall fuel s n p, wf_str s -> 0 <= p <= slen s -> contat s p = false -> 0 <= n ->
  slen s - p <= Z.of_nat fuel ->
  exists n' r, move_fwd fuel s n p = Ok (n', r) /\ p <= r <= slen s /\ 0 <= n' /\ contat s r = false /\
    nstarts s p r = n - n' /\ (0 < n' -> r = slen s).
Proof.
  induction fuel; intros s n p W Hp C Hn Hf; cbn [move_fwd].
  - rewrite (ltb_f p) by lia. rewrite andb_false_r. cbn [negb].
    exists n, p. repeat split; auto; try lia. rewrite nstarts_zero; [lia|intros; lia].
  - destruct (Z.ltb_spec 0 n); cbn [andb negb].
    + destruct (Z.ltb_spec p (slen s)); cbn [negb].
      * destruct (fwd_cont_ok (S (length s)) s (p + 1) W) as (r & E & R & N & A); [lia|unfold slen in *; lia|].
        rewrite E. cbn [bind].
        destruct (IHfuel s (n - 1) r W ltac:(lia) N ltac:(lia) ltac:(lia)) as (n' & r' & E' & R' & P' & N' & C' & F').
        exists n', r'. split; [assumption|]. split; [lia|]. split; [assumption|]. split; [assumption|].
        split; [|assumption].
        rewrite (nstarts_split s p (p + 1) r') by lia. rewrite (nstarts_split s (p + 1) r r') by lia.
        rewrite nstarts_one, C, (nstarts_zero s (p + 1) r A). lia.
      * exists n, p. repeat split; auto; try lia. rewrite nstarts_zero; [lia|intros; lia].
    + exists n, p. repeat split; auto; try lia. rewrite nstarts_zero; [lia|intros; lia].
Qed.

Lemma move_back_ok : forall fuel s n p, wf_str s -> 0 <= p <= slen s -> n <= 0 -> contat s 0 = false ->
  (contat s p = false) -> p <= Z.of_nat fuel ->
  exists n' r, move_back fuel s n p = Ok (n', r) /\ 0 <= r <= p /\ n' <= 0 /\ contat s r = false /\
    nstarts s r p = n' - n /\ (n' < 0 -> r = 0).
Proof.
  induction fuel; intros s n p W Hp Hn C0 C Hf; cbn [move_back].
  - rewrite (ltb_f 0) by lia. rewrite andb_false_r. cbn [negb].
    exists n, p. repeat split; auto; try lia. rewrite nstarts_zero; [lia|intros; lia].
  - destruct (Z.ltb_spec n 0); cbn [andb negb].
    + destruct (Z.ltb_spec 0 p); cbn [negb].
      * destruct (back_cont_ok (length s) s (p - 1) W) as (r & E & R & N & A); [lia|unfold slen in *; lia|].
        rewrite E. cbn [bind].
        assert (Cr : contat s r = false) by (destruct N as [->|N]; assumption).
        destruct (IHfuel s (n + 1) r W ltac:(lia) ltac:(lia) C0 Cr ltac:(lia)) as (n' & r' & E' & R' & P' & N' & C' & F').
        exists n', r'. split; [assumption|]. split; [lia|]. split; [assumption|]. split; [assumption|].
        split; [|assumption].
        rewrite (nstarts_split s r' r p) by lia. rewrite (nstarts_split s r (r + 1) p) by lia.
        rewrite nstarts_one, Cr, (nstarts_zero s (r + 1) p); [lia|]. intros q Hq. apply A. lia.
      * exists n, p. repeat split; auto; try lia. rewrite nstarts_zero; [lia|intros; lia].
    + exists n, p. repeat split; auto; try lia. rewrite nstarts_zero; [lia|intros; lia].
Qed.

(* utf8.offset: starting position i (absolute, 1-based) *)
Definition off_start (s : list Z) (n : Z) (i : option Z) : Z :=
  abs_pos (match i with Some x => x | None => if 0 <=? n then 1 else slen s + 1 end) (slen s).

Lemma off_unfold : forall s n i, slen s < maxint -> (forall x, i = Some x -> is_s64 x) ->
  byteoffset s n i =
  (let posi1 := off_start s n i in
  if negb ((1 <=? posi1) && (posi1 - 1 <=? slen s)) then Err EArg else
  let posi := posi1 - 1 in
  bind (if n =? 0 then bind (back_cont (length s) s posi) (fun p => Ok (0, p))
        else bind (sbyte s posi) (fun b =>
             if iscont b then Err EFormat
             else if n <? 0 then move_back (length s) s n posi
             else move_fwd (length s) s (n - 1) posi)) (fun '(n', p) =>
  Ok (if n' =? 0 then Some (p + 1) else None))).
Proof.
  intros s n i L Hi. unfold byteoffset, off_start. pose proof (slen_nonneg s).
  rewrite posrelat_ok; [reflexivity| |lia].
  destruct i; [apply Hi; reflexivity|]. destruct (0 <=? n); unfold_consts; lia.
Qed.

Theorem offset_range : forall s n i, wf_str s -> slen s < maxint -> is_s64 n -> (forall x, i = Some x -> is_s64 x) ->
  ~ (1 <= off_start s n i <= slen s + 1) -> byteoffset s n i = Err EArg.
Proof.
  intros s n i W L Hn Hi Hr. rewrite off_unfold by assumption. cbn zeta.
  destruct (Z.leb_spec 1 (off_start s n i)); [|reflexivity].
  destruct (Z.leb_spec (off_start s n i - 1) (slen s)); [lia|reflexivity].
Qed.

Theorem offset_cont : forall s n i, wf_str s -> slen s < maxint -> is_s64 n -> (forall x, i = Some x -> is_s64 x) ->
  1 <= off_start s n i <= slen s + 1 -> n <> 0 -> contat s (off_start s n i - 1) = true ->
  byteoffset s n i = Err EFormat.
Proof.
  intros s n i W L Hn Hi Hr N C. rewrite off_unfold by assumption. cbn zeta.
  destruct (Z.leb_spec 1 (off_start s n i)); [|lia].
  destruct (Z.leb_spec (off_start s n i - 1) (slen s)); [|lia]. cbn [andb negb].
  destruct (Z.eqb_spec n 0); [lia|].
  destruct (cont_sbyte s (off_start s n i - 1) W ltac:(lia)) as (b & Eb & Cb). rewrite Eb. cbn [bind]. rewrite Cb. rewrite C. reflexivity.
Qed.

Theorem offset_pos : forall s n i, wf_str s -> slen s < maxint -> is_s64 n -> (forall x, i = Some x -> is_s64 x) ->
  1 <= off_start s n i <= slen s + 1 -> 0 < n -> contat s (off_start s n i - 1) = false ->
  let p := off_start s n i - 1 in
  (exists r, byteoffset s n i = Ok (Some (r + 1)) /\ p <= r <= slen s /\ contat s r = false /\ nstarts s p r = n - 1)
  \/ (byteoffset s n i = Ok None /\ nstarts s p (slen s + 1) < n).
Proof.
  intros s n i W L Hn Hi Hr N C p. rewrite off_unfold by assumption. cbn zeta.
  destruct (Z.leb_spec 1 (off_start s n i)); [|lia].
  destruct (Z.leb_spec (off_start s n i - 1) (slen s)); [|lia]. cbn [andb negb].
  destruct (Z.eqb_spec n 0); [lia|]. fold p. fold p in C.
  destruct (cont_sbyte s p W ltac:(lia)) as (b & Eb & Cb). rewrite Eb. cbn [bind]. rewrite Cb. rewrite C.
  rewrite ltb_f by lia.
  destruct (move_fwd_ok (length s) s (n - 1) p W ltac:(lia) C ltac:(lia)) as (n' & r & E & R & P & Cr & K & F).
  { unfold slen in *. lia. }
  rewrite E. cbn [bind]. destruct (Z.eqb_spec n' 0).
  - left. exists r. repeat split; auto; lia.
  - right. split; [reflexivity|]. rewrite (F ltac:(lia)) in *.
    rewrite (nstarts_split s p (slen s) (slen s + 1)) by lia. rewrite nstarts_one, Cr. lia.
Qed.

Theorem offset_neg : forall s n i, wf_str s -> slen s < maxint -> is_s64 n -> (forall x, i = Some x -> is_s64 x) ->
  contat s 0 = false ->
  1 <= off_start s n i <= slen s + 1 -> n < 0 -> contat s (off_start s n i - 1) = false ->
  let p := off_start s n i - 1 in
  (exists r, byteoffset s n i = Ok (Some (r + 1)) /\ 0 <= r <= p /\ contat s r = false /\ nstarts s r p = - n)
  \/ (byteoffset s n i = Ok None /\ nstarts s 0 p < - n).
Proof.
  intros s n i W L Hn Hi C0 Hr N C p. rewrite off_unfold by assumption. cbn zeta.
  destruct (Z.leb_spec 1 (off_start s n i)); [|lia].
  destruct (Z.leb_spec (off_start s n i - 1) (slen s)); [|lia]. cbn [andb negb].
  destruct (Z.eqb_spec n 0); [lia|]. fold p. fold p in C.
  destruct (cont_sbyte s p W ltac:(lia)) as (b & Eb & Cb). rewrite Eb. cbn [bind]. rewrite Cb. rewrite C.
  rewrite ltb_t by lia.
  destruct (move_back_ok (length s) s n p W ltac:(lia) ltac:(lia) C0 C) as (n' & r & E & R & P & Cr & K & F).
  { unfold slen in *. lia. }
  rewrite E. cbn [bind]. destruct (Z.eqb_spec n' 0).
  - left. exists r. repeat split; auto; lia.
  - right. split; [reflexivity|]. rewrite (F ltac:(lia)) in *. lia.
Qed.

Theorem offset_zero : forall s i, wf_str s -> slen s < maxint -> (forall x, i = Some x -> is_s64 x) ->
  1 <= off_start s 0 i <= slen s + 1 ->
  exists r, byteoffset s 0 i = Ok (Some (r + 1)) /\ 0 <= r <= off_start s 0 i - 1 /\
    (r = 0 \/ contat s r = false) /\ forall q, r < q <= off_start s 0 i - 1 -> contat s q = true.
Proof.
  intros s i W L Hi Hr. rewrite off_unfold by assumption. cbn zeta.
  destruct (Z.leb_spec 1 (off_start s 0 i)); [|lia].
  destruct (Z.leb_spec (off_start s 0 i - 1) (slen s)); [|lia]. cbn [andb negb].
  change (0 =? 0) with true. cbv iota.
  destruct (back_cont_ok (length s) s (off_start s 0 i - 1) W) as (r & E & R & N & A); [lia|unfold slen in *; lia|].
  rewrite E. cbn [bind]. change (0 =? 0) with true. cbv iota. exists r. auto.
Qed.

(* utf8.codes *)
Lemma start_list_skip : forall s a r e, a <= r <= e -> (forall q, a <= q < r -> contat s q = true) ->
  start_list s a (Z.to_nat (e - a)) = start_list s r (Z.to_nat (e - r)).
Proof.
  intros s a r e H A. remember (Z.to_nat (r - a)) as k. revert a H A Heqk.
  induction k; intros a H A Heqk.
  - assert (a = r) by lia. subst. reflexivity.
  - replace (Z.to_nat (e - a)) with (S (Z.to_nat (e - (a + 1)))) by lia. cbn [start_list].
    rewrite A by lia. simpl. apply IHk; try lia. intros q Hq. apply A. lia.
Qed.

(* the loop, when the next position is n *)
Definition next_is (s : list Z) (prev n : Z) : Prop :=
  -1 <= prev - 1 <= slen s /\
  (if prev - 1 <? 0 then Ok 0
   else if prev - 1 <? slen s then fwd_cont (S (length s)) s (prev - 1 + 1) else Ok (prev - 1)) = Ok n.

Lemma iter_next : forall s prev n strict, slen s < maxint -> next_is s prev n ->
  iter_aux s prev strict =
  if slen s <=? n then Ok None
  else bind (utf8_decode s n strict) (fun r =>
       match r with
       | None => Err EFormat
       | Some (code, _) => Ok (Some (n + 1, code))
       end).
Proof.
  intros s prev n strict L [R H]. unfold iter_aux. rewrite c_signed_ok by (unfold_consts; lia).
  cbn [bind]. rewrite H. reflexivity.
Qed.

Lemma codes_loop_ok : forall fuel s prev n strict, wf_str s -> ~ has_ff s -> slen s < maxint ->
  next_is s prev n -> 0 <= n <= slen s -> (n = 0 \/ contat s n = false) -> slen s - n < Z.of_nat fuel ->
  (exists l, codes_loop fuel s prev strict = Ok l /\
     map (fun pc => fst pc - 1) l = start_list s n (Z.to_nat (slen s - n)) /\
     Forall (fun pc => char_at strict s (fst pc - 1) (snd pc)) l)
  \/ (codes_loop fuel s prev strict = Err EFormat /\
      exists p, n <= p < slen s /\ (p = 0 \/ contat s p = false) /\ forall x, ~ char_at strict s p x).
Proof.
  induction fuel; intros s prev n strict W NF L NX Hn Hc Hf; [lia|]. cbn [codes_loop].
  rewrite (iter_next s prev n strict L NX).
  destruct (Z.leb_spec (slen s) n).
  - cbn [bind]. left. exists []. split; [reflexivity|]. split; [|constructor].
    replace (Z.to_nat (slen s - n)) with O by lia. reflexivity.
  - destruct (no_ff_decode s n strict W NF ltac:(lia)) as [r E]. rewrite E. cbn [bind].
    destruct r as [[x next]|].
    + destruct (decode_sound s n strict x next W ltac:(lia) E) as [C _].
      destruct (fwd_cont_ok (S (length s)) s (n + 1) W) as (m & Em & Rm & Nm & Am); [lia|unfold slen in *; lia|].
      assert (NX' : next_is s (n + 1) m).
      { split; [lia|]. replace (n + 1 - 1) with n by lia. rewrite ltb_f by lia. rewrite ltb_t by lia. assumption. }
      assert (Cn : contat s n = false).
      { destruct Hc as [->|Hc]; [|assumption]. destruct C as (_ & [Rx _] & rest & Ex).
        rewrite skipn_0_Z in Ex. destruct (utf8_cont_tail x Rx) as (b & t & Eb & Hb & _).
        unfold contat. rewrite Ex, Eb. simpl.
        destruct (Z.leb_spec 128 b); destruct (Z.ltb_spec b 192); simpl; auto; lia. }
      destruct (IHfuel s (n + 1) m strict W NF L NX' ltac:(lia) ltac:(auto) ltac:(lia)) as [(l & El & Ml & Fl)|(El & p & Pp & Cp & Np)].
      * left. exists ((n + 1, x) :: l). cbn [bind]. rewrite El. split; [reflexivity|]. split.
        -- cbn [map fst]. rewrite Ml. replace (n + 1 - 1) with n by lia.
           replace (Z.to_nat (slen s - n)) with (S (Z.to_nat (slen s - (n + 1)))) by lia.
           cbn [start_list]. rewrite Cn. simpl. f_equal. symmetry. apply start_list_skip; [lia|assumption].
        -- constructor; [|assumption]. cbn [fst snd]. replace (n + 1 - 1) with n by lia. assumption.
      * right. cbn [bind]. rewrite El. split; [reflexivity|]. exists p. split; [lia|]. auto.
    + right. split; [reflexivity|]. exists n. split; [lia|]. split; [assumption|].
      apply decode_none; auto. lia.
Qed.

Theorem codes_ok : forall s strict, wf_str s -> ~ has_ff s -> slen s < maxint ->
  (exists l, codes s strict = Ok l /\
     map (fun pc => fst pc - 1) l = start_list s 0 (length s) /\
     Forall (fun pc => char_at strict s (fst pc - 1) (snd pc)) l)
  \/ (codes s strict = Err EFormat /\
      exists p, 0 <= p < slen s /\ (p = 0 \/ contat s p = false) /\ forall x, ~ char_at strict s p x).
Proof.
  intros s strict W NF L. pose proof (slen_nonneg s). unfold codes.
  assert (NX : next_is s 0 0) by (split; [lia|reflexivity]).
  pose proof (codes_loop_ok (S (length s)) s 0 0 strict W NF L NX ltac:(lia) ltac:(auto) ltac:(unfold slen; lia)) as K.
  replace (Z.to_nat (slen s - 0)) with (length s) in K by (unfold slen; lia). exact K.
Qed.

(* start positions of an encoded string *)
Lemma contat_app : forall strict s p x rest, 0 <= p -> skipn (Z.to_nat p) s = utf8 x ++ rest -> code_ok strict x ->
  contat s p = false /\ forall q, p < q < p + slen (utf8 x) -> contat s q = true.
Proof.
  intros strict s p x rest Hp E [Rx _]. destruct (utf8_cont_tail x Rx) as (b & t & Eb & Hb & Ht).
  rewrite Eb in *. split.
  - unfold contat. replace (Z.to_nat p) with (Z.to_nat p + 0)%nat by lia. rewrite <- nth_skipn_Z, E. simpl.
    destruct (Z.leb_spec 128 b); destruct (Z.ltb_spec b 192); simpl; auto; lia.
  - intros q Hq. rewrite slen_cons in Hq. unfold slen in Hq. unfold contat.
    replace (Z.to_nat q) with (Z.to_nat p + S (Z.to_nat (q - p - 1)))%nat by lia.
    rewrite <- nth_skipn_Z, E. cbn [app nth].
    rewrite app_nth1 by lia. rewrite Forall_forall in Ht.
    specialize (Ht (nth (Z.to_nat (q - p - 1)) t 0) ltac:(apply nth_In; lia)).
    destruct (Z.leb_spec 128 (nth (Z.to_nat (q - p - 1)) t 0)); [|lia].
    destruct (Z.ltb_spec (nth (Z.to_nat (q - p - 1)) t 0) 192); [reflexivity|lia].
Qed.

Lemma encode_starts : forall xs s p, Forall (code_ok false) xs -> 0 <= p <= slen s ->
  skipn (Z.to_nat p) s = encode xs -> start_list s p (Z.to_nat (slen s - p)) = starts p xs.
Proof.
  induction xs; intros s p F Hp E.
  - assert (p = slen s).
    { pose proof (slen_skipn s p Hp) as L. rewrite E in L. change (slen (encode [])) with 0 in L. lia. }
    subst. rewrite Z.sub_diag. reflexivity.
  - inversion F; subst. unfold encode in E. cbn [map concat] in E.
    destruct (contat_app false s p a _ (proj1 Hp) E H1) as [C0 C1].
    destruct (skipn_app_Z s p _ _ Hp E) as [E2 L2]. pose proof (utf8_len a).
    replace (Z.to_nat (slen s - p)) with (S (Z.to_nat (slen s - (p + 1)))) by lia.
    cbn [start_list starts]. rewrite C0. cbn [app]. f_equal. fold (slen (utf8 a)).
    rewrite (start_list_skip s (p + 1) (p + slen (utf8 a)) (slen s)); [|lia|].
    + apply IHxs; auto. lia.
    + intros q Hq. apply C1. lia.
Qed.

Theorem codes_encode : forall xs strict, Forall (code_ok strict) xs -> slen (encode xs) < maxint ->
  codes (encode xs) strict = Ok (combine (map (fun p => p + 1) (starts 0 xs)) xs).
Proof.
  intros xs strict F L. assert (FL := Forall_lax _ _ F).
  assert (ST : start_list (encode xs) 0 (length (encode xs)) = starts 0 xs).
  { replace (length (encode xs)) with (Z.to_nat (slen (encode xs) - 0)) by (unfold slen; lia).
    apply encode_starts; auto. pose proof (slen_nonneg (encode xs)). lia. }
  assert (CH : forall ys s p, Forall (code_ok strict) ys -> 0 <= p <= slen s -> skipn (Z.to_nat p) s = encode ys ->
     forall q x, In (q, x) (combine (starts p ys) ys) -> char_at strict s q x).
  { induction ys; intros s p FY Hp E q x I; [inversion I|]. inversion FY; subst.
    unfold encode in E. cbn [map concat] in E. destruct (skipn_app_Z s p _ _ Hp E) as [E2 L2].
    pose proof (utf8_len a). cbn [starts combine] in I. destruct I as [I|I].
    - inversion I; subst. split; [lia|]. split; [assumption|]. eauto.
    - eapply (IHys s (p + slen (utf8 a))); eauto. lia. }
  destruct (codes_ok (encode xs) strict (encode_wf _ FL) (encode_no_ff _ FL) L) as [(l & E & M & C)|(E & p & Hp & Cp & Np)].
  - rewrite E. f_equal. rewrite ST in M.
    assert (SN : map snd l = xs).
    { specialize (CH xs (encode xs) 0 F). pose proof (slen_nonneg (encode xs)).
      specialize (CH ltac:(lia) eq_refl). clear E ST. revert l M C CH. generalize (encode xs) as s. generalize 0 as p0. clear.
      induction xs; intros p0 s l M C CH.
      - destruct l; [reflexivity|discriminate].
      - destruct l as [|[q y] l]; [discriminate|]. cbn [map starts fst] in M. injection M as M1 M2.
        pose proof (Forall_inv C) as C1. pose proof (Forall_inv_tail C) as C2. cbn [map snd]. f_equal.
        + cbn [fst snd] in *. rewrite M1 in C1. eapply char_at_det; [exact C1|]. apply CH. left. reflexivity.
        + eapply IHxs; [exact M2|exact C2|]. intros q' x' I. apply CH. right. assumption. }
    rewrite <- SN at 2. rewrite <- M. clear. induction l as [|[a b] l]; [reflexivity|].
    cbn [map combine fst snd]. rewrite <- IHl. f_equal. f_equal. lia.
  - exfalso. assert (I : In p (starts 0 xs)).
    { destruct Hp as [P0 P1]. rewrite <- ST.
      assert (C : contat (encode xs) p = false).
      { destruct Cp as [->|]; [|assumption]. destruct xs; [change (slen (encode [])) with 0 in P1; lia|].
        inversion FL; subst. eapply (contat_app false _ 0 z (encode xs)); [lia|reflexivity|assumption]. }
      assert (G : forall k s a q, a <= q < a + Z.of_nat k -> contat s q = false -> In q (start_list s a k)).
      { induction k; intros s a q Hq Cq; [lia|]. cbn [start_list]. apply in_or_app.
        destruct (Z.eq_dec q a) as [->|]; [left; rewrite Cq; left; reflexivity|]. right. apply IHk; auto. lia. }
      apply G; auto. }
    assert (J : exists x, In (p, x) (combine (starts 0 xs) xs)).
    { clear -I. revert I. generalize 0 as a. induction xs; intros a' I; [inversion I|].
      cbn [starts combine] in *. destruct I as [->|I]; [exists a; left; reflexivity|].
      destruct (IHxs _ I) as [x Hx]. exists x. right. assumption. }
    destruct J as [x J]. apply (Np x). pose proof (slen_nonneg (encode xs)).
    exact (CH xs (encode xs) 0 F ltac:(lia) eq_refl p x J).
Qed.

(* offset on encoded strings: the n-th character *)
Lemma nstarts_starts : forall xs s p k, Forall (code_ok false) xs -> 0 <= p <= slen s ->
  skipn (Z.to_nat p) s = encode xs -> (k <= length xs)%nat ->
  let r := nth k (starts p xs ++ [slen s]) 0 in
  p <= r <= slen s /\ nstarts s p r = Z.of_nat k /\ contat s r = false.
Proof.
  induction xs; intros s p k F Hp E Hk; cbn zeta.
  - assert (p = slen s).
    { pose proof (slen_skipn s p Hp) as L. rewrite E in L. change (slen (encode [])) with 0 in L. lia. }
    subst. assert (k = O) by (simpl in Hk; lia). subst. simpl. split; [lia|]. split; [|apply contat_end; lia].
    apply nstarts_zero. intros; lia.
  - inversion F; subst. unfold encode in E. cbn [map concat] in E.
    destruct (contat_app false s p a _ (proj1 Hp) E H1) as [C0 C1].
    destruct (skipn_app_Z s p _ _ Hp E) as [E2 L2]. pose proof (utf8_len a).
    destruct k.
    + cbn [starts app nth]. split; [lia|]. split; [|assumption]. apply nstarts_zero. intros; lia.
    + cbn [starts app nth]. fold (slen (utf8 a)).
      destruct (IHxs s (p + slen (utf8 a)) k H2 ltac:(lia) E2 ltac:(simpl in Hk; lia)) as (R & N & C).
      split; [lia|]. split; [|assumption].
      rewrite (nstarts_split s p (p + slen (utf8 a)) _) by lia. rewrite N.
      rewrite (nstarts_split s p (p + 1) (p + slen (utf8 a))) by lia. rewrite nstarts_one, C0.
      rewrite (nstarts_zero s (p + 1)); [lia|]. intros q Hq. apply C1. lia.
Qed.

Lemma nstarts_strict : forall s a b r, a <= b -> b < r -> contat s b = false -> nstarts s a b < nstarts s a r.
Proof.
  intros s a b r Hb Hr C. rewrite (nstarts_split s a b r) by lia. rewrite (nstarts_split s b (b + 1) r) by lia.
  rewrite nstarts_one, C. pose proof (nstarts_nonneg s (b + 1) r). lia.
Qed.

Theorem offset_encode : forall xs n, Forall (code_ok false) xs -> slen (encode xs) < maxint -> is_s64 n -> 1 <= n ->
  byteoffset (encode xs) n None =
    Ok (if n <=? Z.of_nat (length xs) + 1
        then Some (nth (Z.to_nat (n - 1)) (starts 0 xs ++ [slen (encode xs)]) 0 + 1) else None).
Proof.
  intros xs n F L Sn Hn. pose proof (slen_nonneg (encode xs)) as NN.
  assert (O : off_start (encode xs) n None = 1).
  { unfold off_start. destruct (Z.leb_spec 0 n); [reflexivity|lia]. }
  assert (C0 : contat (encode xs) 0 = false).
  { destruct xs; [reflexivity|]. inversion F; subst.
    eapply (contat_app false _ 0 z (encode xs)); [lia|reflexivity|assumption]. }
  assert (W := encode_wf xs F).
  destruct (offset_pos (encode xs) n None W L Sn ltac:(discriminate) ltac:(rewrite O; lia) ltac:(lia)) as [(r & E & R & C & N)|(E & N)].
  { rewrite O. exact C0. }
  - rewrite E. rewrite O in *. change (1 - 1) with 0 in *.
    destruct (Z.leb_spec n (Z.of_nat (length xs) + 1)).
    + destruct (nstarts_starts xs (encode xs) 0 (Z.to_nat (n - 1)) F ltac:(lia) eq_refl ltac:(lia)) as (R2 & N2 & C2).
      set (r2 := nth (Z.to_nat (n - 1)) (starts 0 xs ++ [slen (encode xs)]) 0) in *.
      do 3 f_equal. destruct (Z.lt_trichotomy r r2) as [K|[K|K]]; [|assumption|].
      * pose proof (nstarts_strict (encode xs) 0 r r2 ltac:(lia) K C). lia.
      * pose proof (nstarts_strict (encode xs) 0 r2 r ltac:(lia) K C2). lia.
    + exfalso. destruct (nstarts_starts xs (encode xs) 0 (length xs) F ltac:(lia) eq_refl ltac:(lia)) as (R2 & N2 & C2).
      assert (T : nth (length xs) (starts 0 xs ++ [slen (encode xs)]) 0 = slen (encode xs)).
      { rewrite app_nth2 by (rewrite starts_length; lia). rewrite starts_length, Nat.sub_diag. reflexivity. }
      rewrite T in *.
      assert (nstarts (encode xs) 0 r <= nstarts (encode xs) 0 (slen (encode xs))).
      { rewrite (nstarts_split _ 0 r (slen (encode xs))) by lia. pose proof (nstarts_nonneg (encode xs) r (slen (encode xs))). lia. }
      lia.
  - rewrite E. rewrite O in *. change (1 - 1) with 0 in *.
    destruct (Z.leb_spec n (Z.of_nat (length xs) + 1)); [|reflexivity].
    exfalso. destruct (nstarts_starts xs (encode xs) 0 (length xs) F ltac:(lia) eq_refl ltac:(lia)) as (R2 & N2 & C2).
    assert (T : nth (length xs) (starts 0 xs ++ [slen (encode xs)]) 0 = slen (encode xs)).
    { rewrite app_nth2 by (rewrite starts_length; lia). rewrite starts_length, Nat.sub_diag. reflexivity. }
    rewrite T in *. rewrite (nstarts_split _ 0 (slen (encode xs))) in N by lia.
    rewrite nstarts_one, C2 in N. lia.
Qed.
