Require Import ZArith List Bool Lia.
From Verif Require Import Base Base_facts Tablib_model Tablib_spec.
Import ListNotations.
Open Scope Z_scope.

Section T.
Variable V : Type.
Variable nil : V.
Notation tab := (tab V). Notation seti := (seti V).
Lemma seti_same : forall t i v, seti t i v i = v. Proof. intros. unfold Tablib_model.seti. rewrite Z.eqb_refl. reflexivity. Qed.
Lemma seti_other : forall t i v x, x <> i -> seti t i v x = t x. Proof. intros. unfold Tablib_model.seti. destruct (Z.eqb_spec x i); congruence. Qed.

Lemma shift_up_ok : forall fuel t i pos, i - pos <= Z.of_nat fuel -> 0 <= pos -> pos <= i <= maxint ->
  exists t', shift_up V fuel t i pos = Ok t' /\ (forall x, pos < x <= i -> t' x = t (x - 1)) /\ (forall x, ~ pos < x <= i -> t' x = t x).
Proof.
  induction fuel as [|f IH]; intros t i pos F P R; cbn [shift_up]; destruct (Z.ltb_spec pos i) as [L|G].
  - lia.
  - exists t. split; [reflexivity|]. split; [intros; lia|reflexivity].
  - rewrite c_signed_ok by (unfold is_s64; unfold_consts; unfold maxint in R; lia). cbn [bind].
    destruct (IH (seti t i (t (i - 1))) (i - 1) pos ltac:(lia) P ltac:(lia)) as (t' & E & A & B). exists t'. split; [assumption|]. split.
    + intros x X. destruct (Z.eq_dec x i) as [->|NE]; [rewrite B by lia; apply seti_same|]. rewrite A by lia. apply seti_other. lia.
    + intros x X. rewrite B by lia. apply seti_other. lia.
  - exists t. split; [reflexivity|]. split; [intros; lia|reflexivity].
Qed.
Lemma shift_down_ok : forall fuel t pos size, size - pos <= Z.of_nat fuel -> minint <= pos -> pos <= size <= maxint ->
  exists t', shift_down V fuel t pos size = Ok (t', size) /\ (forall x, pos <= x < size -> t' x = t (x + 1)) /\ (forall x, ~ pos <= x < size -> t' x = t x).
Proof.
  induction fuel as [|f IH]; intros t pos size F P R; cbn [shift_down]; destruct (Z.ltb_spec pos size) as [L|G].
  - lia.
  - exists t. replace pos with size by lia. split; [reflexivity|]. split; [intros; lia|reflexivity].
  - rewrite c_signed_ok by (unfold is_s64; lia). cbn [bind].
    destruct (IH (seti t pos (t (pos + 1))) (pos + 1) size ltac:(lia) ltac:(lia) ltac:(lia)) as (t' & E & A & B). exists t'. split; [assumption|]. split.
    + intros x X. destruct (Z.eq_dec x pos) as [->|NE]; [rewrite B by lia; apply seti_same|]. rewrite A by lia. apply seti_other. lia.
    + intros x X. rewrite B by lia. apply seti_other. lia.
  - exists t. replace pos with size by lia. split; [reflexivity|]. split; [intros; lia|reflexivity].
Qed.
Lemma copy_up_ok : forall k src dst f t n i, n - i <= Z.of_nat k -> 0 <= i <= n -> minint <= f -> minint <= t -> f + n - 1 <= maxint -> t + n - 1 <= maxint ->
  (src = None -> t <= f \/ f + n - 1 < t) ->
  exists d', copy_up V k src dst f t n i = Ok d' /\
  forall x, d' x = if (t + i <=? x) && (x <? t + n) then (match src with Some s => s | None => dst end) (f + (x - t)) else dst x.
Proof.
  induction k as [|k IH]; intros src dst f t n i F R F0 T0 F1 T1 O; cbn [copy_up]; destruct (Z.ltb_spec i n) as [L|G]; try lia.
  1,3: exists dst; split; [reflexivity|]; intros x; destruct (Z.leb_spec (t + i) x); destruct (Z.ltb_spec x (t + n)); cbn [andb]; try reflexivity; lia.
  rewrite !c_signed_ok by (unfold is_s64; lia). cbn [bind].
  set (v := match src with Some s => s (f + i) | None => dst (f + i) end).
  destruct (IH src (seti dst (t + i) v) f t n (i + 1) ltac:(lia) ltac:(lia) F0 T0 F1 T1 O) as (d' & E & H). exists d'. split; [assumption|].
  intros x. rewrite H. destruct (Z.leb_spec (t + (i + 1)) x) as [A|A]; destruct (Z.ltb_spec x (t + n)) as [B|B]; cbn [andb].
  - destruct (Z.leb_spec (t + i) x); [|lia]. cbn [andb]. destruct src; [reflexivity|]. apply seti_other. specialize (O eq_refl). lia.
  - rewrite seti_other by lia. rewrite andb_false_r. reflexivity.
  - destruct (Z.leb_spec (t + i) x); cbn [andb]; [|apply seti_other; lia]. assert (x = t + i) by lia. subst x. rewrite seti_same. unfold v. replace (f + (t + i - t)) with (f + i) by lia. destruct src; reflexivity.
  - lia.
Qed.
Lemma copy_down_ok : forall k src dst f t i, i < Z.of_nat k -> -1 <= i -> minint <= f -> minint <= t -> f + i <= maxint -> t + i <= maxint ->
  (src = None -> f < t) ->
  exists d', copy_down V k src dst f t i = Ok d' /\
  forall x, d' x = if (t <=? x) && (x <=? t + i) then (match src with Some s => s | None => dst end) (f + (x - t)) else dst x.
Proof.
  induction k as [|k IH]; intros src dst f t i F R F0 T0 F1 T1 O; cbn [copy_down]; destruct (Z.leb_spec 0 i) as [L|G]; try lia.
  1,3: exists dst; split; [reflexivity|]; intros x; destruct (Z.leb_spec t x); destruct (Z.leb_spec x (t + i)); cbn [andb]; try reflexivity; lia.
  rewrite !c_signed_ok by (unfold is_s64; lia). cbn [bind].
  set (v := match src with Some s => s (f + i) | None => dst (f + i) end).
  destruct (IH src (seti dst (t + i) v) f t (i - 1) ltac:(lia) ltac:(lia) F0 T0 ltac:(lia) ltac:(lia) O) as (d' & E & H). exists d'. split; [assumption|].
  intros x. rewrite H. destruct (Z.leb_spec x (t + (i - 1))) as [B|B]; destruct (Z.leb_spec t x) as [A|A]; cbn [andb].
  - destruct (Z.leb_spec x (t + i)); [|lia]. destruct src; [reflexivity|]. apply seti_other. specialize (O eq_refl). lia.
  - rewrite seti_other by lia. reflexivity.
  - destruct (Z.leb_spec x (t + i)); [|apply seti_other; lia]. assert (x = t + i) by lia. subst x. rewrite seti_same. unfold v. replace (f + (t + i - t)) with (f + i) by lia. destruct src; reflexivity.
  - apply seti_other. lia.
Qed.
End T.

(* C26 *)
Lemma insert_ok : forall V t (l : list V) n p v fuel, holds t l -> n = Z.of_nat (length l) -> n < maxint -> n <= Z.of_nat fuel ->
  let q := match p with Some p => p | None => n + 1 end in
  (1 <= q <= n + 1 -> exists t', tinsert V fuel t n p v = Ok t' /\
     holds t' (firstn (Z.to_nat (q - 1)) l ++ v :: skipn (Z.to_nat (q - 1)) l) /\ same_outside 1 (n + 1) t t') /\
  (~ 1 <= q <= n + 1 -> tinsert V fuel t n p v = Err EArg).
Proof.
  intros V t l n p v fuel H NL NM F q. assert (N0 : 0 <= n) by lia. unfold tinsert. rewrite c_signed_ok by (unfold is_s64, minint; lia). cbn [bind].
  assert (FIN : forall t', 1 <= q <= n + 1 -> (forall x, q < x <= n + 1 -> t' x = t (x - 1)) -> (forall x, ~ q < x <= n + 1 -> t' x = t x) ->
    holds (seti V t' q v) (firstn (Z.to_nat (q - 1)) l ++ v :: skipn (Z.to_nat (q - 1)) l) /\ same_outside 1 (n + 1) t (seti V t' q v)).
  { intros t' Q A B. assert (LF : length (firstn (Z.to_nat (q - 1)) l) = Z.to_nat (q - 1)) by (rewrite firstn_length; lia). split.
    - intros i w E. destruct (Nat.lt_trichotomy i (Z.to_nat (q - 1))) as [L|[->|G]].
      + rewrite nth_error_app1 in E by lia. rewrite seti_other by lia. rewrite B by lia. apply H. rewrite <- E. clear - L. revert i L. generalize (Z.to_nat (q - 1)). revert l.
        induction l as [|x l IH]; intros [|m] [|i] L; try lia; cbn; try reflexivity. apply IH. lia.
      + rewrite nth_error_app2 in E by lia. replace (Z.to_nat (q - 1) - length (firstn (Z.to_nat (q - 1)) l))%nat with O in E by lia. cbn in E. injection E as ->.
        replace (Z.of_nat (Z.to_nat (q - 1)) + 1) with q by lia. apply seti_same.
      + rewrite nth_error_app2 in E by lia. rewrite LF in E. replace (i - Z.to_nat (q - 1))%nat with (S (i - 1 - Z.to_nat (q - 1))) in E by lia. cbn [nth_error] in E.
        assert (E2 : nth_error l (i - 1) = Some w).
        { rewrite <- E. clear - G. replace (i - 1)%nat with (Z.to_nat (q - 1) + (i - 1 - Z.to_nat (q - 1)))%nat at 1 by lia. generalize (i - 1 - Z.to_nat (q - 1))%nat as k. generalize (Z.to_nat (q - 1)) as m. clear. revert l.
          induction l as [|x l IH]; intros [|m] k; cbn; try reflexivity; [destruct k; reflexivity|apply IH]. }
        assert (i - 1 < length l)%nat by (apply nth_error_Some; congruence). rewrite seti_other by lia. rewrite A by lia. rewrite <- (H _ _ E2). f_equal. lia.
    - intros i I. rewrite seti_other by lia. apply B. lia. }
  destruct p as [p|]; cbn in q; subst q.
  - split.
    + intros Q. destruct (Z.leb_spec 1 p); [|lia]. destruct (Z.leb_spec p (n + 1)); [|lia]. cbn [andb].
      destruct (shift_up_ok V fuel t (n + 1) p ltac:(lia) ltac:(lia) ltac:(lia)) as (t' & E & A & B). rewrite E. cbn [bind]. eexists. split; [reflexivity|]. apply FIN; auto.
    + intros Q. destruct ((1 <=? p) && (p <=? n + 1)) eqn:X; [|reflexivity]. apply andb_prop in X. destruct X as [X Y]. apply Z.leb_le in X. apply Z.leb_le in Y. lia.
  - split; [|lia]. intros Q. eexists. split; [reflexivity|]. apply FIN; [assumption|intros; lia|reflexivity].
Qed.
Lemma remove_ok : forall V nil t (l : list V) n p fuel, holds t l -> n = Z.of_nat (length l) -> n < maxint -> n <= Z.of_nat fuel ->
  let q := match p with Some p => p | None => n end in
  (1 <= q <= n -> exists t', tremove V nil fuel t n p = Ok (t q, t') /\
     holds t' (firstn (Z.to_nat (q - 1)) l ++ skipn (Z.to_nat q) l) /\ t' n = nil /\ same_outside 1 n t t') /\
  (q = n + 1 \/ n = 0 /\ q = 0 -> exists t', tremove V nil fuel t n p = Ok (t q, t') /\ t' q = nil /\ forall i, i <> q -> t' i = t i) /\
  (~ 1 <= q <= n + 1 -> q <> n -> tremove V nil fuel t n p = Err EArg).
Proof.
  intros V nil t l n p fuel H NL NM F q. assert (N0 : 0 <= n) by lia. unfold tremove. fold q. clearbody q.
  assert (OK : forall X (a b : outcome X), (if q =? n then Ok true else if 1 <=? q then bind (c_signed (n + 1)) (fun e => Ok (q <=? e)) else Ok false) = Ok ((q =? n) || (1 <=? q) && (q <=? n + 1))).
  { intros _ _ _. destruct (q =? n); [reflexivity|]. destruct (1 <=? q); [|reflexivity]. rewrite c_signed_ok by (unfold is_s64, minint; lia). reflexivity. }
  rewrite (OK nat UB UB). cbn [bind]. clear OK. split; [|split].
  - intros Q. destruct (Z.leb_spec 1 q); [|lia]. destruct (Z.leb_spec q (n + 1)); [|lia]. cbn [andb]. rewrite orb_true_r.
    destruct (shift_down_ok V fuel t q n ltac:(lia) ltac:(unfold minint; lia) ltac:(lia)) as (t' & E & A & B). rewrite E. cbn [bind]. eexists. split; [reflexivity|]. split; [|split].
    + intros i w EI. assert (LF : length (firstn (Z.to_nat (q - 1)) l) = Z.to_nat (q - 1)) by (rewrite firstn_length; lia).
      assert (IL : (i < length (firstn (Z.to_nat (q - 1)) l ++ skipn (Z.to_nat q) l))%nat) by (apply nth_error_Some; congruence). rewrite app_length, LF, skipn_length in IL.
      destruct (Nat.lt_ge_cases i (Z.to_nat (q - 1))) as [L|G].
      * rewrite nth_error_app1 in EI by lia. rewrite seti_other by lia. rewrite B by lia. apply H. rewrite <- EI. clear - L. revert i L. generalize (Z.to_nat (q - 1)). revert l.
        induction l as [|x l IH]; intros [|m] [|i] L; try lia; cbn; try reflexivity. apply IH. lia.
      * rewrite nth_error_app2 in EI by lia. rewrite LF in EI.
        assert (E2 : nth_error l (i + 1) = Some w).
        { rewrite <- EI. replace (i + 1)%nat with (Z.to_nat q + (i - Z.to_nat (q - 1)))%nat by lia. generalize (i - Z.to_nat (q - 1))%nat as k. generalize (Z.to_nat q) as m. clear. revert l.
          induction l as [|x l IH]; intros [|m] k; cbn; try reflexivity; [destruct k; reflexivity|apply IH]. }
        rewrite seti_other by lia. rewrite A by lia. rewrite <- (H _ _ E2). f_equal. lia.
    + apply seti_same.
    + intros i I. rewrite seti_other by lia. apply B. lia.
  - intros Q. replace ((q =? n) || (1 <=? q) && (q <=? n + 1)) with true.
    2:{ symmetry. destruct (Z.eqb_spec q n); [reflexivity|]. destruct (Z.leb_spec 1 q); [|lia]. destruct (Z.leb_spec q (n + 1)); [reflexivity|lia]. }
    assert (SD : shift_down V fuel t q n = Ok (t, q)) by (destruct fuel; cbn [shift_down]; destruct (Z.ltb_spec q n); try lia; reflexivity). rewrite SD. cbn [bind]. eexists. split; [reflexivity|]. split; [apply seti_same|]. intros i I. apply seti_other. assumption.
  - intros Q NE. destruct (Z.eqb_spec q n); [contradiction|]. destruct (Z.leb_spec 1 q); cbn [andb orb]; [|reflexivity]. destruct (Z.leb_spec q (n + 1)); [lia|reflexivity].
Qed.
(* the source is another table, or the destination itself *)
Lemma move_ok : forall V src (dst : Z -> V) f e t other eq fuel, is_s64 f -> is_s64 e -> is_s64 t -> e - f < Z.of_nat fuel ->
  (src = None -> other = true -> eq = true) ->
  let from := match src with Some s => s | None => dst end in
  (e < f -> tmove V fuel src dst f e t other eq = Ok dst) /\
  (f <= e -> e - f + 1 <= maxint -> t + (e - f) <= maxint -> exists d', tmove V fuel src dst f e t other eq = Ok d' /\
     (forall k, 0 <= k <= e - f -> d' (t + k) = from (f + k)) /\ same_outside t (t + (e - f)) dst d') /\
  (f <= e -> ~ (e - f + 1 <= maxint /\ t + (e - f) <= maxint) -> tmove V fuel src dst f e t other eq = Err EArg).
Proof.
  intros V src dst f e t other eq fuel SF SE ST FU OE from. unfold is_s64 in *. unfold tmove. split; [|split].
  - intros L. destruct (Z.leb_spec f e); [lia|reflexivity].
  - intros L M T. destruct (Z.leb_spec f e); [|lia].
    assert (OK : (if 0 <? f then Ok true else bind (c_signed (maxint + f)) (fun m => Ok (e <? m))) = Ok true).
    { destruct (Z.ltb_spec 0 f); [reflexivity|]. rewrite c_signed_ok by (unfold is_s64, minint, maxint in *; lia). cbn [bind]. destruct (Z.ltb_spec e (maxint + f)); [reflexivity|lia]. }
    rewrite OK. cbn [bind]. rewrite c_signed_ok by (unfold is_s64, minint, maxint in *; lia). cbn [bind]. rewrite c_signed_ok by (unfold is_s64, minint, maxint in *; lia). cbn [bind].
    rewrite c_signed_ok by (unfold is_s64, minint, maxint in *; lia). cbn [bind]. rewrite c_signed_ok by (unfold is_s64, minint, maxint in *; lia). cbn [bind].
    destruct (Z.leb_spec t (maxint - (e - f + 1) + 1)); [|lia].
    destruct ((e <? t) || (t <=? f) || (other && negb eq)) eqn:B.
    + destruct (copy_up_ok V fuel src dst f t (e - f + 1) 0 ltac:(lia) ltac:(lia) ltac:(lia) ltac:(lia) ltac:(lia) ltac:(lia)) as (d' & E & D).
      { intros SN. apply orb_prop in B. destruct B as [B|B]; [apply orb_prop in B; destruct B as [B|B]; [apply Z.ltb_lt in B|apply Z.leb_le in B]; lia|].
        apply andb_prop in B. destruct B as [B1 B2]. rewrite (OE SN B1) in B2. discriminate. }
      exists d'. split; [assumption|]. split.
      * intros k K. rewrite D. destruct (Z.leb_spec (t + 0) (t + k)); [|lia]. destruct (Z.ltb_spec (t + k) (t + (e - f + 1))); [|lia]. cbn [andb]. unfold from. replace (f + (t + k - t)) with (f + k) by lia. reflexivity.
      * intros i I. rewrite D. destruct (Z.leb_spec (t + 0) i); destruct (Z.ltb_spec i (t + (e - f + 1))); cbn [andb]; try reflexivity. lia.
    + apply orb_false_elim in B. destruct B as [B _]. apply orb_false_elim in B. destruct B as [B1 B2]. apply Z.leb_gt in B2.
      destruct (copy_down_ok V fuel src dst f t (e - f + 1 - 1) ltac:(lia) ltac:(lia) ltac:(lia) ltac:(lia) ltac:(lia) ltac:(lia) ltac:(intros; lia)) as (d' & E & D).
      exists d'. split; [assumption|]. split.
      * intros k K. rewrite D. destruct (Z.leb_spec t (t + k)); [|lia]. destruct (Z.leb_spec (t + k) (t + (e - f + 1 - 1))); [|lia]. cbn [andb]. unfold from. replace (f + (t + k - t)) with (f + k) by lia. reflexivity.
      * intros i I. rewrite D. destruct (Z.leb_spec t i); destruct (Z.leb_spec i (t + (e - f + 1 - 1))); cbn [andb]; try reflexivity. lia.
  - intros L M. destruct (Z.leb_spec f e); [|lia]. destruct (Z.ltb_spec 0 f) as [P|P]; cbn [bind].
    + rewrite c_signed_ok by (unfold is_s64, minint, maxint in *; lia). cbn [bind]. rewrite c_signed_ok by (unfold is_s64, minint, maxint in *; lia). cbn [bind].
      rewrite c_signed_ok by (unfold is_s64, minint, maxint in *; lia). cbn [bind]. rewrite c_signed_ok by (unfold is_s64, minint, maxint in *; lia). cbn [bind].
      destruct (Z.leb_spec t (maxint - (e - f + 1) + 1)); [lia|reflexivity].
    + rewrite c_signed_ok by (unfold is_s64, minint, maxint in *; lia). cbn [bind]. destruct (Z.ltb_spec e (maxint + f)); [|reflexivity].
      rewrite c_signed_ok by (unfold is_s64, minint, maxint in *; lia). cbn [bind]. rewrite c_signed_ok by (unfold is_s64, minint, maxint in *; lia). cbn [bind].
      rewrite c_signed_ok by (unfold is_s64, minint, maxint in *; lia). cbn [bind]. rewrite c_signed_ok by (unfold is_s64, minint, maxint in *; lia). cbn [bind].
      destruct (Z.leb_spec t (maxint - (e - f + 1) + 1)); [lia|reflexivity].
Qed.

Lemma concat_loop_ok : forall V str (t : Z -> V) sep last k b i fuel, last - i = Z.of_nat k -> last - i <= Z.of_nat fuel -> minint <= i -> last <= maxint ->
  match concat_loop V str fuel t sep b i last with
  | Ok (b', i') => i' = last /\ exists l, map str (slice t i k) = map Some l /\ b' = b ++ concat (map (fun s => s ++ sep) l)
  | Err e => e = EType /\ exists j, i <= j < last /\ str (t j) = None
  | _ => False
  end.
Proof.
  intros V str t sep last. induction k as [|k IH]; intros b i fuel K F I L.
  - assert (i = last) by lia. subst i. destruct fuel; cbn [concat_loop]; rewrite Z.ltb_irrefl; split; try reflexivity; exists []; cbn; rewrite app_nil_r; auto.
  - destruct fuel as [|f]; [lia|]. cbn [concat_loop slice map]. destruct (Z.ltb_spec i last); [|lia]. unfold addfield. destruct (str (t i)) as [s|] eqn:E; cbn [bind].
    + rewrite c_signed_ok by (unfold is_s64; lia). cbn [bind]. specialize (IH ((b ++ s) ++ sep) (i + 1) f ltac:(lia) ltac:(lia) ltac:(lia) L).
      destruct (concat_loop V str f t sep ((b ++ s) ++ sep) (i + 1) last) as [[b' i']|e| |]; try contradiction.
      * destruct IH as (-> & l & M & ->). split; [reflexivity|]. exists (s :: l). cbn [map concat]. rewrite M. split; [reflexivity|]. rewrite !app_assoc. reflexivity.
      * destruct IH as (-> & j & J & EJ). split; [reflexivity|]. exists j. split; [lia|assumption].
    + split; [reflexivity|]. exists i. split; [lia|assumption].
Qed.
Lemma slice_last : forall V (t : Z -> V) k i, slice t i (S k) = slice t i k ++ [t (i + Z.of_nat k)].
Proof.
  intros V t. induction k as [|k IH]; intros i; [cbn; rewrite Z.add_0_r; reflexivity|]. change (slice t i (S (S k))) with (t i :: slice t (i + 1) (S k)). rewrite IH. cbn [slice app]. replace (i + 1 + Z.of_nat k) with (i + Z.of_nat (S k)) by lia. reflexivity.
Qed.
Lemma join_last : forall A (sep : list A) l s, join sep (l ++ [s]) = concat (map (fun s => s ++ sep) l) ++ s.
Proof.
  intros A sep l s. induction l as [|x l IH]; [reflexivity|]. cbn [app map concat]. rewrite <- !app_assoc. rewrite <- IH. destruct l; reflexivity.
Qed.
Lemma concat_ok : forall V str (t : Z -> V) n sep i j fuel, is_s64 n ->
  let a := match i with Some i => i | None => 1 end in let b := match j with Some j => j | None => n end in
  is_s64 a -> is_s64 b -> b - a <= Z.of_nat fuel ->
  match tconcat V str fuel t n sep i j with
  | Ok r => exists l, map str (slice t a (Z.to_nat (b - a + 1))) = map Some l /\ r = join sep l
  | Err e => e = EType /\ exists k, a <= k <= b /\ str (t k) = None
  | _ => False
  end.
Proof.
  intros V str t n sep i j fuel SN a b SA SB F. unfold tconcat. fold a b. clearbody a b. unfold is_s64 in *. destruct (Z_lt_le_dec b a) as [L|G].
  - assert (E : concat_loop V str fuel t sep [] a b = Ok ([], a)) by (destruct fuel; cbn [concat_loop]; destruct (Z.ltb_spec a b); try lia; reflexivity). rewrite E. cbn [bind].
    destruct (Z.eqb_spec a b); [lia|]. replace (Z.to_nat (b - a + 1)) with O by lia. exists []. auto.
  - pose proof (concat_loop_ok V str t sep b (Z.to_nat (b - a)) [] a fuel ltac:(lia) ltac:(lia) ltac:(lia) ltac:(lia)) as H.
    destruct (concat_loop V str fuel t sep [] a b) as [[r x]|e| |]; try contradiction; cbn [bind].
    + destruct H as (-> & l & M & ->). rewrite Z.eqb_refl. unfold addfield. replace (Z.to_nat (b - a + 1)) with (S (Z.to_nat (b - a))) by lia. rewrite slice_last. replace (a + Z.of_nat (Z.to_nat (b - a))) with b by lia.
      destruct (str (t b)) as [s|] eqn:E.
      * exists (l ++ [s]). rewrite !map_app. cbn [map]. rewrite M, E. split; [reflexivity|]. rewrite join_last. reflexivity.
      * split; [reflexivity|]. exists b. split; [lia|assumption].
    + destruct H as (-> & k & K & E). split; [reflexivity|]. exists k. split; [lia|assumption].
Qed.

(* C55 *)
Lemma push_loop_ok : forall V (t : Z -> V) e k acc i fuel, e - i = Z.of_nat k -> (k <= fuel)%nat -> minint <= i -> e <= maxint -> push_loop V fuel t acc i e = Ok (acc ++ slice t i k).
Proof.
  intros V t e. induction k as [|k IH]; intros acc i fuel K F I E.
  - assert (i = e) by lia. subst i. destruct fuel; cbn [push_loop]; rewrite Z.ltb_irrefl; cbn; rewrite app_nil_r; reflexivity.
  - destruct fuel as [|f]; [lia|]. cbn [push_loop]. destruct (Z.ltb_spec i e); [|lia]. rewrite c_signed_ok by (unfold is_s64; lia). cbn [bind]. rewrite (IH (acc ++ [t i]) (i + 1) f) by lia. cbn [slice]. rewrite <- app_assoc. reflexivity.
Qed.
Lemma unpack_ok : forall V (t : Z -> V) n i j room fuel, is_s64 n ->
  let a := match i with Some i => i | None => 1 end in let b := match j with Some j => j | None => n end in
  is_s64 a -> is_s64 b -> two31 <= Z.of_nat fuel ->
  unpack V fuel room t n i j = if b <? a then Ok [] else if (b - a + 1 <? two31) && (b - a + 1 <=? room) then Ok (slice t a (Z.to_nat (b - a + 1))) else Err ETooLong.
Proof.
  intros V t n i j room fuel SN a b SA SB F. unfold unpack. fold a b. clearbody a b. unfold is_s64 in *. destruct (Z.ltb_spec b a) as [L|G]; [reflexivity|].
  assert (U : u64 (u64 b - u64 a) = b - a). { unfold u64. rewrite <- Zminus_mod. apply Z.mod_small. unfold two64, minint, maxint in *. lia. }
  rewrite U. destruct (Z.leb_spec (two31 - 1) (b - a)); cbn [orb].
  - destruct (Z.ltb_spec (b - a + 1) two31); [lia|]. reflexivity.
  - destruct (Z.ltb_spec (b - a + 1) two31); [|lia]. cbn [andb]. destruct (Z.ltb_spec room (b - a + 1)); destruct (Z.leb_spec (b - a + 1) room); try lia; [reflexivity|].
    rewrite (push_loop_ok V t b (Z.to_nat (b - a)) [] a fuel) by lia. cbn [bind app]. replace (Z.to_nat (b - a + 1)) with (S (Z.to_nat (b - a))) by lia. rewrite slice_last. do 4 f_equal. lia.
Qed.
Lemma pack_loop_ok : forall V (args : list V) t, exists t', pack_loop V t (rev args) (Z.of_nat (length args)) = t' /\ (forall i v, nth_error args i = Some v -> t' (Z.of_nat i + 1) = v) /\ same_outside 1 (Z.of_nat (length args)) t t'.
Proof.
  intros V args. induction args as [|v args IH] using rev_ind; intros t.
  - eexists. split; [reflexivity|]. cbn. split; [intros [|i] w E; discriminate|]. intros i I. reflexivity.
  - rewrite rev_app_distr, app_length. cbn [rev app pack_loop length]. replace (Z.of_nat (length args + 1) - 1) with (Z.of_nat (length args)) by lia.
    destruct (IH (seti V t (Z.of_nat (length args + 1)) v)) as (t' & E & A & B). exists t'. split; [assumption|]. split.
    + intros i w EI. destruct (Nat.lt_ge_cases i (length args)) as [L|G]; [apply A; rewrite nth_error_app1 in EI by lia; assumption|].
      rewrite nth_error_app2 in EI by lia. destruct (i - length args)%nat as [|m] eqn:D; [|destruct m; discriminate]. cbn in EI. injection EI as ->. rewrite B by lia. replace (Z.of_nat i + 1) with (Z.of_nat (length args + 1)) by lia. apply seti_same.
    + intros i I. rewrite B by lia. apply seti_other. lia.
Qed.
Lemma pack_ok : forall V nil (args : list V), exists t, pack V nil args = (t, Z.of_nat (length args)) /\ holds t args /\ forall i, ~ 1 <= i <= Z.of_nat (length args) -> t i = nil.
Proof.
  intros V nil args. destruct (pack_loop_ok V args (fun _ => nil)) as (t' & E & A & B). exists t'. unfold pack. rewrite E. split; [reflexivity|]. split; [exact A|exact B].
Qed.
Lemma slice_holds : forall V (t : Z -> V) l, holds t l -> slice t 1 (length l) = l.
Proof.
  intros V t l H. assert (G : forall l' k, (forall i v, nth_error l' i = Some v -> t (k + Z.of_nat i) = v) -> slice t k (length l') = l').
  { induction l' as [|x l' IH]; intros k HK; [reflexivity|]. cbn [length slice]. f_equal; [rewrite <- (HK O x eq_refl); f_equal; lia|]. apply IH. intros i v E. rewrite <- (HK (S i) v E). f_equal. lia. }
  apply G. intros i v E. rewrite <- (H i v E). f_equal. lia.
Qed.
Lemma unpack_pack : forall V nil (args : list V) room fuel, Z.of_nat (length args) < two31 -> Z.of_nat (length args) <= room -> two31 <= Z.of_nat fuel ->
  unpack V fuel room (fst (pack V nil args)) (snd (pack V nil args)) None None = Ok args.
Proof.
  intros V nil args room fuel L R F. destruct (pack_ok V nil args) as (t & E & H & _). rewrite E. cbn [fst snd]. rewrite unpack_ok; [|unfold is_s64, minint, maxint, two31 in *; lia|unfold is_s64, minint, maxint; lia|unfold is_s64, minint, maxint, two31 in *; lia|assumption].
  cbv zeta. destruct (Z.ltb_spec (Z.of_nat (length args)) 1) as [Z0|Z0]; [destruct args; [reflexivity|cbn [length] in Z0; lia]|].
  destruct (Z.ltb_spec (Z.of_nat (length args) - 1 + 1) two31); [|lia]. destruct (Z.leb_spec (Z.of_nat (length args) - 1 + 1) room); [|lia]. cbn [andb].
  replace (Z.to_nat (Z.of_nat (length args) - 1 + 1)) with (length args) by lia. rewrite (slice_holds V t args H). reflexivity.
Qed.
