Require Import ZArith List Bool Lia.
From Verif Require Import Base Base_facts Str Str_facts Ctype_model Ctype_proofs Num_model Num_spec.
Import ListNotations.
Open Scope Z_scope.

(* ---- splitting at the first byte which fails a test ---- *)
Fixpoint tw (p : Z -> bool) (t : list Z) : list Z := match t with c :: t' => if p c then c :: tw p t' else [] | [] => [] end.
Fixpoint dw (p : Z -> bool) (t : list Z) : list Z := match t with c :: t' => if p c then dw p t' else t | [] => [] end.
Definition stops (p : Z -> bool) (t : list Z) : Prop := match t with c :: _ => p c = false | [] => True end.

Lemma tw_dw : forall p t, t = tw p t ++ dw p t.
Proof. induction t as [|c t IH]; cbn; [reflexivity|]. destruct (p c); cbn; [rewrite <- IH|]; reflexivity. Qed.
Lemma tw_all : forall p t, Forall (fun c => p c = true) (tw p t).
Proof. induction t as [|c t IH]; cbn; [constructor|]. destruct (p c) eqn:E; constructor; assumption. Qed.
Lemma dw_stops : forall p t, stops p (dw p t).
Proof. induction t as [|c t IH]; cbn; [exact I|]. destruct (p c) eqn:E; [assumption|exact E]. Qed.
Lemma tw_app : forall p a b, Forall (fun c => p c = true) a -> stops p b -> tw p (a ++ b) = a.
Proof.
  induction a as [|c a IH]; intros b F S; cbn.
  - destruct b as [|d b]; [reflexivity|]. cbn in *. rewrite S. reflexivity.
  - inversion F; subst. rewrite H1, IH by assumption. reflexivity.
Qed.
Lemma dw_app : forall p a b, Forall (fun c => p c = true) a -> stops p b -> dw p (a ++ b) = b.
Proof.
  induction a as [|c a IH]; intros b F S; cbn.
  - destruct b as [|d b]; [reflexivity|]. cbn in *. rewrite S. reflexivity.
  - inversion F; subst. rewrite H1. apply IH; assumption.
Qed.

Lemma skip_spaces_dw : forall t, skip_spaces t = dw lisspace t.
Proof. induction t as [|c t IH]; cbn; [reflexivity|]. rewrite IH. reflexivity. Qed.
Lemma span_spaces_dw : forall t, span_spaces t = dw spacechar t.
Proof. induction t as [|c t IH]; [reflexivity|]. cbn [span_spaces dw]. rewrite IH. reflexivity. Qed.

Lemma space_iff : forall c, ascii_space c = true <-> space c.
Proof.
  intros c. unfold ascii_space, space. rewrite orb_true_iff, andb_true_iff, !Z.leb_le, Z.eqb_eq. reflexivity.
Qed.
Lemma lisspace_iff : forall c, is_byte c -> (lisspace c = true <-> space c).
Proof. intros c B. rewrite lisspace_ok by exact B. apply space_iff. Qed.
Lemma spacechar_iff : forall c, spacechar c = true <-> space c.
Proof.
  intros c. unfold spacechar, space. cbn [existsb]. rewrite !orb_true_iff, !Z.eqb_eq.
  split; [intros H; repeat (destruct H as [H|H]); try discriminate; lia|].
  intros [H|H]; [|auto]. assert (C : c = 9 \/ c = 10 \/ c = 11 \/ c = 12 \/ c = 13) by lia. intuition.
Qed.

Lemma Forall_iff : forall (P Q : Z -> Prop) l, (forall c, In c l -> (P c <-> Q c)) -> (Forall P l <-> Forall Q l).
Proof. intros P Q l H. rewrite !Forall_forall. split; intros F x I; apply (H x I); auto. Qed.

(* ---- digits ---- *)
Definition dv (c : Z) : Z := if c <=? 57 then c - 48 else if c <=? 90 then c - 55 else c - 87.
Definition dok (base c : Z) : Prop := exists d, digit_val c d /\ d < base.
Lemma digit_val_dv : forall c d, digit_val c d -> d = dv c /\ 0 <= d < 36.
Proof.
  intros c d [[H ->]|[[H ->]|[H ->]]]; unfold dv; destruct (Z.leb_spec c 57); destruct (Z.leb_spec c 90); lia.
Qed.
Lemma dok_dv : forall b c, dok b c -> digit_val c (dv c) /\ 0 <= dv c < b.
Proof. intros b c (d & D & L). destruct (digit_val_dv c d D) as [-> R]. split; [assumption|lia]. Qed.

Definition fold (base a : Z) (ds : list Z) : Z := fold_left (fun a c => a * base + dv c) ds a.
Lemma fold_cons : forall b a c ds, fold b a (c :: ds) = fold b (a * b + dv c) ds.
Proof. reflexivity. Qed.
Lemma fold_app : forall b a x y, fold b a (x ++ y) = fold b (fold b a x) y.
Proof. intros. unfold fold. apply fold_left_app. Qed.

Lemma numeral_iff : forall base ds v, numeral base ds v <-> ds <> [] /\ Forall (dok base) ds /\ v = fold base 0 ds.
Proof.
  intros base ds v. split.
  - intros H. induction H as [c d D L|ds v c d H IH D L].
    + split; [discriminate|]. split; [constructor; [exists d; auto|constructor]|]. cbn. destruct (digit_val_dv c d D). assumption.
    + destruct IH as (N & F & ->). split; [destruct ds; discriminate|]. split.
      * apply Forall_app. split; [assumption|]. constructor; [exists d; auto|constructor].
      * rewrite fold_app. cbn. destruct (digit_val_dv c d D) as [-> _]. reflexivity.
  - intros (N & F & ->). revert N F. induction ds as [|c ds IH] using rev_ind; intros N F; [congruence|].
    apply Forall_app in F. destruct F as [F1 F2]. apply Forall_inv in F2. destruct (dok_dv base c F2) as [D R].
    destruct ds as [|c0 ds].
    + cbn. apply num_one; [assumption|lia].
    + rewrite fold_app. cbn [fold fold_left]. apply num_more; [|assumption|lia]. apply IH; [discriminate|assumption].
Qed.

Lemma fold_ge : forall b ds a, 1 <= b -> Forall (dok b) ds -> 0 <= a -> a <= fold b a ds.
Proof.
  induction ds as [|c ds IH]; intros a B F A; [cbn; lia|]. rewrite fold_cons. inversion F; subst.
  destruct (dok_dv b c H1) as [_ R]. specialize (IH (a * b + dv c) B H2). nia.
Qed.

Lemma lisdigit_iff : forall c, is_byte c -> (lisdigit c = true <-> dok 10 c).
Proof.
  intros c B. rewrite lisdigit_ok by exact B. unfold ascii_digit, dok, digit_val. rewrite andb_true_iff, !Z.leb_le. split.
  - intros H. exists (c - 48). split; [left; auto|lia].
  - intros (d & [[H ->]|[[H ->]|[H ->]]] & L); lia.
Qed.
Lemma lisxdigit_iff : forall c, is_byte c -> (lisxdigit c = true <-> dok 16 c).
Proof.
  intros c B. rewrite lisxdigit_ok by exact B. unfold ascii_xdigit, ascii_digit, dok, digit_val.
  rewrite !orb_true_iff, !andb_true_iff, !Z.leb_le. split.
  - intros [[H|H]|H]; [exists (c - 48)|exists (c - 55)|exists (c - 87)]; split; auto; lia.
  - intros (d & [[H ->]|[[H ->]|[H ->]]] & L); lia.
Qed.
Lemma hexavalue_ok : forall c, is_byte c -> dok 16 c -> hexavalue c = dv c.
Proof.
  intros c B D. unfold hexavalue. rewrite lisdigit_ok by exact B. unfold ascii_digit.
  destruct D as (d & [[H ->]|[[H ->]|[H ->]]] & L); unfold dv, ltolower.
  - destruct (Z.leb_spec 48 c); [|lia]. destruct (Z.leb_spec c 57); [|lia]. reflexivity.
  - destruct (Z.leb_spec 48 c); [|lia]. destruct (Z.leb_spec c 57); [lia|]. cbn [andb]. destruct (Z.leb_spec c 90); [lia|].
    assert (C : c = 97 \/ c = 98 \/ c = 99 \/ c = 100 \/ c = 101 \/ c = 102) by lia.
    destruct C as [->|[->|[->|[->|[->| ->]]]]]; reflexivity.
  - destruct (Z.leb_spec 48 c); [|lia]. destruct (Z.leb_spec c 57); [lia|]. cbn [andb]. destruct (Z.leb_spec c 90); [|lia].
    assert (C : c = 65 \/ c = 66 \/ c = 67 \/ c = 68 \/ c = 69 \/ c = 70) by lia.
    destruct C as [->|[->|[->|[->|[->| ->]]]]]; reflexivity.
Qed.

Lemma u64_step : forall a b d, u64 (u64 (u64 a * b) + d) = u64 (a * b + d).
Proof. intros. unfold u64. rewrite Zplus_mod_idemp_l. rewrite <- (Zplus_mod_idemp_l (a mod two64 * b)), <- (Zplus_mod_idemp_l (a * b)).
  rewrite Zmult_mod_idemp_l. reflexivity. Qed.

Lemma some_pair : forall (A B : Type) (a a' : A) (b b' : B), Some (a, b) = Some (a', b') -> a = a' /\ b = b'.
Proof. intros A B a a' b b' H. split; congruence. Qed.

Definition nilb (l : list Z) : bool := match l with [] => true | _ => false end.

Lemma hex_loop_ok : forall ds rest a e, wf_str ds -> Forall (dok 16) ds -> stops lisxdigit rest ->
  hex_loop (ds ++ rest) (u64 a) e = (u64 (fold 16 a ds), e && nilb ds, rest).
Proof.
  induction ds as [|c ds IH]; intros rest a e W F S.
  - cbn [app fold fold_left nilb]. rewrite andb_true_r. destruct rest as [|c r]; [reflexivity|]. cbn [stops] in S. cbn [hex_loop]. rewrite S. reflexivity.
  - inversion F; subst. inversion W; subst. cbn [app hex_loop]. rewrite (proj2 (lisxdigit_iff c H3)) by assumption.
    rewrite hexavalue_ok, u64_step by assumption. rewrite IH by assumption. rewrite fold_cons. cbn [nilb]. rewrite andb_false_r. reflexivity.
Qed.

Lemma dec_loop_ok : forall ds rest (neg : bool) a e, wf_str ds -> Forall (dok 10) ds -> stops lisdigit rest ->
  0 <= a <= maxint + (if neg then 1 else 0) ->
  dec_loop (ds ++ rest) neg a e =
  if fold 10 a ds <=? maxint + (if neg then 1 else 0) then Some (fold 10 a ds, e && nilb ds, rest) else None.
Proof.
  induction ds as [|c ds IH]; intros rest neg a e W F S A.
  - cbn [app fold fold_left nilb]. rewrite andb_true_r. destruct (Z.leb_spec a (maxint + (if neg then 1 else 0))); [|lia].
    destruct rest as [|c r]; [reflexivity|]. cbn [stops] in S. cbn [dec_loop]. rewrite S. reflexivity.
  - inversion F; subst. inversion W; subst. cbn [app dec_loop]. rewrite (proj2 (lisdigit_iff c H3)) by assumption.
    rewrite fold_cons. destruct (dok_dv 10 c H1) as [D R].
    assert (V : c - 48 = dv c). { destruct D as [[Q E]|[[Q E]|[Q E]]]; lia. }
    rewrite V. cbn [nilb]. rewrite andb_false_r.
    assert (MB : MAXBY10 = 922337203685477580) by reflexivity. assert (ML : MAXLASTD = 7) by reflexivity. rewrite MB, ML.
    set (n := if neg then 1 else 0) in *. assert (N : n = 0 \/ n = 1) by (destruct neg; auto).
    destruct (Z.leb_spec 922337203685477580 a) as [L1|L1]; cbn [andb].
    + destruct (Z.ltb_spec 922337203685477580 a) as [L2|L2]; cbn [orb].
      * pose proof (fold_ge 10 ds (a * 10 + dv c) ltac:(lia) H2 ltac:(lia)).
        destruct (Z.leb_spec (fold 10 (a * 10 + dv c) ds) (maxint + n)); [unfold_consts; lia|reflexivity].
      * destruct (Z.ltb_spec (7 + n) (dv c)).
        -- pose proof (fold_ge 10 ds (a * 10 + dv c) ltac:(lia) H2 ltac:(lia)).
           destruct (Z.leb_spec (fold 10 (a * 10 + dv c) ds) (maxint + n)); [unfold_consts; lia|reflexivity].
        -- assert (E : u64 (u64 (a * 10) + dv c) = a * 10 + dv c).
           { unfold u64. rewrite Zplus_mod_idemp_l. apply Z.mod_small. unfold_consts. lia. }
           rewrite E. rewrite IH by (auto; unfold_consts; lia). reflexivity.
    + assert (E : u64 (u64 (a * 10) + dv c) = a * 10 + dv c).
      { unfold u64. rewrite Zplus_mod_idemp_l. apply Z.mod_small. unfold_consts. lia. }
      rewrite E. rewrite IH by (auto; unfold_consts; lia). reflexivity.
Qed.

Lemma isneg_cases : forall t, exists sg t', t = sg ++ t' /\ isneg t = (match sg with [45] => true | _ => false end, t') /\
  (sg = [] /\ (match t with c :: _ => c <> 45 /\ c <> 43 | [] => True end) \/ sg = [43] \/ sg = [45]).
Proof.
  intros [|c t]; cbn [isneg].
  - exists [], []. split; [reflexivity|]. split; [reflexivity|]. auto.
  - destruct (Z.eqb_spec c 45) as [->|N].
    + exists [45], t. split; [reflexivity|]. split; [reflexivity|]. auto.
    + destruct (Z.eqb_spec c 43) as [->|N2].
      * exists [43], t. split; [reflexivity|]. split; [reflexivity|]. auto.
      * exists [], (c :: t). split; [reflexivity|]. split; [reflexivity|]. auto.
Qed.

Lemma wf_app_inv : forall a b, wf_str (a ++ b) -> wf_str a /\ wf_str b.
Proof. intros a b H. apply Forall_app in H. assumption. Qed.

Lemma sign_val : forall sg v n (neg : bool), signed_of sg v n -> neg = (match sg with [45] => true | _ => false end) ->
  n = if neg then - v else v.
Proof. intros sg v n neg H ->. inversion H; reflexivity. Qed.

Lemma s64_neg : forall v (neg : bool), s64 (if neg then u64 (0 - u64 v) else u64 v) = s64 (if neg then - v else v).
Proof.
  intros v neg. destruct neg.
  - destruct (u64_eqm v) as [k K]. destruct (u64_eqm (0 - u64 v)) as [j J]. rewrite J, K.
    apply (s64_cong _ _ (j - k)). lia.
  - destruct (u64_eqm v) as [k K]. rewrite K. apply (s64_cong _ _ k). lia.
Qed.

Lemma Forall_space : forall l, wf_str l -> Forall space l -> Forall (fun c => lisspace c = true) l.
Proof.
  intros l W F. unfold wf_str in W. rewrite Forall_forall in *. intros c I. apply lisspace_iff; auto.
Qed.
Lemma space_Forall : forall l, wf_str l -> Forall (fun c => lisspace c = true) l -> Forall space l.
Proof.
  intros l W F. unfold wf_str in W. rewrite Forall_forall in *. intros c I. apply lisspace_iff; auto.
Qed.
Lemma dok_range : forall b c, dok b c -> 48 <= c <= 57 \/ 97 <= c <= 122 \/ 65 <= c <= 90.
Proof. intros b c (d & [[H _]|[[H _]|[H _]]] & _); lia. Qed.

Lemma stops_space : forall p rest, wf_str rest -> (forall c, is_byte c -> space c -> p c = false) -> Forall space rest -> stops p rest.
Proof. intros p [|c r] W H F; cbn [stops]; [exact I|]. inversion F; subst. inversion W; subst. auto. Qed.

Lemma not_true : forall b P, (b = true <-> P) -> ~ P -> b = false.
Proof. intros [] P H N; [exfalso; apply N, H; reflexivity|reflexivity]. Qed.

Lemma space_nodigit : forall c, is_byte c -> space c -> lisdigit c = false.
Proof.
  intros c B S. apply (not_true _ _ (lisdigit_iff c B)). intros D. apply dok_range in D. destruct S; lia.
Qed.
Lemma space_noxdigit : forall c, is_byte c -> space c -> lisxdigit c = false.
Proof.
  intros c B S. apply (not_true _ _ (lisxdigit_iff c B)). intros D. apply dok_range in D. destruct S; lia.
Qed.
Lemma nospace : forall c, is_byte c -> ~ space c -> lisspace c = false.
Proof. intros c B S. apply (not_true _ _ (lisspace_iff c B)). assumption. Qed.

Lemma stops_sign : forall sg t, wf_str (sg ++ t) -> (sg = [] \/ sg = [43] \/ sg = [45]) ->
  (match t with c :: _ => ~ space c | [] => True end) -> stops lisspace (sg ++ t).
Proof.
  intros sg t W [-> |[-> | ->]] H; cbn [app] in *.
  - destruct t as [|c t]; cbn [stops]; [exact I|]. inversion W; subst. apply nospace; assumption.
  - reflexivity.
  - reflexivity.
Qed.

Lemma signed_sg : forall sg v n, signed_of sg v n -> sg = [] \/ sg = [43] \/ sg = [45].
Proof. intros sg v n H. inversion H; auto. Qed.

Lemma isneg_app : forall sg t, (sg = [] \/ sg = [43] \/ sg = [45]) -> (match t with c :: _ => c <> 45 /\ c <> 43 | [] => True end) ->
  isneg (sg ++ t) = (match sg with [45] => true | _ => false end, t).
Proof.
  intros sg t [-> |[-> | ->]] H; cbn [app]; try reflexivity. unfold isneg.
  destruct t as [|c t]; [reflexivity|]. destruct H. destruct (Z.eqb_spec c 45); [lia|]. destruct (Z.eqb_spec c 43); [lia|]. reflexivity.
Qed.

Lemma final_skip : forall sp2, wf_str sp2 -> Forall space sp2 -> skip_spaces sp2 = [].
Proof.
  intros sp2 W F. rewrite skip_spaces_dw. rewrite <- (app_nil_r sp2). apply dw_app; [apply Forall_space; assumption|exact I].
Qed.

(* ---- completeness ---- *)
Lemma str2int_decimal : forall s n, wf_str s -> decimal s n -> str2int s = if (minint <=? n) && (n <=? maxint) then Some n else None.
Proof.
  intros s n W (sp1 & sg & ds & sp2 & v & -> & F1 & F2 & N & SG).
  apply wf_app_inv in W as [W1 W]. pose proof W as W'. apply wf_app_inv in W as [Wg W]. apply wf_app_inv in W as [Wd W2].
  apply numeral_iff in N as (NN & FD & V). pose proof (signed_sg _ _ _ SG) as SGC.
  destruct ds as [|c0 ds0] eqn:DS; [congruence|]. rewrite <- DS in *.
  assert (D0 : dok 10 c0) by (rewrite DS in FD; inversion FD; assumption). pose proof (dok_range _ _ D0) as R0.
  assert (HD : ds ++ sp2 = c0 :: ds0 ++ sp2) by (rewrite DS; reflexivity).
  unfold str2int, l_str2int. rewrite skip_spaces_dw, dw_app.
  2: apply Forall_space; assumption.
  2: { apply stops_sign; [assumption|assumption|]. rewrite HD. unfold space. lia. }
  rewrite isneg_app; [|assumption|rewrite HD; lia].
  set (neg := match sg with [45] => true | _ => false end).
  assert (R : match ds ++ sp2 with
    | c0 :: c1 :: t' => if (c0 =? 48) && ((c1 =? 120) || (c1 =? 88)) then Some (hex_loop t' 0 true) else dec_loop (ds ++ sp2) neg 0 true
    | _ => dec_loop (ds ++ sp2) neg 0 true end = dec_loop (ds ++ sp2) neg 0 true).
  { rewrite HD. destruct (ds0 ++ sp2) as [|c1 r] eqn:T; [reflexivity|].
    assert (C1 : c1 <> 120 /\ c1 <> 88).
    { assert (I1 : In c1 (ds0 ++ sp2)) by (rewrite T; left; reflexivity). apply in_app_or in I1. destruct I1 as [I1|I1].
      - assert (dok 10 c1) by (rewrite Forall_forall in FD; apply FD; rewrite DS; right; assumption).
        destruct H as (d & [[H _]|[[H E]|[H E]]] & L); lia.
      - rewrite Forall_forall in F2. specialize (F2 c1 I1). destruct F2; lia. }
    destruct (Z.eqb_spec c1 120); [lia|]. destruct (Z.eqb_spec c1 88); [lia|]. rewrite andb_false_r. reflexivity. }
  rewrite R. rewrite dec_loop_ok; [|assumption|assumption| |destruct neg; unfold_consts; lia].
  2: { apply stops_space; [assumption| |assumption]. intros. apply space_nodigit; assumption. }
  rewrite <- V. pose proof (sign_val sg v n neg SG eq_refl) as SN.
  assert (V0 : 0 <= v). { rewrite V. apply (fold_ge 10 ds 0); [lia|assumption|lia]. }
  destruct (Z.leb_spec v (maxint + (if neg then 1 else 0))).
  - rewrite final_skip by assumption. assert (E : nilb ds = false) by (rewrite DS; reflexivity). rewrite E. cbn [andb orb cur hd negb Z.eqb].
    assert (U : u64 v = v) by (unfold u64; apply Z.mod_small; destruct neg; unfold_consts; lia).
    assert (EQ : s64 (if neg then u64 (0 - v) else v) = n).
    { pose proof (s64_neg v neg) as Q. rewrite U in Q. rewrite Q, <- SN. apply s64_id. destruct neg; unfold_consts; lia. }
    rewrite EQ. rewrite slen_nil, Z.sub_0_r, Z.eqb_refl.
    destruct (Z.leb_spec minint n); [|destruct neg; unfold_consts; lia]. destruct (Z.leb_spec n maxint); [reflexivity|destruct neg; unfold_consts; lia].
  - destruct (Z.leb_spec minint n); [|reflexivity]. destruct (Z.leb_spec n maxint); [destruct neg; unfold_consts; lia|reflexivity].
Qed.

Lemma str2int_hex : forall s n, wf_str s -> hexadecimal s n -> str2int s = Some (s64 n).
Proof.
  intros s n W (sp1 & sg & x & ds & sp2 & v & -> & X & F1 & F2 & N & SG).
  apply wf_app_inv in W as [W1 W]. pose proof W as W'. apply wf_app_inv in W as [Wg W]. apply wf_app_inv in W as [Wx W]. apply wf_app_inv in W as [Wd W2].
  apply numeral_iff in N as (NN & FD & V). pose proof (signed_sg _ _ _ SG) as SGC.
  unfold str2int, l_str2int. rewrite skip_spaces_dw, dw_app.
  2: apply Forall_space; assumption.
  2: { apply stops_sign; [assumption|assumption|]. cbn [app]. unfold space. lia. }
  rewrite isneg_app; [|assumption|cbn [app]; lia].
  set (neg := match sg with [45] => true | _ => false end). cbn [app].
  assert (XX : (x =? 120) || (x =? 88) = true) by (destruct X as [-> | ->]; reflexivity).
  rewrite XX. cbn [Z.eqb Pos.eqb andb]. change 0 with (u64 0) at 1. rewrite hex_loop_ok; [|assumption|assumption|].
  2: { apply stops_space; [assumption| |assumption]. intros. apply space_noxdigit; assumption. }
  rewrite final_skip by assumption. assert (E : nilb ds = false) by (destruct ds; [congruence|reflexivity]). rewrite E.
  cbn [andb orb cur hd negb Z.eqb]. rewrite <- V, s64_neg. rewrite <- (sign_val sg v n neg SG eq_refl).
  rewrite slen_nil, Z.sub_0_r, Z.eqb_refl. reflexivity.
Qed.

(* ---- soundness ---- *)
Lemma Forall_dok : forall p b l, wf_str l -> (forall c, is_byte c -> (p c = true <-> dok b c)) -> Forall (fun c => p c = true) l -> Forall (dok b) l.
Proof. intros p b l W H F. unfold wf_str in W. rewrite Forall_forall in *. intros c I. apply H; auto. Qed.

Lemma rest_nil : forall s (t rest : list Z), s = t ++ rest -> (slen s - slen rest + 1 =? slen s + 1) = true -> rest = [].
Proof.
  intros s t rest E H. apply Z.eqb_eq in H. destruct rest; [reflexivity|]. rewrite slen_cons in H. pose proof (slen_nonneg rest). lia.
Qed.

Lemma signed_ex : forall sg v, sg = [] \/ sg = [43] \/ sg = [45] -> exists n, signed_of sg v n /\ n = (if (match sg with [45] => true | _ => false end) then - v else v).
Proof. intros sg v [-> |[-> | ->]]; eexists; split; try constructor; reflexivity. Qed.

Lemma str2int_sound : forall s n, wf_str s -> str2int s = Some n ->
  (decimal s n /\ is_s64 n) \/ (exists m, hexadecimal s m /\ n = s64 m).
Proof.
  intros s n W H. unfold str2int in H. destruct (l_str2int s) as [[m rest]|] eqn:L; [|discriminate].
  destruct (slen s - slen rest + 1 =? slen s + 1) eqn:LE; [|discriminate]. injection H as <-.
  unfold l_str2int in L. rewrite skip_spaces_dw in L.
  pose proof (tw_dw lisspace s) as E1. set (sp1 := tw lisspace s) in *. set (t1 := dw lisspace s) in *.
  pose proof (tw_all lisspace s) as A1. fold sp1 in A1.
  destruct (isneg_cases t1) as (sg & t2 & E2 & IN & SGC). rewrite IN in L.
  assert (SG' : sg = [] \/ sg = [43] \/ sg = [45]) by tauto.
  set (neg := match sg with [45] => true | _ => false end) in *.
  assert (W1 : wf_str sp1 /\ wf_str t1) by (apply wf_app_inv; rewrite <- E1; assumption). destruct W1 as [W1 Wt1].
  assert (W2 : wf_str sg /\ wf_str t2) by (apply wf_app_inv; rewrite <- E2; assumption). destruct W2 as [Wsg W2].
  apply space_Forall in A1; [|assumption].
  assert (DEC : forall a e t3, dec_loop t2 neg 0 true = Some (a, e, t3) ->
    (if e || negb (cur (skip_spaces t3) =? 0) then None else Some (s64 (if neg then u64 (0 - a) else a), skip_spaces t3)) = Some (m, rest) ->
    decimal s m /\ is_s64 m).
  { intros a e t3 DL Q. pose proof (tw_dw lisdigit t2) as E3. set (ds := tw lisdigit t2) in *. set (t4 := dw lisdigit t2) in *.
    assert (W3 : wf_str ds /\ wf_str t4) by (apply wf_app_inv; rewrite <- E3; assumption). destruct W3 as [Wds Wt4].
    pose proof (tw_all lisdigit t2) as FD. fold ds in FD. apply (Forall_dok _ 10) in FD; [|assumption|apply lisdigit_iff].
    assert (A0 : 0 <= 0 <= maxint + (if neg then 1 else 0)) by (destruct neg; unfold_consts; lia).
    rewrite E3 in DL. rewrite (dec_loop_ok ds t4 neg 0 true Wds FD (dw_stops lisdigit t2) A0) in DL.
    destruct (Z.leb_spec (fold 10 0 ds) (maxint + (if neg then 1 else 0))) as [LV|LV]; [|discriminate].
    injection DL as Ha He Ht. subst a e t3. cbn [andb] in Q.
    destruct (nilb ds) eqn:NB; [discriminate|]. cbn [orb] in Q. destruct (Z.eqb_spec (cur (skip_spaces t4)) 0); [|discriminate].
    apply some_pair in Q as [Hm Hr]. rewrite skip_spaces_dw in Hr. pose proof (tw_dw lisspace t4) as E4. rewrite Hr in E4.
    assert (RN : rest = []).
    { apply (rest_nil s (sp1 ++ sg ++ ds ++ tw lisspace t4)); [|assumption]. rewrite E1, E2, E3, E4 at 1. rewrite <- !app_assoc. reflexivity. }
    rewrite RN, app_nil_r in E4. destruct (signed_ex sg (fold 10 0 ds) SG') as (n & SN & NV). fold neg in NV.
    assert (V0 : 0 <= fold 10 0 ds) by (apply (fold_ge 10 ds 0); [lia|assumption|lia]).
    assert (U : u64 (fold 10 0 ds) = fold 10 0 ds) by (unfold u64; apply Z.mod_small; destruct neg; unfold_consts; lia).
    assert (MN : m = n).
    { rewrite <- Hm. pose proof (s64_neg (fold 10 0 ds) neg) as Q2. rewrite U in Q2. rewrite Q2, NV. apply s64_id. destruct neg; unfold_consts; lia. }
    split; [|rewrite MN, NV; unfold is_s64; destruct neg; unfold_consts; lia].
    exists sp1, sg, ds, t4, (fold 10 0 ds). split; [rewrite E1, E2, E3 at 1; reflexivity|]. split; [assumption|].
    split; [|split].
    - rewrite E4. apply space_Forall; [rewrite <- E4; assumption|apply tw_all].
    - apply numeral_iff. split; [destruct ds; [discriminate|discriminate]|]. split; [assumption|reflexivity].
    - rewrite MN. assumption. }
  destruct t2 as [|c0 [|c1 t']].
  - left. destruct (dec_loop [] neg 0 true) as [[[a e] t3]|] eqn:DL; [|discriminate]. eapply DEC; eauto.
  - left. destruct (dec_loop [c0] neg 0 true) as [[[a e] t3]|] eqn:DL; [|discriminate]. eapply DEC; eauto.
  - destruct ((c0 =? 48) && ((c1 =? 120) || (c1 =? 88))) eqn:HX.
    + right. apply andb_true_iff in HX as [H0 H1]. apply Z.eqb_eq in H0. apply orb_true_iff in H1. rewrite !Z.eqb_eq in H1. subst c0.
      assert (Wt' : wf_str t') by (inversion W2; inversion H3; assumption).
      pose proof (tw_dw lisxdigit t') as E3. set (ds := tw lisxdigit t') in *. set (t4 := dw lisxdigit t') in *.
      assert (W3 : wf_str ds /\ wf_str t4) by (apply wf_app_inv; rewrite <- E3; assumption). destruct W3 as [Wds Wt4].
      pose proof (tw_all lisxdigit t') as FD. fold ds in FD. apply (Forall_dok _ 16) in FD; [|assumption|apply lisxdigit_iff].
      rewrite E3 in L. change 0 with (u64 0) in L at 1. rewrite (hex_loop_ok ds t4 0 true Wds FD (dw_stops lisxdigit t')) in L. cbn [andb] in L.
      destruct (nilb ds) eqn:NB; [discriminate|]. cbn [orb] in L. destruct (Z.eqb_spec (cur (skip_spaces t4)) 0); [|discriminate].
      apply some_pair in L as [Hm Hr]. rewrite skip_spaces_dw in Hr. pose proof (tw_dw lisspace t4) as E4. rewrite Hr in E4.
      assert (RN : rest = []).
      { apply (rest_nil s (sp1 ++ sg ++ [48; c1] ++ ds ++ tw lisspace t4)); [|assumption]. rewrite E1, E2, E3, E4 at 1. cbn [app]. rewrite <- !app_assoc. cbn [app]. rewrite <- !app_assoc. reflexivity. }
      rewrite RN, app_nil_r in E4. destruct (signed_ex sg (fold 16 0 ds) SG') as (n & SN & NV). fold neg in NV.
      exists n. split; [|rewrite <- Hm, s64_neg, NV; reflexivity].
      exists sp1, sg, c1, ds, t4, (fold 16 0 ds). split; [rewrite E1, E2, E3 at 1; reflexivity|]. split; [assumption|].
      split; [assumption|]. split; [|split].
      * rewrite E4. apply space_Forall; [rewrite <- E4; assumption|apply tw_all].
      * apply numeral_iff. split; [destruct ds; discriminate|]. split; [assumption|reflexivity].
      * assumption.
    + left. destruct (dec_loop (c0 :: c1 :: t') neg 0 true) as [[[a e] t3]|] eqn:DL; [|discriminate]. eapply DEC; eauto.
Qed.

Theorem str2int_iff : forall s n, wf_str s ->
  (str2int s = Some n <-> (decimal s n /\ is_s64 n) \/ (exists m, hexadecimal s m /\ n = s64 m)).
Proof.
  intros s n W. split; [apply str2int_sound; assumption|]. intros [[D S]|(m & H & ->)].
  - rewrite (str2int_decimal s n W D). unfold is_s64 in S. destruct (Z.leb_spec minint n); [|lia]. destruct (Z.leb_spec n maxint); [reflexivity|lia].
  - apply str2int_hex; assumption.
Qed.

(* ---- writing ---- *)
Lemma udigits_ok : forall f n, 0 <= n < 10^(Z.of_nat f) -> (0 < f)%nat -> numeral 10 (udigits f n) n.
Proof.
  induction f; intros n H F; [lia|]. cbn [udigits]. destruct (Z.ltb_spec n 10).
  - apply num_one; [left; lia|lia].
  - assert (M := Z.mod_pos_bound n 10 ltac:(lia)). assert (DM := Z.div_mod n 10 ltac:(lia)).
    rewrite Nat2Z.inj_succ, Z.pow_succ_r in H by lia.
    replace n with (n / 10 * 10 + n mod 10) at 3 by lia. apply num_more; [|left; lia|lia].
    assert (f <> O). { intros ->. cbn in H. lia. }
    apply IHf; [|lia]. split; [apply Z.div_pos; lia|]. apply Z.div_lt_upper_bound; lia.
Qed.
Lemma udigits_ascii : forall f n, 0 <= n -> wf_str (udigits f n).
Proof.
  induction f; intros n H; cbn [udigits]; [constructor|]. destruct (Z.ltb_spec n 10).
  - constructor; [unfold is_byte; lia|constructor].
  - apply wf_app; [apply IHf; apply Z.div_pos; lia|]. constructor; [|constructor]. unfold is_byte.
    assert (M := Z.mod_pos_bound n 10 ltac:(lia)). lia.
Qed.

Theorem int2str_roundtrip : forall n, is_s64 n -> str2int (int2str n) = Some n.
Proof.
  intros n S. unfold is_s64 in S. assert (W : wf_str (int2str n)).
  { unfold int2str. destruct (Z.ltb_spec n 0); [constructor; [unfold is_byte; lia|]|]; apply udigits_ascii; lia. }
  apply str2int_iff; [assumption|]. left. split; [|assumption]. unfold int2str.
  assert (P20 : 10^(Z.of_nat 20) = 100000000000000000000) by reflexivity.
  destruct (Z.ltb_spec n 0).
  - exists [], [45], (udigits 20 (- n)), [], (- n). rewrite app_nil_r. split; [reflexivity|]. split; [constructor|]. split; [constructor|].
    split; [apply udigits_ok; try (rewrite P20); unfold_consts; lia|]. replace n with (- (- n)) at 2 by lia. constructor.
  - exists [], [], (udigits 20 n), [], n. rewrite app_nil_r. split; [reflexivity|]. split; [constructor|]. split; [constructor|].
    split; [apply udigits_ok; try (rewrite P20); unfold_consts; lia|]. constructor.
Qed.

(* ---- tonumber with a base ---- *)
Lemma isalnum_iff : forall c, isalnum c = true <-> exists d, digit_val c d.
Proof.
  intros c. unfold isalnum, isdigit, isupper, islower, digit_val. rewrite !orb_true_iff, !andb_true_iff, !Z.leb_le. split.
  - intros [[H|H]|H]; [exists (c - 48)|exists (c - 55)|exists (c - 87)]; auto.
  - intros (d & [[H _]|[[H _]|[H _]]]); lia.
Qed.
Lemma base_digit : forall c d, digit_val c d -> (if isdigit c then c - 48 else (toupper c - 65) + 10) = d.
Proof.
  intros c d D. unfold isdigit, toupper, islower. destruct D as [[H ->]|[[H ->]|[H ->]]];
  destruct (Z.leb_spec 48 c); destruct (Z.leb_spec c 57); destruct (Z.leb_spec 97 c); destruct (Z.leb_spec c 122); cbn [andb]; lia.
Qed.

Lemma base_loop_ok : forall ds rest base a, Forall (dok base) ds -> stops isalnum rest ->
  base_loop (ds ++ rest) base (u64 a) = Some (u64 (fold base a ds), rest).
Proof.
  induction ds as [|c ds IH]; intros rest base a F S.
  - cbn [app fold fold_left]. destruct rest as [|c r]; [reflexivity|]. cbn [base_loop]. cbn [stops] in S. rewrite S. reflexivity.
  - inversion F; subst. destruct (dok_dv base c H1) as [D R]. cbn [app base_loop].
    rewrite (proj2 (isalnum_iff c)) by (eexists; eassumption). rewrite (base_digit c _ D). destruct (Z.leb_spec base (dv c)); [lia|].
    rewrite u64_step. rewrite IH by assumption. rewrite fold_cons. reflexivity.
Qed.
Lemma base_loop_sound : forall ds rest base a n t, Forall (fun c => isalnum c = true) ds -> stops isalnum rest ->
  base_loop (ds ++ rest) base a = Some (n, t) -> Forall (dok base) ds.
Proof.
  induction ds as [|c ds IH]; intros rest base a n t F S H; [constructor|]. inversion F; subst. cbn [app base_loop] in H. rewrite H2 in H.
  destruct (proj1 (isalnum_iff c) H2) as [d D]. rewrite (base_digit c d D) in H. destruct (Z.leb_spec base d); [discriminate|].
  constructor; [exists d; auto|]. eapply IH; eauto.
Qed.

Lemma spacechar_no : forall c, ~ space c -> spacechar c = false.
Proof. intros c N. apply (not_true _ _ (spacechar_iff c)). assumption. Qed.

Theorem tonumber_base_iff : forall s base n, 2 <= base <= 36 ->
  exists o, tonumber_base s base = Ok o /\ (o = Some n <-> exists m, in_base base s m /\ n = s64 m).
Proof.
  intros s base n B. unfold tonumber_base. destruct (Z.leb_spec 2 base); [|lia]. destruct (Z.leb_spec base 36); [|lia]. cbn [andb negb].
  eexists. split; [reflexivity|]. split.
  - intros E. destruct (b_str2int s base) as [[k rest]|] eqn:Q; [|discriminate]. destruct (Z.eqb_spec (slen rest) 0) as [R|]; [|discriminate].
    injection E as <-. assert (RN : rest = []) by (destruct rest; [reflexivity|rewrite slen_cons in R; pose proof (slen_nonneg rest); lia]). subst rest. clear R.
    unfold b_str2int in Q. rewrite span_spaces_dw in Q.
    pose proof (tw_dw spacechar s) as E1. set (sp1 := tw spacechar s) in *. set (t1 := dw spacechar s) in *.
    pose proof (tw_all spacechar s) as A1. fold sp1 in A1.
    destruct (isneg_cases t1) as (sg & t2 & E2 & IN & SGC). rewrite IN in Q.
    assert (SG' : sg = [] \/ sg = [43] \/ sg = [45]) by tauto.
    set (neg := match sg with [45] => true | _ => false end) in *.
    destruct (isalnum (cur t2)) eqn:AL; cbn [negb] in Q; [|discriminate].
    destruct (base_loop t2 base 0) as [[v t3]|] eqn:BL; [|discriminate]. apply some_pair in Q as [Hk Hr].
    pose proof (tw_dw isalnum t2) as E3. set (ds := tw isalnum t2) in *. set (t4 := dw isalnum t2) in *.
    assert (FD : Forall (dok base) ds).
    { apply (base_loop_sound ds t4 base 0 v t3); [apply tw_all|apply dw_stops|]. rewrite <- E3. assumption. }
    rewrite E3 in BL. change 0 with (u64 0) in BL. rewrite (base_loop_ok ds t4 base 0 FD (dw_stops isalnum t2)) in BL.
    injection BL as Hv Ht. subst v t3. rewrite span_spaces_dw in Hr. pose proof (tw_dw spacechar t4) as E4. rewrite Hr, app_nil_r in E4.
    destruct (signed_ex sg (fold base 0 ds) SG') as (m & SN & NV). fold neg in NV.
    exists m. split; [|rewrite <- Hk, s64_neg, NV; reflexivity].
    exists sp1, sg, ds, t4, (fold base 0 ds). split; [rewrite E1, E2, E3 at 1; reflexivity|].
    split; [eapply Forall_impl; [|exact A1]; intros; apply spacechar_iff; assumption|].
    split; [rewrite E4; eapply Forall_impl; [|apply tw_all]; intros; apply spacechar_iff; assumption|].
    split; [|assumption]. apply numeral_iff. split; [|split; [assumption|reflexivity]].
    unfold ds. destruct t2 as [|c t2]; [discriminate|]. cbn [tw]. cbn [cur hd] in AL. rewrite AL. discriminate.
  - intros (m & (sp1 & sg & ds & sp2 & v & -> & F1 & F2 & N & SG) & ->).
    apply numeral_iff in N as (NN & FD & V). pose proof (signed_sg _ _ _ SG) as SGC.
    destruct ds as [|c0 ds0] eqn:DS; [congruence|]. rewrite <- DS in *.
    assert (D0 : dok base c0) by (rewrite DS in FD; inversion FD; assumption). pose proof (dok_range _ _ D0) as R0.
    assert (HD : ds ++ sp2 = c0 :: ds0 ++ sp2) by (rewrite DS; reflexivity).
    assert (SPF : forall l, Forall space l -> Forall (fun c => spacechar c = true) l).
    { intros l F. eapply Forall_impl; [|exact F]. intros; apply spacechar_iff; assumption. }
    unfold b_str2int. rewrite span_spaces_dw, dw_app.
    2: apply SPF; assumption.
    2: { destruct SGC as [-> |[-> | ->]]; try reflexivity. rewrite HD. cbn [app stops]. apply spacechar_no. unfold space. lia. }
    rewrite isneg_app; [|assumption|rewrite HD; lia].
    set (neg := match sg with [45] => true | _ => false end).
    assert (AL : isalnum (cur (ds ++ sp2)) = true).
    { rewrite HD. cbn [cur hd]. apply isalnum_iff. destruct D0 as (d & D & _). exists d. assumption. }
    rewrite AL. cbn [negb]. change 0 with (u64 0) at 1. rewrite base_loop_ok; [|assumption|].
    2: { destruct sp2 as [|c r]; cbn [stops]; [exact I|]. inversion F2; subst. apply (not_true _ _ (isalnum_iff c)).
         intros (d & [[Q _]|[[Q _]|[Q _]]]); destruct H3; lia. }
    rewrite span_spaces_dw. assert (E : dw spacechar sp2 = []) by (rewrite <- (app_nil_r sp2); apply dw_app; [apply SPF; assumption|exact I]).
    rewrite E, slen_nil. cbn [Z.eqb]. rewrite <- V, s64_neg, <- (sign_val sg v m neg SG eq_refl). reflexivity.
Qed.
Theorem tonumber_base_bad : forall s base, ~ (2 <= base <= 36) -> tonumber_base s base = Err EArg.
Proof.
  intros s base B. unfold tonumber_base. destruct (Z.leb_spec 2 base); destruct (Z.leb_spec base 36); cbn [andb negb]; try reflexivity; lia.
Qed.
