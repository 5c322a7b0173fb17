Require Import ZArith List Bool Lia.
From Verif Require Import Base Base_facts Str Str_facts Strlib_model Strlib_spec Strlib_proofs Match_model Match_spec Match_proofs.
Import ListNotations.
Open Scope Z_scope.

Section LIB.
Variable s p : list Z.
Hypothesis WS : wf_str s.
Hypothesis WP : wf_str p.
Hypothesis LS : slen s <= maxint.

(* ---- captures as values ---- *)
Definition lift {A} (o : option A) : outcome A := match o with Some x => Ok x | None => Err EFormat end.
Lemma whole_read : forall i e, 0 <= i <= e -> e <= slen s -> sread s i (Z.to_nat (e - i)) = Ok (whole s i e).
Proof. intros i e I E. apply sread_ok; lia. Qed.
Lemma one_ok : forall e0 c k, Forall (cap_ok s e0) c -> 0 <= k < Z.of_nat (length c) -> forall i e, get_onecapture s (map enc c) k i e = lift (match nth_error c (Z.to_nat k) with Some x => cap_val s x | None => None end).
Proof.
  intros e0 c k G K i e. unfold get_onecapture. rewrite map_length. destruct (Z.leb_spec (Z.of_nat (length c)) k); [lia|].
  assert (NE : nth_error c (Z.to_nat k) = Some (nth (Z.to_nat k) c (CPos 0))) by (apply nth_error_nth'; lia). rewrite NE.
  assert (NT : nth (Z.to_nat k) (map enc c) (0, 0) = enc (nth (Z.to_nat k) c (CPos 0))). { rewrite (nth_indep _ (0, 0) (enc (CPos 0))) by (rewrite map_length; lia). apply map_nth. }
  rewrite NT. assert (IN : In (nth (Z.to_nat k) c (CPos 0)) c) by (apply nth_In; lia). rewrite Forall_forall in G. specialize (G _ IN).
  destruct (nth (Z.to_nat k) c (CPos 0)) as [j|j n|j]; cbn [enc cap_val lift cap_ok] in *; unfold CAP_UNFINISHED, CAP_POSITION in *; try reflexivity.
  destruct (Z.eqb_spec n (-1)); [lia|]. destruct (Z.eqb_spec n (-2)); [lia|]. destruct (Z.ltb_spec n 0); [lia|]. rewrite sread_ok by lia. reflexivity.
Qed.
Lemma capture_no_ok : forall e0 c k i e, Forall (cap_ok s e0) c -> 0 <= k -> 0 <= i <= e -> e <= slen s -> get_onecapture s (map enc c) k (Some i) e = lift (capture_no s i e c k).
Proof.
  intros e0 c k i e G K I E. unfold capture_no. destruct (Z.ltb_spec k (Z.of_nat (length c))) as [LT|GE].
  - rewrite (one_ok e0) by (assumption || lia). destruct c; [cbn in LT; lia|reflexivity].
  - unfold get_onecapture. rewrite map_length. destruct (Z.leb_spec (Z.of_nat (length c)) k); [|lia]. destruct c as [|x c].
    + destruct (Z.eqb_spec k 0); cbn [negb lift]; [rewrite whole_read by lia; reflexivity|reflexivity].
    + cbn [length] in *. destruct (Z.eqb_spec k 0); [lia|]. cbn [negb]. assert (N : nth_error (x :: c) (Z.to_nat k) = None) by (apply nth_error_None; cbn [length]; lia). rewrite N. reflexivity.
Qed.
Lemma push_loop_ok : forall e0 c2 c1 i e, Forall (cap_ok s e0) (c1 ++ c2) -> push_loop s (map enc (c1 ++ c2)) i e (Z.of_nat (length c1)) (length c2) = lift (cap_vals s c2).
Proof.
  intros e0. induction c2 as [|x c2 IH]; intros c1 i e G; [reflexivity|]. cbn [push_loop length cap_vals].
  rewrite (one_ok e0) by (try assumption; rewrite app_length; cbn [length]; lia). rewrite Nat2Z.id. rewrite nth_error_app2 by lia. rewrite Nat.sub_diag. cbn [nth_error].
  destruct (cap_val s x) as [v|]; cbn [lift bind]; [|reflexivity]. specialize (IH (c1 ++ [x]) i e). rewrite <- app_assoc in IH. cbn [app] in IH. specialize (IH G). rewrite app_length in IH. cbn [length] in IH.
  replace (Z.of_nat (length c1) + 1) with (Z.of_nat (length c1 + 1)) by lia. rewrite IH. destruct (cap_vals s c2); reflexivity.
Qed.
Lemma push_none : forall e0 c e, Forall (cap_ok s e0) c -> push_captures s (map enc c) None e = lift (cap_vals s c).
Proof. intros e0 c e G. unfold push_captures. assert (H : match map enc c with [] => length (map enc c) | _ => length (map enc c) end = length c) by (destruct c; cbn; [reflexivity|rewrite map_length; reflexivity]). rewrite H. apply (push_loop_ok e0 c [] None e G). Qed.
Lemma push_some : forall e0 c i e, Forall (cap_ok s e0) c -> 0 <= i <= e -> e <= slen s -> push_captures s (map enc c) (Some i) e = lift (results s i e c).
Proof.
  intros e0 c i e G I E. unfold push_captures, results. destruct c as [|x c].
  - cbn [map push_loop]. change (@nil capture) with (map enc []). rewrite (capture_no_ok e0) by (assumption || lia). reflexivity.
  - replace (match map enc (x :: c) with [] => 1%nat | _ => length (map enc (x :: c)) end) with (length (x :: c)) by (cbn [map length]; rewrite map_length; reflexivity). apply (push_loop_ok e0 (x :: c) [] (Some i) e G).
Qed.

(* ---- the matcher from the top ---- *)
Section PAT.
Variable q : Z.
Variable l : list Z.
Hypothesis AT : At p q l.
Let t := parse l.
Definition complex : Prop := (200 <= nesting t)%nat.
Lemma top_ok : forall i, 0 <= i <= slen s ->
  match at_pos s t i with
  | NoMatch => match_ s p MAXCCALLS [] i q = Ok (None, [])
  | Failure => match_ s p MAXCCALLS [] i q = Err EFormat
  | Match e c => match_ s p MAXCCALLS [] i q = Ok (Some e, map enc c) /\ i <= e <= slen s /\ Forall (cap_ok s e) c
  end \/ match_ s p MAXCCALLS [] i q = Err ELoop /\ complex.
Proof.
  intros i I. destruct (match_ok s p WS WP LS MAXCCALLS [] i q l (Forall_nil _) I AT) as [E|[E L]]; cbn [map] in E.
  - left. rewrite E. unfold at_pos. fold t. destruct (matches s t [] i) as [|[[e c]|] r] eqn:EM; cbn [preferred answer map]; [reflexivity| |reflexivity].
    split; [reflexivity|]. apply (matches_in s t [] i e c I (Forall_nil _)). rewrite EM. left. reflexivity.
  - right. split; [exact E|exact L].
Qed.

(* ---- find and match ---- *)
Lemma find_loop_ok : forall fuel find anchor i, 0 <= i <= slen s -> slen s - i < Z.of_nat fuel ->
  find_loop fuel s p find anchor i q = found s find (search (at_pos s t) i (if anchor then 0%nat else Z.to_nat (slen s - i))) \/ find_loop fuel s p find anchor i q = Err ELoop /\ complex.
Proof.
  induction fuel as [|fuel IH]; intros find anchor i I F; [lia|]. cbn [find_loop].
  assert (SE : search (at_pos s t) i (if anchor then 0%nat else Z.to_nat (slen s - i)) =
    match at_pos s t i with NoMatch => if (i <? slen s) && negb anchor then search (at_pos s t) (i + 1) (Z.to_nat (slen s - (i + 1))) else (NoMatch, i) | v => (v, i) end).
  { destruct anchor; [rewrite andb_false_r; cbn [search]; destruct (at_pos s t i); reflexivity|]. destruct (Z.ltb_spec i (slen s)); cbn [andb negb].
    - replace (Z.to_nat (slen s - i)) with (S (Z.to_nat (slen s - (i + 1)))) by lia. reflexivity.
    - replace (Z.to_nat (slen s - i)) with O by lia. cbn [search]. destruct (at_pos s t i); reflexivity. }
  rewrite SE. destruct (top_ok i I) as [T|[T C]]; [|rewrite T; right; split; [reflexivity|exact C]]. destruct (at_pos s t i) as [| |e c].
  - rewrite T. cbn [bind]. destruct (Z.ltb_spec i (slen s)); cbn [andb]; [|left; reflexivity]. destruct anchor; cbn [negb]; [left; reflexivity|]. apply (IH find false (i + 1)); lia.
  - rewrite T. left. reflexivity.
  - destruct T as (T & E & G). rewrite T. cbn [bind]. left. cbn [found]. destruct find.
    + rewrite (push_none e) by exact G. destruct (cap_vals s c); reflexivity.
    + rewrite (push_some e) by (try exact G; lia). destruct (results s i e c); reflexivity.
Qed.

(* ---- successive matches ---- *)
Lemma at_in : forall i e c, 0 <= i <= slen s -> at_pos s t i = Match e c -> i <= e <= slen s /\ Forall (cap_ok s e) c.
Proof.
  intros i e c I E. apply (matches_in s t [] i e c I (Forall_nil _)). unfold at_pos in E. destruct (matches s t [] i) as [|[[e' c']|] r]; cbn [preferred] in E; try discriminate. injection E as -> ->. left. reflexivity.
Qed.
Definition fresh (last : option Z) (i : Z) : Z := match last with Some l => if l =? i then 0 else 1 | None => 1 end.
Lemma fresh_range : forall last i, 0 <= fresh last i <= 1. Proof. intros [x|] i; cbn [fresh]; [destruct (x =? i)|]; lia. Qed.
Lemma succ_total : forall n lim i last, 0 <= i -> 2 * (slen s - i) + fresh last i + 2 < Z.of_nat n -> exists ms ok, succ (at_pos s t) (slen s) lim i last ms ok.
Proof.
  induction n as [|n IH]; intros lim i last I N; [destruct (Z.ltb_spec (slen s) i); [exists [], true; apply succ_end; lia|pose proof (fresh_range last i); lia]|].
  assert (D : lim = Some O \/ lim <> Some O) by (destruct lim as [[|k]|]; [left; reflexivity|right; discriminate|right; discriminate]). destruct D as [->|D]; [exists [], true; apply succ_limit|].
  destruct (Z.ltb_spec (slen s) i) as [|LE]; [exists [], true; apply succ_end; lia|].
  pose proof (fresh_range last i) as FR.
  assert (NX : forall last', exists ms ok, succ (at_pos s t) (slen s) lim (i + 1) last' ms ok) by (intros last'; apply IH; [lia|pose proof (fresh_range last' (i + 1)); lia]).
  destruct (at_pos s t i) as [| |e c] eqn:EA.
  - destruct (NX last) as (ms & ok & H). exists ms, ok. apply succ_none; assumption.
  - exists [], false. apply succ_fail; assumption.
  - destruct (at_in i e c ltac:(lia) EA) as [E G]. assert (DL : last = Some e \/ last <> Some e) by (destruct last as [x|]; [destruct (Z.eq_dec x e); [left; congruence|right; congruence]|right; discriminate]). destruct DL as [->|DL].
    + destruct (NX (Some e)) as (ms & ok & H). exists ms, ok. apply (succ_same _ _ lim i e c); assumption.
    + destruct (IH (option_map pred lim) e (Some e)) as (ms & ok & H); [lia| |exists ((i, e, c) :: ms), ok; apply succ_hit; assumption].
      assert (FE : fresh (Some e) e = 0) by (cbn [fresh]; rewrite Z.eqb_refl; reflexivity). rewrite FE. destruct (Z.eq_dec e i) as [->|]; [|lia]. assert (fresh last i = 1) by (destruct last as [x|]; cbn [fresh]; [destruct (Z.eqb_spec x i); congruence|reflexivity]). lia.
Qed.
Lemma succ_any : forall lim i last, 0 <= i -> exists ms ok, succ (at_pos s t) (slen s) lim i last ms ok.
Proof. intros lim i last I. apply (succ_total (Z.to_nat (2 * (slen s - i) + 4)) lim i last I). pose proof (fresh_range last i). lia. Qed.
Lemma succ_det : forall at_ len lim i last ms ok, succ at_ len lim i last ms ok -> forall ms' ok', succ at_ len lim i last ms' ok' -> ms = ms' /\ ok = ok'.
Proof.
  intros at_ len lim i last ms ok H. induction H; intros ms' ok' H'; inversion H'; subst; try congruence; try lia; try (split; reflexivity).
  - auto. - auto.
  - match goal with A : at_ i = Match _ _, B : at_ i = Match _ _ |- _ => rewrite A in B; injection B as <- <- end. destruct (IHsucc _ _ ltac:(eassumption)) as [-> ->]. auto.
Qed.

(* ---- gmatch ---- *)
Definition collect (ms : list hit) (ok : bool) : outcome (list (list val)) := if ok then lift (all_results s ms) else Err EFormat.
Lemma gmatch_loop_ok : q = 0 -> forall fuel i last, 0 <= i <= slen s + 1 -> slen s + 1 - i < Z.of_nat fuel ->
  (gmatch_loop fuel s p i last = Ok None /\ succ (at_pos s t) (slen s) None i last [] true) \/
  (exists j e c, gmatch_loop fuel s p i last = match results s j e c with Some v => Ok (Some (v, e)) | None => Err EFormat end /\ i <= j <= e /\ e <= slen s /\ last <> Some e /\
     forall ms ok, succ (at_pos s t) (slen s) None e (Some e) ms ok -> succ (at_pos s t) (slen s) None i last ((j, e, c) :: ms) ok) \/
  (gmatch_loop fuel s p i last = Err EFormat /\ succ (at_pos s t) (slen s) None i last [] false) \/
  (gmatch_loop fuel s p i last = Err ELoop /\ complex).
Proof.
  intros Q0. induction fuel as [|fuel IH]; intros i last I F.
  { cbn [gmatch_loop]. lia. }
  cbn [gmatch_loop]. destruct (Z.leb_spec i (slen s)) as [LE|GT]; cbn [negb]; [|left; split; [reflexivity|apply succ_end; lia]].
  destruct (top_ok i ltac:(lia)) as [T|[T C]]; rewrite Q0 in T; [|rewrite T; right; right; right; split; [reflexivity|exact C]].
  destruct (at_pos s t i) as [| |e c] eqn:EA.
  - rewrite T. cbn [bind]. destruct (IH (i + 1) last) as [[E H]|[(j & e & c & E & J & J2 & NL & H)|[[E H]|[E H]]]]; try lia; rewrite E.
    + left. split; [reflexivity|]. apply succ_none; try assumption. discriminate.
    + right. left. exists j, e, c. split; [reflexivity|]. split; [lia|]. split; [lia|]. split; [exact NL|]. intros ms ok S. apply succ_none; try assumption; [discriminate|]. apply H. exact S.
    + right. right. left. split; [reflexivity|]. apply succ_none; try assumption. discriminate.
    + right. right. right. split; [reflexivity|exact H].
  - rewrite T. right. right. left. split; [reflexivity|]. apply succ_fail; try assumption. discriminate.
  - destruct T as (T & E & G). rewrite T. cbn [bind].
    assert (DL : (match last with Some l => negb (e =? l) | None => true end = true /\ last <> Some e) \/ (match last with Some l => negb (e =? l) | None => true end = false /\ last = Some e)).
    { destruct last as [x|]; [destruct (Z.eqb_spec e x) as [->|NE]; [right; split; reflexivity|left; split; [reflexivity|congruence]]|left; split; [reflexivity|discriminate]]. }
    destruct DL as [[-> DL]|[-> ->]].
    + right. left. exists i, e, c. rewrite (push_some e) by (try exact G; lia). split; [destruct (results s i e c); reflexivity|]. split; [lia|]. split; [lia|]. split; [exact DL|]. intros ms ok S. apply succ_hit; try assumption. discriminate.
    + destruct (IH (i + 1) (Some e)) as [[E1 H]|[(j & e' & c' & E1 & J & J2 & NL & H)|[[E1 H]|[E1 H]]]]; try lia; rewrite E1.
      * left. split; [reflexivity|]. apply (succ_same _ _ _ i e c); try assumption. discriminate.
      * right. left. exists j, e', c'. split; [reflexivity|]. split; [lia|]. split; [lia|]. split; [exact NL|]. intros ms ok S. apply (succ_same _ _ _ i e c); try assumption; [discriminate|]. apply H. exact S.
      * right. right. left. split; [reflexivity|]. apply (succ_same _ _ _ i e c); try assumption. discriminate.
      * right. right. right. split; [reflexivity|exact H].
Qed.
Lemma gmatch_all_ok : q = 0 -> forall fuel i last, 0 <= i <= slen s + 1 -> slen s - i + fresh last i + 1 < Z.of_nat fuel ->
  exists ms ok, succ (at_pos s t) (slen s) None i last ms ok /\ (gmatch_all fuel s p (i, last) = collect ms ok \/ gmatch_all fuel s p (i, last) = Err ELoop /\ complex).
Proof.
  intros Q0. induction fuel as [|fuel IH]; intros i last I F; [pose proof (fresh_range last i); lia|].
  cbn [gmatch_all]. unfold gmatch_aux. destruct (gmatch_loop_ok Q0 (S (S (length s))) i last) as [[E H]|[(j & e & c & E & J & J2 & NL & H)|[[E H]|[E H]]]]; [lia|unfold slen; lia| | | |]; rewrite E.
  - exists [], true. split; [exact H|]. left. reflexivity.
  - destruct (results s j e c) as [v|] eqn:ER.
    + cbn [bind]. destruct (IH e (Some e)) as (ms & ok & S & R); [lia| |].
      { assert (FE : fresh (Some e) e = 0) by (cbn [fresh]; rewrite Z.eqb_refl; reflexivity). rewrite FE. destruct (Z.eq_dec e i) as [->|]; [|pose proof (fresh_range last i); lia]. assert (fresh last i = 1) by (destruct last as [x|]; cbn [fresh]; [destruct (Z.eqb_spec x i); congruence|reflexivity]). lia. }
      exists ((j, e, c) :: ms), ok. split; [apply H; exact S|]. destruct R as [->|[-> C]]; [left|right; split; [reflexivity|exact C]].
      unfold collect. cbn [all_results]. rewrite ER. destruct ok; [|reflexivity]. destruct (all_results s ms); reflexivity.
    + destruct (succ_any None e (Some e)) as (ms & ok & S); [lia|]. exists ((j, e, c) :: ms), ok. split; [apply H; exact S|]. left. cbn [bind]. unfold collect. cbn [all_results]. rewrite ER. destruct ok; reflexivity.
  - destruct (succ_any None i last) as (ms & ok & S); [lia|]. exists [], false. split; [exact H|]. left. reflexivity.
  - destruct (succ_any None i last) as (ms & ok & S); [lia|]. exists ms, ok. split; [exact S|]. right. split; [reflexivity|exact H].
Qed.

(* ---- gsub ---- *)
Section GSUB.
Variable tostr : Z -> list Z.
Lemma expand_plain : forall i e c u r, (forall x, In x u -> x <> 37) -> expand tostr s i e c (u ++ r) = option_map (app u) (expand tostr s i e c r).
Proof.
  intros i e c. induction u as [|x u IH]; intros r N; cbn [app]; [destruct (expand tostr s i e c r); reflexivity|]. cbn [expand]. destruct (Z.eqb_spec x 37) as [->|]; [exfalso; apply (N 37); [left; reflexivity|reflexivity]|]. rewrite IH by (intros y IN; apply N; right; exact IN). destruct (expand tostr s i e c r); reflexivity.
Qed.
Lemma nth_front : forall (a : list Z) n k d, (k < n)%nat -> nth k (firstn n a) d = nth k a d.
Proof. induction a as [|x a IH]; intros [|n] [|k] d K; try reflexivity; try lia. cbn. apply IH. lia. Qed.
Lemma split37 : forall news a b, 0 <= a <= b -> b <= slen news -> (forall k, a <= k < b -> nth (Z.to_nat k) news 0 <> 37) ->
  skipn (Z.to_nat a) news = firstn (Z.to_nat (b - a)) (skipn (Z.to_nat a) news) ++ skipn (Z.to_nat b) news /\ (forall x, In x (firstn (Z.to_nat (b - a)) (skipn (Z.to_nat a) news)) -> x <> 37).
Proof.
  intros news a b A B N. split.
  - rewrite <- (firstn_skipn (Z.to_nat (b - a)) (skipn (Z.to_nat a) news)) at 1. f_equal. rewrite skipn_skipn. f_equal. lia.
  - intros x IN. apply (In_nth _ _ 0) in IN. destruct IN as (k & K & <-). rewrite firstn_length, skipn_length in K. rewrite nth_front by lia. rewrite nth_skipn_Z. replace (Z.to_nat a + k)%nat with (Z.to_nat (a + Z.of_nat k)) by lia. apply N. lia.
Qed.
Lemma skipn_at : forall (news : list Z) a, 0 <= a < slen news -> skipn (Z.to_nat a) news = nth (Z.to_nat a) news 0 :: skipn (Z.to_nat (a + 1)) news.
Proof.
  intros news a A. replace (Z.to_nat (a + 1)) with (S (Z.to_nat a)) by lia. assert (L : (Z.to_nat a < length news)%nat) by (unfold slen in A; lia). revert L. generalize (Z.to_nat a). clear A. induction news as [|x news IH]; intros [|n] L; cbn [length] in L; try lia; [reflexivity|]. cbn [skipn nth]. apply (IH n). lia.
Qed.
Lemma add_s_loop_ok : forall fuel e0 c news a i e b, Forall (cap_ok s e0) c -> 0 <= i <= e -> e <= slen s -> 0 <= a <= slen news -> slen news - a < Z.of_nat fuel ->
  add_s_loop tostr fuel s (map enc c) news a (slen news - a) i e b = match expand tostr s i e c (skipn (Z.to_nat a) news) with Some r => Ok (b ++ r) | None => Err EFormat end.
Proof.
  induction fuel as [|fuel IH]; intros e0 c news a i e b G I E A F; [lia|]. cbn [add_s_loop].
  destruct (memchr_total (Z.to_nat (slen news - a)) news a 37) as [[x|] EM]; try lia; rewrite EM; cbn [bind].
  - apply memchr_some in EM; [|lia|lia]. destruct EM as (X & NX & NB). destruct (split37 news a x) as [SP N]; [lia|lia|exact NB|].
    rewrite sread_ok by lia. cbn [bind]. remember (firstn (Z.to_nat (x - a)) (skipn (Z.to_nat a) news)) as u eqn:EU. rewrite SP. rewrite (skipn_at news x) by lia. rewrite NX. rewrite expand_plain by exact N. cbn [expand]. rewrite Z.eqb_refl.
    destruct (Z.eq_dec (x + 1) (slen news)) as [EE|NE].
    + rewrite EE. rewrite sbyte_end. cbn [bind]. change (0 =? 37) with false. change (0 =? 48) with false. change (isdigit 0) with false. cbn [bind]. rewrite skipn_all2 by (unfold slen; lia). reflexivity.
    + rewrite sbyte_in by lia. cbn [bind]. rewrite (skipn_at news (x + 1)) by lia. set (y := nth (Z.to_nat (x + 1)) news 0).
      assert (R : forall w, add_s_loop tostr fuel s (map enc c) news (x + 1 + 1) (slen news - a - (x + 1 + 1 - a)) i e w = match expand tostr s i e c (skipn (Z.to_nat (x + 1 + 1)) news) with Some r => Ok (w ++ r) | None => Err EFormat end).
      { intros w. replace (slen news - a - (x + 1 + 1 - a)) with (slen news - (x + 1 + 1)) by lia. apply (IH e0); try assumption; lia. }
      destruct (y =? 37); [cbn [bind]; rewrite R; destruct (expand tostr s i e c _); cbn [option_map]; [rewrite <- !app_assoc; reflexivity|reflexivity]|].
      destruct (y =? 48) eqn:E48; [rewrite whole_read by lia; cbn [bind]; rewrite R; destruct (expand tostr s i e c _); cbn [option_map]; [rewrite <- !app_assoc; reflexivity|reflexivity]|].
      apply Z.eqb_neq in E48. assert (ID : isdigit y = (49 <=? y) && (y <=? 57)) by (unfold isdigit; destruct (Z.leb_spec 48 y), (Z.leb_spec 49 y), (Z.leb_spec y 57); cbn [andb]; try reflexivity; lia). rewrite ID.
      destruct ((49 <=? y) && (y <=? 57)) eqn:ER; [|reflexivity]. apply andb_true_iff in ER. destruct ER as [ER _]. apply Z.leb_le in ER.
      rewrite (capture_no_ok e0) by (assumption || lia). destruct (capture_no s i e c (y - 49)) as [v|]; cbn [lift bind option_map]; [|reflexivity]. rewrite R. destruct (expand tostr s i e c _); cbn [option_map]; [rewrite <- !app_assoc; reflexivity|reflexivity].
  - assert (EM' := memchr_none (Z.to_nat (slen news - a)) news a 37 (proj1 A) ltac:(lia) EM). destruct (split37 news a (slen news)) as [SP N]; [lia|lia|intros k K; apply EM'; lia|].
    rewrite sread_ok by lia. cbn [bind]. remember (firstn (Z.to_nat (slen news - a)) (skipn (Z.to_nat a) news)) as u eqn:EU. rewrite SP. rewrite expand_plain by exact N. rewrite (skipn_all2 news (n := Z.to_nat (slen news))) by (unfold slen; lia). cbn [expand option_map]. rewrite !app_nil_r. reflexivity.
Qed.
Variable tr : repl.
Hypothesis ST : settles tr.
(* what is added, and whether it counts as a change *)
Lemma add_value_ok : forall e0 (c : caps) i e b, Forall (cap_ok s e0) c -> 0 <= i <= e -> e <= slen s ->
  match replacement tostr s tr (i, e, c) with
  | Some r => exists ch, add_value tostr s (map enc c) tr i e b = Ok (b ++ r, ch) /\ (ch = false -> r = whole s i e)
  | None => exists x, add_value tostr s (map enc c) tr i e b = Err x
  end.
Proof.
  intros e0 c i e b G I E. unfold add_value. cbn [replacement].
  assert (FIN : forall o, settled o ->
    match given s i e o with
    | Some r => exists ch, bind o (fun v => match v with None => bind (sread s i (Z.to_nat (e - i))) (fun r => Ok (b ++ r, false)) | Some r => Ok (b ++ r, true) end) = Ok (b ++ r, ch) /\ (ch = false -> r = whole s i e)
    | None => exists x, bind o (fun v => match v with None => bind (sread s i (Z.to_nat (e - i))) (fun r => Ok (b ++ r, false)) | Some r => Ok (b ++ r, true) end) = Err x
    end).
  { intros [[r|]|x| |] H; cbn [given bind]; [exists true; split; [reflexivity|discriminate]|rewrite whole_read by lia; exists false; split; [reflexivity|reflexivity]|exists x; reflexivity|destruct H|destruct H]. }
  destruct tr as [news|f|f]; cbn [settles] in ST.
  - unfold add_s. replace (slen news) with (slen news - 0) by lia. rewrite (add_s_loop_ok _ e0) by (try assumption; unfold slen; lia). change (skipn (Z.to_nat 0) news) with news. destruct (expand tostr s i e c news) as [r|]; cbn [bind]; [exists true; split; [reflexivity|discriminate]|exists EFormat; reflexivity].
  - rewrite (push_some e0) by assumption. destruct (results s i e c) as [v|]; cbn [lift bind]; [apply FIN; apply ST|exists EFormat; reflexivity].
  - rewrite (capture_no_ok e0) by (assumption || lia). destruct (capture_no s i e c 0) as [v|]; cbn [lift bind]; [apply FIN; apply ST|exists EFormat; reflexivity].
Qed.
Lemma succ_start : forall at_ len lim i last ms ok, succ at_ len lim i last ms ok -> (forall j e c, i <= j <= len -> at_ j = Match e c -> j <= e) -> forall j e c, In (j, e, c) ms -> i <= j.
Proof.
  intros at_ len lim i last ms ok H. induction H as [| | |lim i last ms ok D L A H IH|lim i e c ms ok D L A H IH|lim i e c last ms ok D L A N H IH]; intros R j e' c' IN; [destruct IN|destruct IN|destruct IN| | |].
  - assert (i + 1 <= j); [|lia]. apply (IH ltac:(intros j0 e0 c0 J0; apply (R j0 e0 c0); lia) j e' c' IN).
  - assert (i + 1 <= j); [|lia]. apply (IH ltac:(intros j0 e0 c0 J0; apply (R j0 e0 c0); lia) j e' c' IN).
  - destruct IN as [E|IN]; [injection E as <- _ _; lia|]. assert (i <= e) by (apply (R i e c); [lia|assumption]). assert (e <= j); [|lia]. apply (IH ltac:(intros j0 e0 c0 J0; apply (R j0 e0 c0); lia) j e' c' IN).
Qed.
Lemma whole_nil : forall i, whole s i i = []. Proof. intros i. unfold whole. rewrite Z.sub_diag. reflexivity. Qed.
Lemma whole_from : forall i e, 0 <= i <= e -> whole s i e ++ from s e = from s i.
Proof. intros i e I. unfold whole, from. replace (Z.to_nat e) with (Z.to_nat (e - i) + Z.to_nat i)%nat by lia. rewrite <- skipn_skipn. apply firstn_skipn. Qed.
Lemma replaced_skip : forall ms i, 0 <= i < slen s -> (forall j e c, In (j, e, c) ms -> i + 1 <= j) -> replaced tostr s tr i ms = option_map (cons (char s i)) (replaced tostr s tr (i + 1) ms).
Proof.
  intros ms i I N. destruct ms as [|[[j e] c] ms]; cbn [replaced]; [rewrite (from_cons s) by lia; reflexivity|]. specialize (N j e c (or_introl eq_refl)).
  destruct (replacement tostr s tr (j, e, c)); [|reflexivity]. destruct (replaced tostr s tr e ms); [|reflexivity]. cbn [option_map]. rewrite app_comm_cons. f_equal. f_equal. unfold whole. rewrite (from_cons s) by lia. replace (Z.to_nat (j - i)) with (S (Z.to_nat (j - (i + 1)))) by lia. reflexivity.
Qed.
Lemma last_cases : forall (last : option Z) e, (match last with Some l => negb (e =? l) | None => true end = true /\ last <> Some e) \/ (match last with Some l => negb (e =? l) | None => true end = false /\ last = Some e).
Proof. intros [x|] e; [destruct (Z.eqb_spec e x) as [->|NE]; [right; split; reflexivity|left; split; [reflexivity|congruence]]|left; split; [reflexivity|discriminate]]. Qed.
Lemma fresh_hit : forall last e, fresh (Some e) e = 0 /\ (last <> Some e -> fresh last e = 1).
Proof. intros last e. cbn [fresh]. rewrite Z.eqb_refl. split; [reflexivity|]. intros N. destruct last as [x|]; cbn [fresh]; [destruct (Z.eqb_spec x e); congruence|reflexivity]. Qed.
Definition done (r : outcome (list Z * Z * Z * bool)) (i : Z) (n : Z) (changed : bool) (b : list Z) (ms : list hit) (ok : bool) : Prop :=
  match replaced tostr s tr i ms, ok with
  | Some out, true => exists b' i' ch, r = Ok (b', i', n + Z.of_nat (length ms), ch) /\ 0 <= i' <= slen s /\ b' ++ from s i' = b ++ out /\ (ch = false -> changed = false /\ out = from s i)
  | _, _ => exists x, r = Err x
  end.
Lemma gsub_loop_ok : forall max_s fuel i last n changed b, 0 <= i <= slen s -> 2 * (slen s - i) + fresh last i + 1 < Z.of_nat fuel ->
  exists ms ok, succ (at_pos s t) (slen s) (Some (Z.to_nat (max_s - n))) i last ms ok /\
   (done (gsub_loop tostr fuel s p tr max_s false q i last n changed b) i n changed b ms ok \/ gsub_loop tostr fuel s p tr max_s false q i last n changed b = Err ELoop /\ complex).
Proof.
  intros max_s. induction fuel as [|fuel IH]; intros i last n changed b I F; [pose proof (fresh_range last i); lia|].
  pose proof (fresh_range last i) as FR. cbn [gsub_loop]. destruct (Z.ltb_spec n max_s) as [LT|GE]; cbn [negb].
  2: { exists [], true. replace (Z.to_nat (max_s - n)) with O by lia. split; [apply succ_limit|]. left. unfold done. cbn [replaced length]. exists b, i, changed. rewrite Z.add_0_r. split; [reflexivity|]. split; [lia|]. split; [reflexivity|]. intros ->. split; reflexivity. }
  assert (L0 : Some (Z.to_nat (max_s - n)) <> Some O) by (intros X; injection X; lia).
  destruct (top_ok i I) as [T|[T C]].
  2: { destruct (succ_any (Some (Z.to_nat (max_s - n))) i last) as (ms & ok & S); [lia|]. exists ms, ok. split; [exact S|]. right. rewrite T. split; [reflexivity|exact C]. }
  assert (SKIP : forall last', (forall ms ok, succ (at_pos s t) (slen s) (Some (Z.to_nat (max_s - n))) (i + 1) last' ms ok -> succ (at_pos s t) (slen s) (Some (Z.to_nat (max_s - n))) i last' ms ok) ->
     exists ms ok, succ (at_pos s t) (slen s) (Some (Z.to_nat (max_s - n))) i last' ms ok /\
      let r := (if i <? slen s then bind (sbyte s i) (fun c => gsub_loop tostr fuel s p tr max_s false q (i + 1) last' n changed (b ++ [c])) else Ok (b, i, n, changed)) in
      (done r i n changed b ms ok \/ r = Err ELoop /\ complex)).
  { intros last' ST'. destruct (Z.ltb_spec i (slen s)) as [LI|GI].
    - rewrite sbyte_in by lia. cbn [bind]. destruct (IH (i + 1) last' n changed (b ++ [nth (Z.to_nat i) s 0])) as (ms & ok & S & R); [lia|pose proof (fresh_range last' (i + 1)); lia|]. exists ms, ok. split; [apply ST'; exact S|]. destruct R as [R|R]; [left|right; exact R].
      unfold done in *. rewrite (replaced_skip ms i ltac:(lia) (succ_start _ _ _ _ _ _ _ S ltac:(intros j e c J EJ; apply (at_in j e c) in EJ; lia))).
      destruct (replaced tostr s tr (i + 1) ms) as [out|]; cbn [option_map]; [|exact R]. destruct ok; [|exact R]. destruct R as (b' & i' & ch & R1 & R2 & R3 & R4). exists b', i', ch. split; [exact R1|]. split; [exact R2|]. split; [rewrite R3, <- app_assoc; reflexivity|]. intros CH. destruct (R4 CH) as [-> ->]. split; [reflexivity|]. symmetry. apply from_cons. lia.
    - exists [], true. split; [apply ST'; apply succ_end; lia|]. left. unfold done. cbn [replaced length]. exists b, i, changed. rewrite Z.add_0_r. split; [reflexivity|]. split; [lia|]. split; [reflexivity|]. intros ->. split; reflexivity. }
  destruct (at_pos s t i) as [| |e c] eqn:EA.
  - rewrite T. cbn [bind]. apply (SKIP last). intros ms ok S. apply succ_none; try assumption. lia.
  - rewrite T. exists [], false. split; [apply succ_fail; try assumption; lia|]. left. unfold done. cbn [replaced]. exists EFormat. reflexivity.
  - destruct T as (T & E & G). rewrite T. cbn [bind]. destruct (last_cases last e) as [[-> DL]|[-> ->]].
    2: { apply (SKIP (Some e)). intros ms ok S. apply (succ_same _ _ _ i e c); try assumption. lia. }
    assert (HIT : forall ms ok, succ (at_pos s t) (slen s) (Some (Z.to_nat (max_s - (n + 1)))) e (Some e) ms ok -> succ (at_pos s t) (slen s) (Some (Z.to_nat (max_s - n))) i last ((i, e, c) :: ms) ok).
    { intros ms ok S. apply succ_hit; try assumption; [lia|]. cbn [option_map]. replace (pred (Z.to_nat (max_s - n))) with (Z.to_nat (max_s - (n + 1))) by lia. exact S. }
    pose proof (add_value_ok e c i e b G ltac:(lia) ltac:(lia)) as AV. revert AV. destruct (replacement tostr s tr (i, e, c)) as [r|] eqn:ER; intros AV.
    + destruct AV as (ch & -> & CH). cbn [bind]. destruct (fresh_hit last e) as [FE FL].
      destruct (IH e (Some e) (n + 1) (ch || changed) (b ++ r)) as (ms & ok & S & R); [lia|rewrite FE; destruct (Z.eq_dec e i) as [->|]; [specialize (FL DL)|]; lia|].
      exists ((i, e, c) :: ms), ok. split; [apply HIT; exact S|]. destruct R as [R|R]; [left|right; exact R]. unfold done in *. cbn [replaced]. rewrite ER. destruct (replaced tostr s tr e ms) as [out|]; [|exact R]. destruct ok; [|exact R].
      destruct R as (b' & i' & ch' & R1 & R2 & R3 & R4). exists b', i', ch'. cbn [length]. rewrite R1. split; [replace (n + Z.of_nat (Datatypes.S (length ms))) with (n + 1 + Z.of_nat (length ms)) by lia; reflexivity|]. split; [exact R2|]. rewrite whole_nil. cbn [app]. split; [rewrite R3, <- app_assoc; reflexivity|]. intros X. destruct (R4 X) as [X1 ->]. apply orb_false_iff in X1. destruct X1 as [-> ->]. split; [reflexivity|]. rewrite (CH eq_refl). apply whole_from. lia.
    + destruct AV as (x & ->). cbn [bind]. destruct (succ_any (Some (Z.to_nat (max_s - (n + 1)))) e (Some e)) as (ms & ok & S); [lia|]. exists ((i, e, c) :: ms), ok. split; [apply HIT; exact S|]. left. unfold done. cbn [replaced]. rewrite ER. exists x. reflexivity.
Qed.
Lemma gsub_anchor_ok : forall max_s fuel b, forall ms ok, once (at_pos s t) (Some (Z.to_nat max_s)) = (ms, ok) ->
  done (gsub_loop tostr (S fuel) s p tr max_s true q 0 None 0 false b) 0 0 false b ms ok \/ gsub_loop tostr (S fuel) s p tr max_s true q 0 None 0 false b = Err ELoop /\ complex.
Proof.
  intros max_s fuel b ms ok O. pose proof (slen_nonneg s) as SN. cbn [gsub_loop]. unfold once in O. destruct (Z.ltb_spec 0 max_s) as [LT|GE]; cbn [negb].
  2: { replace (Z.to_nat max_s) with 0%nat in O by lia. assert (ms = [] /\ ok = true) as [-> ->] by (destruct (at_pos s t 0); injection O as <- <-; auto). left. unfold done. cbn [replaced length]. exists b, 0, false. split; [reflexivity|]. split; [lia|]. split; [reflexivity|]. intros _. split; reflexivity. }
  destruct (Z.to_nat max_s) as [|k] eqn:EK; [lia|]. destruct (top_ok 0 ltac:(lia)) as [T|[T C]]; [|right; rewrite T; split; [reflexivity|exact C]].
  destruct (at_pos s t 0) as [| |e c] eqn:EA.
  - rewrite T. cbn [bind]. injection O as <- <-. left. unfold done. cbn [replaced length]. destruct (Z.ltb_spec 0 (slen s)).
    + rewrite sbyte_in by lia. cbn [bind]. exists (b ++ [nth (Z.to_nat 0) s 0]), 1, false. split; [reflexivity|]. split; [lia|]. split; [|intros _; split; reflexivity]. rewrite <- app_assoc. f_equal. cbn [app]. symmetry. apply (from_cons s 0). lia.
    + exists b, 0, false. split; [reflexivity|]. split; [lia|]. split; [reflexivity|]. intros _. split; reflexivity.
  - rewrite T. injection O as <- <-. left. unfold done. cbn [replaced]. exists EFormat. reflexivity.
  - destruct T as (T & E & G). rewrite T. cbn [bind]. injection O as <- <-. left. unfold done. cbn [replaced]. pose proof (add_value_ok e c 0 e b G ltac:(lia) ltac:(lia)) as AV. revert AV. destruct (replacement tostr s tr (0, e, c)) as [r|]; intros AV.
    + destruct AV as (ch & -> & CH). cbn [bind length]. exists (b ++ r), e, (ch || false). split; [reflexivity|]. split; [lia|]. rewrite whole_nil. cbn [app]. rewrite <- app_assoc. split; [reflexivity|]. intros X. rewrite orb_false_r in X. split; [reflexivity|]. rewrite (CH X). apply whole_from. lia.
    + destruct AV as (x & ->). exists x. reflexivity.
Qed.
End GSUB.
(* the default limit is no limit *)
Lemma succ_unlimited : forall k i last ms ok, succ (at_pos s t) (slen s) k i last ms ok -> 0 <= i -> forall n, k = Some n ->
  slen s - i + 1 <= Z.of_nat n \/ (slen s - i <= Z.of_nat n /\ last = Some i /\ exists c, at_pos s t i = Match i c) -> succ (at_pos s t) (slen s) None i last ms ok.
Proof.
  intros k i last ms ok H. induction H as [i last|lim i last G|lim i last D L A|lim i last ms ok D L A H IH|lim i e c ms ok D L A H IH|lim i e c last ms ok D L A N H IH]; intros I n EN C.
  - injection EN as <-. destruct (Z.ltb_spec (slen s) i) as [G|G]; [apply succ_end; exact G|]. destruct C as [C|(C & -> & c & A)]; [lia|]. apply (succ_same _ _ None i i c); [discriminate|lia|exact A|]. apply succ_end. lia.
  - apply succ_end. exact G.
  - apply succ_fail; try assumption. discriminate.
  - apply succ_none; try assumption; [discriminate|]. apply (IH ltac:(lia) n EN). left. destruct C as [C|(C & _ & c & A')]; [lia|congruence].
  - apply (succ_same _ _ None i e c); try assumption; [discriminate|]. apply (IH ltac:(lia) n EN). left. lia.
  - destruct C as [C|(C & -> & c' & A')]; [|rewrite A in A'; injection A' as -> _; congruence]. apply succ_hit; try assumption; [discriminate|]. subst lim. destruct (at_in i e c ltac:(lia) A) as [E _].
    apply (IH ltac:(lia) (pred n) eq_refl). destruct (Z.eq_dec e i) as [->|]; [right|left; lia]. split; [lia|]. split; [reflexivity|]. exists c. exact A.
Qed.
End PAT.
End LIB.

(* ---- the theorems ---- *)
Lemma at_body : forall p, wf_str p -> exists x, sbyte p 0 = Ok x /\ (x =? 94) = anchored p /\ At p (if anchored p then 1 else 0) (body p).
Proof.
  intros p WP. unfold body, anchored. destruct p as [|c p].
  - exists 0. split; [reflexivity|]. split; [reflexivity|]. change (next [] =? 94) with false. split; [lia|]. split; reflexivity.
  - exists c. split; [reflexivity|]. split; [reflexivity|]. cbn [next tl]. destruct (c =? 94); (split; [lia|split; [reflexivity|rewrite ?slen_cons; lia]]).
Qed.
Definition too_complex (t : tree) : Prop := (200 <= nesting t)%nat.
Theorem match_level : forall s p i, wf_str s -> wf_str p -> slen s <= maxint -> 0 <= i <= slen s ->
  match at_pos s (parse p) i with
  | NoMatch => match_ s p MAXCCALLS [] i 0 = Ok (None, [])
  | Failure => match_ s p MAXCCALLS [] i 0 = Err EFormat
  | Match e c => match_ s p MAXCCALLS [] i 0 = Ok (Some e, map enc c) /\ i <= e <= slen s
  end \/ (match_ s p MAXCCALLS [] i 0 = Err ELoop /\ too_complex (parse p)).
Proof.
  intros s p i WS WP LS I. destruct (top_ok s p WS WP LS 0 p ltac:(split; [lia|split; [reflexivity|lia]]) i I) as [T|T]; [left|right; exact T].
  destruct (at_pos s (parse p) i); try exact T. destruct T as (T & E & _). split; assumption.
Qed.
Theorem relation_ok : forall s t i e c, 0 <= i <= slen s -> In (Some (e, c)) (matches s t [] i) <-> m s t [] i c e.
Proof. intros s t i e c I. apply matches_iff; [exact I|constructor]. Qed.
Theorem match_inside : forall s t i e c, 0 <= i <= slen s -> m s t [] i c e -> i <= e <= slen s /\
  Forall (fun x => match x with COpen j => 0 <= j <= e | CPos j => 0 <= j <= slen s | CClosed j n => 0 <= j /\ 0 <= n /\ j + n <= slen s end) c.
Proof. intros s t i e c I M. apply relation_ok in M; [|exact I]. destruct (matches_in s t [] i e c I (Forall_nil _) M) as [E G]. split; [exact E|]. exact G. Qed.
Theorem find_aux_ok : forall s p oi plain find, wf_str s -> wf_str p -> slen s <= maxint ->
  let init := match oi with Some i => i | None => 1 end in is_s64 init ->
  let a := first_pos (slen s) init - 1 in
  (find = false \/ (plain = false /\ exists c, In c p /\ magic c)) ->
  str_find_aux s p oi plain find = find_in s p find a \/ (str_find_aux s p oi plain find = Err ELoop /\ too_complex (parse (body p))).
Proof.
  intros s p oi plain find WS WP LS init SI a HF. unfold str_find_aux. fold init. rewrite posrelatI_ok by (try assumption; pose proof (slen_nonneg s); lia).
  assert (A : 0 <= a) by (unfold a, first_pos; lia). fold a. assert (AU : u64 a = a). { apply u64_small. split; [exact A|]. unfold a, first_pos, translate. unfold is_s64 in SI. pose proof (slen_nonneg s). destruct (init <? 0); [destruct (init <? - slen s)|]; unfold_consts; lia. }
  rewrite AU. unfold find_in. destruct (Z.ltb_spec (slen s) a); [left; reflexivity|].
  assert (O : (if find then str_find_plain s p oi plain else Ok None) = Ok None). { destruct HF as [->|[-> SP]]; [reflexivity|]. destruct find; [|reflexivity]. apply find_special; try assumption. fold init. lia. }
  rewrite O. cbn [bind]. destruct (at_body p WP) as (x & -> & EX & AT). cbn [bind]. rewrite EX.
  apply (find_loop_ok s p WS WP LS _ (body p) AT (Datatypes.S (length s)) find (anchored p) a); [lia|]. unfold slen in *. lia.
Qed.
Theorem gmatch_ok : forall s p oi fuel, wf_str s -> wf_str p -> slen s <= maxint - 1 ->
  let init := match oi with Some i => i | None => 1 end in is_s64 init -> (length s + 3 <= fuel)%nat ->
  exists ms ok, succ (at_pos s (parse p)) (slen s) None (first_pos (slen s) init - 1) None ms ok /\
   (gmatch_all fuel s p (gmatch s p oi) = (if ok then match all_results s ms with Some r => Ok r | None => Err EFormat end else Err EFormat) \/
    (gmatch_all fuel s p (gmatch s p oi) = Err ELoop /\ too_complex (parse p))).
Proof.
  intros s p oi fuel WS WP LS init SI F. unfold gmatch. fold init. rewrite posrelatI_ok by (try assumption; pose proof (slen_nonneg s); lia). set (a := first_pos (slen s) init - 1).
  assert (A : 0 <= a) by (unfold a, first_pos; lia). assert (AU : u64 a = a). { apply u64_small. split; [exact A|]. unfold a, first_pos, translate. unfold is_s64 in SI. pose proof (slen_nonneg s). destruct (init <? 0); [destruct (init <? - slen s)|]; unfold_consts; lia. }
  rewrite AU. assert (AT : At p 0 p) by (split; [lia|split; [reflexivity|lia]]).
  assert (B : 0 <= (if slen s <? a then slen s + 1 else a) <= slen s + 1) by (pose proof (slen_nonneg s); destruct (Z.ltb_spec (slen s) a); lia).
  destruct (gmatch_all_ok s p WS WP ltac:(unfold_consts; lia) 0 p AT eq_refl fuel (if slen s <? a then slen s + 1 else a) None B) as (ms & ok & S & R).
  { cbn [fresh]. unfold slen in *. lia. }
  exists ms, ok. split; [|exact R]. destruct (Z.ltb_spec (slen s) a); [|exact S]. inversion S; subst; try lia. apply succ_end. lia.
Qed.
Theorem gsub_ok : forall tostr s p tr om, wf_str s -> wf_str p -> slen s <= maxint - 1 -> settles tr ->
  exists ms ok, (if anchored p then once (at_pos s (parse (body p))) (option_map Z.to_nat om) = (ms, ok) else succ (at_pos s (parse (body p))) (slen s) (option_map Z.to_nat om) 0 None ms ok) /\
   ((match replaced tostr s tr 0 ms, ok with
     | Some out, true => str_gsub tostr s p tr om = Ok (out, Z.of_nat (length ms))
     | _, _ => exists x, str_gsub tostr s p tr om = Err x
     end) \/ (str_gsub tostr s p tr om = Err ELoop /\ too_complex (parse (body p)))).
Proof.
  intros tostr s p tr om WS WP LS ST. pose proof (slen_nonneg s) as SN. unfold str_gsub. destruct (at_body p WP) as (x & -> & EX & AT). cbn [bind]. rewrite EX.
  assert (LS' : slen s <= maxint) by (unfold_consts; lia).
  assert (MX : match om with Some m => m | None => s64 (u64 (slen s + 1)) end = match om with Some m => m | None => slen s + 1 end). { destruct om; [reflexivity|]. rewrite u64_small by (unfold_consts; lia). apply s64_id. unfold is_s64. unfold_consts. lia. }
  rewrite MX. set (mx := match om with Some m => m | None => slen s + 1 end).
  assert (FIN : forall r ms ok, done s tostr tr r 0 0 false [] ms ok \/ r = Err ELoop /\ too_complex (parse (body p)) ->
    (match replaced tostr s tr 0 ms, ok with
     | Some out, true => bind r (fun '(b, src, n, changed) => if negb changed then Ok (s, n) else bind (sread s src (Z.to_nat (slen s - src))) (fun r => Ok (b ++ r, n))) = Ok (out, Z.of_nat (length ms))
     | _, _ => exists x, bind r (fun '(b, src, n, changed) => if negb changed then Ok (s, n) else bind (sread s src (Z.to_nat (slen s - src))) (fun r => Ok (b ++ r, n))) = Err x
     end) \/ (bind r (fun '(b, src, n, changed) => if negb changed then Ok (s, n) else bind (sread s src (Z.to_nat (slen s - src))) (fun r => Ok (b ++ r, n))) = Err ELoop /\ too_complex (parse (body p)))).
  { intros r ms ok [D|[-> C]]; [left|right; split; [reflexivity|exact C]]. unfold done in D. destruct (replaced tostr s tr 0 ms) as [out|]; [|destruct D as [y ->]; exists y; reflexivity]. destruct ok; [|destruct D as [y ->]; exists y; reflexivity].
    destruct D as (b' & i' & ch & -> & I' & EO & CH). cbn [bind]. cbn [app] in EO. rewrite Z.add_0_l. destruct ch; cbn [negb].
    - rewrite sread_ok by lia. cbn [bind]. rewrite firstn_all2; [|rewrite skipn_length; unfold slen in *; lia]. unfold from in EO. rewrite EO. reflexivity.
    - destruct (CH eq_refl) as [_ ->]. reflexivity. }
  destruct (anchored p) eqn:EA.
  - destruct (once (at_pos s (parse (body p))) (option_map Z.to_nat om)) as [ms ok] eqn:EO. exists ms, ok. split; [reflexivity|]. apply FIN. replace (2 * (length s + 2))%nat with (Datatypes.S (2 * length s + 3)) by lia.
    apply (gsub_anchor_ok s p WS WP LS' 1 (body p) AT tostr tr ST mx). rewrite <- EO. unfold mx. destruct om as [k|]; [reflexivity|]. unfold once. destruct (Z.to_nat (slen s + 1)) eqn:E0; [lia|]. destruct (at_pos s (parse (body p)) 0); reflexivity.
  - destruct (gsub_loop_ok s p WS WP LS' 0 (body p) AT tostr tr ST mx (2 * (length s + 2)) 0 None 0 false []) as (ms & ok & S & R); [lia|cbn [fresh]; unfold slen; lia|].
    exists ms, ok. split; [|apply FIN; exact R]. rewrite Z.sub_0_r in S. unfold mx in S. destruct om as [k|]; cbn [option_map]; [exact S|].
    apply (succ_unlimited s (body p) _ _ _ _ _ S ltac:(lia) _ eq_refl). left. lia.
Qed.
Theorem find_plain_ok : forall s p oi plain, slen s <= maxint ->
  let init := match oi with Some i => i | None => 1 end in is_s64 init ->
  (plain = true \/ forall c, In c p -> ~ magic c) ->
  (exists a, str_find_aux s p oi plain true = Ok [VInt a; VInt (a + slen p - 1)] /\ first_pos (slen s) init <= a /\ occurs s p a /\ forall b, first_pos (slen s) init <= b < a -> ~ occurs s p b) \/
  (str_find_aux s p oi plain true = Ok [VNil] /\ forall b, first_pos (slen s) init <= b -> ~ occurs s p b).
Proof.
  intros s p oi plain LS init SI H. destruct (find_ok s p oi plain LS SI H) as (o & E & R). fold init in R.
  unfold str_find_aux. fold init. assert (EP := E). unfold str_find_plain in EP. fold init in EP. cbv zeta in EP.
  destruct (slen s <? u64 (posrelatI init (slen s) - 1)).
  - injection EP as <-. right. split; [reflexivity|]. exact R.
  - rewrite E. cbn [bind]. destruct o as [[a b]|].
    + left. exists a. destruct R as (R1 & R2 & R3 & R4). subst b. repeat split; try assumption; try lia; apply R2.
    + right. split; [reflexivity|]. exact R.
Qed.
Theorem succ_unique : forall at_ len lim i last ms ok ms' ok', succ at_ len lim i last ms ok -> succ at_ len lim i last ms' ok' -> ms = ms' /\ ok = ok'.
Proof. intros at_ len lim i last ms ok ms' ok' H H'. eapply succ_det; eassumption. Qed.
