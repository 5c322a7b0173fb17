(* Proofs about the name of a chunk (C69) *)

Require Import Verif.Base Verif.Base_facts Verif.Chunkid_model Verif.Chunkid_spec.
From Coq Require Import ZArith List Bool Lia.
Import ListNotations.
Local Open Scope Z_scope.
Local Open Scope outcome_scope.

Lemma addstr_ok : forall room out src off n, 0 <= off -> 0 <= n -> off + n <= zlen src -> zlen out + n <= room ->
  addstr room out src off n = Ok (out ++ firstn (Z.to_nat n) (skipn (Z.to_nat off) src)).
Proof.
  intros. unfold addstr. replace (_ && _) with true; [reflexivity|].
  symmetry. rewrite !andb_true_iff, !Z.leb_le. auto.
Qed.

Lemma newline_ok : forall s i, match newline s i with
  | Some k => k = i + zlen (first_line s) /\ (length (first_line s) < length s)%nat
  | None => first_line s = s end.
Proof.
  induction s as [|c s IH]; intros i; cbn [newline first_line]; [reflexivity|].
  destruct (c =? 10); [unfold zlen; cbn [length]; split; lia|].
  specialize (IH (i + 1)). destruct (newline s (i + 1)) as [k|].
  - destruct IH as [-> L]. unfold zlen. cbn [length]. split; lia.
  - now rewrite IH.
Qed.

Lemma first_line_prefix : forall s t, firstn (length (first_line s)) (s ++ t) = first_line s.
Proof.
  induction s as [|c s IH]; intros t; cbn [first_line]; [reflexivity|].
  destruct (c =? 10); [reflexivity|]. cbn [length app firstn]. now rewrite IH.
Qed.
Lemma first_line_le : forall s, (length (first_line s) <= length s)%nat.
Proof. induction s as [|c s IH]; cbn [first_line]; [lia|]. destruct (c =? 10); cbn [length]; lia. Qed.

Lemma u64_of : forall x, 0 <= x < two64 -> u64 x = x.
Proof. intros x H. unfold u64. apply Z.mod_small. exact H. Qed.

Lemma firstn_prefix : forall (s t : list Z) k, (k <= length s)%nat -> firstn k (s ++ t) = firstn k s.
Proof. intros s t k H. rewrite firstn_app. replace (k - length s)%nat with 0%nat by lia. cbn [firstn]. apply app_nil_r. Qed.

Lemma firstn_line : forall s t k, (k <= length (first_line s))%nat -> firstn k (s ++ t) = firstn k (first_line s).
Proof.
  intros s t k H. transitivity (firstn k (firstn (length (first_line s)) (s ++ t))).
  - rewrite firstn_firstn. f_equal. lia.
  - now rewrite first_line_prefix.
Qed.

Definition quoted (s : list Z) (n : nat) : list Z :=
  let k := (n - 14)%nat in
  [91; 115; 116; 114; 105; 110; 103; 32; 34] ++
  (if (length s <? k)%nat && (length (first_line s) =? length s)%nat then s
   else firstn k (first_line s) ++ [46; 46; 46]) ++
  [34; 93].

Lemma name_other : forall c s n, c <> 61 -> c <> 64 -> chunk_name (c :: s) n = quoted (c :: s) n.
Proof.
  intros c s n A B. unfold chunk_name, quoted. destruct c as [|p|p]; try reflexivity.
  repeat match goal with q : positive |- _ => destruct q; try reflexivity; try (exfalso; apply A; reflexivity); try (exfalso; apply B; reflexivity) end.
Qed.

Lemma quoted_ok : forall s b, 16 <= b < two64 ->
  (let nl := newline s 0 in
    do out <- addstr b [] PRE 0 9;
    let bufflen := u64 (b - 15) in
    do out <- (if (zlen s <? bufflen) && match nl with None => true | Some _ => false end then addstr b out (s ++ [0]) 0 (zlen s)
               else
                 let l := match nl with Some i => i | None => zlen s end in
                 let l := if bufflen <? l then bufflen else l in
                 do out <- addstr b out (s ++ [0]) 0 l;
                 addstr b out RETS 0 3);
    addstr b out (POS ++ [0]) 0 3) = Ok (quoted s (Z.to_nat (b - 1)) ++ [0]).
Proof.
  intros s b B. cbv zeta. rewrite (u64_of (b - 15)) by lia.
  rewrite addstr_ok by (unfold zlen; simpl length; lia). cbn [bind app].
  change (firstn (Z.to_nat 9) (skipn (Z.to_nat 0) PRE)) with PRE.
  assert (LS : zlen (s ++ [0]) = zlen s + 1) by (unfold zlen; rewrite app_length; simpl length; lia).
  assert (LP : zlen PRE = 9) by reflexivity.
  assert (NN : 0 <= zlen s) by (unfold zlen; lia).
  unfold quoted. cbv zeta. replace (Z.to_nat (b - 1) - 14)%nat with (Z.to_nat (b - 15)) by lia.
  assert (C : (zlen s <? b - 15) && match newline s 0 with None => true | Some _ => false end =
    (length s <? Z.to_nat (b - 15))%nat && (length (first_line s) =? length s)%nat).
  { pose proof (newline_ok s 0) as N. f_equal.
    - unfold zlen. destruct (Z.ltb_spec (Z.of_nat (length s)) (b - 15)), (Nat.ltb_spec (length s) (Z.to_nat (b - 15))); lia.
    - destruct (newline s 0).
      + destruct N as [_ N]. symmetry. apply Nat.eqb_neq. lia.
      + rewrite N. symmetry. apply Nat.eqb_refl. }
  rewrite <- C. destruct ((zlen s <? b - 15) && match newline s 0 with None => true | Some _ => false end) eqn:E.
  - apply andb_prop in E. destruct E as [E _]. apply Z.ltb_lt in E.
    rewrite addstr_ok by lia. cbn [bind].
    replace (firstn (Z.to_nat (zlen s)) (skipn (Z.to_nat 0) (s ++ [0]))) with s.
    2: { cbn [Z.to_nat skipn]. unfold zlen. rewrite Nat2Z.id, firstn_prefix, firstn_all by lia. reflexivity. }
    rewrite addstr_ok; [|lia|lia|unfold zlen; simpl length; lia|unfold zlen in *; rewrite app_length; lia].
    change (firstn (Z.to_nat 3) (skipn (Z.to_nat 0) (POS ++ [0]))) with ([34; 93] ++ [0]).
    unfold PRE. rewrite <- !app_assoc. reflexivity.
  - assert (L : match newline s 0 with Some i => i | None => zlen s end = zlen (first_line s)).
    { pose proof (newline_ok s 0) as N. destruct (newline s 0); [destruct N; lia|now rewrite N]. }
    rewrite L. pose proof (first_line_le s) as FL.
    set (m := if b - 15 <? zlen (first_line s) then b - 15 else zlen (first_line s)).
    assert (M : 0 <= m <= b - 15 /\ m <= zlen (first_line s) /\
      firstn (Z.to_nat m) (first_line s) = firstn (Z.to_nat (b - 15)) (first_line s)).
    { unfold m. destruct (Z.ltb_spec (b - 15) (zlen (first_line s))); [repeat split; lia|].
      unfold zlen in *. repeat split; try lia. rewrite Nat2Z.id, firstn_all, firstn_all2 by lia. reflexivity. }
    destruct M as [M1 [M2 M3]]. clearbody m.
    rewrite addstr_ok by (unfold zlen in *; lia). cbn [bind].
    replace (firstn (Z.to_nat m) (skipn (Z.to_nat 0) (s ++ [0]))) with (firstn (Z.to_nat (b - 15)) (first_line s)).
    2: { cbn [Z.to_nat skipn]. rewrite firstn_line by (unfold zlen in *; lia). auto. }
    set (d := firstn (Z.to_nat (b - 15)) (first_line s)).
    assert (D : zlen d <= b - 15) by (unfold d, zlen; rewrite firstn_length; lia).
    rewrite addstr_ok; [|lia|lia|unfold zlen; simpl length; lia|unfold zlen in *; rewrite app_length; lia]. cbn [bind].
    change (firstn (Z.to_nat 3) (skipn (Z.to_nat 0) RETS)) with [46; 46; 46].
    rewrite addstr_ok; [|lia|lia|unfold zlen; simpl length; lia|unfold zlen in *; rewrite !app_length; simpl length in *; lia].
    change (firstn (Z.to_nat 3) (skipn (Z.to_nat 0) (POS ++ [0]))) with ([34; 93] ++ [0]).
    unfold PRE. rewrite <- !app_assoc. reflexivity.
Qed.

Lemma chunkid_ok : forall s b, 16 <= b < two64 -> luaO_chunkid s b = Ok (chunk_name s (Z.to_nat (b - 1)) ++ [0]).
Proof.
  intros s b B. destruct s as [|c s].
  { unfold luaO_chunkid. cbn [hd app]. change (0 =? 61) with false. change (0 =? 64) with false. cbv iota.
    exact (quoted_ok [] b B). }
  destruct (Z.eq_dec c 61) as [->|N1]; [|destruct (Z.eq_dec c 64) as [->|N2]].
  - unfold luaO_chunkid. cbn [hd app chunk_name]. change (61 =? 61) with true. cbv iota zeta.
    assert (L : zlen (61 :: s) = 1 + zlen s) by (unfold zlen; cbn [length]; lia).
    assert (L2 : zlen (61 :: s ++ [0]) = 2 + zlen s) by (unfold zlen; cbn [length]; rewrite app_length; simpl length; lia).
    destruct (Z.leb_spec (zlen (61 :: s)) b) as [E|E].
    + rewrite addstr_ok by (unfold zlen in *; simpl length in *; lia). cbn [app].
      change (skipn (Z.to_nat 1) (61 :: s ++ [0])) with (s ++ [0]).
      rewrite (firstn_all2 (n := Z.to_nat (zlen (61 :: s)))) by (unfold zlen; rewrite app_length; simpl length; lia).
      rewrite firstn_all2 by (unfold zlen in *; lia). reflexivity.
    + rewrite u64_of by lia. rewrite addstr_ok by (unfold zlen in *; simpl length in *; lia). cbn [bind app].
      change (skipn (Z.to_nat 1) (61 :: s ++ [0])) with (s ++ [0]).
      rewrite firstn_prefix by (unfold zlen in *; lia).
      rewrite addstr_ok; [reflexivity|lia|lia|unfold zlen; simpl length; lia|unfold zlen; rewrite firstn_length; lia].
  - unfold luaO_chunkid. cbn [hd app chunk_name]. change (64 =? 61) with false. change (64 =? 64) with true. cbv iota zeta.
    assert (L : zlen (64 :: s) = 1 + zlen s) by (unfold zlen; cbn [length]; lia).
    assert (L2 : zlen (64 :: s ++ [0]) = 2 + zlen s) by (unfold zlen; cbn [length]; rewrite app_length; simpl length; lia).
    destruct (Z.leb_spec (zlen (64 :: s)) b) as [E|E].
    + replace (length s <=? Z.to_nat (b - 1))%nat with true by (symmetry; apply Nat.leb_le; unfold zlen in *; lia).
      rewrite addstr_ok by (unfold zlen in *; simpl length in *; lia). cbn [app].
      change (skipn (Z.to_nat 1) (64 :: s ++ [0])) with (s ++ [0]).
      rewrite firstn_all2 by (unfold zlen; rewrite app_length; simpl length; lia). reflexivity.
    + replace (length s <=? Z.to_nat (b - 1))%nat with false by (symmetry; apply Nat.leb_gt; unfold zlen in *; lia).
      rewrite addstr_ok by (unfold zlen in *; simpl length in *; lia). cbn [bind app].
      change (firstn (Z.to_nat 3) (skipn (Z.to_nat 0) RETS)) with RETS.
      rewrite u64_of by lia. rewrite L.
      rewrite addstr_ok; [|unfold zlen in *; lia|lia|unfold zlen in *; lia|unfold zlen; simpl length; lia].
      replace (Z.to_nat (1 + (1 + zlen s) - (b - 3))) with (S (length s - (Z.to_nat (b - 1) - 3)))%nat by (unfold zlen in *; lia).
      cbn [skipn]. rewrite skipn_app.
      replace (length s - (Z.to_nat (b - 1) - 3) - length s)%nat with 0%nat by lia.
      cbn [skipn]. rewrite firstn_all2 by (rewrite app_length, skipn_length; simpl length; unfold zlen in *; lia).
      reflexivity.
  - rewrite name_other by assumption. rewrite <- quoted_ok by exact B.
    unfold luaO_chunkid. cbn [hd app]. apply Z.eqb_neq in N1, N2. rewrite N1, N2. reflexivity.
Qed.

Lemma in_firstn : forall (s : list Z) k x, In x (firstn k s) -> In x s.
Proof. intros s k x H. rewrite <- (firstn_skipn k s). apply in_or_app. auto. Qed.
Lemma in_skipn : forall (s : list Z) k x, In x (skipn k s) -> In x s.
Proof. intros s k x H. rewrite <- (firstn_skipn k s). apply in_or_app. auto. Qed.
Lemma in_line : forall s x, In x (first_line s) -> In x s /\ x <> 10.
Proof.
  induction s as [|c s IH]; intros x H; cbn [first_line] in H; [contradiction|].
  destruct (Z.eqb_spec c 10); [contradiction|]. destruct H as [->|H]; [split; [now left|assumption]|].
  destruct (IH x H). split; [now right|assumption].
Qed.

Lemma whole_line : forall s, length (first_line s) = length s -> first_line s = s.
Proof.
  induction s as [|c s IH]; cbn [first_line]; [auto|]. destruct (c =? 10); cbn [length]; intros H; [discriminate|].
  f_equal. apply IH. lia.
Qed.

Lemma quoted_len : forall s n, (15 <= n)%nat -> (length (quoted s n) <= n)%nat.
Proof.
  intros s n H. unfold quoted. rewrite !app_length.
  destruct (Nat.ltb_spec (length s) (n - 14)); destruct (Nat.eqb_spec (length (first_line s)) (length s)); cbn [andb];
    rewrite ?app_length, ?firstn_length; simpl length.
  all: try lia.
Qed.
Lemma quoted_in : forall s n x, In x (quoted s n) ->
  (In x s /\ x <> 10) \/ In x [91; 115; 116; 114; 105; 110; 103; 32; 34; 46; 93].
Proof.
  intros s n x H. unfold quoted in H. rewrite !in_app_iff in H.
  destruct ((length s <? n - 14)%nat && (length (first_line s) =? length s)%nat) eqn:E.
  - apply andb_prop in E. destruct E as [_ E]. apply Nat.eqb_eq in E. apply whole_line in E.
    destruct H as [H|[H|H]]; [right|left|right]; try (simpl in *; tauto). rewrite <- E in H. now apply in_line.
  - rewrite in_app_iff in H. destruct H as [H|[[H|H]|H]]; [right|left|right|right]; try (simpl in *; tauto).
    apply in_firstn in H. now apply in_line.
Qed.

(* the name fits, and is a C string when the source is *)
Lemma chunkid_fits : forall s b, 16 <= b < two64 -> ~ In 0 s ->
  exists r, luaO_chunkid s b = Ok (r ++ [0]) /\ zlen (r ++ [0]) <= b /\ ~ In 0 r.
Proof.
  intros s b B Z0. exists (chunk_name s (Z.to_nat (b - 1))). split; [apply chunkid_ok; exact B|].
  assert (Q : forall t, ~ In 0 t -> zlen (quoted t (Z.to_nat (b - 1)) ++ [0]) <= b /\ ~ In 0 (quoted t (Z.to_nat (b - 1)))).
  { intros t T. split.
    - unfold zlen. rewrite app_length. pose proof (quoted_len t (Z.to_nat (b - 1)) ltac:(lia)). change (length [0]) with 1%nat. lia.
    - intros H. apply quoted_in in H. destruct H as [[H _]|H]; [contradiction|]. cbn [In] in H. repeat (destruct H as [H|H]; [discriminate|]). exact H. }
  destruct s as [|c s]; [exact (Q [] Z0)|].
  destruct (Z.eq_dec c 61) as [->|N1]; [|destruct (Z.eq_dec c 64) as [->|N2]].
  - cbn [chunk_name]. split.
    + unfold zlen. rewrite app_length, firstn_length. simpl length. lia.
    + intros H. apply in_firstn in H. apply Z0. now right.
  - cbn [chunk_name]. destruct (Nat.leb_spec (length s) (Z.to_nat (b - 1))).
    + split; [unfold zlen; rewrite app_length; simpl length; lia|]. intros H1. apply Z0. now right.
    + unfold ending. split.
      * unfold zlen. rewrite !app_length, skipn_length. simpl length. lia.
      * rewrite in_app_iff. intros [H1|H1]; [cbn [In] in H1; repeat (destruct H1 as [H1|H1]; [discriminate|]); exact H1|]. apply in_skipn in H1. apply Z0. now right.
  - rewrite name_other by assumption. apply Q. exact Z0.
Qed.

(* the name of a chunk that is neither a file nor has a given name has one line *)
Lemma chunkid_line : forall s b, 16 <= b < two64 -> hd 0 s <> 61 -> hd 0 s <> 64 ->
  exists r, luaO_chunkid s b = Ok (r ++ [0]) /\ ~ In 10 r.
Proof.
  intros s b B N1 N2. exists (chunk_name s (Z.to_nat (b - 1))). split; [apply chunkid_ok; exact B|].
  assert (Q : chunk_name s (Z.to_nat (b - 1)) = quoted s (Z.to_nat (b - 1))).
  { destruct s as [|c s]; [reflexivity|]. apply name_other; assumption. }
  rewrite Q. intros H. apply quoted_in in H. destruct H as [[_ H]|H]; [lia|]. cbn [In] in H. repeat (destruct H as [H|H]; [discriminate|]). exact H.
Qed.
