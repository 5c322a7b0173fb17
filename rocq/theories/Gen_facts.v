(* Facts about code lists, patching and the growth of the code. *)
Require Import ZArith List Bool Arith Lia.
From Coq Require Import Floats.SpecFloat.
From Verif Require Import Base Float_model Op_model Op_spec Gen_model Gen_spec.
Import ListNotations.
Local Open Scope nat_scope.

Lemma upd_len {A} (l : list A) n x : length (upd l n x) = length l.
Proof. revert n; induction l as [|y l IH]; intros [|n]; cbn; auto. Qed.
Lemma upd_same {A} (l : list A) n x : n < length l -> nth_error (upd l n x) n = Some x.
Proof. revert n; induction l as [|y l IH]; intros [|n] H; cbn in *; try lia; auto. apply IH. lia. Qed.
Lemma upd_other {A} (l : list A) n m x : m <> n -> nth_error (upd l n x) m = nth_error l m.
Proof. revert n m; induction l as [|y l IH]; intros [|n] [|m] H; cbn; auto; try lia. Qed.
Lemma nth_lt {A} (l : list A) n x : nth_error l n = Some x -> n < length l.
Proof. intros H. apply nth_error_Some. congruence. Qed.
Lemma lt_nth {A} (l : list A) n : n < length l -> exists x, nth_error l n = Some x.
Proof. intros H. apply nth_error_Some in H. destruct (nth_error l n); eauto. congruence. Qed.
Lemma nth_app1 {A} (l l' : list A) n : n < length l -> nth_error (l ++ l') n = nth_error l n.
Proof. apply nth_error_app1. Qed.
Lemma nth_last {A} (l : list A) x : nth_error (l ++ [x]) (length l) = Some x.
Proof. rewrite nth_error_app2 by lia. rewrite Nat.sub_diag. reflexivity. Qed.
Lemma nth_over {A} (l : list A) n : length l <= n -> nth_error l n = None.
Proof. apply nth_error_None. Qed.
Lemma removelast_nth {A} (l : list A) n : S n < length l -> nth_error (removelast l) n = nth_error l n.
Proof.
  revert n; induction l as [|y l IH]; intros n H; [reflexivity|]. destruct l as [|z l]; [cbn in H; lia|].
  destruct n as [|n]; [reflexivity|]. cbn [nth_error]. change (removelast (y :: z :: l)) with (y :: removelast (z :: l)). cbn [nth_error].
  apply IH. cbn in *. lia.
Qed.
Lemma removelast_len {A} (l : list A) : length (removelast l) = pred (length l).
Proof. induction l as [|y l IH]; [reflexivity|]. destruct l as [|z l]; [reflexivity|]. change (removelast (y :: z :: l)) with (y :: removelast (z :: l)). cbn [length] in *. rewrite IH. reflexivity. Qed.

(* multisets of positions *)
Definition cnt (l : list nat) (j : nat) : nat := count_occ Nat.eq_dec l j.
Lemma cnt_app l l' j : cnt (l ++ l') j = cnt l j + cnt l' j.
Proof. apply count_occ_app. Qed.
Lemma cnt_in l j : In j l <-> 0 < cnt l j.
Proof. unfold cnt. rewrite (count_occ_In Nat.eq_dec). lia. Qed.
Lemma cnt_nil j : cnt [] j = 0.
Proof. reflexivity. Qed.
Lemma cnt_one x j : cnt [x] j = if Nat.eq_dec x j then 1 else 0.
Proof. unfold cnt. cbn. destruct (Nat.eq_dec x j); reflexivity. Qed.
Lemma cnt_cons x l j : cnt (x :: l) j = cnt [x] j + cnt l j.
Proof. change (x :: l) with ([x] ++ l). apply cnt_app. Qed.
Lemma cnt_self x : cnt [x] x = 1.
Proof. rewrite cnt_one. destruct (Nat.eq_dec x x); congruence. Qed.
Lemma cnt_single x j : 0 < cnt [x] j -> j = x.
Proof. rewrite cnt_one. destruct (Nat.eq_dec x j); [congruence|lia]. Qed.
Lemma cnt_single_le x j : cnt [x] j <= 1.
Proof. rewrite cnt_one. destruct (Nat.eq_dec x j); lia. Qed.
Definition uniq (l : list nat) : Prop := forall j, cnt l j <= 1.

(* the TESTSET that controls a jump *)
Definition tset (c : list instr) (j : nat) : option (nat * bool) :=
  match j with
  | S q => match nth_error c q with Some (TestSet _ b cc) => Some (b, cc) | _ => None end
  | O => None
  end.
Definition isjmp (c : list instr) (j : nat) : Prop := nth_error c j = Some (Jmp None).
Definition jok (c : list instr) (j : nat) : Prop :=
  isjmp c j /\ forall q a b cc, j = S q -> nth_error c q = Some (TestSet a b cc) -> a = None.
Definition set_test (reg : option nat) (b : nat) (cc : bool) : instr :=
  match reg with Some r => if r =? b then Test b cc else TestSet (Some r) b cc | None => Test b cc end.
Lemma patchtestreg_eq c j reg : isjmp c j ->
  patchtestreg c j reg = match tset c j with Some (b, cc) => (upd c (pred j) (set_test reg b cc), true) | None => (c, false) end.
Proof.
  unfold isjmp. intros H. unfold patchtestreg, getjumpcontrol, tset. destruct j as [|q]; [rewrite H; reflexivity|].
  destruct (nth_error c q) as [i|] eqn:Q; [|rewrite H; reflexivity].
  destruct i; cbn [testT]; rewrite ?H, ?Q; try reflexivity. destruct reg; cbn [set_test pred]; [destruct (_ =? _)|]; reflexivity.
Qed.
Lemma tset_upd c j p x : p <> pred j -> tset (upd c p x) j = tset c j.
Proof. intros H. destruct j as [|q]; [reflexivity|]. cbn in *. rewrite upd_other by lia. reflexivity. Qed.

Definition pnth (c : list instr) (l : list nat) (vt : nat) (reg : option nat) (dt : option nat) (p : nat) : option instr :=
  if 0 <? cnt l p then Some (Jmp (match tset c p with Some _ => Some vt | None => dt end))
  else if 0 <? cnt l (S p) then match nth_error c p with Some (TestSet _ b cc) => Some (set_test reg b cc) | x => x end
  else nth_error c p.
Lemma patch_spec c l vt reg dt : uniq l -> (forall j, 0 < cnt l j -> isjmp c j) ->
  length (patchlistaux c l vt reg dt) = length c /\
  forall p, nth_error (patchlistaux c l vt reg dt) p = pnth c l vt reg dt p.
Proof.
  revert c; induction l as [|j l IH]; intros c U J; [split; reflexivity|].
  assert (Jj: isjmp c j) by (apply J; rewrite cnt_cons, cnt_self; lia).
  assert (Nj: cnt l j = 0) by (specialize (U j); rewrite cnt_cons, cnt_self in U; lia).
  cbn [patchlistaux]. rewrite (patchtestreg_eq c j reg Jj).
  remember (match tset c j with Some (b, cc) => upd c (pred j) (set_test reg b cc) | None => c end) as c1.
  remember (match tset c j with Some _ => Some vt | None => dt end) as d.
  replace (let '(c', b) := match tset c j with Some (b, cc) => (upd c (pred j) (set_test reg b cc), true) | None => (c, false) end in
           patchlistaux (fixjump c' j (if b then Some vt else dt)) l vt reg dt)
    with (patchlistaux (upd c1 j (Jmp d)) l vt reg dt) by (subst c1 d; destruct (tset c j) as [[b cc]|]; reflexivity).
  assert (L1: length c1 = length c) by (subst c1; destruct (tset c j) as [[b cc]|]; [apply upd_len|reflexivity]).
  assert (Jl: j < length c) by (apply nth_lt in Jj; exact Jj).
  (* c1 differs from c only at the control of j *)
  assert (C1: forall p, S p <> j -> nth_error c1 p = nth_error c p).
  { intros p Hp. subst c1. destruct (tset c j) as [[b cc]|] eqn:T; [|reflexivity]. destruct j; [discriminate T|]. apply upd_other. cbn. lia. }
  assert (C1': forall p, S p = j -> nth_error c1 p = match nth_error c p with Some (TestSet _ b cc) => Some (set_test reg b cc) | x => x end).
  { intros p Hp. subst c1. unfold tset. rewrite <- Hp. cbn [pred]. destruct (nth_error c p) as [[ | | | | |a b cc| | ]|] eqn:Q; try exact Q.
    apply upd_same. apply nth_lt in Q. lia. }
  assert (J1: forall k, 0 < cnt l k -> isjmp (upd c1 j (Jmp d)) k).
  { intros k Hk. assert (k <> j) by (intros ->; lia). unfold isjmp. rewrite upd_other by lia.
    assert (Jk: isjmp c k) by (apply J; rewrite cnt_cons; lia). destruct (Nat.eq_dec (S k) j) as [e|e].
    - rewrite (C1' k e). unfold isjmp in Jk. rewrite Jk. reflexivity.
    - rewrite (C1 k e). exact Jk. }
  assert (U1: uniq l) by (intros k; specialize (U k); rewrite cnt_cons in U; lia).
  destruct (IH (upd c1 j (Jmp d)) U1 J1) as [Len Nth]. split; [rewrite Len, upd_len; exact L1|].
  intros p. rewrite Nth. unfold pnth. rewrite !(cnt_cons j l).
  assert (T: forall k, 0 < cnt l k -> tset (upd c1 j (Jmp d)) k = tset c k).
  { intros k Hk. destruct k as [|q]; [reflexivity|]. cbn. destruct (Nat.eq_dec q j) as [->|Hq].
    - rewrite upd_same by lia. unfold isjmp in Jj. rewrite Jj. reflexivity.
    - rewrite upd_other by lia. rewrite C1; [reflexivity|]. intros e. rewrite e in Hk. lia. }
  destruct (Nat.ltb_spec 0 (cnt l p)) as [Hp|Hp].
  - replace (0 <? cnt [j] p + cnt l p) with true by (symmetry; apply Nat.ltb_lt; lia). rewrite T by exact Hp. reflexivity.
  - destruct (Nat.eq_dec p j) as [->|Npj].
    + rewrite cnt_self. replace (0 <? 1 + cnt l j) with true by (symmetry; apply Nat.ltb_lt; lia). rewrite upd_same by lia. subst d.
      destruct (0 <? cnt l (S j)); destruct (tset c j); reflexivity.
    + replace (cnt [j] p) with 0 by (rewrite cnt_one; destruct (Nat.eq_dec j p); congruence). cbn [Nat.add].
      replace (0 <? cnt l p) with false by (symmetry; apply Nat.ltb_ge; lia).
      rewrite upd_other by exact Npj. destruct (Nat.eq_dec (S p) j) as [e|e].
      * replace (cnt [j] (S p)) with 1 by (rewrite e, cnt_self; reflexivity). rewrite e, Nj. cbn [Nat.ltb Nat.leb Nat.add]. apply C1'. exact e.
      * replace (cnt [j] (S p)) with 0 by (rewrite cnt_one; destruct (Nat.eq_dec j (S p)); congruence). cbn [Nat.add].
        rewrite C1 by exact e. reflexivity.
Qed.
Lemma removevalues_spec c l : (forall j, 0 < cnt l j -> isjmp c j) ->
  length (removevalues c l) = length c /\
  forall p, nth_error (removevalues c l) p =
    if 0 <? cnt l (S p) then match nth_error c p with Some (TestSet _ b cc) => Some (Test b cc) | x => x end else nth_error c p.
Proof.
  revert c; induction l as [|j l IH]; intros c J; [split; reflexivity|].
  assert (Jj: isjmp c j) by (apply J; rewrite cnt_cons, cnt_self; lia).
  cbn [removevalues]. rewrite (patchtestreg_eq c j None Jj).
  remember (fst (match tset c j with Some (b, cc) => (upd c (pred j) (set_test None b cc), true) | None => (c, false) end)) as c1.
  assert (L1: length c1 = length c) by (subst c1; destruct (tset c j) as [[b cc]|]; [apply upd_len|reflexivity]).
  assert (C1: forall p, S p <> j -> nth_error c1 p = nth_error c p).
  { intros p Hp. subst c1. destruct (tset c j) as [[b cc]|] eqn:T; [|reflexivity]. cbn [fst]. destruct j; [discriminate T|]. apply upd_other. cbn. lia. }
  assert (C1': forall p, S p = j -> nth_error c1 p = match nth_error c p with Some (TestSet _ b cc) => Some (Test b cc) | x => x end).
  { intros p Hp. subst c1. unfold tset. rewrite <- Hp. cbn [pred]. destruct (nth_error c p) as [[ | | | | |a b cc| | ]|] eqn:Q; try exact Q.
    apply upd_same. apply nth_lt in Q. lia. }
  assert (J1: forall k, 0 < cnt l k -> isjmp c1 k).
  { intros k Hk. assert (Jk: isjmp c k) by (apply J; rewrite cnt_cons; lia). unfold isjmp in *. destruct (Nat.eq_dec (S k) j) as [e|e].
    - rewrite (C1' k e), Jk. reflexivity.
    - rewrite (C1 k e). exact Jk. }
  destruct (IH c1 J1) as [Len Nth]. split; [lia|]. intros p. rewrite Nth, (cnt_cons j l). destruct (Nat.eq_dec (S p) j) as [e|e].
  - replace (cnt [j] (S p)) with 1 by (rewrite e, cnt_self; reflexivity). change (0 <? 1 + cnt l (S p)) with true. cbv beta iota. rewrite (C1' p e).
    destruct (0 <? cnt l (S p)); [|reflexivity]. destruct (nth_error c p) as [[ | | | | |a b cc| | ]|]; reflexivity.
  - replace (cnt [j] (S p)) with 0 by (rewrite cnt_one; destruct (Nat.eq_dec j (S p)); congruence). cbn [Nat.add]. rewrite C1 by exact e. reflexivity.
Qed.

(* an instruction that is completed later *)
Definition compat (i i' : instr) : Prop :=
  i' = i \/ match i with
            | Jmp None => exists d, i' = Jmp d
            | TestSet None b c => i' = Test b c \/ exists a, i' = TestSet (Some a) b c
            | _ => False
            end.
Lemma compat_refl i : compat i i.
Proof. left; reflexivity. Qed.
Lemma compat_trans i1 i2 i3 : compat i1 i2 -> compat i2 i3 -> compat i1 i3.
Proof.
  intros [->|H] H2; [exact H2|]. destruct i1 as [| | | | |[a|] b c|[d|]|]; try contradiction.
  - destruct H as [->|[a ->]]; (destruct H2 as [->|H2]; [right; cbn; eauto|cbn in H2; contradiction]).
  - destruct H as [d ->]. destruct H2 as [->|H2]; [right; cbn; eauto|]. destruct d; [contradiction|]. right. exact H2.
Qed.
(* a set of positions that do not count *)
Definition holes := nat -> Prop.
Definition nohole : holes := fun _ => False.
Definition refines (h : holes) (c : list instr) (h1 : holes) (c1 : list instr) : Prop :=
  forall p i, nth_error c p = Some i -> ~ h p -> ~ h1 p /\ exists i1, nth_error c1 p = Some i1 /\ compat i i1.
Lemma refines_trans h c h1 c1 h2 c2 : refines h c h1 c1 -> refines h1 c1 h2 c2 -> refines h c h2 c2.
Proof.
  intros A B p i Hp N. destruct (A p i Hp N) as (N1 & i1 & H1 & C1).
  destruct (B p i1 H1 N1) as (N2 & i2 & H2 & C2). split; [exact N2|]. exists i2. split; [exact H2|eapply compat_trans; eauto].
Qed.
Lemma refines_refl h c : refines h c h c.
Proof. intros p i H N. split; [exact N|]. exists i. split; [exact H|apply compat_refl]. Qed.
Lemma compat_set i reg b cc a : i = TestSet a b cc -> a = None -> compat i (set_test reg b cc).
Proof. intros -> ->. right. unfold set_test. destruct reg as [r|]; [destruct (r =? b)|]; eauto. Qed.
Definition notts (c : list instr) (p : nat) : Prop := forall a b cc, nth_error c p <> Some (TestSet a b cc).
Lemma jmp_notts c p d : nth_error c p = Some (Jmp d) -> notts c p.
Proof. intros H a b cc. congruence. Qed.
Lemma patch_compat c m vt reg dt : uniq m -> (forall j, 0 < cnt m j -> jok c j) ->
  forall p i, nth_error c p = Some i -> exists i1, nth_error (patchlistaux c m vt reg dt) p = Some i1 /\ compat i i1.
Proof.
  intros U J p i H. destruct (patch_spec c m vt reg dt U) as [_ N]; [intros j Hj; apply (J j Hj)|]. rewrite N. unfold pnth.
  destruct (Nat.ltb_spec 0 (cnt m p)) as [Hp|Hp].
  - destruct (J p Hp) as [Jp _]. unfold isjmp in Jp. assert (i = Jmp None) by congruence. subst i. eexists. split; [reflexivity|]. right. cbn. eauto.
  - destruct (Nat.ltb_spec 0 (cnt m (S p))) as [Hs|Hs]; [|exists i; split; [exact H|apply compat_refl]].
    rewrite H. destruct (J (S p) Hs) as [_ T]. destruct i as [| | | | |a b cc| | ]; try (eexists; split; [reflexivity|apply compat_refl]).
    eexists. split; [reflexivity|]. eapply compat_set; [reflexivity|]. eapply T; eauto.
Qed.
Lemma patch_jok c m vt reg dt j : uniq m -> (forall j, 0 < cnt m j -> jok c j) -> jok c j -> cnt m j = 0 ->
  jok (patchlistaux c m vt reg dt) j /\ tset (patchlistaux c m vt reg dt) j = tset c j.
Proof.
  intros U J Jj Z. destruct (patch_spec c m vt reg dt U) as [_ N]; [intros k Hk; apply (J k Hk)|].
  destruct Jj as [Jj T]. unfold isjmp in Jj.
  assert (Q: forall q, j = S q -> nth_error (patchlistaux c m vt reg dt) q = nth_error c q \/ (notts (patchlistaux c m vt reg dt) q /\ notts c q)).
  { intros q e. rewrite N. unfold notts. rewrite N. unfold pnth. rewrite <- e, Z. destruct (Nat.ltb_spec 0 (cnt m q)) as [Hq|Hq]; [|left; reflexivity].
    right. destruct (J q Hq) as [Jq _]. unfold isjmp in Jq. rewrite Jq. split; discriminate. }
  split.
  - split.
    + unfold isjmp. rewrite N. unfold pnth. rewrite Z. change (0 <? 0) with false. cbv iota. rewrite Jj. destruct (0 <? cnt m (S j)); reflexivity.
    + intros q a b cc e H. destruct (Q q e) as [E|[E _]]; [|exfalso; eapply E; exact H]. eapply T; [exact e|]. rewrite <- E. exact H.
  - destruct j as [|q]; [reflexivity|]. cbn. destruct (Q q eq_refl) as [E|[E1 E2]]; [rewrite E; reflexivity|].
    unfold notts in *. destruct (nth_error (patchlistaux c m vt reg dt) q) as [[]|], (nth_error c q) as [[]|]; try reflexivity; exfalso; try (eapply E1; reflexivity); eapply E2; reflexivity.
Qed.

(* the state before an expression is compiled *)
Definition kok (l : list val) : Prop := forall f, In (F f) l -> literal_ok f = true.
Definition lastok (c : list instr) : Prop := forall q, S q = length c -> notts c q.
Record Pre (fs : fstate) : Prop := {
  p_uniq : uniq (jpc fs);
  p_jok : forall j, 0 < cnt (jpc fs) j -> jok (code fs) j;
  p_kok : kok (ks fs);
  p_last : lastok (code fs) }.
(* fs is fs0 with more code, holes h and pending jumps l besides those to the current position *)
Record Grow (fs0 fs : fstate) (h : holes) (l : list nat) : Prop := {
  g_len : pc fs0 <= pc fs;
  g_ks : exists k, ks fs = ks fs0 ++ k;
  g_kok : kok (ks fs);
  g_nact : nactvar fs = nactvar fs0;
  g_lty : lty fs = lty fs0;
  g_uty : uty fs = uty fs0;
  g_ref : refines nohole (code fs0) h (code fs);
  g_frame : forall p, p < pc fs0 -> cnt (jpc fs0) p = 0 -> cnt (jpc fs0) (S p) = 0 \/ notts (code fs0) p -> nth_error (code fs) p = nth_error (code fs0) p;
  g_last : lastok (code fs);
  g_uniq : uniq (jpc fs ++ l);
  g_jok : forall j, 0 < cnt (jpc fs ++ l) j -> jok (code fs) j;
  g_new : forall j, 0 < cnt (jpc fs ++ l) j -> 0 < cnt (jpc fs0) j \/ pc fs0 <= j }.
Lemma grow_pre fs0 fs h l : Grow fs0 fs h l -> Pre fs.
Proof.
  intros G. split.
  - intros j. pose proof (g_uniq _ _ _ _ G j) as U. rewrite cnt_app in U. lia.
  - intros j Hj. apply (g_jok _ _ _ _ G). rewrite cnt_app. lia.
  - apply (g_kok _ _ _ _ G).
  - apply (g_last _ _ _ _ G).
Qed.
Lemma grow_refl fs : Pre fs -> Grow fs fs nohole [].
Proof.
  intros [U J Kf L]. split; auto.
  - exists []. rewrite app_nil_r. reflexivity.
  - apply refines_refl.
  - intros j. rewrite app_nil_r. apply U.
  - intros j. rewrite app_nil_r. apply J.
  - intros j H. rewrite app_nil_r in H. auto.
Qed.
(* pending jumps are exchanged between the two lists; registers are allocated *)
Lemma grow_move fs0 fs fs' h l l' : Grow fs0 fs h l -> code fs' = code fs -> ks fs' = ks fs -> nactvar fs' = nactvar fs -> lty fs' = lty fs -> uty fs' = uty fs ->
  (forall j, cnt (jpc fs ++ l) j = cnt (jpc fs' ++ l') j) -> Grow fs0 fs' h l'.
Proof.
  intros [A1 A2 A3 A4 A5 A6 A7 A8 A9 A10 A11 A12] Ec Ek En El Eu C. split; unfold pc; rewrite ?Ec, ?Ek, ?En, ?El, ?Eu; auto.
  - intros j. rewrite <- C. apply A10.
  - intros j. rewrite <- C. apply A11.
  - intros j. rewrite <- C. apply A12.
Qed.
Lemma grow_jok fs0 fs h l j : Pre fs0 -> Grow fs0 fs h l -> jok (code fs0) j -> cnt (jpc fs0) j = 0 -> jok (code fs) j /\ tset (code fs) j = tset (code fs0) j.
Proof.
  intros P0 G [J T] N. assert (L: j < pc fs0) by (apply nth_lt in J; exact J).
  assert (Jj: nth_error (code fs) j = Some (Jmp None)).
  { rewrite (g_frame _ _ _ _ G j L N); [exact J|right; eapply jmp_notts; exact J]. }
  assert (C: forall q, j = S q -> nth_error (code fs) q = nth_error (code fs0) q \/ (notts (code fs) q /\ notts (code fs0) q)).
  { intros q e. destruct (Nat.eq_dec (cnt (jpc fs0) q) 0) as [z|z].
    - left. apply (g_frame _ _ _ _ G q); [lia|exact z|left; rewrite <- e; exact N].
    - right. destruct (p_jok _ P0 q) as [Jq _]; [lia|]. unfold isjmp in Jq. split; [|eapply jmp_notts; exact Jq].
      destruct (g_ref _ _ _ _ G q _ Jq) as (_ & i1 & H1 & [->|[d ->]]); [intros []| |]; eapply jmp_notts; exact H1. }
  split.
  - split; [exact Jj|]. intros q a b cc e Q. destruct (C q e) as [E|[E _]]; [|exfalso; eapply E; exact Q]. apply (T q a b cc e). rewrite <- E. exact Q.
  - destruct j as [|q]; [reflexivity|]. cbn. destruct (C q eq_refl) as [E|[E1 E2]]; [rewrite E; reflexivity|].
    unfold notts in *. destruct (nth_error (code fs) q) as [[]|], (nth_error (code fs0) q) as [[]|]; try reflexivity; exfalso; try (eapply E1; reflexivity); eapply E2; reflexivity.
Qed.
Lemma grow_trans fs0 fs1 fs2 l1 h l2 : Pre fs0 -> Grow fs0 fs1 nohole l1 -> Grow fs1 fs2 h l2 -> Grow fs0 fs2 h (l1 ++ l2).
Proof.
  intros P0 G1 G2. pose proof (grow_pre _ _ _ _ G1) as P1.
  pose proof (g_len _ _ _ _ G1) as L1. pose proof (g_len _ _ _ _ G2) as L2.
  assert (B1: forall j, 0 < cnt l1 j -> j < pc fs1 /\ cnt (jpc fs1) j = 0 /\ cnt (jpc fs2 ++ l2) j = 0 /\ jok (code fs1) j).
  { intros j H. assert (K: jok (code fs1) j) by (apply (g_jok _ _ _ _ G1); rewrite cnt_app; lia).
    assert (Lj: j < pc fs1) by (destruct K as [K _]; apply nth_lt in K; exact K).
    assert (Zj: cnt (jpc fs1) j = 0) by (pose proof (g_uniq _ _ _ _ G1 j) as U; rewrite cnt_app in U; lia).
    repeat split; auto; try apply K.
    destruct (Nat.eq_dec (cnt (jpc fs2 ++ l2) j) 0) as [y|y]; [exact y|]. destruct (g_new _ _ _ _ G2 j); lia. }
  split.
  - lia.
  - destruct (g_ks _ _ _ _ G1) as [k1 E1], (g_ks _ _ _ _ G2) as [k2 E2]. exists (k1 ++ k2). rewrite E2, E1, app_assoc. reflexivity.
  - apply (g_kok _ _ _ _ G2).
  - rewrite (g_nact _ _ _ _ G2). apply (g_nact _ _ _ _ G1).
  - rewrite (g_lty _ _ _ _ G2). apply (g_lty _ _ _ _ G1).
  - rewrite (g_uty _ _ _ _ G2). apply (g_uty _ _ _ _ G1).
  - eapply refines_trans; [apply (g_ref _ _ _ _ G1)|apply (g_ref _ _ _ _ G2)].
  - intros p Hp Z1 Z2. pose proof (g_frame _ _ _ _ G1 p Hp Z1 Z2) as E1. rewrite <- E1. apply (g_frame _ _ _ _ G2); [lia| |].
    + destruct (Nat.eq_dec (cnt (jpc fs1) p) 0) as [z|z]; [exact z|]. destruct (g_new _ _ _ _ G1 p); rewrite ?cnt_app; lia.
    + destruct Z2 as [Z2|Z2]; [|right; unfold notts in *; rewrite E1; exact Z2].
      destruct (Nat.eq_dec (cnt (jpc fs1) (S p)) 0) as [z|z]; [left; exact z|].
      destruct (g_new _ _ _ _ G1 (S p)) as [H|H]; [rewrite cnt_app; lia|lia|]. right.
      unfold notts. rewrite E1. apply (p_last _ P0). unfold pc in *. lia.
  - apply (g_last _ _ _ _ G2).
  - intros j. pose proof (g_uniq _ _ _ _ G2 j) as U2. pose proof (g_uniq _ _ _ _ G1 j) as U1. rewrite !cnt_app in *.
    destruct (Nat.eq_dec (cnt l1 j) 0) as [z|z]; [lia|]. destruct (B1 j) as (_ & _ & Z & _); [lia|]. rewrite cnt_app in Z. lia.
  - intros j H. rewrite !cnt_app in H. destruct (Nat.eq_dec (cnt l1 j) 0) as [z|z].
    + apply (g_jok _ _ _ _ G2). rewrite cnt_app. lia.
    + destruct (B1 j) as (Lj & Zj & _ & Kj); [lia|]. apply (grow_jok fs1 fs2 h l2 j P1 G2 Kj Zj).
  - intros j H. rewrite !cnt_app in H. destruct (Nat.eq_dec (cnt l1 j) 0) as [z|z].
    + destruct (g_new _ _ _ _ G2 j) as [H1|H1]; [rewrite cnt_app; lia| |right; lia].
      destruct (g_new _ _ _ _ G1 j) as [H2|H2]; [rewrite cnt_app; lia|left; lia|right; lia].
    + apply (g_new _ _ _ _ G1 j). rewrite cnt_app. lia.
Qed.
(* patching *)
Lemma grow_patch fs0 fs fs' h l m vt reg dt l' : Pre fs0 -> Grow fs0 fs h l ->
  (forall j, cnt (jpc fs ++ l) j = cnt m j + cnt (jpc fs' ++ l') j) ->
  code fs' = patchlistaux (code fs) m vt reg dt -> ks fs' = ks fs -> nactvar fs' = nactvar fs -> lty fs' = lty fs -> uty fs' = uty fs ->
  Grow fs0 fs' h l'.
Proof.
  intros P0 [A1 A2 A3 A4 A5 A6 A7 A8 A9 A10 A11 A12] C Ec Ek En El Eu.
  assert (U: uniq m) by (intros j; specialize (A10 j); specialize (C j); lia).
  assert (J: forall j, 0 < cnt m j -> jok (code fs) j) by (intros j H; apply A11; rewrite C; lia).
  destruct (patch_spec (code fs) m vt reg dt U) as [Len Nth]; [intros j H; apply (J j H)|].
  split; unfold pc; rewrite ?Ec, ?Ek, ?En, ?El, ?Eu; auto.
  - rewrite Len. exact A1.
  - eapply refines_trans; [exact A7|]. intros p i H Np. split; [exact Np|]. eapply patch_compat; eauto.
  - intros p Hp Z1 Z2. pose proof (A8 p Hp Z1 Z2) as E. rewrite Nth. unfold pnth.
    destruct (Nat.ltb_spec 0 (cnt m p)) as [H|H]; [destruct (A12 p) as [H1|H1]; [rewrite C; lia|lia|unfold pc in *; lia]|].
    destruct (Nat.ltb_spec 0 (cnt m (S p))) as [H2|H2]; [|exact E].
    assert (NT: notts (code fs0) p).
    { destruct Z2 as [Z2|Z2]; [|exact Z2]. destruct (A12 (S p)) as [H3|H3]; [rewrite C; lia|lia|]. apply (p_last _ P0). unfold pc in *. lia. }
    rewrite E. unfold notts in NT. destruct (nth_error (code fs0) p) as [[]|]; try reflexivity. exfalso. eapply NT. reflexivity.
  - intros q Hq. rewrite Len in Hq. unfold notts. rewrite Nth. unfold pnth. specialize (A9 q Hq). unfold notts in A9. intros a b cc.
    destruct (0 <? cnt m q); [discriminate|]. destruct (0 <? cnt m (S q)); [|apply A9]. destruct (nth_error (code fs) q) as [[]|]; try discriminate. exfalso. eapply A9. reflexivity.
  - intros j. specialize (A10 j). specialize (C j). lia.
  - intros j H. apply patch_jok; auto.
    + apply A11. rewrite C. lia.
    + specialize (A10 j). specialize (C j). lia.
  - intros j H. apply A12. rewrite C. lia.
Qed.
Lemma nth_snoc {A} (l : list A) x p i : nth_error (l ++ [x]) p = Some i -> (p < length l /\ nth_error l p = Some i) \/ (p = length l /\ i = x).
Proof.
  intros H. destruct (Nat.lt_ge_cases p (length l)) as [L|L].
  - left. rewrite nth_error_app1 in H by exact L. auto.
  - right. assert (p < length (l ++ [x])) by (apply nth_lt in H; exact H). rewrite app_length in *. cbn in *.
    assert (p = length l) by lia. subst p. rewrite nth_last in H. split; [reflexivity|congruence].
Qed.
Lemma jok_app c i j : jok c j -> jok (c ++ [i]) j /\ tset (c ++ [i]) j = tset c j.
Proof.
  intros [J T]. assert (L: j < length c) by (apply nth_lt in J; exact J). split.
  - split; [unfold isjmp; rewrite nth_app1 by exact L; exact J|]. intros q a b cc e H. rewrite nth_app1 in H by lia. eapply T; eauto.
  - destruct j as [|q]; [reflexivity|]. cbn. rewrite nth_app1 by lia. reflexivity.
Qed.
Lemma grow_app fs0 fs (h' : holes) l i : Grow fs0 fs nohole l -> jpc fs = [] -> (forall a b cc, i <> TestSet a b cc) -> (forall p, h' p -> pc fs <= p) ->
  Grow fs0 (with_code fs (code fs ++ [i])) h' l.
Proof.
  intros [A1 A2 A3 A4 A5 A6 A7 A8 A9 A10 A11 A12] Ej Ni Hh. split; cbn [code jpc ks nactvar lty uty with_code]; auto.
  - unfold pc in *. cbn. rewrite app_length. cbn. lia.
  - intros p i0 H N. destruct (A7 p i0 H N) as (_ & i1 & H1 & C1). split.
    + intros K. apply Hh in K. apply nth_lt in H1. unfold pc in K. lia.
    + exists i1. split; [|exact C1]. rewrite nth_app1; [exact H1|]. apply nth_lt in H1. exact H1.
  - intros p Hp Z1 Z2. rewrite nth_app1 by (unfold pc in *; lia). apply A8; auto.
  - intros q Hq. rewrite app_length in Hq. cbn in Hq. replace q with (length (code fs)) by lia. unfold notts. rewrite nth_last. intros a b cc H. eapply Ni. injection H. eauto.
  - intros j H. apply jok_app. apply A11. exact H.
Qed.
Lemma grow_appjmp fs0 fs (h' : holes) l : Grow fs0 fs nohole l -> jpc fs = [] ->
  (forall p, h' p -> pc fs <= p) ->
  Grow fs0 (with_code fs (code fs ++ [Jmp None])) h' (pc fs :: l).
Proof.
  intros G Ej Hh. assert (G': Grow fs0 (with_code fs (code fs ++ [Jmp None])) h' l) by (apply grow_app; auto; discriminate).
  pose proof (g_last _ _ _ _ G) as La. pose proof (g_jok _ _ _ _ G) as Jo. pose proof (g_len _ _ _ _ G) as Le.
  destruct G' as [A1 A2 A3 A4 A5 A6 A7 A8 A9 A10 A11 A12]. cbn [code jpc ks nactvar lty uty with_code] in *. rewrite Ej in *. cbn [app] in *.
  assert (Z: cnt l (pc fs) = 0).
  { destruct (Nat.eq_dec (cnt l (pc fs)) 0) as [z|z]; [exact z|]. destruct (Jo (pc fs)) as [K _]; [lia|]. apply nth_lt in K. unfold pc in K. lia. }
  split; cbn [code jpc ks nactvar lty uty with_code]; rewrite ?Ej; cbn [app]; auto.
  - intros j. rewrite cnt_cons, cnt_one. specialize (A10 j). destruct (Nat.eq_dec (pc fs) j) as [<-|]; lia.
  - intros j H. rewrite cnt_cons in H. destruct (Nat.eq_dec (cnt l j) 0) as [z|z]; [|apply A11; lia].
    assert (j = pc fs) by (apply cnt_single; lia). subst j. split; [unfold isjmp; apply nth_last|].
    intros q a b cc e K. rewrite nth_app1 in K by (unfold pc in e; lia). exfalso. eapply La; [|exact K]. unfold pc in e. lia.
  - intros j H. rewrite cnt_cons in H. destruct (Nat.eq_dec (cnt l j) 0) as [z|z]; [|apply A12; lia].
    assert (j = pc fs) by (apply cnt_single; lia). subst j. right. exact Le.
Qed.
(* an instruction that skips the jump that follows it, and the jump *)
Lemma grow_cond fs0 fs (h' : holes) l i : Grow fs0 fs nohole l -> jpc fs = [] -> (forall a b cc, i = TestSet a b cc -> a = None) -> (forall p, h' p -> pc fs <= p) ->
  Grow fs0 (with_code fs (code fs ++ [i; Jmp None])) h' (S (pc fs) :: l).
Proof.
  intros G Ej Ni Hh. pose proof (g_jok _ _ _ _ G) as Jo. pose proof (g_len _ _ _ _ G) as Le.
  destruct G as [A1 A2 A3 A4 A5 A6 A7 A8 A9 A10 A11 A12].
  assert (Z: cnt l (S (pc fs)) = 0).
  { destruct (Nat.eq_dec (cnt l (S (pc fs))) 0) as [z|z]; [exact z|]. destruct (Jo (S (pc fs))) as [K _]; [rewrite cnt_app; lia|]. apply nth_lt in K. unfold pc in K. lia. }
  change ([i; Jmp None]) with ([i] ++ [Jmp None]). rewrite app_assoc.
  split; unfold pc in *; cbn [code jpc ks nactvar lty uty with_code]; rewrite ?Ej in *; cbn [app] in *; auto.
  - rewrite !app_length. lia.
  - intros p i0 H N. destruct (A7 p i0 H N) as (_ & i1 & H1 & C1). split.
    + intros K. apply Hh in K. apply nth_lt in H1. lia.
    + exists i1. split; [|exact C1]. assert (p < length (code fs)) by (apply nth_lt in H1; exact H1). rewrite nth_app1 by (rewrite app_length; lia). rewrite nth_app1 by lia. exact H1.
  - intros p Hp Z1 Z2. rewrite nth_app1 by (rewrite app_length; lia). rewrite nth_app1 by lia. apply A8; auto.
  - intros q Hq. rewrite !app_length in Hq. cbn in Hq. replace q with (length (code fs ++ [i])) by (rewrite app_length; cbn; lia). unfold notts. rewrite nth_last. discriminate.
  - intros j. rewrite cnt_cons, cnt_one. specialize (A10 j). destruct (Nat.eq_dec (S (length (code fs))) j) as [<-|]; lia.
  - intros j H. rewrite cnt_cons in H. destruct (Nat.eq_dec (cnt l j) 0) as [z|z]; [|apply jok_app, jok_app, A11; lia].
    assert (j = S (length (code fs))) by (apply cnt_single; lia). subst j. split.
    + unfold isjmp. replace (S (length (code fs))) with (length (code fs ++ [i])) by (rewrite app_length; cbn; lia). apply nth_last.
    + intros q a b cc e K. assert (q = length (code fs)) by lia. subst q. rewrite nth_app1 in K by (rewrite app_length; cbn; lia). rewrite nth_last in K. eapply Ni. injection K. eauto.
  - intros j H. rewrite cnt_cons in H. destruct (Nat.eq_dec (cnt l j) 0) as [z|z]; [|apply A12; lia].
    assert (j = S (length (code fs))) by (apply cnt_single; lia). subst j. right. lia.
Qed.
(* the code is changed at one position that is neither a jump nor the control of one *)
Lemma grow_point fs0 fs (h h' : holes) l p i0 i fs' : Grow fs0 fs h l -> nth_error (code fs) p = Some i0 ->
  (forall d, i0 <> Jmp d) -> (forall a b cc, i0 <> TestSet a b cc) -> (forall a b cc, i <> TestSet a b cc) -> h p -> (forall q, h' q -> h q) ->
  code fs' = upd (code fs) p i -> ks fs' = ks fs -> nactvar fs' = nactvar fs -> lty fs' = lty fs -> uty fs' = uty fs -> jpc fs' = jpc fs ->
  Grow fs0 fs' h' l.
Proof.
  intros [A1 A2 A3 A4 A5 A6 A7 A8 A9 A10 A11 A12] H0 N1 N2 N3 Hp Hh Ec Ek En El Eu Ej.
  assert (Lp: p < length (code fs)) by (apply nth_lt in H0; exact H0).
  assert (P0: pc fs0 <= p).
  { destruct (Nat.lt_ge_cases p (pc fs0)) as [L|L]; [|exact L]. exfalso. destruct (lt_nth (code fs0) p L) as [x Hx]. destruct (A7 p x Hx) as [K _]; [intros []|]. auto. }
  split; unfold pc; rewrite ?Ec, ?Ek, ?En, ?El, ?Eu, ?Ej; auto.
  - rewrite upd_len. exact A1.
  - intros q x H N. destruct (A7 q x H N) as (K & i1 & H1 & C1). split; [auto|]. exists i1. split; [|exact C1]. rewrite upd_other; [exact H1|]. intros ->. auto.
  - intros q Hq Z1 Z2. rewrite upd_other by (unfold pc in *; lia). auto.
  - intros q Hq. rewrite upd_len in Hq. unfold notts. intros a b cc H. destruct (Nat.eq_dec q p) as [->|N].
    + rewrite upd_same in H by exact Lp. eapply N3. injection H. eauto.
    + rewrite upd_other in H by exact N. eapply A9; eauto.
  - intros j H. destruct (A11 j H) as [J T]. split.
    + unfold isjmp in *. rewrite upd_other; [exact J|]. intros ->. apply (N1 None). congruence.
    + intros q a b cc e K. destruct (Nat.eq_dec q p) as [->|N].
      * rewrite upd_same in K by exact Lp. exfalso. eapply N3. injection K. eauto.
      * rewrite upd_other in K by exact N. eapply T; eauto.
Qed.
Lemma tset_point c p i0 i j : nth_error c p = Some i0 -> (forall a b cc, i0 <> TestSet a b cc) -> (forall a b cc, i <> TestSet a b cc) -> tset (upd c p i) j = tset c j.
Proof.
  intros H0 N2 N3. destruct j as [|q]; [reflexivity|]. cbn. destruct (Nat.eq_dec q p) as [->|N].
  - rewrite upd_same by (apply nth_lt in H0; exact H0). rewrite H0. destruct i; destruct i0; try reflexivity; exfalso; (eapply N2; reflexivity) || (eapply N3; reflexivity).
  - rewrite upd_other by exact N. reflexivity.
Qed.
(* the last instruction is removed *)
Lemma grow_pop fs0 fs (h : holes) l p i0 fs' : Grow fs0 fs h l -> nth_error (code fs) p = Some i0 -> S p = pc fs -> h p -> (forall d, i0 <> Jmp d) ->
  (forall a b cc q, S q = p -> nth_error (code fs) q <> Some (TestSet a b cc)) ->
  code fs' = removelast (code fs) -> ks fs' = ks fs -> nactvar fs' = nactvar fs -> lty fs' = lty fs -> uty fs' = uty fs -> jpc fs' = jpc fs ->
  Grow fs0 fs' nohole l.
Proof.
  intros [A1 A2 A3 A4 A5 A6 A7 A8 A9 A10 A11 A12] H0 Sp Hp N1 NT Ec Ek En El Eu Ej.
  assert (P0: pc fs0 <= p).
  { destruct (Nat.lt_ge_cases p (pc fs0)) as [L|L]; [|exact L]. exfalso. destruct (lt_nth (code fs0) p L) as [x Hx]. destruct (A7 p x Hx) as [K _]; [intros []|]. auto. }
  assert (NE: forall q, q < p -> nth_error (removelast (code fs)) q = nth_error (code fs) q) by (intros q Hq; apply removelast_nth; unfold pc in Sp; lia).
  split; unfold pc; rewrite ?Ec, ?Ek, ?En, ?El, ?Eu, ?Ej; auto.
  - rewrite removelast_len. unfold pc in *. lia.
  - intros q x H N. destruct (A7 q x H N) as (K & i1 & H1 & C1). split; [intros []|]. exists i1. split; [|exact C1]. rewrite NE; [exact H1|]. apply nth_lt in H. unfold pc in *. lia.
  - intros q Hq Z1 Z2. rewrite NE by (unfold pc in *; lia). auto.
  - intros q Hq. rewrite removelast_len in Hq. unfold pc in *. unfold notts. intros a b cc. rewrite NE by lia. apply NT. lia.
  - intros j H. destruct (A11 j H) as [J T]. assert (j <> p) by (intros ->; unfold isjmp in J; eapply N1; rewrite H0 in J; injection J; eauto).
    assert (Lj: j < p) by (apply nth_lt in J; unfold pc in *; lia). split.
    + unfold isjmp. rewrite NE by lia. exact J.
    + intros q a b cc e K. rewrite NE in K by lia. eapply T; eauto.
Qed.
