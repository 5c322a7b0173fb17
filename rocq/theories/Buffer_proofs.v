(* Proofs about string buffers (C68) *)

Require Import Verif.Base Verif.Base_facts Verif.Buffer_model Verif.Buffer_spec.
From Coq Require Import ZArith List Bool Lia.
Import ListNotations.
Local Open Scope Z_scope.
Local Open Scope outcome_scope.

Lemma u64_small : forall x, 0 <= x < two64 -> u64 x = x.
Proof. intros x H. unfold u64. apply Z.mod_small. exact H. Qed.

Lemma two64_half : two64 = 2 * 2 ^ 63.
Proof. reflexivity. Qed.

Definition newsize_of (size n sz : Z) : Z :=
  if u64 (u64 (size * 2) - n) <? sz then u64 (n + sz) else u64 (size * 2).

Lemma newsize_ok : forall size n sz, 0 <= n <= size -> size < two64 -> 0 <= sz < two64 -> size < n + sz ->
  let ns := newsize_of size n sz in
  if (ns <? n) || (u64 (ns - n) <? sz) then 2 ^ 63 <= n + sz else n + sz <= ns < two64.
Proof.
  intros size n sz N S Z0 G ns.
  assert (R : 0 <= ns < two64).
  { unfold ns, newsize_of. destruct (_ <? sz); unfold u64; apply Z.mod_pos_bound; reflexivity. }
  destruct ((ns <? n) || (u64 (ns - n) <? sz)) eqn:E.
  - destruct (Z_le_gt_dec (2 ^ 63) (n + sz)) as [L|L]; [exact L|exfalso].
    pose proof two64_half as T. generalize dependent (2 ^ 63). intros h T L.
    assert (A : u64 (size * 2) = size * 2) by (apply u64_small; lia).
    assert (B : u64 (size * 2 - n) = size * 2 - n) by (apply u64_small; lia).
    assert (C : u64 (n + sz) = n + sz) by (apply u64_small; lia).
    assert (NS : n + sz <= ns).
    { unfold ns, newsize_of. rewrite A, B, C. destruct (Z.ltb_spec (size * 2 - n) sz); lia. }
    rewrite u64_small in E by lia. apply orb_true_iff in E. destruct E as [E|E]; apply Z.ltb_lt in E; lia.
  - apply orb_false_iff in E. destruct E as [E1 E2]. apply Z.ltb_ge in E1, E2.
    rewrite u64_small in E2 by lia. lia.
Qed.

Lemma len_app : forall a b, len (a ++ b) = len a + len b.
Proof. intros. unfold len. rewrite app_length. lia. Qed.
Lemma len_nonneg : forall a, 0 <= len a.
Proof. intros. unfold len. lia. Qed.

Lemma moved_len : forall junk old id k, len old <= k -> len (moved junk old id k) = k.
Proof.
  intros junk old id k H. unfold moved, len in *. rewrite app_length, repeat_length, firstn_all2 by lia. lia.
Qed.
Lemma moved_keeps : forall junk old id k n, len old <= k -> (n <= length old)%nat -> firstn n (moved junk old id k) = firstn n old.
Proof.
  intros junk old id k n H L. unfold moved, len in *. rewrite (firstn_all2 (n := Z.to_nat k)) by lia.
  rewrite firstn_app. replace (n - length old)%nat with 0%nat by lia. cbn [firstn]. apply app_nil_r.
Qed.

Lemma splice_len : forall b off d, 0 <= off -> off + len d <= len b -> len (splice b off d) = len b.
Proof.
  intros b off d H L. unfold splice, len in *. rewrite !app_length, firstn_length, skipn_length. lia.
Qed.
Lemma splice_front : forall b off d, 0 <= off -> off + len d <= len b ->
  firstn (Z.to_nat off + length d) (splice b off d) = firstn (Z.to_nat off) b ++ d.
Proof.
  intros b off d H L. unfold splice, len in *. rewrite app_assoc, firstn_app.
  assert (E : length (firstn (Z.to_nat off) b ++ d) = (Z.to_nat off + length d)%nat) by (rewrite app_length, firstn_length; lia).
  rewrite E, Nat.sub_diag. cbn [firstn]. rewrite app_nil_r. apply firstn_all2. lia.
Qed.

Lemma set_same : forall A (h : nat -> A) i x, set h i x i = x.
Proof. intros. unfold set. now rewrite Nat.eqb_refl. Qed.
Lemma set_other : forall A (h : nat -> A) i x j, j <> i -> set h i x j = h j.
Proof. intros. unfold set. destruct (Nat.eqb_spec j i); [contradiction|reflexivity]. Qed.

Section P.
  Variable bufsize : Z.
  Variable alloc : nat -> Z -> bool.
  Variable junk : nat -> Z.

  Record inv (l0 : list slot) (h0 : nat -> option (list Z)) (cs : list Z) (s : state) : Prop := mk_inv {
    i_n : bn s = len cs;
    i_sz : len cs <= bsz s < two64;
    i_fresh : forall j, (next s <= j)%nat -> heap s j = None;
    i_mem : match bptr s with
      | PInit => stk s = l0 /\ (forall j, heap s j = h0 j) /\ len (initb s) = bsz s /\ firstn (length cs) (initb s) = cs
      | PBlk id => exists b, stk s = Box (Some id) (bsz s) :: l0 /\ heap s id = Some b /\ len b = bsz s /\
          firstn (length cs) b = cs /\ h0 id = None /\ (id < next s)%nat /\ forall j, j <> id -> heap s j = h0 j
      end
  }.

  Definition legit (d : Z) (P : state -> Prop) (r : outcome state) : Prop :=
    match r with
    | Ok s => P s
    | Err ETooLong => 2 ^ 63 <= d
    | Err EResize => exists k z, alloc k z = false
    | _ => False
    end.

  Lemma legit_bind : forall d d' P Q r f, legit d P r -> d <= d' -> (forall s, P s -> legit d' Q (f s)) -> legit d' Q (bind r f).
  Proof. intros d d' P Q [s|[]| |] f H L G; cbn [bind legit] in *; auto; lia. Qed.

  Lemma prep_ok : forall l0 h0 cs s sz, inv l0 h0 cs s -> 0 <= sz < two64 ->
    legit (bn s + sz) (fun s' => inv l0 h0 cs s' /\ len cs + sz <= bsz s') (prepbuffsize alloc junk sz s).
  Proof.
    intros l0 h0 cs s sz H Z0. destruct H as [N S Fr Me]. pose proof (len_nonneg cs) as Nn.
    unfold prepbuffsize. rewrite N. rewrite (u64_small (bsz s - len cs)) by lia.
    destruct (Z.ltb_spec (bsz s - len cs) sz) as [G|G]; [|cbn [legit]; split; [constructor; auto|lia]].
    cbv zeta. change (if u64 (u64 (bsz s * 2) - len cs) <? sz then u64 (len cs + sz) else u64 (bsz s * 2))
      with (newsize_of (bsz s) (len cs) sz).
    pose proof (newsize_ok (bsz s) (len cs) sz ltac:(lia) ltac:(lia) Z0 ltac:(lia)) as NS. cbv zeta in NS.
    generalize dependent (newsize_of (bsz s) (len cs) sz). intros ns NS.
    destruct ((ns <? len cs) || (u64 (ns - len cs) <? sz)); [exact NS|].
    assert (NZ : ns =? 0 = false) by (apply Z.eqb_neq; lia).
    unfold buffonstack. destruct (bptr s) as [|id] eqn:BP.
    - destruct Me as [M1 [M2 [M3 M4]]].
      unfold newbox, resizebox. cbn [stk nth_error bind heap next bptr bn bsz initb replace]. rewrite NZ.
      destruct (alloc (next s) ns) eqn:AL; [|cbn [bind legit]; eauto].
      cbn [bind boxptr stk]. unfold read at 1. cbn [block bind initb].
      replace ((0 <=? len cs) && (len cs <=? len (initb s))) with true
        by (symmetry; apply andb_true_iff; split; apply Z.leb_le; lia).
      cbn [bind]. replace (Z.to_nat (len cs)) with (length cs) by (unfold len; lia). rewrite M4.
      unfold write. cbn [block heap]. rewrite set_same. cbn [bind].
      assert (LM : len (moved junk [] (next s) ns) = ns) by (apply moved_len; unfold len; simpl length; lia).
      rewrite LM. replace ((0 <=? 0) && (0 + len cs <=? ns)) with true
        by (symmetry; apply andb_true_iff; split; apply Z.leb_le; lia).
      cbn [bind boxptr stk heap next bptr bn bsz initb legit]. split; [|lia].
      pose proof (splice_len (moved junk [] (next s) ns) 0 cs ltac:(lia) ltac:(lia)) as L1.
      pose proof (splice_front (moved junk [] (next s) ns) 0 cs ltac:(lia) ltac:(lia)) as L2.
      change (Z.to_nat 0) with 0%nat in L2. cbn [firstn app] in L2.
      constructor; cbn [stk heap next bptr bn bsz initb]; [assumption|lia| |].
      + intros j J. rewrite !set_other by lia. apply Fr. lia.
      + exists (splice (moved junk [] (next s) ns) 0 cs). rewrite set_same. repeat split; auto; try lia.
        * now rewrite M1.
        * rewrite <- M2. apply Fr. lia.
        * intros j J. rewrite !set_other by exact J. apply M2.
    - destruct Me as [b [M1 [M2 [M3 [M4 [M5 [M6 M7]]]]]]].
      unfold resizebox. rewrite M1. cbn [nth_error]. rewrite M2, M3, Z.eqb_refl. cbn [bind]. rewrite NZ.
      destruct (alloc (next s) ns) eqn:AL; [|cbn [bind legit]; eauto].
      cbn [bind boxptr stk replace heap next bptr bn bsz initb legit]. split; [|lia].
      assert (LM : len (moved junk b (next s) ns) = ns) by (apply moved_len; lia).
      constructor; cbn [stk heap next bptr bn bsz initb]; [assumption|lia| |].
      + intros j J. rewrite !set_other by lia. apply Fr. lia.
      + exists (moved junk b (next s) ns). rewrite set_same. repeat split; auto; try lia.
        * rewrite moved_keeps; [exact M4|lia|]. unfold len in *. lia.
        * rewrite <- M7 by lia. apply Fr. lia.
        * intros j J. rewrite set_other by exact J. destruct (Nat.eq_dec j id) as [->|D].
          -- rewrite set_same. now rewrite M5.
          -- rewrite set_other by exact D. apply M7. exact D.
  Qed.

  Lemma write_ok : forall l0 h0 cs s d, inv l0 h0 cs s -> len cs + len d <= bsz s ->
    exists s2, write (bptr s) (bn s) d s = Ok s2 /\ inv l0 h0 (cs ++ d) (addsize (len d) s2).
  Proof.
    intros l0 h0 cs s d [N S Fr Me] L. pose proof (len_nonneg cs) as Nn. pose proof (len_nonneg d) as Nd.
    unfold write, block. rewrite N. destruct (bptr s) as [|id] eqn:BP.
    - destruct Me as [M1 [M2 [M3 M4]]]. cbn [bind].
      replace ((0 <=? len cs) && (len cs + len d <=? len (initb s))) with true
        by (symmetry; apply andb_true_iff; split; apply Z.leb_le; lia).
      eexists. split; [reflexivity|].
      pose proof (splice_len (initb s) (len cs) d ltac:(lia) ltac:(lia)) as L1.
      pose proof (splice_front (initb s) (len cs) d ltac:(lia) ltac:(lia)) as L2.
      replace (Z.to_nat (len cs)) with (length cs) in L2 by (unfold len; lia).
      constructor; unfold addsize; cbn [stk heap next bptr bn bsz initb]; rewrite ?len_app.
      + rewrite ?N. apply u64_small. lia.
      + lia.
      + exact Fr.
      + rewrite ?BP. repeat split; auto; [lia|]. rewrite app_length, L2, M4. reflexivity.
    - destruct Me as [b [M1 [M2 [M3 [M4 [M5 [M6 M7]]]]]]]. rewrite M2. cbn [bind].
      replace ((0 <=? len cs) && (len cs + len d <=? len b)) with true
        by (symmetry; apply andb_true_iff; split; apply Z.leb_le; lia).
      eexists. split; [reflexivity|].
      pose proof (splice_len b (len cs) d ltac:(lia) ltac:(lia)) as L1.
      pose proof (splice_front b (len cs) d ltac:(lia) ltac:(lia)) as L2.
      replace (Z.to_nat (len cs)) with (length cs) in L2 by (unfold len; lia).
      constructor; unfold addsize; cbn [stk heap next bptr bn bsz initb]; rewrite ?len_app.
      + rewrite ?N. apply u64_small. lia.
      + lia.
      + intros j J. rewrite set_other by lia. apply Fr. exact J.
      + rewrite ?BP. exists (splice b (len cs) d). rewrite set_same. repeat split; auto; [lia| |].
        * rewrite app_length, L2, M4. reflexivity.
        * intros j J. rewrite set_other by exact J. apply M7. exact J.
  Qed.

  Lemma put_ok : forall l0 h0 cs s k d, inv l0 h0 cs s -> len d <= k < two64 ->
    legit (len cs + k) (inv l0 h0 (cs ++ d))
      (do s1 <- prepbuffsize alloc junk k s; do s2 <- write (bptr s1) (bn s1) d s1; Ok (addsize (len d) s2)).
  Proof.
    intros l0 h0 cs s k d H K. pose proof (len_nonneg d) as Nd.
    assert (N : bn s = len cs) by (destruct H; assumption).
    eapply legit_bind; [apply (prep_ok l0 h0 cs s k H); lia|lia|]. intros s1 [I1 L1].
    destruct (write_ok l0 h0 cs s1 d I1 ltac:(lia)) as [s2 [-> I2]]. exact I2.
  Qed.

  Lemma add_ok : forall l0 h0 cs s d, inv l0 h0 cs s -> len d < two64 ->
    legit (len cs + len d) (inv l0 h0 (cs ++ d)) (addlstring alloc junk d s).
  Proof.
    intros l0 h0 cs s d H L. unfold addlstring. destruct (Z.ltb_spec 0 (len d)) as [G|G].
    - apply put_ok; [exact H|lia].
    - destruct d; [|unfold len in G; simpl length in G; lia]. rewrite app_nil_r. exact H.
  Qed.

  Lemma char_ok : forall l0 h0 cs s c, inv l0 h0 cs s ->
    legit (len cs + 1) (inv l0 h0 (cs ++ [c])) (addchar alloc junk c s).
  Proof.
    intros l0 h0 cs s c H. unfold addchar. assert (N : bn s = len cs) by (destruct H; assumption).
    destruct (Z.ltb_spec (bn s) (bsz s)) as [G|G].
    - cbn [bind]. destruct (write_ok l0 h0 cs s [c] H) as [s2 [-> I2]]; [change (len [c]) with 1; lia|]. exact I2.
    - apply (put_ok l0 h0 cs s 1 [c] H). change (len [c]) with 1. split; [lia|reflexivity].
  Qed.

  (* a value on top of everything *)
  Lemma under : forall l0 h0 cs s d, inv l0 h0 cs s -> exists s1,
    (if buffonstack (with_stack (Str d :: stk s) s) then insert2 (with_stack (Str d :: stk s) s)
     else Ok (with_stack (Str d :: stk s) s)) = Ok s1 /\ inv (Str d :: l0) h0 cs s1.
  Proof.
    intros l0 h0 cs s d [N S Fr Me]. unfold buffonstack, with_stack, insert2. cbn [stk bptr].
    destruct (bptr s) as [|id] eqn:BP.
    - destruct Me as [M1 [M2 [M3 M4]]]. eexists. split; [reflexivity|].
      constructor; cbn [stk heap next bptr bn bsz initb]; auto. rewrite ?BP. rewrite M1. auto.
    - destruct Me as [b [M1 M]]. rewrite M1. eexists. split; [reflexivity|].
      constructor; unfold with_stack; cbn [stk heap next bptr bn bsz initb]; auto. rewrite ?BP. exists b. auto.
  Qed.

  Lemma value_ok : forall l0 h0 cs s d, inv l0 h0 cs s -> len d < two64 ->
    legit (len cs + len d) (inv l0 h0 (cs ++ d)) (addvalue alloc junk (with_stack (Str d :: stk s) s)).
  Proof.
    intros l0 h0 cs s d H L. unfold addvalue. change (stk (with_stack (Str d :: stk s) s)) with (Str d :: stk s). cbv iota.
    destruct (under l0 h0 cs s d H) as [s1 [E I1]]. rewrite E. cbn [bind].
    eapply legit_bind; [apply (add_ok _ _ _ _ d I1 L)|lia|]. intros s2 [N S Fr Me].
    unfold buffonstack. destruct (bptr s2) as [|id] eqn:BP.
    - destruct Me as [M1 M]. unfold remove1. rewrite M1. cbn [legit].
      constructor; unfold with_stack; cbn [stk heap next bptr bn bsz initb]; auto. rewrite ?BP. auto.
    - destruct Me as [b [M1 M]]. unfold remove2. rewrite M1. cbn [legit].
      constructor; unfold with_stack; cbn [stk heap next bptr bn bsz initb]; auto. rewrite ?BP. exists b. auto.
  Qed.

  Lemma step_ok : forall l0 h0 cs s o, inv l0 h0 cs s -> proper o ->
    legit (len cs + asked o) (inv l0 h0 (cs ++ added o)) (step alloc junk o s).
  Proof.
    intros l0 h0 cs s [d|c|d|k d] H P; cbn [step asked added proper] in *.
    - apply add_ok; assumption.
    - apply char_ok; assumption.
    - apply value_ok; assumption.
    - apply put_ok; [assumption|lia].
  Qed.

  Lemma steps_ok : forall l l0 h0 cs s, inv l0 h0 cs s -> Forall proper l ->
    legit (demand (len cs) l) (inv l0 h0 (cs ++ text l)) (steps alloc junk l s).
  Proof.
    induction l as [|o l IH]; intros l0 h0 cs s H P; cbn [steps text demand].
    - rewrite app_nil_r. exact H.
    - inversion P; subst. eapply legit_bind; [apply (step_ok _ _ _ _ o H); assumption|lia|].
      intros s1 I1. specialize (IH l0 h0 _ s1 I1 ltac:(assumption)). rewrite len_app, <- app_assoc in IH.
      destruct (steps alloc junk l s1) as [s2|[]| |]; cbn [legit] in *; auto. lia.
  Qed.

  Lemma result_ok : forall l0 h0 cs s, inv l0 h0 cs s ->
    exists s', pushresult alloc junk s = Ok s' /\ stk s' = Str cs :: l0 /\ forall j, heap s' j = h0 j.
  Proof.
    intros l0 h0 cs s [N S Fr Me]. pose proof (len_nonneg cs) as Nn.
    unfold pushresult, read, block. rewrite N. unfold buffonstack. cbn [with_stack bptr].
    replace (Z.to_nat (len cs)) with (length cs) by (unfold len; lia).
    destruct (bptr s) as [|id] eqn:BP.
    - destruct Me as [M1 [M2 [M3 M4]]]. cbn [bind].
      replace ((0 <=? len cs) && (len cs <=? len (initb s))) with true
        by (symmetry; apply andb_true_iff; split; apply Z.leb_le; lia).
      cbn [bind]. eexists. split; [reflexivity|]. unfold with_stack. cbn [stk heap]. rewrite M1, M4. auto.
    - destruct Me as [b [M1 [M2 [M3 [M4 [M5 [M6 M7]]]]]]]. rewrite M2. cbn [bind].
      replace ((0 <=? len cs) && (len cs <=? len b)) with true
        by (symmetry; apply andb_true_iff; split; apply Z.leb_le; lia).
      cbn [bind]. unfold resizebox, with_stack. cbn [stk heap next bptr bn bsz initb]. rewrite M1. cbn [nth_error].
      rewrite M2, M3, Z.eqb_refl. cbn [bind replace Z.eqb]. unfold remove2, with_stack. cbn [stk heap next bptr bn bsz initb].
      eexists. split; [reflexivity|]. cbn [stk heap]. rewrite M4. split; [reflexivity|].
      intros j. destruct (Nat.eq_dec j id) as [->|D]; [rewrite set_same; now rewrite M5|rewrite set_other by exact D; auto].
  Qed.
End P.

(* all runs *)
Lemma build_ok : forall bufsize alloc junk l s0 h nx ib,
  0 <= bufsize < two64 -> len ib = bufsize -> (forall j, (nx <= j)%nat -> h j = None) -> Forall proper l ->
  match build bufsize alloc junk l s0 h nx ib with
  | Ok s => stk s = Str (text l) :: s0 /\ (forall j, heap s j = h j)
  | Err ETooLong => 2 ^ 63 <= demand 0 l
  | Err EResize => exists k z, alloc k z = false
  | _ => False
  end.
Proof.
  intros bufsize alloc junk l s0 h nx ib B IB Fr P. unfold build.
  assert (I0 : inv s0 h [] (buffinit bufsize s0 h nx ib)).
  { unfold buffinit. constructor; cbn [stk heap next bptr bn bsz initb]; auto. }
  pose proof (steps_ok alloc junk l s0 h [] _ I0 P) as H. change (len []) with 0 in H. cbn [app] in H.
  destruct (steps alloc junk l (buffinit bufsize s0 h nx ib)) as [s|e| |]; cbn [bind legit] in *; try contradiction.
  - destruct (result_ok alloc junk s0 h _ s H) as [s' [-> R]]. exact R.
  - exact H.
Qed.

(* success when there is memory *)
Lemma build_succeeds : forall bufsize alloc junk l s0 h nx ib,
  0 <= bufsize < two64 -> len ib = bufsize -> (forall j, (nx <= j)%nat -> h j = None) -> Forall proper l ->
  (forall k z, alloc k z = true) -> demand 0 l < 2 ^ 63 ->
  exists s, build bufsize alloc junk l s0 h nx ib = Ok s /\ stk s = Str (text l) :: s0 /\ (forall j, heap s j = h j).
Proof.
  intros bufsize alloc junk l s0 h nx ib B IB Fr P A D.
  pose proof (build_ok bufsize alloc junk l s0 h nx ib B IB Fr P) as H.
  destruct (build bufsize alloc junk l s0 h nx ib) as [s|[]| |]; try contradiction; [eauto| |lia].
  destruct H as [k [z H]]. rewrite A in H. discriminate.
Qed.
