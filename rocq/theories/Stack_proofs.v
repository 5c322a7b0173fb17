(* Proofs about moving the stack (C66) *)

Require Import Verif.Base Verif.Stack_model Verif.Stack_spec.
From Coq Require Import ZArith List Bool Lia.
Import ListNotations.
Local Open Scope Z_scope.
Local Open Scope outcome_scope.

Lemma erase_at : forall V nil n m a x,
  erase V nil m a n x = if (a <=? x) && (x <? a + Z.of_nat n) then nil else m x.
Proof.
  intros V nil. induction n as [|n IH]; intros m a x.
  - cbn [erase]. destruct (a <=? x) eqn:E1, (x <? a + Z.of_nat 0) eqn:E2; auto.
    apply Z.leb_le in E1. apply Z.ltb_lt in E2. lia.
  - cbn [erase]. rewrite IH.
    destruct (x =? a) eqn:E0.
    + apply Z.eqb_eq in E0. subst x.
      replace (a + 1 <=? a) with false by (symmetry; apply Z.leb_gt; lia).
      replace (a <=? a) with true by (symmetry; apply Z.leb_le; lia).
      replace (a <? a + Z.of_nat (S n)) with true by (symmetry; apply Z.ltb_lt; lia). reflexivity.
    + apply Z.eqb_neq in E0.
      destruct (a + 1 <=? x) eqn:E1, (a <=? x) eqn:E2, (x <? a + 1 + Z.of_nat n) eqn:E3,
        (x <? a + Z.of_nat (S n)) eqn:E4; cbn [andb]; auto; exfalso;
      rewrite ?Z.leb_le, ?Z.leb_gt, ?Z.ltb_lt, ?Z.ltb_ge in *; lia.
Qed.

Lemma forall2_map : forall A B (R : A -> B -> Prop) f l, (forall x, R x (f x)) -> Forall2 R l (map f l).
Proof. intros A B R f l H. induction l; simpl; constructor; auto. Qed.

Definition fits V (s : state V) (size : Z) : Prop :=
  top V s - stack V s <= size - 5 /\ Forall (fun c => ci_top c - stack V s <= size - 5) (cis V s).

Lemma moved : forall V nil s newsize nb junk, proper V s -> 10 <= newsize ->
  exists s', luaD_reallocstack V nil s newsize (Some (nb, junk)) = Some s' /\ stack V s' = nb /\
    same_view V (Z.min (stacksize V s) newsize) s s' /\
    (forall i, stacksize V s <= i < newsize -> get V s' (stack V s' + i) = Some nil) /\
    stacksize V s' = newsize /\
    (newsize <= 1000000 \/ newsize = 1000200 -> fits V s newsize -> proper V s').
Proof.
  intros V nil s newsize nb junk P L. unfold luaD_reallocstack. eexists. split; [reflexivity|].
  destruct P as [P1 [P2 [P3 [P4 [P5 [P6 P7]]]]]].
  split; [reflexivity|]. split; [|split; [|split; [reflexivity|]]].
  - split; [|split; [|split]].
    + unfold same_place. simpl. lia.
    + simpl. apply forall2_map. intros x. unfold same_place. simpl. lia.
    + simpl. apply forall2_map. intros c. unfold same_call, same_place. simpl.
      split; [lia|]. split; [lia|]. split; [reflexivity|]. split; intros E; rewrite E; [lia|reflexivity].
    + intros i Hi. unfold get. cbn [stack stacksize mem correctstack]. rewrite erase_at.
      replace (nb <=? nb + i) with true by (symmetry; apply Z.leb_le; lia).
      replace (nb + i <? nb + newsize) with true by (symmetry; apply Z.ltb_lt; lia).
      replace (stack V s <=? stack V s + i) with true by (symmetry; apply Z.leb_le; lia).
      replace (stack V s + i <? stack V s + stacksize V s) with true by (symmetry; apply Z.ltb_lt; lia).
      replace (nb + stacksize V s <=? nb + i) with false by (symmetry; apply Z.leb_gt; lia).
      replace (nb + i <? nb + Z.min (stacksize V s) newsize) with true by (symmetry; apply Z.ltb_lt; lia).
      cbn [andb]. do 2 f_equal. lia.
  - intros i Hi. unfold get. cbn [stack stacksize mem correctstack]. rewrite erase_at.
    replace (nb <=? nb + i) with true by (symmetry; apply Z.leb_le; lia).
    replace (nb + i <? nb + newsize) with true by (symmetry; apply Z.ltb_lt; lia).
    replace (nb + stacksize V s <=? nb + i) with true by (symmetry; apply Z.leb_le; lia).
    replace (nb + i <? nb + stacksize V s + Z.of_nat (Z.to_nat (newsize - stacksize V s))) with true
      by (symmetry; apply Z.ltb_lt; lia).
    reflexivity.
  - intros LN [F1 F2]. unfold proper. cbn [stack stacksize stack_last top openupval cis correctstack].
    unfold EXTRA_STACK. split; [lia|]. split; [lia|]. split; [lia|]. split; [lia|].
    split; [destruct (cis V s); [congruence|discriminate]|]. split.
    + apply Forall_map. eapply Forall_impl; [|exact P6]. cbn beta. intros; lia.
    + apply Forall_map. rewrite Forall_forall in *. intros c Hc. specialize (P7 c Hc). specialize (F2 c Hc).
      cbn [ci_top ci_func is_lua ci_u]. destruct (is_lua c); intuition lia.
Qed.

Lemma fits_more : forall V s size, proper V s -> stacksize V s <= size -> fits V s size.
Proof.
  intros V s size [P1 [P2 [P3 [P4 [P5 [P6 P7]]]]]] L. split; [lia|].
  eapply Forall_impl; [|exact P7]. cbn beta. intros c [_ [H _]]. lia.
Qed.

Lemma view_less : forall V k k' s s', same_view V k s s' -> k' <= k -> same_view V k' s s'.
Proof. intros V k k' s s' [A [B [C D]]] L. repeat split; auto. intros. apply D. lia. Qed.

Lemma view_refl : forall V k s, same_view V k s s.
Proof.
  intros. split; [reflexivity|]. split; [|split; [|reflexivity]].
  - induction (openupval V s); constructor; auto. reflexivity.
  - induction (cis V s); constructor; auto. unfold same_call, same_place. auto 10.
Qed.

Lemma int_ok : forall z, -2147483648 <= z <= 2147483647 -> int z = Ok z.
Proof.
  intros z [A B]. unfold int. apply Z.leb_le in A, B. rewrite A, B. reflexivity.
Qed.

Lemma realloc_ok : forall V nil s newsize nb junk, proper V s -> 10 <= newsize ->
  exists s', luaD_reallocstack V nil s newsize (Some (nb, junk)) = Some s' /\
    same_view V (Z.min (stacksize V s) newsize) s s' /\
    (forall i, stacksize V s <= i < newsize -> get V s' (stack V s' + i) = Some nil) /\
    stacksize V s' = newsize.
Proof.
  intros V nil s newsize nb junk P L. destruct (moved V nil s newsize nb junk P L) as [s' [A [_ [B [C [D _]]]]]].
  exists s'. auto.
Qed.

Lemma grow_ok : forall V nil s n ans, proper V s -> 0 <= n <= 1000000 ->
  exists s' e, luaD_growstack V nil s n ans = Ok (s', e) /\
    same_view V (stacksize V s) s s' /\ proper V s' /\
    (forall i, stacksize V s <= i < stacksize V s' -> get V s' (stack V s' + i) = Some nil) /\
    match e with
    | None => n <= free_slots V s' /\ Z.min (2 * stacksize V s) 1000000 <= stacksize V s' <= 1000000
    | Some EOverflow => top V s - stack V s + n + 5 > 1000000 /\ stacksize V s <= 1000000 /\
        200 <= free_slots V s'
    | Some EErrErr => stacksize V s > 1000000 /\ s' = s
    | Some EMemory => ans = None /\ s' = s
    end.
Proof.
  intros V nil s n ans P N. pose proof P as [P1 [P2 [P3 [P4 _]]]]. unfold luaD_growstack.
  unfold LUAI_MAXSTACK, ERRORSTACKSIZE, EXTRA_STACK, LUAI_MAXSTACK.
  destruct (1000000 <? stacksize V s) eqn:E0.
  { apply Z.ltb_lt in E0. exists s, (Some EErrErr). split; [reflexivity|]. split; [apply view_refl|].
    split; [exact P|]. split; [intros; lia|]. split; [lia|reflexivity]. }
  apply Z.ltb_ge in E0.
  rewrite int_ok by lia. cbn [bind]. rewrite int_ok by lia. cbn [bind]. rewrite int_ok by lia. cbn [bind].
  rewrite int_ok by lia. cbn [bind].
  set (n1 := if 1000000 <? 2 * stacksize V s then 1000000 else 2 * stacksize V s).
  assert (H1 : n1 = Z.min (2 * stacksize V s) 1000000).
  { unfold n1. destruct (1000000 <? _) eqn:E; [apply Z.ltb_lt in E|apply Z.ltb_ge in E]; lia. }
  set (need := top V s - stack V s + n + 5).
  set (n2 := if n1 <? need then need else n1).
  assert (H2 : n2 = Z.max n1 need).
  { unfold n2. destruct (n1 <? need) eqn:E; [apply Z.ltb_lt in E|apply Z.ltb_ge in E]; lia. }
  assert (MEM : ans = None -> exists s' e, Ok (s, Some EMemory) = Ok (s', e) /\
    same_view V (stacksize V s) s s' /\ proper V s' /\
    (forall i, stacksize V s <= i < stacksize V s' -> get V s' (stack V s' + i) = Some nil) /\
    match e with
    | None => n <= free_slots V s' /\ Z.min (2 * stacksize V s) 1000000 <= stacksize V s' <= 1000000
    | Some EOverflow => need > 1000000 /\ stacksize V s <= 1000000 /\ 200 <= free_slots V s'
    | Some EErrErr => stacksize V s > 1000000 /\ s' = s
    | Some EMemory => ans = None /\ s' = s
    end).
  { intros E. exists s, (Some EMemory). split; [reflexivity|]. split; [apply view_refl|].
    split; [exact P|]. split; [intros; lia|]. auto. }
  destruct (1000000 <? n2) eqn:E1; [apply Z.ltb_lt in E1|apply Z.ltb_ge in E1].
  - destruct ans as [[nb junk]|]; [|apply MEM; reflexivity].
    destruct (moved V nil s (1000000 + 200) nb junk P ltac:(lia)) as [s' [A [A' [B [C [D E]]]]]]. rewrite A.
    exists s', (Some EOverflow). split; [reflexivity|]. split; [eapply view_less; [exact B|lia]|].
    assert (PP : proper V s') by (apply E; [lia|apply fits_more; [exact P|lia]]).
    split; [exact PP|].
    split; [rewrite D; exact C|]. split; [lia|]. split; [lia|].
    destruct B as [B _]. unfold same_place in B. unfold free_slots. destruct PP as [_ [_ [PP _]]]. lia.
  - destruct ans as [[nb junk]|]; [|apply MEM; reflexivity].
    destruct (moved V nil s n2 nb junk P ltac:(lia)) as [s' [A [A' [B [C [D E]]]]]]. rewrite A.
    exists s', None. split; [reflexivity|]. split; [eapply view_less; [exact B|lia]|].
    assert (PP : proper V s') by (apply E; [lia|apply fits_more; [exact P|lia]]).
    split; [exact PP|].
    split; [rewrite D; exact C|]. split; [|lia].
    destruct B as [B _]. unfold same_place in B. unfold free_slots. destruct PP as [_ [_ [PP _]]]. lia.
Qed.

(* lua_checkstack *)
Lemma check_ok : forall V nil s n ans, proper V s -> 0 <= n <= 2147483647 ->
  (exists c cs, cis V s = c :: cs) ->
  exists s' res, lua_checkstack V nil s n ans = Ok (s', res) /\ proper V s' /\
    (exists s1, same_view V (stacksize V s) s s1 /\ stack V s1 = stack V s' /\ top V s1 = top V s' /\
       openupval V s1 = openupval V s' /\ tl (cis V s1) = tl (cis V s') /\ mem V s1 = mem V s' /\
       stacksize V s1 = stacksize V s') /\
    (if res then n <= free_slots V s' /\ exists c cs, cis V s' = c :: cs /\ top V s' + n <= ci_top c
     else top V s - stack V s + n + 5 > 1000000 \/ stacksize V s > 1000000 \/ ans = None).
Proof.
  intros V nil s n ans P N [c0 [cs0 EC]]. pose proof P as [P1 [P2 [P3 [P4 _]]]]. unfold lua_checkstack.
  assert (ST : forall s1 (res : bool), proper V s1 -> same_view V (stacksize V s) s s1 ->
    (res = true -> n <= free_slots V s1) ->
    (res = false -> top V s - stack V s + n + 5 > 1000000 \/ stacksize V s > 1000000 \/ ans = None) ->
    exists s' res', match cis V s1 with
    | c :: cs =>
        if res && (ci_top c <? top V s1 + n) then
          Ok (St V (stack V s1) (stacksize V s1) (stack_last V s1) (top V s1) (openupval V s1)
                 (CI (top V s1 + n) (ci_func c) (is_lua c) (ci_u c) :: cs) (mem V s1), res)
        else Ok (s1, res)
    | [] => UB
    end = Ok (s', res') /\ proper V s' /\
    (exists s1, same_view V (stacksize V s) s s1 /\ stack V s1 = stack V s' /\ top V s1 = top V s' /\
       openupval V s1 = openupval V s' /\ tl (cis V s1) = tl (cis V s') /\ mem V s1 = mem V s' /\
       stacksize V s1 = stacksize V s') /\
    (if res' then n <= free_slots V s' /\ exists c cs, cis V s' = c :: cs /\ top V s' + n <= ci_top c
     else top V s - stack V s + n + 5 > 1000000 \/ stacksize V s > 1000000 \/ ans = None)).
  { intros s1 res PR SV HT HF. pose proof PR as [Q1 [Q2 [Q3 [Q4 [Q5 [Q6 Q7]]]]]].
    destruct (cis V s1) as [|c cs] eqn:E1; [congruence|].
    destruct res; cbn [andb].
    - specialize (HT eq_refl). destruct (ci_top c <? top V s1 + n) eqn:E2; [apply Z.ltb_lt in E2|apply Z.ltb_ge in E2].
      + eexists _, _. split; [reflexivity|]. unfold free_slots in *. split; [|split].
        * unfold proper. cbn [stack stacksize stack_last top openupval cis]. split; [lia|]. split; [lia|].
          split; [lia|]. split; [lia|]. split; [discriminate|]. split; [exact Q6|].
          inversion Q7 as [|? ? Qc Qcs]; subst. constructor; [|exact Qcs]. cbn [ci_top ci_func ci_u is_lua].
          intuition lia.
        * exists s1. rewrite E1. auto 10.
        * split; [exact HT|]. exists (CI (top V s1 + n) (ci_func c) (is_lua c) (ci_u c)), cs. split; [reflexivity|].
          simpl. lia.
      + eexists _, _. split; [reflexivity|]. split; [exact PR|]. split; [exists s1; auto 10|].
        split; [exact HT|]. exists c, cs. split; [exact E1|]. lia.
    - eexists _, _. split; [reflexivity|]. split; [exact PR|]. split; [exists s1; auto 10|]. apply HF. reflexivity. }
  destruct (n <? stack_last V s - top V s) eqn:E0; [apply Z.ltb_lt in E0|apply Z.ltb_ge in E0].
  { cbn [bind]. apply ST; [exact P|apply view_refl| |discriminate]. unfold free_slots. intros _. lia. }
  unfold LUAI_MAXSTACK, EXTRA_STACK.
  rewrite int_ok by lia. cbn [bind]. rewrite int_ok by lia. cbn [bind]. rewrite int_ok by lia. cbn [bind].
  destruct (1000000 - n <? top V s - stack V s + 5) eqn:E1; [apply Z.ltb_lt in E1|apply Z.ltb_ge in E1].
  { cbn [bind]. apply ST; [exact P|apply view_refl|discriminate|]. intros _. lia. }
  destruct (grow_ok V nil s n ans P ltac:(lia)) as [s' [e [A [B [C [D E]]]]]]. rewrite A. cbn [bind].
  apply ST; auto.
  - destruct e as [[]|]; try discriminate. intros _. apply E.
  - destruct e as [[]|]; try discriminate; intros _; [lia|lia|tauto].
Qed.

Lemma limit_max : forall cs lim, lim <= limit cs lim /\ Forall (fun c => ci_top c <= limit cs lim) cs.
Proof.
  induction cs as [|c cs IH]; intros lim; cbn [limit]; [split; [lia|constructor]|].
  destruct (IH (if lim <? ci_top c then ci_top c else lim)) as [A B].
  destruct (lim <? ci_top c) eqn:E; [apply Z.ltb_lt in E|apply Z.ltb_ge in E].
  - split; [lia|]. constructor; [lia|exact B].
  - split; [lia|]. constructor; [lia|exact B].
Qed.

Lemma limit_le : forall cs lim b, lim <= b -> Forall (fun c => ci_top c <= b) cs -> limit cs lim <= b.
Proof.
  induction cs as [|c cs IH]; intros lim b L F; cbn [limit]; [exact L|].
  inversion F as [|? ? Fc Fcs]; subst. apply IH; [|exact Fcs]. destruct (lim <? ci_top c); lia.
Qed.

Lemma shrink_ok : forall V nil s ans, proper V s ->
  exists r, luaD_shrinkstack V nil s ans = Ok r /\
    match r with
    | None => ans = None
    | Some s' => proper V s' /\ stacksize V s' <= stacksize V s /\
        forall k, (k <= top V s - stack V s \/ exists c, In c (cis V s) /\ k <= ci_top c - stack V s) ->
          same_view V k s s'
    end.
Proof.
  intros V nil s ans P. pose proof P as [P1 [P2 [P3 [P4 [P5 [P6 P7]]]]]]. unfold luaD_shrinkstack.
  destruct (limit_max (cis V s) (top V s)) as [L1 L2].
  assert (L3 : limit (cis V s) (top V s) <= stack_last V s).
  { apply limit_le; [lia|]. eapply Forall_impl; [|exact P7]. cbn beta. intuition lia. }
  unfold stackinuse. set (lim := limit (cis V s) (top V s)) in *.
  unfold LUAI_MAXSTACK, EXTRA_STACK.
  rewrite int_ok by lia. cbn [bind].
  assert (Q : 0 <= Z.quot (lim - stack V s + 1) 8 <= lim - stack V s + 1).
  { rewrite Z.quot_div_nonneg by lia. split; [apply Z.div_pos; lia|]. apply Z.div_le_upper_bound; lia. }
  rewrite int_ok by lia. cbn [bind].
  set (g0 := lim - stack V s + 1 + Z.quot (lim - stack V s + 1) 8 + 2 * 5).
  set (good := if 1000000 <? g0 then 1000000 else g0).
  assert (G : good = Z.min 1000000 g0).
  { unfold good. destruct (1000000 <? g0) eqn:E; [apply Z.ltb_lt in E|apply Z.ltb_ge in E]; lia. }
  destruct ((lim - stack V s + 1 <=? 1000000 - 5) && (good <? stacksize V s)) eqn:E.
  - apply andb_prop in E. destruct E as [E1 E2]. apply Z.leb_le in E1. apply Z.ltb_lt in E2.
    eexists. split; [reflexivity|]. destruct ans as [[nb junk]|]; [|reflexivity].
    assert (GL : 10 <= good) by (unfold g0 in G; lia).
    destruct (moved V nil s good nb junk P GL) as [s' [A [A' [B [C [D F]]]]]]. rewrite A.
    split; [|split; [lia|]].
    + apply F; [lia|]. unfold g0 in *. split; [lia|]. eapply Forall_impl; [|exact L2]. cbn beta. intros; lia.
    + intros k H. eapply view_less; [exact B|]. unfold g0 in *. destruct H as [H|[c [H1 H2]]]; [lia|].
      rewrite Forall_forall in L2. specialize (L2 c H1). lia.
  - eexists. split; [reflexivity|]. split; [exact P|]. split; [lia|]. intros. apply view_refl.
Qed.

(* reading and writing through the pointers: no place in use is confused *)
Lemma reads_ok : forall V k s s' p p', same_view V k s s' -> same_place V s s' p p' ->
  stack V s <= p < stack V s + k -> get V s' p' = get V s p.
Proof.
  intros V k s s' p p' [_ [_ [_ D]]] E L. unfold same_place in E.
  replace p' with (stack V s' + (p - stack V s)) by lia. rewrite D by lia. f_equal. lia.
Qed.
