(* Proofs about assignment statements (C64) *)

Require Import Verif.Base Verif.Assign_model Verif.Assign_spec.
From Coq Require Import List Arith Bool Lia.
Import ListNotations.
Local Open Scope outcome_scope.
Local Open Scope nat_scope.

Lemma setnth_update : forall V (l : list V) n v, setnth V l n v = update V l n v.
Proof. induction l as [|x l IH]; intros [|n] v; simpl; try rewrite IH; reflexivity. Qed.

Lemma nth_update_other : forall V (l : list V) n m v d, m <> n -> nth m (update V l n v) d = nth m l d.
Proof.
  induction l as [|x l IH]; intros [|n] [|m] v d H; simpl; auto; try congruence.
Qed.

Lemma combine_rev : forall A B (l : list A) (m : list B), length l = length m ->
  rev (combine l m) = combine (rev l) (rev m).
Proof.
  assert (AP : forall A B (l l' : list A) (m m' : list B), length l = length m ->
    combine (l ++ l') (m ++ m') = combine l m ++ combine l' m').
  { induction l as [|x l IH]; destruct m as [|y m]; simpl; intros m' E; try discriminate; auto.
    f_equal. apply IH. lia. }
  induction l as [|x l IH]; destruct m as [|y m]; simpl; intros E; try discriminate; auto.
  rewrite IH by lia. rewrite AP by (rewrite !rev_length; lia). reflexivity.
Qed.

Lemma Forall2_imp : forall A B (R R' : A -> B -> Prop) l m, (forall a b, R a b -> R' a b) ->
  Forall2 R l m -> Forall2 R' l m.
Proof. intros A B R R' l m H F. induction F; constructor; auto. Qed.

Section P.
  Variables V W : Type.
  Variable nilv : V.
  Variable kval : nat -> V.
  Variable fits : nat -> bool.
  Variable nact : nat.
  Notation env := (env V W).
  Notation state := (state V W).
  Variable ev : nat -> env -> outcome (V * env).
  Variable evm : nat -> env -> outcome (list V * env).
  Variable settable : env -> V -> V -> V -> outcome env.
  Variable junk : nat -> V.
  Variable Sv : var -> Prop.
  Hypothesis SS : forall x, Sv x -> undisturbed V W nilv ev evm settable x.

  Notation exec := (exec V W nilv kval nact ev evm settable junk).
  Notation exec1 := (exec1 V W nilv kval nact ev evm settable junk).
  Notation rd := (rd V W nilv nact).
  Notation rdk := (rdk V W nilv kval nact).
  Notation wr := (wr V W nact).
  Notation wrs := (wrs V W nact).
  Notation vars := (vars V W).
  Notation tmps := (tmps V W).
  Notation valof := (valof V W nilv).
  Notation take := (take V nilv).
  Notation adjust := (adjust V nilv).
  Notation first := (first V nilv).
  Notation place := (place V).

  Lemma exec_app : forall c1 c2 s, exec (c1 ++ c2) s = do s1 <- exec c1 s; exec c2 s1.
  Proof.
    induction c1 as [|i c1 IH]; intros; [reflexivity|]. simpl.
    destruct (exec1 i s); simpl; auto.
  Qed.

  (* the code does what the meaning says, up to temporaries, and [R] holds after *)
  Definition sim {A} (R : state -> A -> Prop) (o1 : outcome state) (o2 : outcome (A * env)) : Prop :=
    match o2 with
    | Ok (a, e) => exists s, o1 = Ok s /\ vars s = e /\ R s a
    | Err x => o1 = Err x
    | UB => o1 = UB
    | OutOfFuel => o1 = OutOfFuel
    end.

  Lemma sim_bind : forall A B (R : state -> A -> Prop) (R' : state -> B -> Prop) o1 o2 k1 k2,
    sim R o1 o2 ->
    (forall s a, R s a -> sim R' (k1 s) (k2 (a, vars s))) ->
    sim R' (bind o1 k1) (bind o2 k2).
  Proof.
    intros A B R R' o1 o2 k1 k2 H K. destruct o2 as [[a e]|x| |]; simpl in *; try (now rewrite H).
    destruct H as [s [-> [<- H]]]. simpl. apply K, H.
  Qed.

  Lemma sim_weak : forall A (R R' : state -> A -> Prop) o1 o2,
    (forall s a, R s a -> R' s a) -> sim R o1 o2 -> sim R' o1 o2.
  Proof.
    intros A R R' o1 o2 H. destruct o2 as [[a e]|x| |]; simpl; auto.
    intros [s [E [F G]]]. exists s. auto.
  Qed.

  Definition keep (fr : nat) (s s' : state) : Prop :=
    (forall r, r < fr -> tmps s' r = tmps s r) /\
    (forall x, Sv x -> valof (vars s') x = valof (vars s) x).

  Lemma keep_refl : forall fr s, keep fr s s.
  Proof. split; auto. Qed.

  Lemma keep_trans : forall fr fr' s1 s2 s3, fr <= fr' -> keep fr s1 s2 -> keep fr' s2 s3 -> keep fr s1 s3.
  Proof.
    intros fr fr' s1 s2 s3 L [A B] [C D]. split.
    - intros r H. rewrite C by lia. auto.
    - intros x H. rewrite D by auto. auto.
  Qed.

  Definition scope (fr : nat) (l : lhs) : Prop :=
    match l with
    | LLoc r => r < nact
    | LUp _ => True
    | LInd up t idx =>
        (if up then Sv (VU t) else t < fr /\ (t < nact -> Sv (VL t))) /\
        match idx with RReg r => r < fr /\ (r < nact -> Sv (VL r)) | RKst _ => True end
    end.

  Definition holds (fr : nat) (s : state) (l : lhs) (p : place) : Prop :=
    scope fr l /\
    match l, p with
    | LLoc r, ALoc _ r' => r = r'
    | LUp u, AUp _ u' => u = u'
    | LInd up t idx, AInd _ tv kv =>
        (if up then valof (vars s) (VU t) else rd s t) = tv /\ rdk s idx = kv
    | _, _ => False
    end.

  Lemma rd_keep : forall fr s s' r, keep fr s s' -> r < fr -> (r < nact -> Sv (VL r)) -> rd s' r = rd s r.
  Proof.
    intros fr s s' r [A B] L S1. unfold Assign_model.rd.
    destruct (Nat.ltb_spec r nact) as [G|G]; [|auto].
    apply (B (VL r)). auto.
  Qed.

  Lemma holds_keep : forall fr fr' s s' l p, fr <= fr' -> keep fr s s' -> holds fr s l p -> holds fr' s' l p.
  Proof.
    intros fr fr' s s' l p L K [Sc H]. split.
    - destruct l as [r|u|up t idx]; simpl in *; auto. destruct Sc as [A B]. split.
      + destruct up; auto. destruct A; split; [lia|auto].
      + destruct idx; auto. destruct B; split; [lia|auto].
    - destruct l as [r|u|up t idx]; destruct p as [r'|u'|tv kv]; simpl in *; try contradiction; auto.
      destruct H as [H1 H2]. destruct Sc as [A B]. split.
      + destruct up.
        * rewrite <- H1. apply (proj2 K (VU t)). auto.
        * rewrite <- H1. apply (rd_keep fr); tauto.
      + destruct idx as [r|k]; simpl in *; auto.
        rewrite <- H2. apply (rd_keep fr); tauto.
  Qed.

  (* writing to a register from [fr] on *)
  Lemma wr_tmp : forall s r v, nact <= r -> vars (wr s r v) = vars s /\
    tmps (wr s r v) r = v /\ (forall q, q <> r -> tmps (wr s r v) q = tmps s q) /\ rd (wr s r v) r = v.
  Proof.
    intros s r v H. unfold Assign_model.rd, Assign_model.wr. apply Nat.ltb_ge in H. rewrite H. simpl.
    rewrite Nat.eqb_refl. repeat split; auto.
    intros q N. apply Nat.eqb_neq in N. now rewrite N.
  Qed.

  Lemma wr_keep : forall s r v fr, nact <= r -> fr <= r -> keep fr s (wr s r v).
  Proof.
    intros s r v fr H L. destruct (wr_tmp s r v H) as [A [B [C D]]]. split.
    - intros q Q. apply C. lia.
    - intros x _. now rewrite A.
  Qed.

  Lemma wrs_tmp : forall vs s r, nact <= r -> vars (wrs s r vs) = vars s /\
    (forall j, j < length vs -> tmps (wrs s r vs) (r + j) = nth j vs nilv) /\
    (forall q, q < r -> tmps (wrs s r vs) q = tmps s q).
  Proof.
    induction vs as [|v vs IH]; intros s r H; simpl.
    - repeat split; auto. intros j L; lia.
    - destruct (wr_tmp s r v H) as [A [B [C D]]].
      destruct (IH (wr s r v) (S r) ltac:(lia)) as [E [F G]].
      repeat split.
      + now rewrite E.
      + intros [|j] L.
        * rewrite Nat.add_0_r. rewrite G by lia. auto.
        * replace (r + S j) with (S r + j) by lia. apply F. lia.
      + intros q L. rewrite G by lia. apply C. lia.
  Qed.

  Lemma wrs_keep : forall vs s r fr, nact <= r -> fr <= r -> keep fr s (wrs s r vs).
  Proof.
    intros vs s r fr H L. destruct (wrs_tmp vs s r H) as [A [B C]]. split.
    - intros q Q. apply C. lia.
    - intros x _. now rewrite A.
  Qed.

  Lemma take_adjust : forall n vs, take n vs = adjust n vs.
  Proof.
    intros n vs. unfold Assign_model.take.
    enough (H : forall n vs m, n <= m -> firstn n (vs ++ repeat nilv m) = adjust n vs) by (apply H; lia).
    clear. induction n as [|n IH]; intros vs m L; [reflexivity|].
    destruct vs as [|v vs]; simpl.
    - destruct m as [|m]; [lia|]. simpl. f_equal.
      apply (IH [] m). lia.
    - f_equal. apply IH. lia.
  Qed.

  Lemma adjust_len : forall n vs, length (adjust n vs) = n.
  Proof. induction n; intros [|v vs]; simpl; auto. Qed.

  Lemma adjust_nth : forall n vs j, j < n -> nth j (adjust n vs) nilv = nth j vs nilv.
  Proof.
    induction n as [|n IH]; intros vs j L; [lia|].
    destruct vs as [|v vs]; destruct j as [|j]; simpl; auto.
    - rewrite IH by lia. destruct j; reflexivity.
    - apply IH. lia.
  Qed.

  (* an expression into a temporary *)
  Lemma expr_tmp : forall fr i s, nact <= fr ->
    sim (fun s' v => keep fr s s' /\ rd s' fr = v /\ tmps s' fr = v) (exec [IExpr fr i fr] s) (ev i (vars s)).
  Proof.
    intros fr i s H. simpl. destruct (ev i (vars s)) as [[v e]|x| |] eqn:E; simpl; auto.
    eexists; split; [reflexivity|].
    destruct (wr_tmp (scratch V W junk s e fr) fr v H) as [A [B [C D]]].
    split; [rewrite A; reflexivity|]. split; [|auto]. split.
    - intros r L. rewrite C by lia. simpl. apply Nat.ltb_lt in L. now rewrite L.
    - intros x X. rewrite A. simpl. eapply (proj1 (SS x X)); eauto.
  Qed.

  (* a call or '...' into temporaries *)
  Lemma multi_tmp : forall fr i n s, nact <= fr ->
    sim (fun s' vs => keep fr s s' /\ forall j, j < n -> tmps s' (fr + j) = nth j vs nilv)
      (exec [IMulti fr i n] s) (evm i (vars s)).
  Proof.
    intros fr i n s H. simpl. destruct (evm i (vars s)) as [[vs e]|x| |] eqn:E; simpl; auto.
    eexists; split; [reflexivity|].
    assert (H' := H). apply Nat.ltb_ge in H'. rewrite H'.
    destruct (wrs_tmp (take n vs) (scratch V W junk s e fr) fr H) as [A [B C]].
    rewrite take_adjust in *. split; [rewrite A; reflexivity|]. split; [split|].
    - intros r L. rewrite C by lia. simpl. apply Nat.ltb_lt in L. now rewrite L.
    - intros x X. rewrite A. simpl. eapply (proj1 (proj2 (SS x X))); eauto.
    - intros j L. rewrite B by (rewrite adjust_len; lia). apply adjust_nth. lia.
  Qed.

  (* ----- targets ----- *)

  Definition tgt_ok (t : target) : Prop :=
    match t with
    | TLoc r => r < nact
    | TUp _ => True
    | TInd p k =>
        match p with PLoc r => r < nact /\ Sv (VL r) | PUp u => Sv (VU u) | PExp _ => True end /\
        match k with KLoc r => r < nact /\ Sv (VL r) | _ => True end
    end.

  Lemma rd_loc : forall s r, r < nact -> rd s r = valof (vars s) (VL r).
  Proof. intros s r H. unfold Assign_model.rd. apply Nat.ltb_lt in H. now rewrite H. Qed.

  (* the key of a target *)
  Lemma key_ok : forall fr k, nact <= fr ->
    match k with KLoc r => r < nact /\ Sv (VL r) | _ => True end ->
    exists c fr' idx,
      exp2rk fits nact fr match k with KLoc r => XLoc r | KCst n => XK n | KExp i => XRel i end = Ok (c, fr', idx) /\
      fr <= fr' /\
      match idx with RReg r => r < fr' /\ (r < nact -> Sv (VL r)) | RKst _ => True end /\
      forall s, sim (fun s' v => keep fr s s' /\ rdk s' idx = v) (exec c s) (key_of V W nilv kval ev (vars s) k).
  Proof.
    intros fr k H K. destruct k as [r|n|i]; simpl.
    - destruct K as [K1 K2]. eexists _, _, _. split; [reflexivity|]. split; [lia|]. split; [split; [lia|auto]|].
      intros s. simpl. exists s. split; auto. split; auto. split; [apply keep_refl|].
      apply rd_loc; auto.
    - destruct (fits n).
      + eexists _, _, _. split; [reflexivity|]. split; [lia|]. split; [exact Logic.I|].
        intros s. simpl. exists s. split; auto. split; auto. split; [apply keep_refl|reflexivity].
      + unfold exp2anyreg, exp2nextreg. simpl. eexists _, _, _. split; [reflexivity|]. split; [lia|]. split; [split; lia|].
        intros s. simpl. destruct (wr_tmp s fr (kval n) H) as [A [B [C D]]].
        eexists. split; [reflexivity|]. split; auto. split; [apply wr_keep; lia|auto].
    - unfold exp2anyreg, exp2nextreg. simpl. eexists _, _, _. split; [reflexivity|]. split; [lia|]. split; [split; lia|].
      intros s. eapply sim_weak; [|apply expr_tmp; auto]. simpl. tauto.
  Qed.

  Lemma suffixed_ok : forall fr t, nact <= fr -> tgt_ok t ->
    exists c fr' nv, suffixed fits nact fr t = Ok (c, fr', nv) /\ fr <= fr' /\ scope fr' nv /\
      forall s, sim (fun s' p => keep fr s s' /\ holds fr' s' nv p) (exec c s)
        (place_of V W nilv kval ev (vars s) t).
  Proof.
    intros fr t H T. destruct t as [r|u|p k]; simpl in T.
    - eexists _, _, _. split; [reflexivity|]. split; [lia|]. split; [exact T|].
      intros s. simpl. exists s. split; auto. split; auto. split; [apply keep_refl|]. split; simpl; auto.
    - eexists _, _, _. split; [reflexivity|]. split; [lia|]. split; [exact Logic.I|].
      intros s. simpl. exists s. split; auto. split; auto. split; [apply keep_refl|]. split; simpl; auto.
    - destruct T as [T1 T2].
      set (q := match p with PLoc r => (@nil instr, fr, false, r) | PUp u => ([], fr, true, u)
                | PExp i => ([IExpr fr i fr], S fr, false, fr) end).
      assert (Q : exists c1 fr1 up tr, q = (c1, fr1, up, tr) /\ fr <= fr1 /\
        (if up then Sv (VU tr) else tr < fr1 /\ (tr < nact -> Sv (VL tr))) /\
        forall s, sim (fun s' v => keep fr s s' /\ (if up then valof (vars s') (VU tr) else rd s' tr) = v)
          (exec c1 s) (table_of V W nilv ev (vars s) p)).
      { destruct p as [r|u|i]; simpl in *; subst q; eexists _, _, _, _; (split; [reflexivity|]).
        - destruct T1. split; [lia|]. split; [split; [lia|auto]|]. intros s. simpl. exists s.
          split; auto. split; auto. split; [apply keep_refl|]. apply rd_loc; auto.
        - split; [lia|]. split; [auto|]. intros s. simpl. exists s.
          split; auto. split; auto. split; [apply keep_refl|]. reflexivity.
        - split; [lia|]. split; [split; lia|]. intros s.
          eapply sim_weak; [|apply expr_tmp; auto]. simpl. tauto. }
      destruct Q as [c1 [fr1 [up [tr [EQ [L1 [S1 Q]]]]]]].
      destruct (key_ok fr1 k ltac:(lia) T2) as [c2 [fr2 [idx [EK [L2 [S2 K]]]]]].
      assert (SC : scope fr2 (LInd up tr idx)).
      { simpl. split; [|exact S2]. destruct up; auto. destruct S1; split; [lia|auto]. }
      exists (c1 ++ c2), fr2, (LInd up tr idx). split.
      { unfold suffixed. fold q. rewrite EQ. rewrite EK. reflexivity. }
      split; [lia|]. split; [exact SC|].
      intros s. rewrite exec_app. unfold place_of.
      eapply sim_bind; [apply Q|]. intros s1 tv [K1 V1]. cbv beta iota.
      pose proof (K s1) as K'.
      destruct (key_of V W nilv kval ev (vars s1) k) as [[kv e2]|x| |]; simpl in *; auto.
      destruct K' as [s2 [E2 [F2 [K2 V2]]]]. exists s2. split; auto. split; auto. split.
      + eapply keep_trans; [exact L1|exact K1|exact K2].
      + split; [exact SC|]. split; [|exact V2]. destruct up.
        * rewrite <- V1. apply (proj2 K2 (VU tr)). exact S1.
        * rewrite <- V1. destruct S1. apply (rd_keep fr1); auto.
  Qed.

  Fixpoint clean (ls : list lhs) : Prop :=
    match ls with
    | [] => True
    | v :: prev => (forall l, In l prev -> uses_tab v l = false /\ uses_idx v l = false) /\ clean prev
    end.

  Definition simple (fr : nat) (v : lhs) : Prop := match v with LLoc r => r < fr | _ => True end.

  Lemma redirect_uses : forall fr v w l, simple fr w ->
    (v = w /\ indexed v = false) \/ (uses_tab w l = false /\ uses_idx w l = false) ->
    uses_tab w (redirect fr v l) = false /\ uses_idx w (redirect fr v l) = false.
  Proof.
    intros fr v w l Sw H. destruct l as [r|u|up t idx]; try (destruct w; simpl; split; reflexivity).
    unfold redirect.
    destruct (uses_tab v (LInd up t idx)) eqn:E1; destruct (uses_idx v (LInd up t idx)) eqn:E2;
    destruct H as [[<- X]|[H1 H2]]; try (rewrite E1 in *); try (rewrite E2 in *);
    try (destruct w as [r|u|? ? ?]); try (destruct v as [vr|vu|? ? ?]); simpl in *; try discriminate;
    repeat split; auto; try (apply Nat.eqb_neq; lia).
  Qed.

  Lemma redirect_scope : forall fr v l, scope fr l -> nact <= fr -> scope (S fr) (redirect fr v l).
  Proof.
    intros fr v l Sc H. destruct l as [r|u|up t idx]; simpl in *; auto.
    destruct Sc as [A B].
    destruct (uses_tab v (LInd up t idx)); destruct (uses_idx v (LInd up t idx)); simpl;
    (split; [try (split; lia)|try (split; lia)]);
    try (destruct up; [exact A|destruct A; split; [lia|auto]]);
    try (destruct idx; [destruct B; split; [lia|auto]|exact Logic.I]).
  Qed.

  Lemma redirect_none : forall fr v l, uses_tab v l = false -> uses_idx v l = false -> redirect fr v l = l.
  Proof. intros fr v [r|u|up t idx] H1 H2; auto. unfold redirect. now rewrite H1, H2. Qed.

  Lemma clean_redirect : forall fr v prev, Forall (simple fr) prev -> clean prev -> clean (map (redirect fr v) prev).
  Proof.
    induction prev as [|w prev IH]; intros F C; simpl in *; auto.
    inversion F; subst. destruct C as [C1 C2]. split; [|apply IH; auto].
    intros l I. apply in_map_iff in I. destruct I as [l' [<- I]].
    destruct (C1 _ I) as [U1 U2].
    destruct w as [r|u|a b c].
    - apply redirect_uses; auto.
    - apply redirect_uses; auto.
    - unfold redirect at 1 3. destruct (if uses_tab v (LInd a b c) then (false, fr) else (a, b)). simpl. auto.
  Qed.

  (* after check_conflict: the previous targets mean the same places as before *)
  Lemma conflict_ok : forall fr prev v, nact <= fr -> scope fr v -> indexed v = false ->
    Forall (scope fr) prev -> clean prev ->
    exists c fr' prev', check_conflict fr prev v = (c, fr', prev') /\ fr <= fr' /\
      Forall (scope fr') prev' /\ clean (v :: prev') /\ length prev' = length prev /\
      forall s, exists s', exec c s = Ok s' /\ vars s' = vars s /\ keep fr s s' /\
        forall ps, Forall2 (holds fr s) prev ps -> Forall2 (holds fr' s') prev' ps.
  Proof.
    intros fr prev v H Sc NI F C. unfold check_conflict.
    assert (SI : forall l, scope fr l -> simple fr l).
    { intros [r|u|a b c]; simpl; auto. intros; lia. }
    assert (CL : clean (v :: map (redirect fr v) prev)).
    { simpl. split.
      - intros l I. apply in_map_iff in I. destruct I as [l' [<- I]]. apply redirect_uses; auto.
      - apply clean_redirect; auto. eapply Forall_impl; [|exact F]. auto. }
    destruct (existsb (fun l => uses_tab v l || uses_idx v l) prev) eqn:EX.
    - eexists _, _, _. split; [reflexivity|]. split; [lia|]. split.
      { apply Forall_forall. intros l I. apply in_map_iff in I. destruct I as [l' [<- I]].
        apply redirect_scope; auto. rewrite Forall_forall in F. auto. }
      split; [exact CL|]. split; [apply map_length|].
      intros s.
      set (val := match v with LLoc r => rd s r | LUp u => nth u (ups V W (vars s)) nilv | _ => nilv end).
      exists (wr s fr val). destruct (wr_tmp s fr val H) as [A [B [D E]]].
      split. { destruct v; try discriminate; reflexivity. }
      split; [exact A|]. split; [apply wr_keep; lia|].
      intros ps HP. clear EX CL C.
      induction HP as [|l p ls ps HL HP IH]; simpl; constructor; [|apply IH; inversion F; auto].
      destruct (holds_keep fr fr s (wr s fr val) l p (le_n fr) (wr_keep s fr val fr H (le_n fr)) HL) as [Sl Hl].
      destruct HL as [_ HL].
      split; [apply redirect_scope; auto|].
      destruct l as [r|u|up t idx]; destruct p as [r'|u'|tv kv]; simpl in Hl, HL; try contradiction; auto.
      destruct Hl as [Hl1 Hl2]. destruct HL as [HL1 HL2].
      assert (UT : uses_tab v (LInd up t idx) = true -> val = tv).
      { intros U. destruct v as [r|u|? ? ?]; simpl in U; try discriminate;
        apply andb_true_iff in U; destruct U as [U1 U2]; destruct up; try discriminate;
        apply Nat.eqb_eq in U2; subst t; exact HL1. }
      assert (UI : uses_idx v (LInd up t idx) = true -> val = kv).
      { intros U. destruct v as [r|u|? ? ?]; simpl in U; try discriminate.
        destruct idx as [q|q]; try discriminate. apply Nat.eqb_eq in U. subst q. exact HL2. }
      unfold redirect.
      destruct (uses_tab v (LInd up t idx)) eqn:E1; destruct (uses_idx v (LInd up t idx)) eqn:E2;
      (split; [|]); auto; simpl; rewrite ?E; try (apply UT; reflexivity); try (apply UI; reflexivity).
    - assert (EM : map (redirect fr v) prev = prev).
      { clear CL C F. induction prev as [|l prev IH]; simpl in *; auto.
        apply orb_false_iff in EX. destruct EX as [EX1 EX2]. apply orb_false_iff in EX1.
        rewrite IH by auto. rewrite redirect_none by tauto. reflexivity. }
      rewrite EM in *. eexists _, _, _. split; [reflexivity|]. split; [lia|]. split; [exact F|].
      split; [exact CL|]. split; [reflexivity|]. intros s. exists s. simpl. repeat split; auto.
  Qed.

  Lemma targets_ok : forall ts fr prev, nact <= fr -> Forall tgt_ok ts -> Forall (scope fr) prev -> clean prev ->
    exists c fr' ls, targets fits nact fr prev ts = Ok (c, fr', ls) /\ fr <= fr' /\
      clean ls /\ Forall (scope fr') ls /\ length ls = length ts + length prev /\
      forall s ps0, Forall2 (holds fr s) prev ps0 ->
        sim (fun s' ps => length ps = length ts /\ Forall2 (holds fr' s') ls (rev ps ++ ps0)) (exec c s)
          (places V W nilv kval ev (vars s) ts).
  Proof.
    induction ts as [|t ts IH]; intros fr prev H T F C.
    - eexists _, _, _. split; [reflexivity|]. split; [lia|]. split; [auto|]. split; [auto|]. split; [reflexivity|].
      intros s ps0 HP. simpl. exists s. auto.
    - inversion T as [|? ? T1 T2]; subst.
      destruct (suffixed_ok fr t H T1) as [c1 [fr1 [nv [E1 [L1 [S1 X1]]]]]].
      assert (F1 : Forall (scope fr1) prev).
      { eapply Forall_impl; [|exact F]. intros [r|u|up tr idx]; simpl; auto.
        intros [A B]. split.
        - destruct up; auto. destruct A; split; [lia|auto].
        - destruct idx; auto. destruct B; split; [lia|auto]. }
      assert (Q : exists c2 fr2 prev1,
        (if indexed nv then ([], fr1, prev) else check_conflict fr1 prev nv) = (c2, fr2, prev1) /\
        fr1 <= fr2 /\ Forall (scope fr2) (nv :: prev1) /\ clean (nv :: prev1) /\ length prev1 = length prev /\
        forall s, exists s', exec c2 s = Ok s' /\ vars s' = vars s /\ keep fr1 s s' /\
          forall ps, Forall2 (holds fr1 s) prev ps -> Forall2 (holds fr2 s') prev1 ps).
      { destruct (indexed nv) eqn:NI.
        - eexists _, _, _. split; [reflexivity|]. split; [lia|]. split; [constructor; auto|]. split.
          + simpl. split; [|exact C]. intros l _. destruct nv; try discriminate. auto.
          + split; [reflexivity|]. intros s. exists s. simpl. repeat split; auto.
        - destruct (conflict_ok fr1 prev nv ltac:(lia) S1 NI F1 C) as [c2 [fr2 [prev1 [A [B [D [E [G K]]]]]]]].
          eexists _, _, _. split; [exact A|]. split; [lia|]. split.
          { constructor; auto. destruct nv; try discriminate; exact S1. }
          split; [exact E|]. split; [exact G|]. exact K. }
      destruct Q as [c2 [fr2 [prev1 [E2 [L2 [F2 [C2 [N2 X2]]]]]]]].
      destruct (IH fr2 (nv :: prev1) ltac:(lia) T2 F2 C2) as [c3 [fr3 [ls [E3 [L3 [C3 [F3 [N3 X3]]]]]]]].
      exists (c1 ++ c2 ++ c3), fr3, ls. split.
      { simpl. rewrite E1. cbn [bind]. rewrite E2. rewrite E3. reflexivity. }
      split; [lia|]. split; [exact C3|]. split; [exact F3|]. split; [simpl in *; lia|].
      intros s ps0 HP. rewrite exec_app. simpl places.
      eapply sim_bind; [apply X1|]. intros s1 p [K1 H1]. cbv beta iota.
      rewrite exec_app. destruct (X2 s1) as [s2 [G2 [V2 [K2 P2]]]]. rewrite G2. cbn [bind].
      rewrite <- V2.
      assert (HP2 : Forall2 (holds fr2 s2) (nv :: prev1) (p :: ps0)).
      { constructor.
        - eapply holds_keep; [exact L2|exact K2|exact H1].
        - apply P2. eapply Forall2_imp; [|exact HP]. intros l q Hq. eapply holds_keep; [exact L1|exact K1|exact Hq]. }
      specialize (X3 s2 _ HP2).
      destruct (places V W nilv kval ev (vars s2) ts) as [[ps e]|x| |]; simpl in *; auto.
      destruct X3 as [s3 [G3 [V3 [N4 P3]]]]. exists s3. split; auto. split; auto. split; [lia|].
      rewrite <- app_assoc. exact P3.
  Qed.

  (* ----- values ----- *)

  Definition lastx (x : exp) (xs : list exp) : exp := last xs x.

  Fixpoint inits (e : env) (x : exp) (xs : list exp) : outcome (list V * env) :=
    match xs with
    | [] => Ok ([], e)
    | x' :: xs' =>
        do '(vs, e1) <- values_of V W nilv kval ev evm e x;
        do '(ws, e2) <- inits e1 x' xs';
        Ok (first vs :: ws, e2)
    end.

  Lemma last_cons : forall (x y z : exp) xs, last (x :: xs) y = last xs x.
  Proof. intros x y z xs. revert x y. induction xs as [|a xs IH]; intros; [reflexivity|]. simpl in *. destruct xs; auto. Qed.

  Lemma values_split : forall xs x e, values V W nilv kval ev evm e x xs =
    do '(ws, e1) <- inits e x xs;
    do '(vs, e2) <- values_of V W nilv kval ev evm e1 (lastx x xs);
    Ok (ws ++ vs, e2).
  Proof.
    induction xs as [|x' xs IH]; intros x e.
    - simpl. destruct (values_of V W nilv kval ev evm e x) as [[vs e1]|?| |]; reflexivity.
    - unfold lastx. rewrite (last_cons x' x x). change (last xs x') with (lastx x' xs).
      simpl. destruct (values_of V W nilv kval ev evm e x) as [[vs e1]|?| |]; simpl; auto.
      rewrite IH. destruct (inits e1 x' xs) as [[ws e2]|?| |]; simpl; auto.
      destruct (values_of V W nilv kval ev evm e2 (lastx x' xs)) as [[us e3]|?| |]; reflexivity.
  Qed.

  Definition exp_ok (x : exp) : Prop := match x with ELoc r => r < nact | _ => True end.

  (* a value that is not the last goes to the next register *)
  Lemma next_ok : forall fr x, nact <= fr -> exp_ok x ->
    let '(c, fr1, xd) := expr fr x in
    exists c2, exp2nextreg nact fr1 xd = Ok (c2, S fr) /\
    forall s, sim (fun s' vs => keep fr s s' /\ tmps s' fr = first vs) (exec (c ++ c2) s)
      (values_of V W nilv kval ev evm (vars s) x).
  Proof.
    intros fr x H O. assert (G : (fr <? nact) = false) by (apply Nat.ltb_ge; auto).
    destruct x as [r|k|i|i|i|i]; simpl in O; unfold exp2nextreg; cbn [expr setoneret freeexp exp2reg bind].
    - assert (N : (r =? fr) = false) by (apply Nat.eqb_neq; lia). rewrite N.
      eexists; split; [reflexivity|]. intros s. simpl.
      destruct (wr_tmp s fr (rd s r) H) as [A [B [C D]]].
      eexists; split; [reflexivity|]. split; [auto|]. split; [apply wr_keep; lia|].
      rewrite B. apply rd_loc. auto.
    - eexists; split; [reflexivity|]. intros s. simpl.
      destruct (wr_tmp s fr (kval k) H) as [A [B [C D]]].
      eexists; split; [reflexivity|]. split; [auto|]. split; [apply wr_keep; lia|auto].
    - eexists; split; [reflexivity|]. intros s. simpl app.
      pose proof (expr_tmp fr i s H) as X.
      unfold values_of. destruct (ev i (vars s)) as [[v e]|?| |]; cbn [bind sim] in *; auto.
      destruct X as [s' [A [B X]]]. cbv beta in X. destruct X as [C [D E]]. exists s'. repeat split; auto; apply C; auto.
    - unfold freereg. rewrite G, Nat.eqb_refl. cbn [bind]. rewrite Nat.eqb_refl.
      eexists; split; [reflexivity|]. intros s. simpl app.
      pose proof (expr_tmp fr i s H) as X.
      unfold values_of. destruct (ev i (vars s)) as [[v e]|?| |]; cbn [bind sim] in *; auto.
      destruct X as [s' [A [B X]]]. cbv beta in X. destruct X as [C [D E]]. exists s'. repeat split; auto; apply C; auto.
    - unfold freereg. rewrite G, Nat.eqb_refl. cbn [bind]. rewrite Nat.eqb_refl.
      eexists; split; [reflexivity|]. intros s. simpl app.
      eapply sim_weak; [|apply (multi_tmp fr i 1 s H)].
      cbv beta. intros s' vs [K T]. split; auto. specialize (T 0 ltac:(lia)). rewrite Nat.add_0_r in T.
      rewrite T. destruct vs; reflexivity.
    - eexists; split; [reflexivity|]. intros s. simpl app.
      eapply sim_weak; [|apply (multi_tmp fr i 1 s H)].
      cbv beta. intros s' vs [K T]. split; auto. specialize (T 0 ltac:(lia)). rewrite Nat.add_0_r in T.
      rewrite T. destruct vs; reflexivity.
  Qed.

  Lemma explist_ok : forall xs x fr, nact <= fr -> Forall exp_ok (x :: xs) ->
    exists c, (let '(cl, fr1, xd) := expr (fr + length xs) (lastx x xs) in
        explist nact fr x xs = Ok (c ++ cl, fr1, xd)) /\
      forall s, sim (fun s' ws => keep fr s s' /\ length ws = length xs /\
          forall j, j < length xs -> tmps s' (fr + j) = nth j ws nilv) (exec c s) (inits (vars s) x xs).
  Proof.
    induction xs as [|x' xs IH]; intros x fr H O; inversion O as [|? ? O1 O2]; subst.
    - exists []. split.
      + simpl length. rewrite Nat.add_0_r. unfold lastx. simpl last. simpl explist.
        destruct (expr fr x) as [[cl fr1] xd]. reflexivity.
      + intros s. simpl. exists s. split; auto. split; auto. split; [apply keep_refl|]. split; auto. intros; lia.
    - pose proof (next_ok fr x H O1) as N. simpl explist.
      destruct (expr fr x) as [[c1 fr1] xd1]. destruct N as [c2 [E2 X2]].
      destruct (IH x' (S fr) ltac:(lia) O2) as [c3 [E3 X3]].
      exists ((c1 ++ c2) ++ c3). split.
      + unfold lastx. rewrite (last_cons x' x x). change (last xs x') with (lastx x' xs).
        replace (fr + length (x' :: xs)) with (S fr + length xs) by (simpl; lia).
        destruct (expr (S fr + length xs) (lastx x' xs)) as [[cl fr3] xd3].
        rewrite E2. cbn [bind]. rewrite E3. cbn [bind]. rewrite <- !app_assoc. reflexivity.
      + intros s. rewrite exec_app. cbn [inits].
        eapply sim_bind; [apply X2|]. intros s1 vs [K1 T1]. cbv beta iota.
        specialize (X3 s1). destruct (inits (vars s1) x' xs) as [[ws e2]|?| |]; cbn [bind sim] in *; auto.
        destruct X3 as [s2 [G2 [V2 [K2 [N2 T2]]]]]. exists s2. split; auto. split; auto. split; [|split].
        * apply (keep_trans fr (S fr) s s1 s2); auto.
        * simpl; lia.
        * intros [|j] L.
          -- rewrite Nat.add_0_r. rewrite (proj1 K2) by lia. exact T1.
          -- replace (fr + S j) with (S fr + j) by lia. simpl in L. apply T2. lia.
  Qed.

  (* the last value when the numbers of targets and values differ *)
  Lemma adjust_ok : forall fr x n m, nact <= fr -> exp_ok x -> n <> S m ->
    let '(cl, fr1, xd) := expr (fr + m) x in
    exists c, adjust_assign nact fr1 n (S m) xd = Ok (c, fr + n) /\
      forall s, sim (fun s' vs => keep (fr + m) s s' /\
          forall j, j < n - m -> tmps s' (fr + m + j) = nth j vs nilv) (exec (cl ++ c) s)
        (values_of V W nilv kval ev evm (vars s) x).
  Proof.
    intros fr x n m H O NE.
    set (M := S (fr + m) + (n - S m)).
    assert (FR : forall f1, f1 = S (fr + m) + (n - S m) ->
      (if n <? S m then f1 - (S m - n) else f1) = fr + n).
    { intros f1 ->. destruct (Nat.ltb_spec n (S m)); lia. }
    assert (FM : forall f1, f1 = S (fr + m) ->
      (if n <? S m then (if 1 <? n + 1 - S m then f1 + (n + 1 - S m - 1) else f1) - (S m - n)
       else (if 1 <? n + 1 - S m then f1 + (n + 1 - S m - 1) else f1)) = fr + n).
    { intros f1 ->. destruct (Nat.ltb_spec n (S m)); destruct (Nat.ltb_spec 1 (n + 1 - S m)); lia. }
    assert (SI : match x with ECall _ | EDots _ => False | _ => True end ->
      let '(cl, fr1, xd) := expr (fr + m) x in
      exists c, (do '(c, fr1) <- exp2nextreg nact fr1 xd;
        if S m <? n then Ok (c ++ [ILoadnil fr1 (n - S m)], fr1 + (n - S m)) else Ok (c, fr1))
        = Ok (c, S (fr + m) + (n - S m)) /\
      forall s, sim (fun s' vs => keep (fr + m) s s' /\
          forall j, j < n - m -> tmps s' (fr + m + j) = nth j vs nilv) (exec (cl ++ c) s)
        (values_of V W nilv kval ev evm (vars s) x)).
    { intros NM. pose proof (next_ok (fr + m) x ltac:(lia) O) as N.
      destruct (expr (fr + m) x) as [[cl fr1] xd]. destruct N as [c2 [E2 X2]].
      rewrite E2. cbn [bind].
      assert (ONE : forall s, match values_of V W nilv kval ev evm (vars s) x with Ok (vs, _) => length vs = 1 | _ => True end).
      { intros s. destruct x as [r|k|i|i|i|i]; simpl in *; auto; try contradiction;
        destruct (ev i (vars s)) as [[v e]|?| |]; simpl; auto. }
      destruct (Nat.ltb_spec (S m) n) as [L|L].
      - eexists; split; [reflexivity|]. intros s. rewrite app_assoc, exec_app.
        specialize (X2 s). specialize (ONE s).
        destruct (values_of V W nilv kval ev evm (vars s) x) as [[vs e]|?| |]; cbn [sim] in *;
        try (rewrite X2; reflexivity).
        destruct X2 as [s1 [-> [V1 [K1 T1]]]]. cbn [bind]. cbn [Assign_model.exec Assign_model.exec1 bind].
        eexists; split; [reflexivity|].
        destruct (wrs_tmp (repeat nilv (n - S m)) s1 (S (fr + m)) ltac:(lia)) as [A [B C]].
        rewrite A. split; [exact V1|]. split.
        + apply (keep_trans (fr + m) (S (fr + m)) s s1); auto. apply wrs_keep; lia.
        + intros [|j] J.
          * rewrite Nat.add_0_r, C by lia. rewrite T1. destruct vs; reflexivity.
          * replace (fr + m + S j) with (S (fr + m) + j) by lia. rewrite B by (rewrite repeat_length; lia).
            rewrite nth_repeat. destruct vs as [|v [|w vs]]; simpl in ONE; try discriminate. simpl. destruct j; reflexivity.
      - exists c2. split; [f_equal; f_equal; lia|]. intros s.
        eapply sim_weak; [|apply X2]. cbv beta. intros s' vs [K T]. split; auto. intros j J.
        assert (j = 0) by lia. subst j. rewrite Nat.add_0_r, T. destruct vs; reflexivity. }
    destruct x as [r|k|i|i|i|i]; simpl expr in *; unfold adjust_assign.
    - destruct (SI Logic.I) as [c [E X]]. exists c. rewrite E. cbn [bind]. rewrite FR by reflexivity. auto.
    - destruct (SI Logic.I) as [c [E X]]. exists c. rewrite E. cbn [bind]. rewrite FR by reflexivity. auto.
    - destruct (SI Logic.I) as [c [E X]]. exists c. rewrite E. cbn [bind]. rewrite FR by reflexivity. auto.
    - destruct (SI Logic.I) as [c [E X]]. exists c. rewrite E. cbn [bind]. rewrite FR by reflexivity. auto.
    - cbn [bind]. rewrite FM by reflexivity. eexists; split; [reflexivity|]. intros s. simpl app.
      eapply sim_weak; [|apply (multi_tmp (fr + m) i _ s ltac:(lia))].
      cbv beta. intros s' vs [K T]. split; auto. intros j J. apply T. lia.
    - cbn [bind]. rewrite FM by reflexivity. eexists; split; [reflexivity|]. intros s. simpl app.
      eapply sim_weak; [|apply (multi_tmp (fr + m) i _ s ltac:(lia))].
      cbv beta. intros s' vs [K T]. split; auto. intros j J. apply T. lia.
  Qed.

  (* ----- stores ----- *)

  (* what a store leaves alone: the places of targets that do not use the variable *)
  Definition pres (v : lhs) (fr : nat) (s s' : state) : Prop :=
    (forall r, r < fr -> tmps s' r = tmps s r) /\
    forall l q, uses_tab v l = false -> uses_idx v l = false -> holds fr s l q -> holds fr s' l q.

  Lemma keep_pres : forall v fr s s', keep fr s s' -> pres v fr s s'.
  Proof. intros v fr s s' K. split; [apply K|]. intros l q _ _ Hl. eapply holds_keep; eauto. Qed.

  Lemma pres_after : forall v fr s1 s2 s3, keep fr s1 s2 -> pres v fr s2 s3 -> pres v fr s1 s3.
  Proof.
    intros v fr s1 s2 s3 K [A B]. split.
    - intros r L. rewrite A by auto. apply K. auto.
    - intros l q U1 U2 Hl. apply B; auto. eapply holds_keep; eauto.
  Qed.

  (* a local variable gets a value *)
  Lemma pres_loc : forall r fr s v, r < nact -> pres (LLoc r) fr s (wr s r v).
  Proof.
    intros r fr s v H. unfold Assign_model.wr. assert (H' := H). apply Nat.ltb_lt in H'. rewrite H'.
    split; [reflexivity|]. intros l q U1 U2 [Sc Hl]. split; [exact Sc|].
    destruct l as [r'|u'|up t idx]; destruct q as [r2|u2|tv kv]; simpl in *; auto.
    destruct Hl as [Hl1 Hl2]. split.
    - destruct up; [exact Hl1|]. simpl in U1. apply Nat.eqb_neq in U1. rewrite <- Hl1.
      unfold Assign_model.rd. simpl. destruct (t <? nact); auto.
      rewrite setnth_update. apply nth_update_other. auto.
    - destruct idx as [i|k]; simpl in *; auto. apply Nat.eqb_neq in U2. rewrite <- Hl2.
      unfold Assign_model.rd. simpl. destruct (i <? nact); auto.
      rewrite setnth_update. apply nth_update_other. auto.
  Qed.

  Lemma pres_up : forall u fr s v, pres (LUp u) fr s (St V W (setup V W (vars s) u v) (tmps s)).
  Proof.
    intros u fr s v. split; [reflexivity|]. intros l q U1 U2 [Sc Hl]. split; [exact Sc|].
    destruct l as [r'|u'|up t idx]; destruct q as [r2|u2|tv kv]; simpl in *; auto.
    destruct Hl as [Hl1 Hl2]. split.
    - destruct up; [|exact Hl1]. simpl in U1. apply Nat.eqb_neq in U1. rewrite <- Hl1.
      unfold upvar. simpl. rewrite setnth_update. apply nth_update_other. auto.
    - exact Hl2.
  Qed.

  Definition lift1 (o : outcome env) : outcome (unit * env) := do e <- o; Ok (tt, e).

  (* storing into an indexed target *)
  Lemma set_ok : forall fr s up t idx p o, holds fr s (LInd up t idx) p ->
    sim (fun s' _ => pres (LInd up t idx) fr s s')
      (exec [if up then ISettabup t idx o else ISettable t idx o] s)
      (lift1 (assign1 V W settable (vars s) p (rdk s o))).
  Proof.
    intros fr s up t idx p o [Sc Hl]. destruct p as [r|u|tv kv]; simpl in Hl; try contradiction.
    destruct Hl as [H1 H2].
    assert (X : forall e, settable (vars s) tv kv (rdk s o) = Ok e -> keep fr s (St V W e (tmps s))).
    { intros e E. split; [reflexivity|]. intros x Sx. simpl. eapply (proj2 (proj2 (SS x Sx))); eauto. }
    unfold lift1, assign1. subst tv kv.
    destruct up; cbn [Assign_model.exec Assign_model.exec1].
    - change (nth t (ups V W (vars s)) nilv) with (upvar V W nilv (vars s) t).
      simpl in X. destruct (settable (vars s) (upvar V W nilv (vars s) t) (rdk s idx) (rdk s o)) as [e|?| |] eqn:E;
      cbn [bind sim]; auto.
      eexists; split; [reflexivity|]; split; [reflexivity|]; apply keep_pres; auto.
    - destruct (settable (vars s) (rd s t) (rdk s idx) (rdk s o)) as [e|?| |] eqn:E;
      cbn [bind sim]; auto.
      eexists; split; [reflexivity|]; split; [reflexivity|]; apply keep_pres; auto.
  Qed.

  (* a value that is in the last register goes to a target *)
  Lemma store_ok : forall fr v, nact <= fr -> scope fr v ->
    exists c, storevar fits nact (S fr) v (XNon fr) = Ok (c, fr) /\
      forall s p, holds fr s v p ->
        sim (fun s' _ => pres v fr s s') (exec c s) (lift1 (assign1 V W settable (vars s) p (tmps s fr))).
  Proof.
    intros fr v H Sc. assert (G : (fr <? nact) = false) by (apply Nat.ltb_ge; auto).
    assert (RT : forall s, rd s fr = tmps s fr) by (intros s; unfold Assign_model.rd; now rewrite G).
    destruct v as [r|u|up t idx]; unfold storevar, exp2anyreg, exp2rk, exp2anyreg, freerk, freeexp, freereg;
    cbn [setoneret bind]; rewrite ?G, ?Nat.eqb_refl; cbn [bind app].
    - simpl in Sc. unfold exp2reg. assert (N : (fr =? r) = false) by (apply Nat.eqb_neq; lia). rewrite N.
      eexists; split; [reflexivity|]. intros s p [_ Hp]. destruct p as [r'|u'|tv kv]; simpl in Hp; try contradiction.
      subst r'. cbn [Assign_model.exec Assign_model.exec1 bind]. rewrite RT.
      unfold lift1, assign1. cbn [bind sim]. eexists; split; [reflexivity|].
      split; [|apply pres_loc; auto].
      unfold Assign_model.wr. apply Nat.ltb_lt in Sc. rewrite Sc. simpl. unfold setloc. now rewrite setnth_update.
    - eexists; split; [reflexivity|]. intros s p [_ Hp]. destruct p as [r'|u'|tv kv]; simpl in Hp; try contradiction.
      subst u'. cbn [Assign_model.exec Assign_model.exec1 bind]. rewrite RT.
      unfold lift1, assign1. cbn [bind sim]. eexists; split; [reflexivity|].
      split; [|apply pres_up]. simpl. unfold setup. now rewrite setnth_update.
    - eexists; split; [reflexivity|]. intros s p Hp. rewrite <- RT. apply (set_ok fr s up t idx p (RReg fr) Hp).
  Qed.

  Lemma pres_list : forall v fr b s s' ls ps, fr <= b -> pres v b s s' ->
    (forall l, In l ls -> uses_tab v l = false /\ uses_idx v l = false) ->
    Forall2 (holds fr s) ls ps -> Forall2 (holds fr s') ls ps.
  Proof.
    intros v fr b s s' ls ps L [P1 P2] C HP. induction HP as [|l q ls' qs Hl HP IH]; constructor.
    - destruct (C l (or_introl eq_refl)) as [U1 U2].
      destruct (P2 l q U1 U2) as [S2 H2].
      { eapply (holds_keep fr); [exact L|apply keep_refl|exact Hl]. }
      split; [apply Hl|exact H2].
    - apply IH. intros l' I'. apply C. right. exact I'.
  Qed.

  Lemma stores_ok : forall ls fr, nact <= fr -> Forall (scope fr) ls -> clean ls ->
    exists c, stores fits nact (fr + length ls) ls = Ok (c, fr) /\
      forall s ps vs, Forall2 (holds fr s) ls ps -> length vs = length ls ->
        (forall j, j < length ls -> tmps s (fr + (length ls - 1 - j)) = nth j vs nilv) ->
        sim (fun _ _ => True) (exec c s) (lift1 (assign_all V W settable (vars s) (combine ps vs))).
  Proof.
    induction ls as [|v ls IH]; intros fr H F C.
    - exists []. split; [simpl; now rewrite Nat.add_0_r|]. intros s ps vs HP N T. inversion HP; subst.
      simpl. exists s. auto.
    - inversion F as [|? ? F1 F2]; subst. destruct C as [C1 C2].
      assert (SC : scope (fr + length ls) v).
      { destruct v as [r|u|up t idx]; simpl in *; auto. destruct F1 as [A B]. split.
        - destruct up; auto. destruct A; split; [lia|auto].
        - destruct idx; auto. destruct B; split; [lia|auto]. }
      destruct (store_ok (fr + length ls) v ltac:(lia) SC) as [c1 [E1 X1]].
      destruct (IH fr H F2 C2) as [c2 [E2 X2]].
      exists (c1 ++ c2). split.
      { simpl. replace (fr + S (length ls)) with (S (fr + length ls)) by lia.
        replace (S (fr + length ls) - 1) with (fr + length ls) by lia.
        rewrite E1. cbn [bind]. rewrite E2. reflexivity. }
      intros s ps vs HP N T. inversion HP as [|? p ? ps' Hp HP']; subst.
      destruct vs as [|w vs]; [discriminate|]. simpl in N.
      assert (TW : tmps s (fr + length ls) = w).
      { specialize (T 0 ltac:(simpl; lia)). simpl in T. rewrite <- T. f_equal. lia. }
      assert (Hp' : holds (fr + length ls) s v p).
      { eapply (holds_keep fr); [lia|apply keep_refl|exact Hp]. }
      specialize (X1 s p Hp'). rewrite TW in X1. rewrite exec_app. unfold lift1 in *. cbn [combine assign_all].
      destruct (assign1 V W settable (vars s) p w) as [e|?| |]; cbn [bind sim] in *; try (rewrite X1; reflexivity).
      destruct X1 as [s1 [-> [V1 [P1 P2]]]]. cbn [bind]. subst e. apply X2.
      + eapply (pres_list v fr (fr + length ls)); eauto; [lia|split; auto].
      + lia.
      + intros j J. rewrite P1 by lia. specialize (T (S j) ltac:(simpl; lia)). simpl in T. rewrite <- T. f_equal. lia.
  Qed.

  (* the last value when there are as many values as targets *)
  Lemma last_ok : forall fr x v, nact <= fr -> exp_ok x -> scope fr v ->
    let '(cl, fr1, xd) := expr fr x in
    let '(c3, x1) := setoneret fr1 xd in
    exists c4, storevar fits nact fr1 v x1 = Ok (c4, fr) /\
      forall s p, holds fr s v p ->
        sim (fun s' _ => pres v fr s s') (exec (cl ++ c3 ++ c4) s)
          (do '(vs, e1) <- values_of V W nilv kval ev evm (vars s) x;
           lift1 (assign1 V W settable e1 p (first vs))).
  Proof.
    intros fr x v H O Sc. assert (G : (fr <? nact) = false) by (apply Nat.ltb_ge; auto).
    (* the value goes to the next register first *)
    assert (GEN : forall c0, (forall s, sim (fun s' vs => keep fr s s' /\ tmps s' fr = first vs) (exec c0 s)
        (values_of V W nilv kval ev evm (vars s) x)) ->
      forall c4, (forall s p, holds fr s v p ->
        sim (fun s' _ => pres v fr s s') (exec c4 s) (lift1 (assign1 V W settable (vars s) p (tmps s fr)))) ->
      forall s p, holds fr s v p -> sim (fun s' _ => pres v fr s s') (exec (c0 ++ c4) s)
          (do '(vs, e1) <- values_of V W nilv kval ev evm (vars s) x;
           lift1 (assign1 V W settable e1 p (first vs)))).
    { intros c0 X0 c4 X4 s p Hp. rewrite exec_app. eapply sim_bind; [apply X0|].
      intros s1 vs [K1 T1]. cbv beta iota. rewrite <- T1.
      eapply sim_weak; [|apply X4; eapply holds_keep; [apply le_n|exact K1|exact Hp]].
      cbv beta. intros s2 _ P2. eapply pres_after; eauto. }
    pose proof (next_ok fr x H O) as NX.
    destruct (store_ok fr v H Sc) as [cs [ES XS]].
    destruct x as [r|k|i|i|i|i]; simpl in O; cbn [expr setoneret] in *.
    - (* a local variable: stored from its own register *)
      clear NX. cbn [app].
      assert (RL : forall s, rd s r = locvar V W nilv (vars s) r) by (intros s; apply (rd_loc s r O)).
      assert (Gr : (r <? nact) = true) by (apply Nat.ltb_lt; auto).
      destruct v as [q|u|up t idx]; unfold storevar, exp2anyreg, exp2rk, exp2anyreg, freerk, freeexp, freereg;
      cbn [setoneret bind exp2reg]; rewrite ?Gr; cbn [bind app].
      + eexists; split; [reflexivity|]. intros s p [_ Hp]. destruct p as [r'|u'|tv kv]; simpl in Hp; try contradiction.
        subst r'. unfold values_of. cbn [bind]. unfold lift1, assign1, Assign_spec.first. cbn [bind sim].
        assert (Gq : (q <? nact) = true) by (apply Nat.ltb_lt; auto).
        exists (wr s q (rd s r)). split; [|split; [|apply pres_loc; auto]].
        * destruct (Nat.eqb_spec r q) as [->|N]; [|reflexivity]. simpl. f_equal.
          unfold Assign_model.wr. rewrite Gq. unfold setloc. destruct s as [[l0 u0 w0] t0]. simpl. f_equal. f_equal.
          rewrite RL. unfold locvar. simpl. clear. revert q. induction l0 as [|a l0 IH]; intros [|q]; simpl; auto.
          f_equal. apply IH.
        * unfold Assign_model.wr. rewrite Gq. simpl. unfold setloc. rewrite setnth_update, RL. reflexivity.
      + eexists; split; [reflexivity|]. intros s p [_ Hp]. destruct p as [r'|u'|tv kv]; simpl in Hp; try contradiction.
        subst u'. unfold values_of. cbn [bind Assign_model.exec Assign_model.exec1]. rewrite RL.
        unfold lift1, assign1, Assign_spec.first. cbn [bind sim]. eexists; split; [reflexivity|].
        split; [|apply pres_up]. simpl. unfold setup. now rewrite setnth_update.
      + eexists; split; [reflexivity|]. intros s p Hp. unfold values_of. cbn [bind].
        unfold Assign_spec.first. rewrite <- RL. apply (set_ok fr s up t idx p (RReg r) Hp).
    - (* a constant *)
      destruct v as [q|u|up t idx].
      + clear NX. unfold storevar, freeexp. cbn [bind exp2reg app].
        eexists; split; [reflexivity|]. intros s p [_ Hp]. destruct p as [r'|u'|tv kv]; simpl in Hp; try contradiction.
        subst r'. unfold values_of. cbn [bind Assign_model.exec Assign_model.exec1]. unfold lift1, assign1, Assign_spec.first. cbn [bind sim].
        eexists; split; [reflexivity|]. split; [|apply pres_loc; auto].
        unfold Assign_model.wr. simpl in Sc. apply Nat.ltb_lt in Sc. rewrite Sc. simpl. unfold setloc. now rewrite setnth_update.
      + destruct NX as [c2 [E2 X2]].
        assert (ESV : storevar fits nact fr (LUp u) (XK k) = Ok (c2 ++ cs, fr)).
        { unfold storevar, exp2anyreg. cbn [setoneret]. rewrite E2. cbn [bind app].
          unfold storevar, exp2anyreg in ES. cbn [setoneret bind app] in ES.
          unfold freereg in *. rewrite G, Nat.eqb_refl in *. cbn [bind] in *. inversion ES. reflexivity. }
        exists (c2 ++ cs). split; [exact ESV|]. cbn [app]. apply GEN; auto.
      + destruct (fits k) eqn:FK.
        * clear NX. unfold storevar, exp2rk. rewrite FK. cbn [bind freerk app].
          eexists; split; [reflexivity|]. intros s p Hp. unfold values_of. cbn [bind].
          unfold Assign_spec.first. apply (set_ok fr s up t idx p (RKst k) Hp).
        * destruct NX as [c2 [E2 X2]].
          assert (ESV : storevar fits nact fr (LInd up t idx) (XK k) = Ok (c2 ++ cs, fr)).
          { unfold storevar, exp2rk, exp2anyreg. rewrite FK. cbn [setoneret]. rewrite E2. cbn [bind app].
            unfold storevar, exp2rk, exp2anyreg in ES. cbn [setoneret bind app freerk] in ES.
            unfold freerk, freereg in *. rewrite G, Nat.eqb_refl in *. cbn [bind] in *. inversion ES. reflexivity. }
          exists (c2 ++ cs). split; [exact ESV|]. cbn [app]. apply GEN; auto.
    - (* a relocatable expression *)
      destruct v as [q|u|up t idx].
      + clear NX. unfold storevar, freeexp. cbn [bind exp2reg app].
        eexists; split; [reflexivity|]. intros s p [_ Hp]. destruct p as [r'|u'|tv kv]; simpl in Hp; try contradiction.
        subst r'. unfold values_of. cbn [Assign_model.exec Assign_model.exec1].
        destruct (ev i (vars s)) as [[w e]|?| |] eqn:E; cbn [bind sim]; auto.
        unfold lift1, assign1, Assign_spec.first. cbn [bind sim].
        eexists; split; [reflexivity|]. split.
        * unfold Assign_model.wr. simpl in Sc. apply Nat.ltb_lt in Sc. rewrite Sc. simpl. unfold setloc. now rewrite setnth_update.
        * eapply pres_after; [|apply pres_loc; exact Sc]. split.
          -- intros r L. simpl. apply Nat.ltb_lt in L. now rewrite L.
          -- intros y Sy. simpl. eapply (proj1 (SS y Sy)); eauto.
      + destruct NX as [c2 [E2 X2]].
        assert (ESV : storevar fits nact fr (LUp u) (XRel i) = Ok (c2 ++ cs, fr)).
        { unfold storevar, exp2anyreg. cbn [setoneret]. rewrite E2. cbn [bind app].
          unfold storevar, exp2anyreg in ES. cbn [setoneret bind app] in ES.
          unfold freereg in *. rewrite G, Nat.eqb_refl in *. cbn [bind] in *. inversion ES. reflexivity. }
        exists (c2 ++ cs). split; [exact ESV|]. cbn [app]. apply GEN; auto.
      + destruct NX as [c2 [E2 X2]].
        assert (ESV : storevar fits nact fr (LInd up t idx) (XRel i) = Ok (c2 ++ cs, fr)).
        { unfold storevar, exp2rk, exp2anyreg. cbn [setoneret]. rewrite E2. cbn [bind app].
          unfold storevar, exp2rk, exp2anyreg in ES. cbn [setoneret bind app freerk] in ES.
          unfold freerk, freereg in *. rewrite G, Nat.eqb_refl in *. cbn [bind] in *. inversion ES. reflexivity. }
        exists (c2 ++ cs). split; [exact ESV|]. cbn [app]. apply GEN; auto.
    - (* an expression that has its register *)
      exists cs. split; [exact ES|]. cbn [app]. apply (GEN [IExpr fr i fr]); auto.
      intros s. unfold values_of. pose proof (expr_tmp fr i s H) as X.
      destruct (ev i (vars s)) as [[w e]|?| |]; cbn [bind sim] in *; auto.
      destruct X as [s' [A [B [C [D E]]]]]. exists s'. auto.
    - (* a call *)
      exists cs. split; [exact ES|]. cbn [app]. apply (GEN [IMulti fr i 1]); auto.
      intros s. unfold values_of. eapply sim_weak; [|apply (multi_tmp fr i 1 s H)].
      cbv beta. intros s' vs [K T]. split; auto. specialize (T 0 ltac:(lia)). rewrite Nat.add_0_r in T.
      rewrite T. destruct vs; reflexivity.
    - (* '...' *)
      destruct v as [q|u|up t idx].
      + clear NX. unfold storevar, freeexp. cbn [bind exp2reg app].
        eexists; split; [reflexivity|]. intros s p [_ Hp]. destruct p as [r'|u'|tv kv]; simpl in Hp; try contradiction.
        subst r'. unfold values_of. cbn [Assign_model.exec Assign_model.exec1].
        destruct (evm i (vars s)) as [[ws e]|?| |] eqn:E; cbn [bind sim]; auto.
        unfold lift1, assign1. cbn [bind sim]. rewrite take_adjust.
        eexists; split; [reflexivity|]. simpl in Sc. assert (Gq := Sc). apply Nat.ltb_lt in Gq. rewrite Gq.
        assert (AD : adjust 1 ws = [first ws]) by (destruct ws; reflexivity). rewrite AD. cbn [Assign_model.wrs]. split.
        * unfold Assign_model.wr. rewrite Gq. simpl. unfold setloc. now rewrite setnth_update.
        * eapply pres_after; [|apply pres_loc; exact Sc]. split.
          -- reflexivity.
          -- intros y Sy. simpl. eapply (proj1 (proj2 (SS y Sy))); eauto.
      + destruct NX as [c2 [E2 X2]].
        assert (ESV : storevar fits nact fr (LUp u) (XDots i) = Ok (c2 ++ cs, fr)).
        { unfold storevar, exp2anyreg. cbn [setoneret]. rewrite E2. cbn [bind app].
          unfold storevar, exp2anyreg in ES. cbn [setoneret bind app] in ES.
          unfold freereg in *. rewrite G, Nat.eqb_refl in *. cbn [bind] in *. inversion ES. reflexivity. }
        exists (c2 ++ cs). split; [exact ESV|]. cbn [app]. apply GEN; auto.
      + destruct NX as [c2 [E2 X2]].
        assert (ESV : storevar fits nact fr (LInd up t idx) (XDots i) = Ok (c2 ++ cs, fr)).
        { unfold storevar, exp2rk, exp2anyreg. cbn [setoneret]. rewrite E2. cbn [bind app].
          unfold storevar, exp2rk, exp2anyreg in ES. cbn [setoneret bind app freerk] in ES.
          unfold freerk, freereg in *. rewrite G, Nat.eqb_refl in *. cbn [bind] in *. inversion ES. reflexivity. }
        exists (c2 ++ cs). split; [exact ESV|]. cbn [app]. apply GEN; auto.
  Qed.

  Lemma sim_result : forall o1 o2, sim (fun _ _ => True) o1 (lift1 o2) -> result V W o1 = o2.
  Proof.
    intros o1 o2 H. destruct o2 as [e|x| |]; cbn in H; try (rewrite H; reflexivity).
    destruct H as [s [-> [<- _]]]. reflexivity.
  Qed.

  Lemma adjust_exact : forall ws vs, adjust (S (length ws)) (ws ++ vs) = ws ++ [first vs].
  Proof.
    induction ws as [|w ws IH]; intros vs; [destruct vs; reflexivity|].
    change (length (w :: ws)) with (S (length ws)). cbn [app].
    remember (S (length ws)) as n. simpl. now rewrite IH.
  Qed.

  Lemma nth_app_first : forall (ws vs : list V) j, j < length ws -> nth j (ws ++ vs) nilv = nth j ws nilv.
  Proof. intros. now apply app_nth1. Qed.

  Lemma scope_wide : forall fr fr' l, fr <= fr' -> scope fr l -> scope fr' l.
  Proof.
    intros fr fr' l L Sc. destruct l as [r|u|up t idx]; simpl in *; auto. destruct Sc as [A B]. split.
    - destruct up; auto. destruct A; split; [lia|auto].
    - destruct idx; auto. destruct B; split; [lia|auto].
  Qed.

  Lemma Forall2_len : forall A B (R : A -> B -> Prop) l m, Forall2 R l m -> length l = length m.
  Proof. intros A B R l m H. induction H; simpl; congruence. Qed.

  Lemma last_in : forall xs (x : exp), In (lastx x xs) (x :: xs).
  Proof.
    induction xs as [|y xs IH]; intros x; [left; reflexivity|].
    unfold lastx. rewrite (last_cons y x x). right. apply (IH y).
  Qed.

  Lemma assignment_ok : forall ts x xs fr, ts <> [] -> nact <= fr -> Forall tgt_ok ts -> Forall exp_ok (x :: xs) ->
    exists c fr', assignment fits nact fr ts x xs = Ok (c, fr') /\ fr <= fr' /\
      forall s, result V W (exec c s) = assignment_means V W nilv kval ev evm settable (vars s) ts x xs.
  Proof.
    intros ts x xs fr NE H T O.
    destruct (targets_ok ts fr [] H T (Forall_nil _) Logic.I) as [c1 [fr1 [ls [E1 [L1 [C1 [F1 [N1 X1]]]]]]]].
    simpl in N1. rewrite Nat.add_0_r in N1.
    destruct (explist_ok xs x fr1 ltac:(lia) O) as [c2 [E2 X2]].
    assert (OL : exp_ok (lastx x xs)).
    { rewrite Forall_forall in O. apply O. apply last_in. }
    (* targets and all values but the last *)
    assert (PRE : forall c3, (forall s ps ws, length ps = length ts -> length ws = length xs ->
        Forall2 (holds fr1 s) ls (rev ps) ->
        (forall j, j < length xs -> tmps s (fr1 + j) = nth j ws nilv) ->
        sim (fun _ _ => True) (exec c3 s)
          (do '(vs, e2) <- values_of V W nilv kval ev evm (vars s) (lastx x xs);
           lift1 (assign_all V W settable e2 (combine (rev ps) (rev (adjust (length ts) (ws ++ vs))))))) ->
      forall s, result V W (exec (c1 ++ c2 ++ c3) s) = assignment_means V W nilv kval ev evm settable (vars s) ts x xs).
    { intros c3 K s. apply sim_result. rewrite exec_app. unfold assignment_means.
      specialize (X1 s [] (Forall2_nil _)).
      destruct (places V W nilv kval ev (vars s) ts) as [[ps e1]|?| |]; cbn [sim] in X1; try (rewrite X1; reflexivity).
      destruct X1 as [s1 [-> [V1 [NP HP]]]]. cbn [bind]. subst e1. rewrite app_nil_r in HP.
      rewrite exec_app. rewrite values_split. specialize (X2 s1).
      destruct (inits (vars s1) x xs) as [[ws e2]|?| |]; cbn [sim] in X2; try (rewrite X2; reflexivity).
      destruct X2 as [s2 [-> [V2 [K2 [NW TW]]]]]. cbn [bind]. subst e2.
      assert (HP2 : Forall2 (holds fr1 s2) ls (rev ps)).
      { eapply Forall2_imp; [|exact HP]. intros l q Hl. eapply holds_keep; [apply le_n|exact K2|exact Hl]. }
      specialize (K s2 ps ws NP NW HP2 TW).
      destruct (values_of V W nilv kval ev evm (vars s2) (lastx x xs)) as [[vs e3]|?| |]; cbn [bind] in *; auto.
      rewrite combine_rev by (rewrite adjust_len; auto). exact K. }
    unfold assignment. rewrite E1. cbn [bind].
    destruct (Nat.eqb_spec (S (length xs)) (length ts)) as [EQ|NEQ].
    - destruct ls as [|v ls]; [simpl in *; lia|]. simpl in N1.
      inversion F1 as [|? ? Fv Fls]; subst. destruct C1 as [Cv Cls].
      pose proof (last_ok (fr1 + length xs) (lastx x xs) v ltac:(lia) OL (scope_wide fr1 (fr1 + length xs) v ltac:(lia) Fv)) as LO.
      destruct (expr (fr1 + length xs) (lastx x xs)) as [[cl fr2] xd]. rewrite E2. cbn [bind].
      destruct (setoneret fr2 xd) as [c3 x1]. destruct LO as [c4 [E4 X4]]. rewrite E4. cbn [bind].
      destruct (stores_ok ls fr1 ltac:(lia) Fls Cls) as [c5 [E5 X5]].
      replace (length ls) with (length xs) in E5 by lia. rewrite E5. cbn [bind].
      eexists _, _. split; [reflexivity|]. split; [lia|].
      intros s. rewrite <- !app_assoc. apply PRE. clear s. intros s ps ws NP NW HP TW.
      replace (cl ++ c3 ++ c4 ++ c5) with ((cl ++ c3 ++ c4) ++ c5) by (rewrite <- !app_assoc; reflexivity).
      rewrite exec_app. inversion HP as [|? p ? rps Hp HR HE]; subst.
      specialize (X4 s p (holds_keep fr1 (fr1 + length xs) s s v p ltac:(lia) (keep_refl _ s) Hp)).
      destruct (values_of V W nilv kval ev evm (vars s) (lastx x xs)) as [[vs e2]|?| |]; cbn [bind sim] in *;
      try (rewrite X4; reflexivity).
      rewrite <- EQ, <- NW, adjust_exact, rev_app_distr. cbn [rev app combine assign_all].
      unfold lift1 in *. destruct (assign1 V W settable e2 p (first vs)) as [e3|?| |]; cbn [bind sim] in *;
      try (rewrite X4; reflexivity).
      destruct X4 as [s1 [-> [V1 P1]]]. cbn [bind]. subst e3. apply X5.
      + eapply (pres_list v fr1 (fr1 + length xs)); eauto. lia.
      + rewrite rev_length. lia.
      + intros j J. rewrite (proj1 P1) by lia. rewrite TW by lia. rewrite rev_nth by lia. f_equal. lia.
    - pose proof (adjust_ok fr1 (lastx x xs) (length ts) (length xs) ltac:(lia) OL ltac:(lia)) as AO.
      destruct (expr (fr1 + length xs) (lastx x xs)) as [[cl fr2] xd]. rewrite E2. cbn [bind].
      destruct AO as [c3 [E3 X3]]. rewrite E3. cbn [bind].
      destruct (stores_ok ls fr1 ltac:(lia) F1 C1) as [c5 [E5 X5]].
      rewrite N1 in E5. rewrite E5. cbn [bind].
      eexists _, _. split; [reflexivity|]. split; [lia|].
      intros s. rewrite <- !app_assoc. apply PRE. clear s. intros s ps ws NP NW HP TW.
      rewrite app_assoc, exec_app. eapply sim_bind; [apply X3|].
      intros s1 vs [K1 T1]. cbv beta iota. apply X5.
      + eapply Forall2_imp; [|exact HP]. intros l q Hl. eapply (holds_keep fr1); [apply le_n| |exact Hl].
        split; [|apply K1]. intros r L. apply (proj1 K1). lia.
      + rewrite rev_length, adjust_len. lia.
      + intros j J. rewrite rev_nth by (rewrite adjust_len; lia). rewrite adjust_len, adjust_nth by lia.
        replace (length ts - S j) with (length ls - 1 - j) by lia.
        set (q := length ls - 1 - j). assert (Q : q < length ts) by (unfold q; lia). clearbody q.
        destruct (Nat.lt_ge_cases q (length xs)) as [Lq|Lq].
        * rewrite (proj1 K1) by lia. rewrite TW by lia. symmetry. apply app_nth1. lia.
        * rewrite app_nth2 by lia. rewrite NW. replace (fr1 + q) with (fr1 + length xs + (q - length xs)) by lia.
          apply T1. lia.
  Qed.
End P.

(* the statement with its side conditions spelled out *)
Lemma assign_partial : forall V W nilv kval fits nact ev evm settable junk ts x xs fr,
  ts <> [] -> nact <= fr -> locals_ok nact ts (x :: xs) ->
  (forall y, operand ts y -> undisturbed V W nilv ev evm settable y) ->
  exists c fr', assignment fits nact fr ts x xs = Ok (c, fr') /\
    forall s, result V W (exec V W nilv kval nact ev evm settable junk c s) =
      assignment_means V W nilv kval ev evm settable (vars V W s) ts x xs.
Proof.
  intros V W nilv kval fits nact ev evm settable junk ts x xs fr NE H [LT LX] U.
  destruct (assignment_ok V W nilv kval fits nact ev evm settable junk (operand ts) U ts x xs fr NE H) as [c [fr' [E [_ X]]]].
  - apply Forall_forall. intros t It. specialize (LT t It). destruct t as [r|u|p k]; simpl in *; auto.
    destruct LT as [L1 L2]. split.
    + destruct p as [r|u|i]; auto; [split; auto|]; (exists (PLoc r), k || exists (PUp u), k); simpl; auto.
    + destruct k as [r|n|i]; auto. split; auto. exists p, (KLoc r). simpl; auto.
  - apply Forall_forall. intros y Iy. specialize (LX y Iy). destruct y; simpl in *; auto.
  - exists c, fr'. auto.
Qed.

(* only local variables and upvalues are assigned to: no condition is needed *)
Lemma assign_variables : forall V W nilv kval fits nact ev evm settable junk ts x xs fr,
  ts <> [] -> nact <= fr -> locals_ok nact ts (x :: xs) ->
  (forall t, In t ts -> match t with TInd _ _ => False | _ => True end) ->
  exists c fr', assignment fits nact fr ts x xs = Ok (c, fr') /\
    forall s, result V W (exec V W nilv kval nact ev evm settable junk c s) =
      assignment_means V W nilv kval ev evm settable (vars V W s) ts x xs.
Proof.
  intros V W nilv kval fits nact ev evm settable junk ts x xs fr NE H L A.
  apply assign_partial; auto. intros y [p [k [I _]]]. destruct (A _ I).
Qed.

(* a small world for the examples: values are numbers, the world is the list of
   stores made so far *)
Definition W0 := list (nat * nat * nat).
Definition e0 (l u : list nat) : env nat W0 := Env nat W0 l u [].
Definition ev0 (i : nat) (e : env nat W0) : outcome (nat * env nat W0) :=
  match i with
  | 0 => Ok (S (nth 0 (locs _ _ e) 0), e)                                        (* the first variable plus one *)
  | _ => Ok (7, Env _ _ (setnth nat (locs _ _ e) 0 30) (ups _ _ e) (wld _ _ e))  (* a function that sets it *)
  end.
Definition evm0 (i : nat) (e : env nat W0) : outcome (list nat * env nat W0) := Ok ([5; 6], e).
Definition log0 (e : env nat W0) (t k v : nat) : outcome (env nat W0) :=
  Ok (Env _ _ (locs _ _ e) (ups _ _ e) (wld _ _ e ++ [(t, k, v)])).
(* table 20 has a __newindex handler that sets the first local variable to 30 *)
Definition meta0 (e : env nat W0) (t k v : nat) : outcome (env nat W0) :=
  Ok (Env _ _ (if t =? 20 then setnth nat (locs _ _ e) 0 30 else locs _ _ e) (ups _ _ e) (wld _ _ e ++ [(t, k, v)])).

Definition always (ev : nat -> env nat W0 -> outcome (nat * env nat W0)) settable : Prop :=
  forall ts x xs fr nact, ts <> [] -> nact <= fr -> locals_ok nact ts (x :: xs) ->
  exists c fr', assignment (fun _ => true) nact fr ts x xs = Ok (c, fr') /\
    forall s, result nat W0 (exec nat W0 0 (fun k => k) nact ev evm0 settable (fun _ => 99) c s) =
      assignment_means nat W0 0 (fun k => k) ev evm0 settable (vars nat W0 s) ts x xs.

Lemma meta_refuted : exists settable, ~ always ev0 settable.
Proof.
  exists meta0. intros A.
  destruct (A [TInd (PLoc 0) (KCst 0); TInd (PLoc 1) (KCst 0)] (ECst 1) [ECst 2] 2 2) as [c [fr' [E X]]].
  - discriminate.
  - lia.
  - split.
    + intros t [<-|[<-|[]]]; simpl; split; lia || exact Logic.I.
    + intros y [<-|[<-|[]]]; exact Logic.I.
  - vm_compute in E. inversion E; subst. specialize (X (St _ _ (e0 [10; 20] []) (fun _ => 0))).
    vm_compute in X. discriminate.
Qed.

Lemma call_refuted : exists ev, ~ always ev log0.
Proof.
  exists ev0. intros A.
  destruct (A [TInd (PLoc 0) (KCst 0)] (ERel 1) [] 1 1) as [c [fr' [E X]]].
  - discriminate.
  - lia.
  - split.
    + intros t [<-|[]]; simpl; split; lia || exact Logic.I.
    + intros y [<-|[]]; exact Logic.I.
  - vm_compute in E. inversion E; subst. specialize (X (St _ _ (e0 [10] []) (fun _ => 0))).
    vm_compute in X. discriminate.
Qed.
