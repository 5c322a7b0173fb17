(* Proofs about coroutines (C65) *)

Require Import Verif.Base Verif.Coro_model Verif.Coro_spec.
From Coq Require Import List Arith Bool Lia.
Import ListNotations.
Local Open Scope outcome_scope.
Local Open Scope nat_scope.

Lemma adjust_fit : forall w vs, adjust w vs = fit w vs.
Proof.
  intros [n|] vs; simpl; [|reflexivity].
  enough (H : forall n vs m, n <= m -> firstn n (vs ++ repeat Nil m) = fit_n n vs) by (apply H; lia).
  clear. induction n as [|n IH]; intros vs m L; [reflexivity|].
  destruct vs as [|v vs]; simpl.
  - destruct m as [|m]; [lia|]. simpl. f_equal. apply (IH [] m). lia.
  - f_equal. apply IH. lia.
Qed.

Lemma th_same : forall g i t, th (set g i t) i = t.
Proof. intros. simpl. now rewrite Nat.eqb_refl. Qed.

Lemma th_other : forall g i t j, j <> i -> th (set g i t) j = th g j.
Proof. intros g i t j H. simpl. apply Nat.eqb_neq in H. now rewrite H. Qed.

Lemma st_same : forall c i a, st (upd c i a) i = a.
Proof. intros. simpl. now rewrite Nat.eqb_refl. Qed.

Lemma st_other : forall c i a j, j <> i -> st (upd c i a) j = st c j.
Proof. intros c i a j H. simpl. apply Nat.eqb_neq in H. now rewrite H. Qed.

Lemma last_n : forall (p q : list value), skipn (length (p ++ q) - length q) (p ++ q) = q.
Proof.
  intros. rewrite app_length. replace (length p + length q - length q) with (length p) by lia.
  induction p; simpl; auto.
Qed.

Lemma but_n : forall (p q : list value), firstn (length (p ++ q) - length q) (p ++ q) = p.
Proof.
  intros. rewrite app_length. replace (length p + length q - length q) with (length p) by lia.
  induction p; simpl; [destruct q; reflexivity|]. now f_equal.
Qed.

Lemma top_app : forall t p q fs, frames t = (p ++ q) :: fs -> top t (length q) = q.
Proof. intros t p q fs H. unfold top. rewrite H. apply last_n. Qed.

Lemma pop_app : forall t p q fs, frames t = (p ++ q) :: fs -> pop t (length q) = set_frames t (p :: fs).
Proof. intros t p q fs H. unfold pop. rewrite H. now rewrite but_n. Qed.

Lemma push_eq : forall t f fs vs, frames t = f :: fs -> push t vs = set_frames t ((f ++ vs) :: fs).
Proof. intros t f fs vs H. unfold push. now rewrite H. Qed.

Section P.
  Variable bodies : nat -> list value -> prog.
  Variable maxcc : nat.
  Variable where_ : value -> value.

  Notation exec := (exec bodies maxcc where_).
  Notation run := (run bodies maxcc where_ true).
  Notation sresume := (sresume maxcc true).
  Notation auxresume := (auxresume bodies maxcc).
  Notation lua_resume := (lua_resume bodies maxcc).

  (* the thread of a coroutine that is not running *)
  Definition stands (j : nat) (t : thread) (a : costate) : Prop :=
    match a with
    | Suspended f => j <> 0 /\ nny t = 1 /\
        ((status t = SOk /\ exists b, frames t = [[Fun b]] /\ forall args, f args = bodies b args) \/
         (status t = SYield /\ exists loc x y, frames t = [[]; loc ++ [x]; [y]] /\
            forall args, f args = cont t (loc ++ fit (wanted t) args)))
    | Active bare => status t = SOk /\
        exists f l x, frames t = [f; l; [x]] /\ (bare = true <-> f = [])
    | Finished => (status t = SOk /\ frames t = [[]]) \/ (status t = SErr /\ frames t <> [])
    end.

  Definition others (i : nat) (g : global) (c : cos) : Prop :=
    count g = num c /\ forall j, j < num c -> j <> i -> stands j (th g j) (st c j).

  (* the thread that runs *)
  Definition runs (d i : nat) (t : thread) : Prop :=
    status t = SOk /\ nny t = (if i =? 0 then 1 else 0) /\ ncc t = d /\ exists f x, frames t = [f; [x]].

  (* coroutines that wait are not touched *)
  Definition kept (i : nat) (g g' : global) (c c' : cos) : Prop :=
    num c <= num c' /\ forall j b, j < num c -> j <> i -> st c j = Active b -> th g' j = th g j /\ st c' j = Active b.

  Definition ends (d i : nat) (r : sres) (r' : res) (t : thread) : Prop :=
    ncc t = d /\
    match r with
    | SRet vs => r' = RDone /\ status t = SOk /\ frames t = [vs]
    | SThrow v => r' = RThrow /\ status t = SOk /\ exists p fs, frames t = (p ++ [v]) :: fs
    | SYields vs f => i <> 0 /\ r' = RYield /\ status t = SYield /\
        exists loc x y, frames t = [vs; loc ++ [x]; [y]] /\ forall args, f args = cont t (loc ++ fit (wanted t) args)
    end.

  Definition simulates (ex : nat -> prog -> global -> outcome (res * global))
      (sx : nat -> nat -> prog -> cos -> outcome (sres * cos)) : Prop :=
    forall d i p g c, i < num c -> others i g c -> runs d i (th g i) ->
      match sx d i p c with
      | Ok (r, c') => exists r' g', ex i p g = Ok (r', g') /\ others i g' c' /\ kept i g g' c c' /\ ends d i r r' (th g' i)
      | Err x => ex i p g = Err x
      | UB => ex i p g = UB
      | OutOfFuel => ex i p g = OutOfFuel
      end.

  Lemma kept_refl : forall i g c, kept i g g c c.
  Proof. split; auto. Qed.

  Lemma others_set : forall i g c t, others i g c -> others i (set g i t) c.
  Proof.
    intros i g c t [A B]. split; auto. intros j L N. rewrite th_other by auto. auto.
  Qed.

  Lemma others_upd : forall i g c a, others i g c -> others i g (upd c i a).
  Proof.
    intros i g c a [A B]. split; auto. intros j L N. rewrite st_other by auto. auto.
  Qed.

  (* thread i calls resume or a wrapped function: its frame is pre ++ vs *)
  Definition calls (d i : nat) (t : thread) (f l : list value) : Prop :=
    status t = SOk /\ nny t = (if i =? 0 then 1 else 0) /\ ncc t = d /\ exists x, frames t = [f; l; [x]].

  Lemma aux_ok : forall ex sx, simulates ex sx -> forall d i co pre vs l g c bare, i < num c -> co < num c ->
    others i g c -> calls d i (th g i) (pre ++ vs) l -> st c i = Active bare -> (bare = true <-> pre = []) ->
    match sresume sx d i co vs c with
    | Ok (ok, rs, c') => exists o g', auxresume ex i co (length vs) g = Ok (o, g') /\ others i g' c' /\
        kept i g g' c c' /\ 
        (exists f, calls d i (th g' i) (f ++ rs) l) /\
        (if ok then o = Some (length rs) else o = None /\ length rs = 1)
    | Err x => auxresume ex i co (length vs) g = Err x
    | UB => auxresume ex i co (length vs) g = UB
    | OutOfFuel => auxresume ex i co (length vs) g = OutOfFuel
    end.
  Proof.
    intros ex sx SIM d i co pre vs l g c bare Li Lc [CN O] [Cs [Cn [Cc [x Cf]]]] Ai BA.
    unfold Coro_spec.sresume, Coro_model.auxresume.
    destruct (Nat.eq_dec co i) as [->|NE].
    { (* itself *)
      rewrite Ai. rewrite Cs. unfold gettop. rewrite Cf.
      destruct (length (pre ++ vs)) as [|n] eqn:EL.
      - apply length_zero_iff_nil in EL. apply app_eq_nil in EL. destruct EL as [-> ->].
        assert (bare = true) by tauto. subst bare. rewrite Nat.eqb_refl. cbn [andb].
        eexists _, _. split; [reflexivity|]. split; [apply others_set; split; auto|]. split.
        { split; auto. intros j b L N E. rewrite th_other by auto. auto. }
        split; [|auto]. exists []. rewrite th_same. rewrite (push_eq _ _ _ _ Cf).
        repeat split; auto. exists x. reflexivity.
      - assert (W : true && bare && (if i =? i then match vs with [] => true | _ :: _ => false end else true) = false).
        { rewrite Nat.eqb_refl. destruct vs; [|now rewrite !andb_false_r]. destruct bare; auto.
          rewrite (proj1 BA) in EL by auto. discriminate. }
        rewrite W. unfold lua_xmove. rewrite Nat.eqb_refl.
        unfold Coro_model.lua_resume. rewrite Cs, Cf. cbn [bind].
        unfold resume_error. rewrite (pop_app _ _ _ _ Cf).
        eexists _, _. split; [reflexivity|]. split; [apply others_set; split; auto|]. split.
        { split; auto. intros j b L N E. rewrite th_other by auto. auto. }
        split; [|auto]. exists pre. rewrite th_same.
        repeat split; auto. exists x. reflexivity. }
    assert (Oall := O).
    specialize (O co Lc NE).
    assert (EQN : (i =? co) = false) by (apply Nat.eqb_neq; auto).
    assert (EQN' : (co =? i) = false) by (apply Nat.eqb_neq; auto).
    (* the state after the arguments have been moved *)
    assert (MV : forall f fs, frames (th g co) = f :: fs ->
      let g1 := lua_xmove g i co (length vs) in
      count g1 = count g /\ th g1 co = set_frames (th g co) ((f ++ vs) :: fs) /\
      th g1 i = set_frames (th g i) [pre; l; [x]] /\ forall j, j <> i -> j <> co -> th g1 j = th g j).
    { intros f fs Hf. unfold lua_xmove. rewrite EQN. rewrite (top_app _ _ _ _ Cf), (pop_app _ _ _ _ Cf).
      cbv zeta. split; [reflexivity|]. split; [|split].
      - rewrite th_same. rewrite th_other by auto. apply push_eq. exact Hf.
      - rewrite th_other by auto. apply th_same.
      - intros j N1 N2. rewrite !th_other by auto. reflexivity. }
    (* a message or other single value back *)
    assert (BACK : forall g2 p v fs, count g2 = count g -> frames (th g2 co) = (p ++ [v]) :: fs ->
      th g2 i = set_frames (th g i) [pre; l; [x]] ->
      let g3 := lua_xmove g2 co i 1 in
      count g3 = count g2 /\ th g3 co = set_frames (th g2 co) (p :: fs) /\
      th g3 i = set_frames (th g i) [pre ++ [v]; l; [x]] /\ forall j, j <> i -> j <> co -> th g3 j = th g2 j).
    { intros g2 p v fs Hc Hf Hi. unfold lua_xmove. rewrite EQN'.
      change 1 with (length [v]). rewrite (top_app _ _ _ _ Hf), (pop_app _ _ _ _ Hf).
      cbv zeta. split; [reflexivity|]. split; [|split].
      - rewrite th_other by auto. apply th_same.
      - rewrite th_same. rewrite th_other by auto. rewrite Hi. reflexivity.
      - intros j N1 N2. rewrite !th_other by auto. reflexivity. }
    (* the resume is refused with a message *)
    assert (REF : forall g1 m f fs, count g1 = count g -> frames (th g1 co) = (f ++ vs) :: fs ->
      th g1 i = set_frames (th g i) [pre; l; [x]] -> (forall j, j <> i -> j <> co -> th g1 j = th g j) ->
      let g3 := lua_xmove (resume_error g1 co m (length vs)) co i 1 in
      count g3 = count g /\ th g3 co = set_frames (th g1 co) (f :: fs) /\
      th g3 i = set_frames (th g i) [pre ++ [Str m]; l; [x]] /\ forall j, j <> i -> j <> co -> th g3 j = th g j).
    { intros g1 m f fs Hc Hf Hi Hj.
      assert (Q : th (resume_error g1 co m (length vs)) co = set_frames (th g1 co) ((f ++ [Str m]) :: fs)).
      { unfold resume_error. rewrite th_same. rewrite (pop_app _ _ _ _ Hf). reflexivity. }
      destruct (BACK (resume_error g1 co m (length vs)) f (Str m) fs) as [A [B [D E]]].
      - exact Hc.
      - rewrite Q. reflexivity.
      - unfold resume_error. rewrite th_other by auto. exact Hi.
      - cbv zeta. rewrite A, B, D, Q. repeat split; auto.
        intros j N1 N2. rewrite E by auto. unfold resume_error. rewrite th_other by auto. auto. }
    (* and what follows from that *)
    assert (REFOK : forall g3 m, count g3 = count g -> th g3 i = set_frames (th g i) [pre ++ [Str m]; l; [x]] ->
      (forall j, j <> i -> j <> co -> th g3 j = th g j) -> stands co (th g3 co) (st c co) ->
      (forall b, st c co = Active b -> th g3 co = th g co) ->
      others i g3 c /\ kept i g g3 c c /\ (exists f, calls d i (th g3 i) (f ++ [Str m]) l)).
    { intros g3 m Hc Hi Hj Hs Hk. split; [|split].
      - split; [congruence|]. intros j L N. destruct (Nat.eq_dec j co) as [->|N2]; [exact Hs|].
        rewrite Hj by auto. apply Oall; auto.
      - split; auto. intros j b L N E. destruct (Nat.eq_dec j co) as [->|N2]; [|rewrite Hj by auto; auto].
        split; auto. eapply Hk; eauto.
      - exists pre. rewrite Hi. repeat split; auto. exists x. reflexivity. }
    assert (SF : forall t f fs, frames t = f :: fs -> set_frames t (f :: fs) = t).
    { intros [s0 f0 n0 c0 w0 k0] f fs E. simpl in *. subst f0. reflexivity. }
    (* nothing on top of the coroutine: taken for dead *)
    assert (EARLY : status (th g co) = SOk -> gettop (th g co) = 0 ->
      exists g', (match status (th g co), gettop (th g co) with
        | SOk, 0 => Ok (None, set g i (push (th g i) [Str MDead]))
        | _, _ =>
            let g1 := lua_xmove g i co (length vs) in
            do '(ok, g2) <- lua_resume ex i co (length vs) g1;
            if ok then Ok (Some (gettop (th g2 co)), lua_xmove g2 co i (gettop (th g2 co)))
            else Ok (None, lua_xmove g2 co i 1)
        end) = Ok (None, g') /\ others i g' c /\ kept i g g' c c /\ exists f, calls d i (th g' i) (f ++ [Str MDead]) l).
    { intros E1 E2. rewrite E1, E2. eexists. split; [reflexivity|]. split; [apply others_set; split; auto|]. split.
      { split; auto. intros j b L N E. rewrite th_other by auto. auto. }
      exists (pre ++ vs). rewrite th_same. rewrite (push_eq _ _ _ _ Cf). repeat split; auto. exists x. reflexivity. }
    destruct (st c co) as [f|wrap|] eqn:EC; simpl in O.
    - (* suspended *)
      destruct O as [N0 [Hn O]].
      assert (AUX : exists f0 fs, frames (th g co) = f0 :: fs /\
        ((status (th g co) = SOk /\ (exists b, f0 = [Fun b]) /\ fs = []) \/ (status (th g co) = SYield /\ f0 = [])) /\
        forall g2, th g2 co = set_nny (set_ncc (set_frames (th g co) ((f0 ++ vs) :: fs)) (S d)) 0 ->
          exists g4, Coro_model.resume bodies ex co (length vs) g2 = ex co (f vs) g4 /\ count g4 = count g2 /\
            runs (S d) co (th g4 co) /\ forall j, j <> co -> th g4 j = th g2 j).
      { destruct O as [[O1 [b [O2 O3]]]|[O1 [loc [x1 [y [O2 O3]]]]]].
        - exists [Fun b], []. split; [exact O2|]. split; [left; eauto|].
          intros g2 E. unfold Coro_model.resume. rewrite E. cbn [status set_nny set_ncc set_frames]. rewrite O1.
          set (t := set_nny _ _).
          assert (F : frames t = ([Fun b] ++ vs) :: []) by reflexivity.
          rewrite (top_app _ _ _ _ F), (pop_app _ _ _ _ F).
          cbn [top set_frames frames length Nat.sub skipn]. rewrite O3.
          eexists. split; [reflexivity|]. split; [reflexivity|]. split.
          + rewrite th_same. split; [exact O1|]. split; [|split; [reflexivity|]].
            * apply Nat.eqb_neq in N0. rewrite N0. reflexivity.
            * exists vs, (Fun b). reflexivity.
          + intros j N. apply th_other. exact N.
        - exists [], [loc ++ [x1]; [y]]. split; [exact O2|]. split; [right; auto|].
          intros g2 E. unfold Coro_model.resume. rewrite E. cbn [status set_nny set_ncc set_frames]. rewrite O1.
          set (t := set_nny _ _).
          assert (F : frames t = ([] ++ vs) :: [loc ++ [x1]; [y]]) by reflexivity.
          rewrite (top_app _ _ _ _ F).
          assert (PC : poscall (set_status t SOk) (wanted t) vs =
            set_frames (set_status t SOk) [loc ++ fit (wanted (th g co)) vs; [y]]).
          { unfold poscall. cbn [frames set_status]. rewrite F. rewrite removelast_last, adjust_fit. reflexivity. }
          rewrite PC. cbn [frames set_frames]. rewrite O3.
          eexists. split; [reflexivity|]. split; [reflexivity|]. split.
          + rewrite th_same. split; [reflexivity|]. split; [|split; [reflexivity|]].
            * apply Nat.eqb_neq in N0. rewrite N0. reflexivity.
            * eexists _, y. reflexivity.
          + intros j N. apply th_other. exact N. }
      destruct AUX as [f0 [fs [HF [HS RES]]]].
      destruct (MV _ _ HF) as [M1 [M2 [M3 M4]]]. cbv zeta in *.
      set (g1 := lua_xmove g i co (length vs)) in *.
      assert (Fr : frames (th g1 co) = (f0 ++ vs) :: fs) by (rewrite M2; reflexivity).
      assert (Sr : status (th g1 co) = status (th g co)) by (rewrite M2; reflexivity).
      assert (NC : ncc (th g1 i) = d) by (rewrite M3; exact Cc).
      assert (NN : nny (th g1 co) = 1) by (rewrite M2; exact Hn).
      assert (LR : lua_resume ex i co (length vs) g1 =
        let g2 := set g1 co (set_ncc (th g1 co) (S d)) in
        if maxcc <=? S d then Ok (false, resume_error g2 co MCstack (length vs))
        else
          let g3 := set g2 co (set_nny (th g2 co) 0) in
          do '(r, g4) <- Coro_model.resume bodies ex co (length vs) g3;
          let finish g := set g co (set_ncc (set_nny (th g co) 1) (ncc (th g co) - 1)) in
          match r with
          | RThrow => Ok (false, finish (set g4 co (push (set_status (th g4 co) SErr) (top (th g4 co) 1))))
          | _ => Ok (true, finish g4)
          end).
      { unfold Coro_model.lua_resume. rewrite Sr, Fr, NC, NN.
        destruct HS as [[HS [_ ->]]|[HS _]]; rewrite HS; reflexivity. }
      assert (MA : forall X Y : outcome (option nat * global),
        match status (th g co), gettop (th g co) with SOk, 0 => X | _, _ => Y end = Y).
      { intros X Y. destruct HS as [[HS [[b Hb] _]]|[HS _]]; rewrite HS; [|reflexivity].
        unfold gettop. rewrite HF, Hb. reflexivity. }
      rewrite MA. cbv zeta. fold g1. rewrite LR. cbv zeta. clear LR MA EARLY.
      destruct (maxcc <=? S d) eqn:EM.
      + (* too deep *)
        cbn [bind].
        destruct (REF (set g1 co (set_ncc (th g1 co) (S d))) MCstack f0 fs) as [A [B [D E]]].
        { exact M1. } { rewrite th_same. exact Fr. } { rewrite th_other by auto. exact M3. }
        { intros j N1 N2. rewrite th_other by auto. auto. }
        rewrite th_same in B.
        destruct (REFOK _ MCstack A D E) as [F1 [F2 F3]].
        { rewrite B, M2. simpl. split; [exact N0|]. split; [exact Hn|].
          destruct O as [[O1 [b [O2 O3]]]|[O1 [loc [x1 [y [O2 O3]]]]]].
          - left. split; [exact O1|]. exists b. rewrite HF in O2. rewrite O2. split; auto.
          - right. split; [exact O1|]. exists loc, x1, y. rewrite HF in O2. rewrite O2. split; auto. }
        { intros b X. discriminate. }
        eexists _, _. split; [reflexivity|]. auto.
      + set (g2 := set g1 co (set_ncc (th g1 co) (S d))).
        set (g3 := set g2 co (set_nny (th g2 co) 0)).
        assert (T3 : th g3 co = set_nny (set_ncc (set_frames (th g co) ((f0 ++ vs) :: fs)) (S d)) 0).
        { unfold g3. rewrite th_same. unfold g2. rewrite th_same, M2. reflexivity. }
        destruct (RES g3 T3) as [g4 [R1 [R2 [R3 R4]]]]. rewrite R1.
        assert (R5 : forall j, j <> co -> th g4 j = th g1 j).
        { intros j N. rewrite R4 by auto. unfold g3. rewrite th_other by auto. unfold g2. apply th_other. auto. }
        assert (C4 : count g4 = num c) by (rewrite R2; exact (eq_trans M1 CN)).
        assert (O4 : others co g4 (upd c co (Active false))).
        { split; [exact C4|]. intros j L N. rewrite st_other by auto. rewrite R5 by auto.
          destruct (Nat.eq_dec j i) as [->|N2]; [|rewrite M4 by auto; apply Oall; auto].
          rewrite Ai, M3. simpl. split; [exact Cs|]. exists pre, l, x. split; auto. }
        pose proof (SIM (S d) co (f vs) g4 (upd c co (Active false)) Lc O4 R3) as H.
        destruct (sx (S d) co (f vs) (upd c co (Active false))) as [[r c1]|e| |]; cbn [bind];
          [|rewrite H; reflexivity..].
        destruct H as [r' [g5 [X1 [X2 [X3 X4]]]]]. rewrite X1. cbn [bind].
        destruct X3 as [X3n X3].
        assert (K5i : th g5 i = th g1 i /\ st c1 i = Active bare).
        { rewrite <- (R5 i) by auto. apply X3; auto. rewrite st_other by auto. exact Ai. }
        destruct K5i as [K5i K5s]. simpl in X3n.
        (* what the ways to end have in common *)
        assert (FIN : forall g6 a rs, count g6 = count g5 -> (forall j, j <> i -> j <> co -> th g6 j = th g5 j) ->
          th g6 i = set_frames (th g i) [pre ++ rs; l; [x]] -> stands co (th g6 co) a -> (forall b, a <> Active b) ->
          others i g6 (upd c1 co a) /\ kept i g g6 c (upd c1 co a) /\ exists f, calls d i (th g6 i) (f ++ rs) l).
        { intros g6 a rs Y1 Y2 Y3 Y4 Y5. destruct X2 as [X2n X2]. split; [|split].
          - split; [rewrite Y1; exact X2n|]. intros j L N. simpl in L.
            destruct (Nat.eq_dec j co) as [->|N2]; [rewrite st_same; exact Y4|].
            rewrite st_other by auto. rewrite Y2 by auto. apply X2; auto.
          - split; [exact X3n|]. intros j b L N E.
            assert (N2 : j <> co) by (intros ->; congruence).
            rewrite st_other by auto. rewrite Y2 by auto.
            destruct (X3 j b L N2) as [Z1 Z2]; [rewrite st_other by auto; exact E|].
            rewrite Z1. split; [|exact Z2]. rewrite R5 by auto. apply M4; auto.
          - exists pre. rewrite Y3. repeat split; auto. exists x. reflexivity. }
        destruct X4 as [X4c X4].
        destruct r as [rs|v|rs f'].
        * destruct X4 as [-> [X4s X4f]].
          cbn [bind]. set (g6 := set g5 co _).
          assert (F6 : frames (th g6 co) = ([] ++ rs) :: []) by (unfold g6; rewrite th_same; exact X4f).
          assert (GT : gettop (th g6 co) = length rs) by (unfold gettop; rewrite F6; reflexivity).
          rewrite GT. unfold lua_xmove. rewrite EQN'. rewrite (top_app _ _ _ _ F6), (pop_app _ _ _ _ F6).
          eexists _, _. split; [reflexivity|].
          match goal with |- others i ?g7 _ /\ _ => destruct (FIN g7 Finished rs) as [A [B D]] end.
          { reflexivity. }
          { intros j N1 N2. rewrite !th_other by auto. unfold g6. rewrite th_other by auto. reflexivity. }
          { rewrite th_same. rewrite th_other by auto. unfold g6. rewrite th_other by auto. rewrite K5i, M3. reflexivity. }
          { rewrite th_other by auto. rewrite th_same. left. split; [|reflexivity].
            unfold g6. cbn [status set_frames]. rewrite th_same. exact X4s. }
          { discriminate. }
          auto.
        * destruct X4 as [-> [X4s [p [ps X4f]]]].
          assert (T5 : top (th g5 co) 1 = [v]) by exact (top_app _ p [v] ps X4f).
          rewrite T5. cbn [bind].
          match goal with |- context [lua_xmove ?g co i 1] => set (g6 := g) end.
          assert (F6 : frames (th g6 co) = ((p ++ [v]) ++ [v]) :: ps).
          { unfold g6. rewrite th_same. rewrite th_same. unfold push. cbn [frames set_status]. rewrite X4f. reflexivity. }
          unfold lua_xmove. rewrite EQN'.
          rewrite (top_app _ _ [v] _ F6 : top (th g6 co) 1 = [v]), (pop_app _ _ [v] _ F6 : pop (th g6 co) 1 = _).
          eexists _, _. split; [reflexivity|].
          match goal with |- others i ?g7 _ /\ _ => destruct (FIN g7 Finished [v]) as [A [B D]] end.
          { reflexivity. }
          { intros j N1 N2. rewrite !th_other by auto. unfold g6. rewrite !th_other by auto. reflexivity. }
          { rewrite th_same. rewrite th_other by auto. unfold g6. rewrite !th_other by auto. rewrite K5i, M3. reflexivity. }
          { rewrite th_other by auto. rewrite th_same. right. split; [|discriminate].
            unfold g6. cbn [status set_frames]. rewrite th_same. rewrite th_same. unfold push. cbn [frames set_status]. rewrite X4f. reflexivity. }
          { discriminate. }
          auto.
        * destruct X4 as [_ [-> [X4s [loc [x1 [y [X4f X4k]]]]]]].
          cbn [bind]. set (g6 := set g5 co _).
          assert (F6 : frames (th g6 co) = ([] ++ rs) :: [loc ++ [x1]; [y]]) by (unfold g6; rewrite th_same; exact X4f).
          assert (GT : gettop (th g6 co) = length rs) by (unfold gettop; rewrite F6; reflexivity).
          rewrite GT. unfold lua_xmove. rewrite EQN'. rewrite (top_app _ _ _ _ F6), (pop_app _ _ _ _ F6).
          eexists _, _. split; [reflexivity|].
          match goal with |- others i ?g7 _ /\ _ => destruct (FIN g7 (Suspended f') rs) as [A [B D]] end.
          { reflexivity. }
          { intros j N1 N2. rewrite !th_other by auto. unfold g6. rewrite th_other by auto. reflexivity. }
          { rewrite th_same. rewrite th_other by auto. unfold g6. rewrite th_other by auto. rewrite K5i, M3. reflexivity. }
          { rewrite th_other by auto. rewrite th_same. split; [exact N0|].
            split; [unfold g6; cbn [nny set_frames]; rewrite th_same; reflexivity|]. right.
            split; [unfold g6; cbn [status set_frames]; rewrite th_same; exact X4s|].
            exists loc, x1, y. split; [reflexivity|]. intros args. rewrite X4k. unfold g6. cbn [cont wanted set_frames]. rewrite th_same. reflexivity. }
          { discriminate. }
          auto.
    - (* active *)
      rewrite EQN'. rewrite andb_true_r. cbn [andb].
      destruct O as [O1 [f [l' [x' [O2 O3]]]]].
      destruct f as [|v f].
      + assert (wrap = true) by tauto. subst wrap.
        destruct EARLY as [g' [E1 [E2 [E3 E4]]]]; [exact O1|unfold gettop; now rewrite O2|].
        exists None, g'. split; [exact E1|]. auto.
      + assert (wrap = false) by (destruct wrap; auto; destruct O3 as [O3 _]; discriminate O3; auto). subst wrap.
        rewrite O1. unfold gettop at 1. rewrite O2. cbn [length].
        destruct (MV _ _ O2) as [M1 [M2 [M3 M4]]]. cbv zeta in *.
        set (g1 := lua_xmove g i co (length vs)) in *.
        assert (Fr : frames (th g1 co) = ((v :: f) ++ vs) :: [l'; [x']]) by (rewrite M2; reflexivity).
        assert (Sr : status (th g1 co) = SOk) by (rewrite M2; exact O1).
        unfold Coro_model.lua_resume. rewrite Sr, Fr. cbn [bind].
        destruct (REF g1 MNonsuspended _ _ M1 Fr M3 M4) as [A [B [D E]]].
        rewrite M2 in B.
        assert (B' : th (lua_xmove (resume_error g1 co MNonsuspended (length vs)) co i 1) co = th g co).
        { rewrite B. exact (SF _ _ _ O2). }
        destruct (REFOK _ MNonsuspended A D E) as [F1 [F2 F3]].
        { rewrite B'. simpl. split; [exact O1|]. exists (v :: f), l', x'. split; auto. }
        { intros b _. exact B'. }
        eexists _, _. split; [reflexivity|]. auto.
    - (* finished *)
      destruct O as [[O1 O2]|[O1 O2]].
      + destruct EARLY as [g' [E1 [E2 [E3 E4]]]]; [exact O1|unfold gettop; now rewrite O2|].
        exists None, g'. split; [exact E1|]. auto.
      + destruct (frames (th g co)) as [|f fs] eqn:EF; [congruence|].
        destruct (MV _ _ eq_refl) as [M1 [M2 [M3 M4]]]. cbv zeta in *.
        set (g1 := lua_xmove g i co (length vs)) in *.
        assert (Fr : frames (th g1 co) = (f ++ vs) :: fs) by (rewrite M2; reflexivity).
        assert (Sr : status (th g1 co) = SErr) by (rewrite M2; exact O1).
        rewrite O1. unfold Coro_model.lua_resume. rewrite Sr.
        cbn [bind].
        destruct (REF g1 MDead _ _ M1 Fr M3 M4) as [A [B [D E]]].
        rewrite M2 in B.
        assert (B' : th (lua_xmove (resume_error g1 co MDead (length vs)) co i 1) co = th g co).
        { rewrite B. exact (SF _ _ _ EF). }
        destruct (REFOK _ MDead A D E) as [F1 [F2 F3]].
        { rewrite B'. simpl. right. split; [exact O1|]. rewrite EF. discriminate. }
        { intros b X. discriminate. }
        eexists _, _. split; [reflexivity|]. auto.
  Qed.

  Lemma kept_trans : forall i g1 g2 g3 c1 c2 c3, kept i g1 g2 c1 c2 -> kept i g2 g3 c2 c3 -> kept i g1 g3 c1 c3.
  Proof.
    intros i g1 g2 g3 c1 c2 c3 [A1 A2] [B1 B2]. split; [lia|]. intros j b L N E.
    destruct (A2 j b L N E) as [E1 E2]. destruct (B2 j b ltac:(lia) N E2) as [E3 E4]. split; congruence.
  Qed.

  Lemma kept_set : forall i g c t, kept i g (set g i t) c c.
  Proof. intros. split; auto. intros j b L N E. rewrite th_other by auto. auto. Qed.

  Lemma kept_upd : forall i g c a, kept i g g c (upd c i a).
  Proof. intros. split; auto. intros j b L N E. rewrite st_other by auto. auto. Qed.

  (* after a call of the library the function goes on *)
  Lemma returned : forall d i t f loc w rs, calls d i t f (loc ++ [lib]) ->
    runs d i (poscall t w rs) /\ frame (poscall t w rs) = loc ++ fit w rs.
  Proof.
    intros d i t f loc w rs [A [B [D [x E]]]]. unfold poscall. rewrite E. rewrite removelast_last, adjust_fit.
    split; [|reflexivity]. repeat split; auto. eexists _, x. reflexivity.
  Qed.

  Lemma called : forall d i t loc args, runs d i t -> calls d i (call (regs t loc) lib args) args (loc ++ [lib]).
  Proof.
    intros d i t loc args [A [B [D [f [x E]]]]]. unfold call, regs. rewrite E. unfold push. cbn [frames set_frames].
    repeat split; auto. exists x. reflexivity.
  Qed.

  Definition good d i p g0 c0 g c (ex : nat -> prog -> global -> outcome (res * global))
      (sx : nat -> nat -> prog -> cos -> outcome (sres * cos)) : Prop :=
      match sx d i p c with
      | Ok (r, c') => exists r' g', ex i p g = Ok (r', g') /\ others i g' c' /\ kept i g0 g' c0 c' /\ ends d i r r' (th g' i)
      | Err x => ex i p g = Err x
      | UB => ex i p g = UB
      | OutOfFuel => ex i p g = OutOfFuel
      end.

  Lemma go_on : forall ex sx, simulates ex sx -> forall d i p g0 c0 g c, i < num c0 ->
    others i g c -> kept i g0 g c0 c -> runs d i (th g i) -> good d i p g0 c0 g c ex sx.
  Proof.
    intros ex sx SIM d i p g0 c0 g c L O K R. unfold good.
    pose proof (SIM d i p g c ltac:(destruct K; lia) O R) as H.
    destruct (sx d i p c) as [[r c']|e| |]; auto.
    destruct H as [r' [g' [A [B [D E]]]]]. exists r', g'. repeat split; try apply A; try apply B; try apply E.
    - destruct K, D; lia.
    - destruct (kept_trans _ _ _ _ _ _ _ K D) as [_ X]. eapply X; eauto.
    - destruct (kept_trans _ _ _ _ _ _ _ K D) as [_ X]. eapply X; eauto.
  Qed.

  (* the library throws *)
  Lemma thrown : forall d i t f l v, calls d i t f l -> ends d i (SThrow v) RThrow (push t [v]).
  Proof.
    intros d i t f l v [A [B [D [x E]]]]. rewrite (push_eq _ _ _ _ E). repeat split; auto. exists f, [l; [x]]. reflexivity.
  Qed.

  Lemma sim : forall fuel, simulates (exec fuel) (run fuel).
  Proof.
    induction fuel as [|fuel IH]; intros d i p g c Li O R; [reflexivity|].
    pose proof (proj1 O) as CN.
    assert (THR : forall loc args v, exists r' g', throw (set g i (call (regs (th g i) loc) lib args)) i v = Ok (r', g') /\
      others i g' c /\ kept i g g' c c /\ ends d i (SThrow v) r' (th g' i)).
    { intros loc args v. unfold throw. eexists _, _. split; [reflexivity|].
      split; [apply others_set, others_set, O|].
      split; [eapply kept_trans; apply kept_set|].
      rewrite !th_same. eapply thrown. apply called. exact R. }
    (* simple calls *)
    assert (SIMPLE : forall loc args rs k, good d i (k (loc ++ rs)) g c
      (set g i (poscall (call (regs (th g i) loc) lib args) None rs)) c (exec fuel) (run fuel) /\
      frame (poscall (call (regs (th g i) loc) lib args) None rs) = loc ++ rs).
    { intros loc args rs k. destruct (returned d i _ args loc None rs (called d i _ loc args R)) as [A B].
      split; [|exact B]. apply go_on; auto; [apply others_set, O|apply kept_set|]. rewrite th_same. exact A. }
    destruct p as [vs|v|loc vs w k|loc co vs w k|loc co vs w k|loc co k|loc f k|loc k|loc k];
      cbn [Coro_spec.run Coro_model.exec].
    - destruct R as [A [B [D [f [x E]]]]]. eexists _, _. split; [reflexivity|].
      split; [apply others_set, O|]. split; [apply kept_set|]. rewrite th_same.
      unfold poscall. rewrite E. repeat split; auto.
    - destruct R as [A [B [D [f [x E]]]]]. unfold throw. eexists _, _. split; [reflexivity|].
      split; [apply others_set, O|]. split; [apply kept_set|]. rewrite th_same.
      rewrite (push_eq _ _ _ _ E). repeat split; auto. exists f, [[x]]. reflexivity.
    - destruct (called d i _ loc vs R) as [A [B [D [x E]]]].
      destruct (i =? 0) eqn:EI; rewrite B; cbn [Nat.ltb Nat.leb].
      + apply THR.
      + eexists _, _. split; [reflexivity|]. split; [apply others_set, O|]. split; [apply kept_set|].
        rewrite th_same. split; [exact D|]. apply Nat.eqb_neq in EI. repeat split; auto.
        exists loc, lib, x. split; [exact E|]. reflexivity.
    - rewrite CN. destruct (num c <=? co) eqn:EN; [apply THR|]. apply Nat.leb_gt in EN.
      pose proof (called d i _ loc (Thr co :: vs) R) as CA.
      set (t1 := call (regs (th g i) loc) lib (Thr co :: vs)) in *.
      assert (GT : gettop (th (set g i t1) i) - 1 = length vs).
      { rewrite th_same. destruct CA as [_ [_ [_ [x CA]]]]. unfold gettop. rewrite CA. simpl. lia. }
      rewrite GT.
      pose proof (aux_ok _ _ IH d i co [Thr co] vs (loc ++ [lib]) (set g i t1) (upd c i (Active false)) false Li EN) as H.
      specialize (H (others_set _ _ _ _ (others_upd _ _ _ _ O))). rewrite th_same in H.
      specialize (H CA (st_same _ _ _) ltac:(split; discriminate)).
      destruct (sresume (run fuel) d i co vs (upd c i (Active false))) as [[[ok rs] c1]|e| |]; cbn [bind];
        [|rewrite H; reflexivity..].
      destruct H as [o [g2 [A [B [D [[f E] F]]]]]]. rewrite A. cbn [bind].
      assert (RES : match o with None => Bool false :: top (th g2 i) 1 | Some n => Bool true :: top (th g2 i) n end
        = Bool ok :: rs).
      { destruct E as [_ [_ [_ [x E]]]]. destruct ok; [subst o|destruct F as [-> F]; rewrite <- F];
          now rewrite (top_app _ _ _ _ E). }
      rewrite RES.
      destruct (returned d i _ _ loc w (Bool ok :: rs) E) as [Q1 Q2]. rewrite Q2.
      apply go_on; auto; [apply others_set, B| |rewrite th_same; exact Q1].
      eapply kept_trans; [apply kept_set|]. eapply kept_trans; [apply kept_upd|].
      eapply kept_trans; [apply D|]. apply kept_set.
    - rewrite CN. destruct (num c <=? co) eqn:EN; [apply THR|]. apply Nat.leb_gt in EN.
      pose proof (called d i _ loc vs R) as CA.
      set (t1 := call (regs (th g i) loc) lib vs) in *.
      assert (GT : gettop (th (set g i t1) i) = length vs).
      { rewrite th_same. destruct CA as [_ [_ [_ [x CA]]]]. unfold gettop. rewrite CA. reflexivity. }
      rewrite GT.
      pose proof (aux_ok _ _ IH d i co [] vs (loc ++ [lib]) (set g i t1) (upd c i (Active true)) true Li EN) as H.
      specialize (H (others_set _ _ _ _ (others_upd _ _ _ _ O))). rewrite th_same in H.
      specialize (H CA (st_same _ _ _) ltac:(split; reflexivity)).
      destruct (sresume (run fuel) d i co vs (upd c i (Active true))) as [[[ok rs] c1]|e| |]; cbn [bind];
        [|rewrite H; reflexivity..].
      destruct H as [o [g2 [A [B [D [[f E] F]]]]]]. rewrite A. cbn [bind].
      assert (KK : kept i g g2 c c1).
      { eapply kept_trans; [apply kept_set|]. eapply kept_trans; [apply kept_upd|]. apply D. }
      assert (TP : top (th g2 i) (length rs) = rs).
      { destruct E as [_ [_ [_ [x E]]]]. exact (top_app _ _ _ _ E). }
      destruct ok; [subst o|destruct F as [-> F]].
      + rewrite TP. destruct (returned d i _ _ loc w rs E) as [Q1 Q2]. rewrite Q2.
        apply go_on; auto; [apply others_set, B| |rewrite th_same; exact Q1].
        eapply kept_trans; [apply KK|]. apply kept_set.
      + (* the error goes on; a coroutine that threw is reset *)
        destruct rs as [|v [|]]; try discriminate. cbn [length hd] in *.
        set (g3 := match status (th g2 co) with SErr => _ | _ => _ end).
        assert (G3 : others i g3 c1 /\ kept i g g3 c c1 /\ th g3 i = th g2 i).
        { unfold g3. destruct (status (th g2 co)) eqn:ES; auto.
          assert (NE : i <> co).
          { intros ->. destruct E as [E _]. congruence. }
          destruct B as [B1 B2]. destruct KK as [K1 K2].
          assert (Lc : co < num c1) by lia.
          pose proof (B2 co Lc ltac:(auto)) as SC.
          assert (FC : st c1 co = Finished).
          { destruct (st c1 co) as [f'|b|]; auto; simpl in SC.
            - destruct SC as [_ [_ [[SC _]|[SC _]]]]; congruence.
            - destruct SC as [SC _]. congruence. }
          split; [|split].
          - split; [exact B1|]. intros j L N. destruct (Nat.eq_dec j co) as [->|N2].
            + rewrite th_same, FC. left. split; reflexivity.
            + rewrite th_other by auto. auto.
          - split; [exact K1|]. intros j b L N X. destruct (K2 j b L N X) as [Y1 Y2]. split; [|exact Y2].
            assert (j <> co) by (intros ->; congruence). rewrite th_other by auto. exact Y1.
          - apply th_other. exact NE. }
        destruct G3 as [G1 [G2 G3]]. rewrite G3, TP. unfold throw. eexists _, _. split; [reflexivity|].
        split; [apply others_set, G1|]. split; [eapply kept_trans; [apply G2|apply kept_set]|].
        rewrite th_same, G3. eapply thrown. exact E.
    - rewrite CN. destruct (num c <=? co) eqn:EN; [apply THR|]. apply Nat.leb_gt in EN.
      assert (CS : costatus i co (set g i (call (regs (th g i) loc) lib [Thr co])) = sstatus i co c).
      { unfold costatus, sstatus. destruct (i =? co) eqn:EI; [reflexivity|]. apply Nat.eqb_neq in EI.
        rewrite th_other by auto. pose proof (proj2 O co EN ltac:(auto)) as SC.
        destruct (st c co) as [f'|b|]; simpl in SC.
        - destruct SC as [_ [_ [[S1 [b [S2 _]]]|[S1 _]]]]; rewrite S1; auto. unfold gettop. rewrite S2. reflexivity.
        - destruct SC as [S1 [f [l [x [S2 _]]]]]. rewrite S1, S2. reflexivity.
        - destruct SC as [[S1 S2]|[S1 _]]; rewrite S1; auto. unfold gettop. rewrite S2. reflexivity. }
      rewrite CS. destruct (SIMPLE loc [Thr co] [Str (sstatus i co c)] k) as [A B]. rewrite B. exact A.
    - destruct (returned d i _ [Fun f] loc None [Thr (num c)] (called d i _ loc [Fun f] R)) as [A B].
      rewrite CN. rewrite B. cbn [fit]. cbv zeta.
      apply go_on; auto; [| |rewrite th_same; exact A].
      + apply others_set. destruct O as [O1 O2]. split; [reflexivity|]. intros j L N. simpl in L.
        destruct (Nat.eq_dec j (num c)) as [->|N2].
        * rewrite th_same, st_same. split; [lia|]. split; [reflexivity|]. left. split; [reflexivity|].
          exists f. split; reflexivity.
        * rewrite th_other, st_other by auto. apply O2; simpl; auto. lia.
      + split; [simpl; lia|]. intros j b L N X.
        rewrite th_other by auto. rewrite th_other, st_other by lia. split; auto.
    - destruct (SIMPLE loc [] [Thr i; Bool (i =? 0)] k) as [A B]. rewrite B. exact A.
    - destruct (SIMPLE loc [] [Bool (negb (i =? 0))] k) as [A B].
      destruct (called d i _ loc [] R) as [_ [D _]].
      assert (NB : (nny (call (regs (th g i) loc) lib []) =? 0) = negb (i =? 0)).
      { rewrite D. destruct (i =? 0); reflexivity. }
      rewrite NB, B. exact A.
  Qed.
End P.

Lemma coroutines_ok : forall bodies maxcc where_ d fuel p,
  result (exec bodies maxcc where_ fuel 0 p (start d)) =
  sresult (run bodies maxcc where_ true fuel d 0 p alone).
Proof.
  intros. pose proof (sim bodies maxcc where_ fuel d 0 p (start d) alone) as H.
  assert (L : 0 < num alone) by (simpl; lia).
  assert (O : others bodies 0 (start d) alone).
  { split; [reflexivity|]. intros j L1 N. simpl in L1. lia. }
  assert (R : runs d 0 (th (start d) 0)).
  { repeat split; auto. exists [], (Fun 0). reflexivity. }
  specialize (H L O R).
  destruct (run bodies maxcc where_ true fuel d 0 p alone) as [[r c']|e| |]; [|now rewrite H..].
  destruct H as [r' [g' [A [_ [_ [_ E]]]]]]. rewrite A.
  destruct r as [vs|v|vs f].
  - destruct E as [-> [_ E]]. simpl. unfold frame. now rewrite E.
  - destruct E as [-> [_ [p0 [fs E]]]]. cbn [result sresult]. rewrite (top_app _ p0 [v] fs E : top _ 1 = [v]). reflexivity.
  - destruct E as [E _]. congruence.
Qed.

Definition cplain (c : cos) : Prop := forall j,
  match st c j with Suspended f => forall vs, plain (f vs) | Active b => b = false | Finished => True end.

Lemma cplain_upd : forall c i a, cplain c ->
  match a with Suspended f => forall vs, plain (f vs) | Active b => b = false | Finished => True end ->
  cplain (upd c i a).
Proof.
  intros c i a H A j. destruct (Nat.eq_dec j i) as [->|N]; [rewrite st_same; exact A|rewrite st_other by auto; apply H].
Qed.

Definition after (r : outcome (sres * cos)) : Prop :=
  match r with
  | Ok (r, c) => cplain c /\ match r with SYields _ f => forall vs, plain (f vs) | _ => True end
  | _ => True
  end.

Lemma plain_run : forall bodies maxcc where_, (forall b vs, plain (bodies b vs)) ->
  forall fuel d i p c, plain p -> cplain c ->
  run bodies maxcc where_ true fuel d i p c = run bodies maxcc where_ false fuel d i p c /\
  after (run bodies maxcc where_ false fuel d i p c).
Proof.
  intros bodies maxcc where_ HB. induction fuel as [|fuel IH]; intros d i p c Hp Hc; [split; [reflexivity|exact Logic.I]|].
  destruct Hp as [vs|v|loc vs w k Hk|loc co vs w k Hk|loc co k Hk|loc f k Hk|loc k Hk|loc k Hk]; cbn [Coro_spec.run].
  - split; [reflexivity|]. split; auto.
  - split; [reflexivity|]. split; auto.
  - destruct (i =? 0); split; try reflexivity; split; auto.
  - destruct (num c <=? co); [split; [reflexivity|split; auto]|].
    unfold sresume. pose proof (cplain_upd c i (Active false) Hc eq_refl) as Hu.
    pose proof (Hu co) as Hco. destruct (st (upd c i (Active false)) co) as [f|b|].
    + destruct (maxcc <=? S d); [cbn [bind]; apply IH; auto|].
      destruct (IH (S d) co (f vs) (upd (upd c i (Active false)) co (Active false)) (Hco vs)
        (cplain_upd _ _ (Active false) Hu eq_refl)) as [E A]. rewrite E.
      destruct (run bodies maxcc where_ false fuel (S d) co (f vs) _) as [[r c1]|e| |]; cbn [bind];
        [|split; [reflexivity|exact Logic.I]..].
      destruct A as [A1 A2]. destruct r; cbn [bind]; apply IH; auto; apply cplain_upd; auto.
    + subst b. cbn [andb bind]. apply IH; auto.
    + cbn [bind]. apply IH; auto.
  - destruct (num c <=? co); [split; [reflexivity|split; auto]|]. apply IH; auto.
  - apply IH; auto. apply cplain_upd; [exact Hc|]. auto.
  - apply IH; auto.
  - apply IH; auto.
Qed.

Lemma plain_ok : forall bodies maxcc where_, (forall b vs, plain (bodies b vs)) -> forall d fuel p, plain p ->
  result (exec bodies maxcc where_ fuel 0 p (start d)) =
  sresult (run bodies maxcc where_ false fuel d 0 p alone).
Proof.
  intros bodies maxcc where_ HB d fuel p Hp. rewrite coroutines_ok.
  destruct (plain_run bodies maxcc where_ HB fuel d 0 p alone Hp) as [E _]; [intros j; reflexivity|]. now rewrite E.
Qed.

(* the stacks never get out of step *)
Lemma spec_defined : forall bodies maxcc where_ ac fuel d i p c,
  match run bodies maxcc where_ ac fuel d i p c with
  | Ok (SYields _ _, _) => i <> 0
  | Ok _ | OutOfFuel => True
  | Err _ | UB => False
  end.
Proof.
  intros bodies maxcc where_ ac. induction fuel as [|fuel IH]; intros d i p c; [exact Logic.I|].
  assert (R : forall co vs c, match sresume maxcc ac (run bodies maxcc where_ ac fuel) d i co vs c with
    | Err _ | UB => False | _ => True end).
  { intros co vs c0. unfold sresume. destruct (st c0 co); auto. destruct (maxcc <=? S d); auto.
    pose proof (IH (S d) co (f vs) (upd c0 co (Active false))) as H.
    destruct (run bodies maxcc where_ ac fuel (S d) co (f vs) _) as [[r c1]|e| |]; auto. destruct r; exact Logic.I. }
  destruct p; cbn [Coro_spec.run]; auto.
  - destruct (i =? 0) eqn:E; auto. apply Nat.eqb_neq in E. auto.
  - destruct (num c <=? co); auto. pose proof (R co vs (upd c i (Active false))) as H.
    destruct (sresume _ _ _ d i co vs _) as [[[ok rs] c1]|e| |]; cbn [bind]; auto.
    apply IH.
  - destruct (num c <=? co); auto. pose proof (R co vs (upd c i (Active true))) as H.
    destruct (sresume _ _ _ d i co vs _) as [[[ok rs] c1]|e| |]; cbn [bind]; auto.
    destruct ok; [apply IH|exact Logic.I].
  - destruct (num c <=? co); auto. apply IH.
  - apply IH.
  - apply IH.
  - apply IH.
Qed.

Lemma no_ub : forall bodies maxcc where_ d fuel p,
  match result (exec bodies maxcc where_ fuel 0 p (start d)) with
  | Ok (true, _) | OutOfFuel => True
  | Ok (false, vs) => length vs = 1
  | Err _ | UB => False
  end.
Proof.
  intros. rewrite coroutines_ok. pose proof (spec_defined bodies maxcc where_ true fuel d 0 p alone) as H.
  destruct (run bodies maxcc where_ true fuel d 0 p alone) as [[[vs|v|vs f] c]|e| |]; simpl in *; auto.
Qed.

(* the main program creates 1 and 2 and resumes 1, which calls a wrapped 2,
   which resumes 1 and yields what it got *)
Definition normal_bodies (b : nat) (args : list value) : prog :=
  match b with
  | 1 => Wrapped [] 2 [Dat 5] None (fun l => Ret l)
  | _ => Resume [] 1 [] None (fun l => Ret l)
  end.
Definition normal_main : prog :=
  Create [] 1 (fun _ => Create [] 2 (fun _ => Resume [] 1 [] None (fun l => Ret l))).

Lemma message_wrong : exists bodies maxcc where_ fuel d p vs,
  result (exec bodies maxcc where_ fuel 0 p (start d)) = Ok (true, vs) /\ In (Str MDead) vs /\
  exists ws, sresult (run bodies maxcc where_ false fuel d 0 p alone) = Ok (true, ws) /\ In (Str MNonsuspended) ws /\
    ~ In (Str MDead) ws.
Proof.
  exists normal_bodies, 200, (fun v => v), 20, 1, normal_main, [Bool true; Bool false; Str MDead].
  split; [vm_compute; reflexivity|]. split; [simpl; auto|].
  exists [Bool true; Bool false; Str MNonsuspended]. split; [vm_compute; reflexivity|]. split; [simpl; auto|].
  simpl. intuition discriminate.
Qed.
