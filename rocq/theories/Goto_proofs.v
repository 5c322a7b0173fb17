(* The parser resolves gotos as the rules say. *)
Require Import List Bool Arith Lia.
From Verif Require Import Base Goto_model Goto_spec Goto_facts.
Import ListNotations.
Local Open Scope nat_scope.

Scheme stmt_ind2 := Induction for stmt Sort Prop with block_ind2 := Induction for block Sort Prop.
Combined Scheme tree_ind from stmt_ind2, block_ind2.

(* what the gotos that leave a block have in scope *)
Lemma open_bounds :
  (forall x p n c, Forall (fun r => r < n) c -> forall u, In u (open x p n c) -> svars u = n /\ forall r, In r (scapt u) -> r < n -> In r c) /\
  (forall b p n c, Forall (fun r => r < n) c -> forall u, In u (bopen b p n c) ->
     n <= svars u <= n + bvars b /\ forall r, In r (scapt u) -> r < svars u -> In r c \/ (captures b = true /\ n <= r)).
Proof.
  apply tree_ind; try (intros; simpl in *; contradiction).
  - intros l p n c C u [<-|[]]. cbn. auto.
  - intros lp b IH p n c C u I. cbn [open] in I. apply in_map_iff in I as (v & <- & Iv). apply filter_In in Iv as [Iv _]. cbn.
    split; [reflexivity|]. intros r Ir Lt. destruct (IH _ _ _ C _ Iv) as [B1 B2]. destruct (B2 r Ir ltac:(lia)) as [H|[_ H]]; [exact H|lia].
  - intros x IHx b IHb p n c C u I. cbn [bopen] in I. cbn [bvars]. apply in_app_or in I as [I|I].
    + destruct (IHx _ _ _ C _ I) as [B1 B2]. split; [lia|]. intros r Ir Lt. left. apply B2; [exact Ir|lia].
    + assert (C' : Forall (fun r => r < n + vars x) (capt x n c)).
      { assert (Forall (fun r => r < n + vars x) c) by (eapply Forall_impl; [|exact C]; intros; simpl in *; lia). destruct x as [[]| | | | | |]; cbn; auto. constructor; [cbn; lia|assumption]. }
      destruct (IHb _ _ _ C' _ I) as [B1 B2]. split; [lia|]. intros r Ir Lt. destruct (B2 r Ir Lt) as [H|[H1 H2]].
      * destruct x as [[]| | | | | |]; cbn in H; auto. destruct H as [<-|H]; [right; split; [reflexivity|lia]|auto].
      * right. split; [|lia]. destruct x; cbn [captures]; auto. rewrite H1. apply orb_true_r.
Qed.

Lemma filter_none : forall l, filter (unresolved []) l = l.
Proof. intros l. induction l as [|a l IH]; [reflexivity|]. cbn. now rewrite IH. Qed.
Lemma resolved_none : forall l, resolved [] l = [].
Proof. intros l. induction l as [|a l IH]; [reflexivity|]. exact IH. Qed.
Lemma allowed_none : forall l, allowed [] l = true.
Proof. intros l. induction l as [|a l IH]; [reflexivity|]. exact IH. Qed.
Lemma noops_end : forall b, noops b = at_end b.
Proof. intros b. induction b as [|x b IH]; [reflexivity|]. destruct x; cbn; auto. Qed.

(* the label behind a loop *)
Lemma break_spec : forall (lp : bool) t p n G P PS L B lg,
  Forall2 pending P PS -> Forall (fun u => svars u <= tvars t) PS ->
  if allowed (if lp then [t] else []) PS
  then exists P' d, (if lp then new_label (mkS p n (G ++ P) L B lg) (length G) (entry t) else Ok (mkS p n (G ++ P) L B lg)) =
         Ok (mkS p n (G ++ P') (L ++ map entry (if lp then [t] else [])) B (lg ++ d)) /\
       Forall2 pending P' (filter (unresolved (if lp then [t] else [])) PS) /\ implement d (resolved (if lp then [t] else []) PS)
  else exists e, (if lp then new_label (mkS p n (G ++ P) L B lg) (length G) (entry t) else Ok (mkS p n (G ++ P) L B lg)) = Err e.
Proof.
  intros [] t p n G P PS L B lg F V.
  - unfold new_label. cbn [pc nact gts labs bls Goto_model.log]. exact (findgotos_spec P PS (length (G ++ P)) p n G (L ++ [entry t]) B lg t F ltac:(rewrite app_length; lia) V).
  - rewrite allowed_none. exists P, []. rewrite !app_nil_r, filter_none, resolved_none. cbn [map]. rewrite ?app_nil_r. split; [reflexivity|split; [exact F|apply implement_nil]].
Qed.

Definition plain (LS : list target) : Prop := Forall (fun t => tneeds t = tvars t) LS.
Definition special (x : stmt) : bool := match x with SLabel _ | SVoid => true | _ => false end.
Definition marks (x : stmt) : bool := match x with SLocal c => c | _ => false end.

Definition stat_ok (x : stmt) : Prop := forall last p n c G L0 LS base fg up lp prev lg,
  special x = false -> plain LS -> Forall (fun r => r < n) c ->
  if legal x p n c && allowed LS (open x p n c)
  then exists P' d, gstat (mkS p n G (L0 ++ map entry LS) (mkB base (length L0) fg up lp :: prev) lg) x last =
         Ok (mkS (p + size x) (n + vars x) (G ++ P') (L0 ++ map entry LS) (mkB base (length L0) fg (up || marks x) lp :: prev) (lg ++ d)) /\
       Forall2 pending P' (filter (unresolved LS) (open x p n c)) /\ implement d (jumps x p n c ++ resolved LS (open x p n c))
  else exists e, gstat (mkS p n G (L0 ++ map entry LS) (mkB base (length L0) fg up lp :: prev) lg) x last = Err e.

Definition block_ok (b : block) : Prop := forall p n c G P PS L0 LS base up lp prev lg,
  Forall2 pending P PS -> Forall (fun u => svars u <= n) PS -> (at_end b = true \/ plain LS) -> Forall (fun r => r < n) c -> distinct (map tname LS) = true ->
  if blegal b p n c && distinct (map tname (LS ++ labels base b p n)) && allowed (labels base b p n) PS && allowed (LS ++ labels base b p n) (bopen b p n c)
  then exists P' d, gblock (mkS p n (G ++ P) (L0 ++ map entry LS) (mkB base (length L0) (length G) up lp :: prev) lg) b =
         Ok (mkS (p + bsize b) (n + bvars b) (G ++ P') (L0 ++ map entry (LS ++ labels base b p n)) (mkB base (length L0) (length G) (up || captures b) lp :: prev) (lg ++ d)) /\
       Forall2 pending P' (filter (unresolved (labels base b p n)) PS ++ filter (unresolved (LS ++ labels base b p n)) (bopen b p n c)) /\
       implement d (resolved (labels base b p n) PS ++ bjumps b p n c ++ resolved (LS ++ labels base b p n) (bopen b p n c))
  else exists e, gblock (mkS p n (G ++ P) (L0 ++ map entry LS) (mkB base (length L0) (length G) up lp :: prev) lg) b = Err e.

Lemma goto_stat : forall l, stat_ok (SGoto l).
Proof.
  intros l last p n c G L0 LS base fg up lp prev lg _ Pl C. cbn [legal open andb jumps vars size marks].
  cbn [gstat]. unfold gotostat. cbn [pc nact gts labs bls Goto_model.log].
  assert (R : pending (mkG l p n 0) (mkSrc l p n c)).
  { unfold pending; cbn. do 4 (split; [auto|]). intros r Ir Le. rewrite Forall_forall in C. specialize (C _ Ir). cbn in C. lia. }
  pose proof (findlabel_spec _ _ (p + 1) n G [] L0 LS (mkB base (length L0) fg up lp) prev lg R eq_refl Pl) as FL.
  rewrite allowed_cons, resolved_cons, filter_cons, Nat.add_0_r, orb_false_r. destruct (resolve LS (mkSrc l p n c)) as [t|].
  - destruct (tneeds t <=? svars (mkSrc l p n c)); cbn [andb allowed forallb].
    + destruct FL as (e & FL & De). rewrite FL. cbn [bind]. exists [], [e]. split; [reflexivity|]. split; [constructor|]. apply implement_one, De.
    + destruct FL as (e & FL). rewrite FL. now exists e.
  - rewrite FL. cbn [bind andb allowed forallb]. exists [mkG l p n 0], []. rewrite app_nil_r. split; [reflexivity|]. split; [constructor; [exact R|constructor]|apply implement_nil].
Qed.

Lemma all_gone : forall T us P, Forall2 pending P (filter (unresolved T) us) ->
  forallb (fun u => negb (unresolved T u)) us = match P with [] => true | _ => false end.
Proof.
  intros T us. induction us as [|u us IH]; intros P F; cbn [filter forallb] in *; [now inversion F|].
  destruct (unresolved T u); cbn [negb andb]; [now inversion F|auto].
Qed.

Lemma func_stat : forall b, block_ok b -> stat_ok (SFunc b).
Proof.
  intros b IH last p n c G L0 LS base fg up lp prev lg _ Pl C. cbn [legal open jumps vars size marks gstat].
  unfold enterblock. cbn [pc nact gts labs bls Goto_model.log].
  specialize (IH p 0 [] G [] [] (L0 ++ map entry LS) [] 0 false false [] lg (Forall2_nil _) (Forall_nil _) (or_intror (Forall_nil _)) (Forall_nil _) eq_refl).
  unfold targets. cbn [map app] in IH. rewrite !app_nil_r in IH. rewrite ?app_nil_r. change (allowed LS []) with true.
  change (allowed (labels 0 b p 0) []) with true in IH. rewrite !andb_true_r in IH. rewrite andb_true_r.
  destruct (blegal b p 0 [] && distinct (map tname (labels 0 b p 0))); cbn [andb] in *; [|destruct IH as (e & E); exists e; rewrite E; reflexivity].
  destruct (allowed (labels 0 b p 0) (bopen b p 0 [])); cbn [andb]; [|destruct IH as (e & E); exists e; rewrite E; reflexivity].
  destruct IH as (P' & d & E & FP & I). rewrite E. cbn [bind]. unfold leaveblock. cbn [bls isloop upval firstgoto firstlabel bnact andb bind pc nact gts labs Goto_model.log].
  rewrite firstn_mid. cbn [filter app] in FP. rewrite (all_gone _ _ _ FP). destruct P' as [|g P'].
  - rewrite app_nil_r, Nat.ltb_irrefl. cbn [bind pc nact gts labs bls Goto_model.log]. exists [], d. rewrite app_nil_r, Nat.add_0_r, orb_false_r. split; [reflexivity|]. split; [constructor|].
    eapply implement_ext; [exact I|]. intros j. cbn. reflexivity.
  - rewrite (proj2 (Nat.ltb_lt _ _)) by (rewrite app_length; simpl; lia). eexists. reflexivity.
Qed.

Lemma block_stat : forall lp b, block_ok b -> stat_ok (SBlock lp b).
Proof.
  intros lp b IH last p n c G L0 LS base fg up lp0 prev lg _ Pl C. cbn [legal open jumps vars size marks gstat].
  unfold enterblock. cbn [pc nact gts labs bls Goto_model.log].
  specialize (IH p n c G [] [] (L0 ++ map entry LS) [] n false lp (mkB base (length L0) fg up lp0 :: prev) lg (Forall2_nil _) (Forall_nil _) (or_intror (Forall_nil _)) C eq_refl).
  cbn [map] in IH. rewrite !app_nil_r in IH. cbn [app filter] in IH. change (allowed (labels n b p n) []) with true in IH. rewrite andb_true_r in IH.
  unfold targets. rewrite allowed_split. set (T := labels n b p n) in *. set (U := bopen b p n c) in *.
  destruct (blegal b p n c && distinct (map tname T)); cbn [andb] in *; [|destruct IH as (e & E); exists e; rewrite E; reflexivity].
  destruct (allowed T U); cbn [andb]; [|destruct IH as (e & E); exists e; rewrite E; reflexivity].
  destruct IH as (P1 & d1 & E & FP1 & I1). rewrite E. cbn [bind]. unfold leaveblock. cbn [bls isloop upval firstgoto firstlabel bnact andb orb].
  assert (Ud : forall u, In u U -> n <= svars u <= n + bvars b /\ (captures b = false -> forall r, In r (scapt u) -> n <= r -> svars u <= r)).
  { intros u Iu. destruct (proj2 open_bounds _ _ _ _ C _ Iu) as [B1 B2]. split; [exact B1|]. intros Nc r Ir Le. destruct (le_lt_dec (svars u) r) as [H|H]; [exact H|].
    destruct (B2 _ Ir H) as [H1|[H1 _]]; [|congruence]. rewrite Forall_forall in C. specialize (C _ H1). cbn in C. lia. }
  set (q := p + bsize b + (if captures b then 1 else 0)).
  assert (St : forall (s : st), s = mkS (p + bsize b) (n + bvars b) (G ++ P1) ((L0 ++ map entry LS) ++ map entry T) (mkB n (length (L0 ++ map entry LS)) (length G) (captures b) lp :: mkB base (length L0) fg up lp0 :: prev) (lg ++ d1) ->
    (if captures b then mkS (pc s + 1) (nact s) (gts s) (labs s) (bls s) (Goto_model.log s) else s) =
    mkS q (n + bvars b) (G ++ P1) ((L0 ++ map entry LS) ++ map entry T) (mkB n (length (L0 ++ map entry LS)) (length G) (captures b) lp :: mkB base (length L0) fg up lp0 :: prev) (lg ++ d1)).
  { intros s ->. unfold q. destruct (captures b); cbn; [reflexivity|now rewrite Nat.add_0_r]. }
  pose proof (St _ eq_refl) as St'. cbn [pc nact gts labs bls Goto_model.log] in *. rewrite St'. clear St St'.
  set (t := mkT BREAK q (n + bvars b) (n + bvars b)).
  assert (V1 : Forall (fun u => svars u <= tvars t) (filter (unresolved T) U)) by (apply Forall_forall; intros u Iu; apply filter_In in Iu as [Iu _]; apply Ud in Iu; cbn; lia).
  pose proof (break_spec lp t q (n + bvars b) G P1 _ ((L0 ++ map entry LS) ++ map entry T) (mkB n (length (L0 ++ map entry LS)) (length G) (captures b) lp :: mkB base (length L0) fg up lp0 :: prev) (lg ++ d1) FP1 V1) as BS.
  change (mkL BREAK (pc _) (nact _)) with (entry t).
  destruct (allowed (if lp then [t] else []) (filter (unresolved T) U)); cbn [andb]; [|destruct BS as (e & BS); exists e; rewrite BS; reflexivity].
  destruct BS as (P2 & d2 & BS & FP2 & I2). rewrite BS. cbn [bind]. clear BS. cbn [pc nact gts labs bls Goto_model.log].
  rewrite <- (app_assoc (L0 ++ map entry LS)), firstn_mid.
  rewrite <- filter_unresolved_app in FP2. set (T' := T ++ _) in *.
  pose proof (movegotosout_spec P2 _ (length (G ++ P2)) q n G L0 LS (mkB n (length (L0 ++ map entry LS)) (length G) (captures b) lp) (mkB base (length L0) fg up lp0) prev ((lg ++ d1) ++ d2) FP2 ltac:(rewrite app_length; lia) eq_refl Pl) as MS.
  cbn [bnact upval] in MS. specialize (MS ltac:(apply Forall_forall; intros u Iu; apply filter_In in Iu as [Iu _]; apply Ud in Iu; split; [lia|apply Iu])).
  change (map (fun u : source => _)) with (map (outside n)).
  destruct (allowed LS (map (outside n) (filter (unresolved T') U))); [|exact MS].
  destruct MS as (P3 & d3 & MS & FP3 & I3). exists P3, (d1 ++ d2 ++ d3). split; [|split; [exact FP3|]].
  - rewrite MS. unfold q. rewrite Nat.add_0_r, orb_false_r, <- !app_assoc, Nat.add_assoc. reflexivity.
  - eapply implement_ext; [exact (implement_app _ _ _ _ I1 (implement_app _ _ _ _ I2 I3))|].
    intros j. unfold T'. rewrite !in_app_iff, resolved_split, !in_app_iff. change (In j (resolved T [])) with False. tauto.
Qed.

Lemma exists_entry : forall LS l, existsb (fun lb => lname lb =? l) (map entry LS) = existsb (fun t => tname t =? l) LS.
Proof. intros LS l. induction LS as [|t LS IH]; [reflexivity|]. cbn. now rewrite IH. Qed.
Lemma distinct_app : forall A B, distinct (A ++ B) = true <-> distinct A = true /\ distinct B = true /\ forall x, In x A -> In x B -> False.
Proof.
  intros A B. induction A as [|a A IH]; cbn; [intuition auto|]. rewrite !andb_true_iff, IH, !negb_true_iff, existsb_app, orb_false_iff.
  split.
  - intros ((H1 & H2) & H3 & H4 & H5). repeat split; auto. intros x [<-|I] J; [|eauto]. assert (existsb (Nat.eqb a) B = true); [|congruence]. apply existsb_exists. exists a. now rewrite Nat.eqb_refl.
  - intros ((H1 & H2) & H3 & H4). repeat split; auto; [|intros x I J; eapply H4; eauto]. destruct (existsb (Nat.eqb a) B) eqn:E; [|reflexivity]. apply existsb_exists in E as (x & I & E). apply Nat.eqb_eq in E. subst. exfalso. eapply H4; eauto.
Qed.

Lemma label_block : forall l b, block_ok b -> block_ok (BCons (SLabel l) b).
Proof.
  intros l b IH p n c G P PS L0 LS base up lp prev lg F V Pl C D. cbn [blegal bopen bjumps labels bsize bvars size vars capt legal open jumps app captures gblock gstat].
  rewrite !Nat.add_0_r. change (noops b) with (at_end b). set (t := mkT l p (if at_end b then base else n) n). set (T := labels base b p n) in *.
  unfold labelstat. cbn [bls firstlabel labs firstgoto bnact pc nact]. rewrite skipn_pre, exists_entry. cbn [andb].
  destruct (existsb (fun t => tname t =? l) LS) eqn:Ex.
  - assert (Dn : distinct (map tname (LS ++ t :: T)) = false).
    { destruct (distinct (map tname (LS ++ t :: T))) eqn:E; [|reflexivity]. rewrite map_app in E. apply distinct_app in E as (_ & _ & E). apply existsb_exists in Ex as (x & I & Ex). apply Nat.eqb_eq in Ex.
      exfalso. apply (E l); [rewrite <- Ex; now apply in_map|left; reflexivity]. }
    rewrite Dn, andb_false_r. cbn. now eexists.
  - change (mkL l p (if at_end b then base else n)) with (entry t). unfold new_label. cbn [pc nact gts labs bls Goto_model.log].
    assert (Vt : Forall (fun u => svars u <= tvars t) PS) by exact V.
    pose proof (findgotos_spec P PS (length (G ++ P)) p n G ((L0 ++ map entry LS) ++ [entry t]) (mkB base (length L0) (length G) up lp :: prev) lg t F ltac:(rewrite app_length; lia) Vt) as FG.
    replace (LS ++ t :: T) with ((LS ++ [t]) ++ T) by (rewrite <- app_assoc; reflexivity). change (t :: T) with ([t] ++ T). rewrite (allowed_split [t] T PS).
    destruct (allowed [t] PS); [|destruct FG as (e & FG); rewrite FG, !andb_false_r; cbn [andb bind]; now exists e].
    destruct FG as (P1 & d1 & FG & F1 & I1). rewrite FG. cbn [bind]. rewrite <- (app_assoc L0). change [entry t] with (map entry [t]). rewrite <- (map_app entry LS [t]).
    assert (D' : distinct (map tname (LS ++ [t])) = true).
    { rewrite map_app. apply distinct_app. split; [exact D|]. split; [reflexivity|]. intros x I [<-|[]]. apply in_map_iff in I as (y & E & I). cbn in E.
      assert (existsb (fun t => tname t =? l) LS = true); [|congruence]. apply existsb_exists. exists y. rewrite E. now rewrite Nat.eqb_refl. }
    assert (V1 : Forall (fun u => svars u <= n) (filter (unresolved [t]) PS)) by (apply Forall_forall; intros u Iu; apply filter_In in Iu as [Iu _]; rewrite Forall_forall in V; auto).
    assert (Pl' : at_end b = true \/ plain (LS ++ [t])).
    { destruct (at_end b) eqn:Eb; [now left|]. right. apply Forall_app. split; [destruct Pl as [Pl|Pl]; [cbn in Pl; congruence|exact Pl]|]. constructor; [reflexivity|constructor]. }
    specialize (IH p n c G P1 _ L0 (LS ++ [t]) base up lp prev (lg ++ d1) F1 V1 Pl' C D'). cbn [andb]. fold T in IH.
    cbn [andb].
    match type of IH with if ?c then _ else _ => destruct c end; [|exact IH].
    destruct IH as (P' & d & E & F' & I). exists P', (d1 ++ d). split; [rewrite E; rewrite <- !app_assoc; reflexivity|]. rewrite filter_unresolved_app. split; [exact F'|].
    eapply implement_ext; [exact (implement_app _ _ _ _ I1 I)|]. intros j. rewrite !in_app_iff, (resolved_split [t] T PS), !in_app_iff. tauto.
Qed.

Lemma void_block : forall b, block_ok b -> block_ok (BCons SVoid b).
Proof.
  intros b IH p n c G P PS L0 LS base up lp prev lg F V Pl C D. cbn [blegal bopen bjumps labels bsize bvars size vars capt legal open jumps app captures gblock gstat bind].
  rewrite !Nat.add_0_r. apply IH; auto.
Qed.

Lemma stat_block : forall x b, special x = false -> stat_ok x -> block_ok b -> block_ok (BCons x b).
Proof.
  intros x b Sx IHx IHb p n c G P PS L0 LS base up lp prev lg F V Pl C D. cbn [blegal bopen bjumps bsize bvars gblock].
  assert (Pl' : plain LS) by (destruct Pl as [Pl|Pl]; [destruct x; discriminate|exact Pl]).
  assert (El : labels base (BCons x b) p n = labels base b (p + size x) (n + vars x)) by (destruct x; try discriminate; reflexivity). rewrite El. clear El.
  assert (Ec : captures (BCons x b) = marks x || captures b) by (destruct x; reflexivity). rewrite Ec, orb_assoc. clear Ec.
  set (T := labels base b (p + size x) (n + vars x)). set (U := bopen b _ _ _). set (W := open x p n c).
  specialize (IHx (noops b) p n c (G ++ P) L0 LS base (length G) up lp prev lg Sx Pl' C). fold W in IHx.
  rewrite allowed_app2, (allowed_split LS T W).
  destruct (legal x p n c); cbn [andb] in *; [|destruct IHx as (e & E); rewrite E; now exists e].
  destruct (allowed LS W); cbn [andb] in *; [|rewrite andb_false_r; destruct IHx as (e & E); rewrite E; now exists e].
  destruct IHx as (P1 & d1 & E & F1 & I1). rewrite E. cbn [bind]. rewrite <- app_assoc.
  assert (C' : Forall (fun r => r < n + vars x) (capt x n c)).
  { assert (Forall (fun r => r < n + vars x) c) by (eapply Forall_impl; [|exact C]; intros; simpl in *; lia). destruct x as [[]| | | | | |]; cbn; auto. constructor; [cbn; lia|assumption]. }
  assert (V' : Forall (fun u => svars u <= n + vars x) (PS ++ filter (unresolved LS) W)).
  { apply Forall_app. split; [eapply Forall_impl; [|exact V]; intros; simpl in *; lia|]. apply Forall_forall. intros u Iu. apply filter_In in Iu as [Iu _]. apply (proj1 open_bounds _ _ _ _ C) in Iu. lia. }
  specialize (IHb (p + size x) (n + vars x) (capt x n c) G (P ++ P1) _ L0 LS base (up || marks x) lp prev (lg ++ d1) (Forall2_app F F1) V' (or_intror Pl') C' D).
  fold T U in IHb. rewrite allowed_app2, filter_app, resolved_app2 in IHb.
  replace (blegal b (p + size x) (n + vars x) (capt x n c) && distinct (map tname (LS ++ T)) && allowed T PS && (allowed T (filter (unresolved LS) W) && allowed (LS ++ T) U))
    with (blegal b (p + size x) (n + vars x) (capt x n c) && distinct (map tname (LS ++ T)) && (allowed T PS && allowed T (filter (unresolved LS) W)) && allowed (LS ++ T) U) by (rewrite !andb_assoc; reflexivity).
  match type of IHb with if ?c then _ else _ => destruct c end; [|exact IHb].
  destruct IHb as (P' & d & E' & F' & I). exists P', (d1 ++ d). split; [rewrite E'; rewrite !Nat.add_assoc, <- !app_assoc; reflexivity|].
  rewrite filter_app, (filter_unresolved_app LS T W), app_assoc. split; [exact F'|].
  eapply implement_ext; [exact (implement_app _ _ _ _ I1 I)|]. intros j. rewrite resolved_app2, !in_app_iff, (resolved_split LS T W), !in_app_iff. tauto.
Qed.

Lemma parser_ok : (forall x, stat_ok x) /\ (forall b, block_ok b).
Proof.
  apply tree_ind.
  - intros cp last p n c G L0 LS base fg up lp prev lg _ Pl C. cbn. exists [], []. rewrite !app_nil_r, Nat.add_0_r. split; [reflexivity|split; [constructor|apply implement_nil]].
  - intros l last p n c G L0 LS base fg up lp prev lg H; discriminate.
  - intros last p n c G L0 LS base fg up lp prev lg H; discriminate.
  - intros last p n c G L0 LS base fg up lp prev lg _ Pl C. cbn. exists [], []. rewrite !app_nil_r, Nat.add_0_r, orb_false_r. split; [reflexivity|split; [constructor|apply implement_nil]].
  - apply goto_stat.
  - apply block_stat.
  - apply func_stat.
  - intros p n c G P PS L0 LS base up lp prev lg F V Pl C D. cbn [blegal bopen bjumps labels bsize bvars captures gblock andb app]. rewrite app_nil_r, D, allowed_none. cbn [andb].
    change (allowed LS []) with true. cbn [filter]. rewrite filter_none, resolved_none, !app_nil_r, !Nat.add_0_r, orb_false_r. exists P, []. rewrite !app_nil_r. split; [reflexivity|split; [exact F|apply implement_nil]].
  - intros x IHx b IHb. destruct (special x) eqn:Sx; [|apply stat_block; auto]. destruct x; try discriminate; [apply label_block|apply void_block]; auto.
Qed.

(* the theorem for a whole chunk *)
Lemma gotos_resolved : forall b,
  if legal (SFunc b) 0 0 [] then exists lg, compile_gotos b = Ok lg /\ implement lg (jumps (SFunc b) 0 0 []) else exists e, compile_gotos b = Err e.
Proof.
  intros b. unfold compile_gotos.
  pose proof (proj2 parser_ok b 0 0 [] [] [] [] [] [] 0 false false [] [] (Forall2_nil _) (Forall_nil _) (or_intror (Forall_nil _)) (Forall_nil _) eq_refl) as H.
  pose proof (proj1 parser_ok (SFunc b) false 0 0 [] [] [] [] 0 0 false false [] [] eq_refl (Forall_nil _) (Forall_nil _)) as K.
  cbn [open] in K. rewrite allowed_none, andb_true_r in K. cbn [gstat] in *. cbn [app map length] in K.
  set (S1 := enterblock _ _) in K. set (S2 := enterblock _ _). assert (S1 = S2) as <- by reflexivity.
  destruct (legal (SFunc b) 0 0 []).
  - destruct K as (P' & d & E & _ & I). destruct (gblock S1 b) as [s| | |]; cbn [bind] in *; try discriminate. destruct (leaveblock s) as [s'| | |]; cbn [bind] in *; try discriminate.
    injection E as _ _ _ Eg. exists d. split; [cbn; congruence|]. rewrite resolved_none, app_nil_r in I. exact I.
  - destruct K as (e & E). exists e. destruct (gblock S1 b) as [s| | |]; cbn [bind] in *; try discriminate; [|injection E as ->; reflexivity]. destruct (leaveblock s) as [s'| | |]; cbn [bind] in *; try discriminate. injection E as ->; reflexivity.
Qed.

(* every goto has its jump *)
Lemma goto_cover :
  (forall x p n c q, legal x p n c = true -> In q (gotos x p) -> In q (map spc (open x p n c)) \/ In q (map jfrom (jumps x p n c))) /\
  (forall b p n c q, blegal b p n c = true -> In q (bgotos b p) -> In q (map spc (bopen b p n c)) \/ In q (map jfrom (bjumps b p n c))).
Proof.
  assert (R : forall T us q, In q (map spc us) -> In q (map spc (filter (unresolved T) us)) \/ In q (map jfrom (resolved T us))).
  { intros T us q. induction us as [|u us IH]; [intros []|]. rewrite filter_cons, resolved_cons, map_app. intros [<-|I].
    - destruct (resolve T u); [right; left; reflexivity|left; left; reflexivity].
    - destruct (IH I) as [H|H]; [left; destruct (resolve T u); [|right]; exact H|right; apply in_or_app; now right]. }
  apply tree_ind; try (intros; simpl in *; tauto).
  - intros lp b IH p n c q Lg I. cbn [legal open jumps gotos] in *. rewrite !andb_true_iff in Lg. destruct Lg as ((Lg & _) & _). rewrite map_map. cbn [spc]. rewrite map_app, in_app_iff.
    destruct (IH _ _ _ _ Lg I) as [H|H]; [|tauto]. destruct (R (targets lp b p n) _ _ H) as [K|K]; tauto.
  - intros b IH p n c q Lg I. cbn [legal open jumps gotos] in *. rewrite !andb_true_iff in Lg. destruct Lg as (((Lg & _) & _) & Al). right. rewrite map_app, in_app_iff.
    destruct (IH _ _ _ _ Lg I) as [H|H]; [|tauto]. destruct (R (targets false b p 0) _ _ H) as [K|K]; [|tauto].
    exfalso. apply in_map_iff in K as (u & _ & K). apply filter_In in K as [Iu K]. rewrite forallb_forall in Al. specialize (Al _ Iu). rewrite K in Al. discriminate.
  - intros x IHx b IHb p n c q Lg I. cbn [blegal bopen bjumps bgotos] in *. apply andb_true_iff in Lg as [L1 L2]. rewrite !map_app, !in_app_iff. apply in_app_or in I as [I|I].
    + destruct (IHx _ _ _ _ L1 I); tauto.
    + destruct (IHb _ _ _ _ L2 I); tauto.
Qed.

(* and only one *)
Definition from (e : nat * nat * nat) : nat := fst (fst e).
Definition places (s : st) : list nat := map gpc (gts s) ++ map from (Goto_model.log s).
Definition once (s s' : st) : Prop := NoDup (places s) -> Forall (fun q => q < pc s) (places s) -> NoDup (places s') /\ Forall (fun q => q < pc s') (places s').
Require Import Permutation.
Lemma once_perm : forall s s', Permutation (places s') (places s) -> pc s <= pc s' -> once s s'.
Proof.
  intros s s' P Le N F. split; [eapply Permutation_NoDup; [apply Permutation_sym, P|exact N]|]. apply Forall_forall. intros q I. rewrite Forall_forall in F. pose proof (F _ (Permutation_in _ P I)). lia.
Qed.
Lemma once_trans : forall a b c, once a b -> once b c -> once a c.
Proof. intros a b c H K N F. destruct (H N F) as [N1 F1]. exact (K N1 F1). Qed.

Definition same (s s' : st) : Prop := Permutation (places s') (places s) /\ pc s' = pc s.
Lemma same_trans : forall a b c, same a b -> same b c -> same a c.
Proof. intros a b c [P E] [Q D]. split; [eapply Permutation_trans; eassumption|congruence]. Qed.
Lemma same_refl : forall a, same a a.
Proof. split; [apply Permutation_refl|reflexivity]. Qed.
Lemma split_nth : forall A (l : list A) i x, nth_error l i = Some x -> l = firstn i l ++ x :: skipn (S i) l.
Proof. intros A l. induction l as [|a l IH]; intros [|i] x H; simpl in *; try discriminate; [now injection H as ->|]. f_equal. now apply IH. Qed.

Lemma closegoto_same : forall s g lb s', closegoto s g lb = Ok s' -> same s s'.
Proof.
  intros s g lb s' H. unfold closegoto in H. destruct (nth_error (gts s) g) as [gt|] eqn:E; [|discriminate]. destruct (_ <? _); [discriminate|]. injection H as <-. split; [|reflexivity].
  unfold places. cbn [gts Goto_model.log]. rewrite (split_nth _ _ _ _ E) at 3. rewrite !map_app. cbn [map from fst]. rewrite <- !app_assoc. apply Permutation_app_head. simpl.
  apply Permutation_sym. rewrite app_assoc. apply Permutation_cons_append.
Qed.
Lemma set_goto_same : forall s g gt gt', nth_error (gts s) g = Some gt -> gpc gt' = gpc gt -> same s (set_goto s g gt').
Proof.
  intros s g gt gt' E G. split; [|reflexivity]. unfold places, set_goto. cbn [gts Goto_model.log]. rewrite (split_nth _ _ _ _ E) at 3. rewrite !map_app. cbn [map]. rewrite G. apply Permutation_refl.
Qed.
Lemma findlabel_same : forall s g s' f, findlabel s g = Ok (s', f) -> same s s'.
Proof.
  intros s g s' f H. unfold findlabel in H. destruct (bls s) as [|bl prev]; [discriminate|]. destruct (nth_error (gts s) g) as [gt|] eqn:E; [|discriminate].
  destruct (find _ _) as [lb|]; [|injection H as <- _; apply same_refl].
  destruct (_ && _).
  - destruct (closegoto _ g lb) as [t| | |] eqn:Ec; try discriminate. injection H as <- _. eapply same_trans; [|eapply closegoto_same, Ec]. now apply (set_goto_same _ _ gt).
  - destruct (closegoto _ g lb) as [t| | |] eqn:Ec; try discriminate. injection H as <- _. eapply closegoto_same, Ec.
Qed.
Lemma findgotos_same : forall fuel s i lb s', findgotos fuel s i lb = Ok s' -> same s s'.
Proof.
  intros fuel. induction fuel as [|fuel IH]; intros s i lb s' H; cbn [findgotos] in H; destruct (_ <=? i); try (injection H as <-; apply same_refl); [discriminate|].
  destruct (nth_error (gts s) i) as [gt|]; [|discriminate]. destruct (_ =? _); [|eauto].
  destruct (closegoto s i lb) as [t| | |] eqn:Ec; try discriminate. eapply same_trans; [eapply closegoto_same, Ec|]. eapply IH, H.
Qed.
Lemma movegotosout_same : forall fuel s i bl s', movegotosout fuel s i bl = Ok s' -> same s s'.
Proof.
  intros fuel. induction fuel as [|fuel IH]; intros s i bl s' H; cbn [movegotosout] in H; destruct (_ <=? i); try (injection H as <-; apply same_refl); [discriminate|].
  destruct (nth_error (gts s) i) as [gt|] eqn:E; [|discriminate]. match type of H with bind ?x _ = _ => destruct x as [[t f]| | |] eqn:Ef end; try discriminate.
  eapply same_trans; [|eapply IH, H]. eapply same_trans; [|eapply findlabel_same, Ef]. eapply set_goto_same; [exact E|]. destruct (_ <? _); [destruct (upval bl)|]; reflexivity.
Qed.
Lemma same_once : forall s s', same s s' -> once s s'.
Proof. intros s s' [P E]. apply once_perm; [exact P|lia]. Qed.
Lemma new_label_same : forall s fg lb s', new_label s fg lb = Ok s' -> same s s'.
Proof. intros s fg lb s' H. unfold new_label in H. apply findgotos_same in H. exact H. Qed.
Lemma leaveblock_once : forall s s', leaveblock s = Ok s' -> once s s'.
Proof.
  intros s s' H. unfold leaveblock in H. destruct (bls s) as [|bl prev]; [discriminate|].
  match type of H with bind (let s := ?x in _) _ = _ => set (s1 := x) in * | (let s := ?x in _) = _ => set (s1 := x) in * | _ => idtac end.
  set (s1 := if _ && _ then _ else _) in H.
  assert (O1 : once s s1) by (unfold s1; destruct (_ && _); apply once_perm; cbn; try lia; apply Permutation_refl).
  match type of H with bind ?x _ = _ => destruct x as [s2| | |] eqn:E2 end; try discriminate. cbn [bind] in H.
  assert (S2 : same s1 s2) by (destruct (isloop bl); [now apply new_label_same in E2|injection E2 as <-; apply same_refl]).
  eapply once_trans; [exact O1|]. eapply once_trans; [apply same_once, S2|].
  destruct prev as [|b2 prev].
  - destruct (_ <? _); [discriminate|]. injection H as <-. apply once_perm; cbn; [apply Permutation_refl|lia].
  - apply movegotosout_same in H. apply same_once. exact H.
Qed.
Lemma parser_once : (forall x s last s', gstat s x last = Ok s' -> once s s') /\ (forall b s s', gblock s b = Ok s' -> once s s').
Proof.
  apply tree_ind.
  - intros c s last s' H. cbn in H. unfold local_active in H. destruct (bls s); [discriminate|]. injection H as <-. apply once_perm; cbn; [apply Permutation_refl|lia].
  - intros l s last s' H. cbn in H. unfold labelstat in H. destruct (bls s); [discriminate|]. destruct (existsb _ _); [discriminate|]. apply same_once. eapply new_label_same, H.
  - intros s last s' H. injection H as <-. apply same_once, same_refl.
  - intros s last s' H. injection H as <-. apply once_perm; cbn; [apply Permutation_refl|lia].
  - intros l s last s' H. cbn in H. unfold gotostat in H. match type of H with bind ?x _ = _ => destruct x as [[t f]| | |] eqn:Ef end; try discriminate. injection H as <-.
    apply findlabel_same in Ef. eapply once_trans; [|apply same_once, Ef]. intros N F. unfold places in *. cbn [gts Goto_model.log pc]. rewrite map_app. cbn [map gpc]. rewrite <- app_assoc. simpl.
    assert (Pm : Permutation (map gpc (gts s) ++ pc s :: map from (Goto_model.log s)) (pc s :: map gpc (gts s) ++ map from (Goto_model.log s))) by (apply Permutation_sym, Permutation_middle).
    split.
    + eapply Permutation_NoDup; [apply Permutation_sym, Pm|]. constructor; [|exact N]. intros I. rewrite Forall_forall in F. specialize (F _ I). lia.
    + apply Forall_forall. intros q I. apply (Permutation_in _ Pm) in I as [<-|I]; [lia|]. rewrite Forall_forall in F. specialize (F _ I). lia.
  - intros lp b IH s last s' H. cbn in H. destruct (gblock _ b) as [t| | |] eqn:E; try discriminate. eapply once_trans; [|eapply leaveblock_once, H]. exact (IH _ _ E).
  - intros b IH s last s' H. cbn in H. destruct (gblock _ b) as [t| | |] eqn:E; try discriminate. cbn [bind] in H. destruct (leaveblock t) as [t'| | |] eqn:E2; try discriminate. injection H as <-.
    eapply once_trans; [exact (IH _ _ E)|]. exact (leaveblock_once _ _ E2).
  - intros s s' H. injection H as <-. apply same_once, same_refl.
  - intros x IHx b IHb s s' H. cbn [gblock] in H. destruct (gstat s x _) as [t| | |] eqn:E; try discriminate. eapply once_trans; [eapply IHx, E|eapply IHb, H].
Qed.

Lemma one_jump_each : forall b lg, compile_gotos b = Ok lg ->
  NoDup (map from lg) /\ forall q, In q (gotos (SFunc b) 0) -> In q (map from lg).
Proof.
  intros b lg H. split.
  - unfold compile_gotos in H. destruct (gstat _ (SFunc b) false) as [s| | |] eqn:E; try discriminate. injection H as <-.
    destruct (proj1 parser_once _ _ _ _ E) as [N _]; [constructor|constructor|]. unfold places in N. 
    clear - N. induction (map gpc (gts s)) as [|a l IH]; [exact N|]. inversion N; auto.
  - intros q I. pose proof (gotos_resolved b) as G. destruct (legal (SFunc b) 0 0 []) eqn:Lg.
    + destruct G as (lg' & E & _ & G). assert (lg' = lg) by congruence. subst lg'. destruct (proj1 goto_cover _ _ _ _ _ Lg I) as [K|K]; [destruct K|].
      apply in_map_iff in K as (j & <- & Ij). destruct (G _ Ij) as ([[f t] A] & Ie & D & _). apply in_map_iff. exists (f, t, A). auto.
    + destruct G as (e & E). congruence.
Qed.
