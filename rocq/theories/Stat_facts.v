(* Growth of the code and control across statements. *)
Require Import ZArith List Bool Arith Lia.
From Verif Require Import Base Float_model Op_model Op_spec Op_proofs Gen_model Gen_spec Gen_facts Gen_run Gen_inv Gen_ops Gen_store Gen_proofs Stat_model Stat_spec Stat_expr.
Import ListNotations.
Local Open Scope nat_scope.

(* the part of the state that does not depend on the scope *)
Definition strip (fs : fstate) : fstate := mkfs (code fs) (jpc fs) (ks fs) 0 0 (fun _ => 0%Z) (uty fs).
Definition SG (fs0 fs : fstate) (l : list nat) : Prop := Grow (strip fs0) (strip fs) nohole l.
Lemma pre_strip fs : Pre fs -> Pre (strip fs).
Proof. intros [A B C D]. constructor; assumption. Qed.
Lemma strip_pre fs : Pre (strip fs) -> Pre fs.
Proof. intros [A B C D]. constructor; assumption. Qed.
Lemma grow_sg fs0 fs l : Grow fs0 fs nohole l -> SG fs0 fs l.
Proof. intros [A B C D F G H I J K L M]. constructor; auto. Qed.
Lemma sg_refl fs : Pre fs -> SG fs fs [].
Proof. intros H. apply grow_refl. apply pre_strip. exact H. Qed.
Lemma sg_pre fs0 fs l : SG fs0 fs l -> Pre fs.
Proof. intros H. apply strip_pre. eapply grow_pre. exact H. Qed.
Lemma sg_trans fs0 fs1 fs2 l1 l2 : Pre fs0 -> SG fs0 fs1 l1 -> SG fs1 fs2 l2 -> SG fs0 fs2 (l1 ++ l2).
Proof. intros P0 A B. eapply grow_trans; [apply pre_strip; exact P0|exact A|exact B]. Qed.
Lemma sg_same fs0 fs fs' l l' : SG fs0 fs l -> code fs' = code fs -> ks fs' = ks fs -> uty fs' = uty fs -> (forall j, cnt (jpc fs ++ l) j = cnt (jpc fs' ++ l') j) -> SG fs0 fs' l'.
Proof. intros G A B C D. eapply (grow_move _ _ (strip fs') nohole l l' G); cbn; auto. Qed.
Lemma sg_cnt fs0 fs l l' : SG fs0 fs l -> (forall j, cnt l j = cnt l' j) -> SG fs0 fs l'.
Proof. intros G C. eapply sg_same; eauto. intros j. rewrite !cnt_app, C. reflexivity. Qed.
Lemma sg_ext fs0 fs l P : SG fs0 fs l -> ext nohole fs P -> ext nohole fs0 P.
Proof. intros G X. eapply (ext_refines nohole fs0 nohole fs P X); [apply (g_ref _ _ _ _ G)|apply (g_ks _ _ _ _ G)]. Qed.
Lemma sg_pc fs0 fs l : SG fs0 fs l -> pc fs0 <= pc fs.
Proof. intros G. apply (g_len _ _ _ _ G). Qed.
Lemma sg_jok fs0 fs l j : SG fs0 fs l -> 0 < cnt l j -> jok (code fs) j.
Proof. intros G H. apply (g_jok _ _ _ _ G). rewrite cnt_app. lia. Qed.
Lemma sg_tset fs0 fs1 l1 fs2 l2 j : SG fs0 fs1 l1 -> SG fs1 fs2 l2 -> 0 < cnt l1 j -> tset (code fs2) j = tset (code fs1) j.
Proof.
  intros G1 G2 H. pose proof (sg_pre _ _ _ G1) as P1. pose proof (sg_jok _ _ _ _ G1 H) as J.
  assert (Z: cnt (jpc fs1) j = 0) by (pose proof (g_uniq _ _ _ _ G1 j) as U; rewrite cnt_app in U; change (jpc (strip fs1)) with (jpc fs1) in U; lia).
  apply (grow_jok (strip fs1) (strip fs2) nohole l2 j (pre_strip _ P1) G2 J Z).
Qed.
Lemma sg_patchtohere fs0 fs l m : SG fs0 fs (m ++ l) -> SG fs0 (patchtohere fs m) l.
Proof. intros G. eapply sg_same; [exact G|reflexivity..|]. intros j. cbn. rewrite !cnt_app. lia. Qed.
Lemma sg_jump fs : Pre fs -> SG fs (fst (luaK_jump fs)) (snd (luaK_jump fs)).
Proof. intros P0. apply grow_sg. destruct (grow_jump fs fs nohole [] P0 (grow_refl _ P0) ltac:(intros p [])) as (G & _). rewrite app_nil_r in G. exact G. Qed.
Lemma pc_jump fs : pc (fst (luaK_jump fs)) = S (pc fs).
Proof. unfold luaK_jump, emit, dischargejpc, pc. cbn. rewrite app_length. cbn. lia. Qed.
Lemma patch_len c m vt reg dt : length (patchlistaux c m vt reg dt) = length c.
Proof.
  revert c. induction m as [|j m IH]; intros c; [reflexivity|]. cbn. destruct (patchtestreg c j reg) as [c' b] eqn:Q. rewrite IH. unfold fixjump. rewrite upd_len.
  unfold patchtestreg in Q. destruct (nth_error c (getjumpcontrol c j)) as [[]|]; try (injection Q as <- _; reflexivity). destruct reg as [r|]; [destruct (r =? b0)|]; injection Q as <- _; apply upd_len.
Qed.
Lemma sg_patchback fs0 fs l l' d : Pre fs0 -> SG fs0 fs (l ++ l') -> SG fs0 (patchback fs l d) l'.
Proof.
  intros P0 G. unfold patchback. destruct (Nat.eqb_spec d (pc fs)); [apply sg_patchtohere; exact G|].
  eapply (grow_patch (strip fs0) (strip fs) _ nohole (l ++ l') l); [apply pre_strip; exact P0|exact G| |reflexivity..].
  intros j. cbn. rewrite !cnt_app. lia.
Qed.

Section run.
Variable W : Type.
Variable E : env W.
Notation Res := (Res W E).
Notation steps := (steps W E).
Notation step := (step W E).
Notation arrive := (arrive W).
Notation atj := (atj W).
Notation can_run := (can_run W E).
Lemma sg_atj fs0 fs1 l1 fs2 l2 j cf s : SG fs0 fs1 l1 -> SG fs1 fs2 l2 -> 0 < cnt l1 j -> atj (code fs1) j cf s -> atj (code fs2) j cf s.
Proof. intros G1 G2 H A. unfold Gen_run.atj in *. rewrite (sg_tset _ _ _ _ _ _ G1 G2 H). exact A. Qed.
Lemma jump_arrive fs cf s : Pre fs -> arrive fs cf s -> exists j, 0 < cnt (snd (luaK_jump fs)) j /\ atj (code (fst (luaK_jump fs))) j cf s.
Proof.
  intros P0 A. assert (Ec: code (fst (luaK_jump fs)) = code fs ++ [Jmp None]) by reflexivity. rewrite Ec. cbn [snd luaK_jump]. destruct A as [->|(j & Hj & A)].
  - exists (pc fs). split; [rewrite cnt_cons; unfold pc at 1; cbn [with_jpc code]; fold (pc fs); rewrite cnt_self; lia|]. unfold Gen_run.atj. destruct (tset (code fs ++ [Jmp None]) (pc fs)) as [[b cc]|] eqn:T; [|reflexivity].
    exfalso. destruct (tset_nth _ _ _ _ T) as (q & a & Hq & Hn). pose proof (p_last _ P0 q (eq_sym Hq)) as La. unfold pc in Hq. rewrite nth_app1 in Hn by lia. eapply La. exact Hn.
  - exists j. split; [rewrite cnt_cons; lia|]. destruct (jok_app (code fs) (Jmp None) j (p_jok _ P0 j Hj)) as [_ T]. unfold Gen_run.atj in *. rewrite T. exact A.
Qed.
Lemma patched_step c m d fs P j cf s : ext nohole fs P -> code fs = patchlistaux c m d None (Some d) -> uniq m -> (forall j, 0 < cnt m j -> jok c j) -> 0 < cnt m j -> atj c j cf s ->
  exists c1, step P cf = Ok c1 /\ steps P c1 (d, s).
Proof.
  intros X Ec U J Hj A. destruct (patch_spec c m d None (Some d) U) as [_ N]; [intros k Hk; apply (J k Hk)|].
  unfold Gen_run.atj in A. destruct (tset c j) as [[b cc]|] eqn:T.
  - destruct A as [-> Tr]. destruct (tset_nth c j b cc T) as (q & a & -> & Hq). cbn [pred].
    destruct (J (S q) Hj) as [Jq Ta]. assert (a = None) by (eapply Ta; eauto). subst a.
    assert (TJ: nth_error (text P) (S q) = Some (Jmp (Some d))).
    { apply (text_fixed nohole fs P); [exact X| |exact Logic.I|intros []]. rewrite Ec, N. unfold pnth. apply Nat.ltb_lt in Hj. rewrite Hj, T. reflexivity. }
    assert (TQ: nth_error (text P) q = Some (set_test None b cc)).
    { apply (text_fixed nohole fs P); [exact X| |exact Logic.I|intros []].
      rewrite Ec, N. unfold pnth. assert (Z: cnt m q = 0).
      { destruct (Nat.eq_dec (cnt m q) 0) as [z|z]; [exact z|]. destruct (J q) as [Jx _]; [lia|]. unfold isjmp in Jx. congruence. }
      rewrite Z. change (0 <? 0) with false. cbv iota. apply Nat.ltb_lt in Hj. rewrite Hj, Hq. reflexivity. }
    assert (EB: Bool.eqb (truthy (reg s b)) cc = true) by (rewrite Tr; apply eqb_reflx).
    exists (S q, s). split; [unfold Gen_model.step; rewrite TQ; cbn [set_test]; rewrite EB; reflexivity|]. apply steps_one. unfold Gen_model.step. rewrite TJ. reflexivity.
  - subst cf. exists (d, s). split; [|constructor].
    assert (TJ: nth_error (text P) j = Some (Jmp (Some d))).
    { apply (text_fixed nohole fs P); [exact X| |exact Logic.I|intros []]. rewrite Ec, N. unfold pnth. apply Nat.ltb_lt in Hj. rewrite Hj, T. reflexivity. }
    unfold Gen_model.step. rewrite TJ. reflexivity.
Qed.
Lemma patchback_step fs0 fs l l' d P j cf s : SG fs0 fs (l ++ l') -> d <> pc fs -> ext nohole (patchback fs l d) P -> 0 < cnt l j -> atj (code fs) j cf s ->
  exists c1, step P cf = Ok c1 /\ steps P c1 (d, s).
Proof.
  intros G Nd X Hj A. unfold patchback in X. destruct (Nat.eqb_spec d (pc fs)); [contradiction|]. eapply patched_step; [exact X|reflexivity| | |exact Hj|exact A].
  - intros k. pose proof (g_uniq _ _ _ _ G k) as U. rewrite !cnt_app in U. lia.
  - intros k Hk. eapply sg_jok; [exact G|]. rewrite cnt_app. lia.
Qed.

Lemma can_step P m c c1 : step P c = Ok c1 -> can_run P m c1 -> can_run P m c.
Proof. revert c c1. induction m as [|m IH]; intros c c1 S1 H; [exact Logic.I|]. destruct H as (c2 & S2 & H). exists c1. split; [exact S1|]. eapply IH; eauto. Qed.
Lemma can_steps P m c c1 : steps P c c1 -> can_run P m c1 -> can_run P m c.
Proof. induction 1; [auto|]. intros H1. eapply can_step; eauto. Qed.
Lemma can_le P m m' c : m' <= m -> can_run P m c -> can_run P m' c.
Proof. revert m c. induction m' as [|m' IH]; intros m c L H; [exact Logic.I|]. destruct m as [|m]; [lia|]. destruct H as (c1 & S1 & H). exists c1. split; [exact S1|]. eapply IH; [|exact H]. lia. Qed.
Lemma ovf_steps P c c1 : steps P c c1 -> ovf W E P c1 -> ovf W E P c.
Proof. intros S1 (p & s & a & o & S2 & H). exists p, s, a, o. split; [eapply steps_trans; eauto|exact H]. Qed.

(* the result of running a statement *)
Notation sresult := (sresult W).
Notation locals := (locals).
Definition so := outcome ((ending * locals) * W).
Definition SRes (k : nat) (P : prog) (c : config W) (o : sresult) (Q : so -> config W -> Prop) : Prop :=
  match o with Some o => Res P c o (Q o) | None => ovf W E P c \/ can_run P k c end.
Lemma sres_steps k P c c1 o Q : steps P c c1 -> SRes k P c1 o Q -> SRes k P c o Q.
Proof. intros S1. destruct o as [o|]; [apply res_steps; exact S1|]. intros [H|H]; [left; eapply ovf_steps; eauto|right; eapply can_steps; eauto]. Qed.
Lemma sres_ret k P c (o : so) (Q : so -> config W -> Prop) : Q o c -> SRes k P c (Some o) Q.
Proof. intros H. cbn. apply res_ret. exact H. Qed.
Lemma sres_ovf k P c o Q : ovf W E P c -> SRes k P c o Q.
Proof. intros H. destruct o; left; exact H. Qed.
Lemma sres_fail k P c (o : so) Q : fails W E P c o -> SRes k P c (Some o) Q.
Proof. intros H. right. left. exact H. Qed.
Lemma sres_imp k P c o (Q Q' : so -> config W -> Prop) : (forall o c, Q o c -> Q' o c) -> SRes k P c o Q -> SRes k P c o Q'.
Proof. intros H. destruct o as [o|]; [|auto]. cbn. apply res_imp. intros c1. apply H. Qed.
Lemma sres_le k k' P c o Q : k' <= k -> SRes k P c o Q -> SRes k' P c o Q.
Proof. intros L. destruct o as [o|]; [auto|]. intros [H|H]; [left; exact H|right; eapply can_le; eauto]. Qed.
Lemma sres_value k P c (o1 : outcome (val * W)) Q1 f Q : Res P c o1 Q1 ->
  (forall c1, Q1 c1 -> exists v w, o1 = Ok (v, w) /\ SRes k P c1 (f v w) Q) -> SRes k P c (value W o1 f) Q.
Proof.
  intros [H|[(c1 & St & Sm)|(c1 & St & H)]] F.
  - apply sres_ovf. exact H.
  - destruct (step P c1) as [?| | |] eqn:Sp, o1 as [[? ?]| | |]; cbn in Sm; try contradiction; apply sres_fail; exists c1; (split; [exact St|]); rewrite Sp; try subst; cbn; auto.
  - destruct (F c1 H) as (v & w & -> & R). eapply sres_steps; [exact St|exact R].
Qed.
Lemma sres_next k P c o Q1 f Q : SRes k P c o Q1 ->
  (forall l w c1, Q1 (Ok ((Done, l), w)) c1 -> SRes k P c1 (f l w) Q) -> (forall l w c1, Q1 (Ok ((Broken, l), w)) c1 -> Q (Ok ((Broken, l), w)) c1) ->
  (forall o c1, Q1 o c1 -> exists x, o = Ok x) -> SRes k P c (next W o f) Q.
Proof.
  intros R F B O. destruct o as [o|]; [|exact R]. destruct R as [H|[H|(c1 & St & H)]].
  - apply sres_ovf. exact H.
  - destruct H as (c1 & St & Sm). destruct (step P c1) as [?| | |] eqn:Sp, o as [[[[] ?] ?]| | |]; cbn in Sm; try contradiction; apply sres_fail; exists c1; (split; [exact St|]); rewrite Sp; cbn; auto.
  - destruct (O _ _ H) as [[[[] l] w] ->]; cbn [next body]; (eapply sres_steps; [exact St|]); [apply F; exact H|]. apply sres_ret. auto.
Qed.
Lemma sres_body k P c o Q1 f Q : SRes k P c o Q1 ->
  (forall l w c1, Q1 (Ok ((Done, l), w)) c1 -> SRes k P c1 (f l w) Q) -> (forall l w c1, Q1 (Ok ((Broken, l), w)) c1 -> Q (Ok ((Done, l), w)) c1) ->
  (forall o c1, Q1 o c1 -> exists x, o = Ok x) -> SRes k P c (body W o f) Q.
Proof.
  intros R F B O. destruct o as [o|]; [|exact R]. destruct R as [H|[H|(c1 & St & H)]].
  - apply sres_ovf. exact H.
  - destruct H as (c1 & St & Sm). destruct (step P c1) as [?| | |] eqn:Sp, o as [[[[] ?] ?]| | |]; cbn in Sm; try contradiction; apply sres_fail; exists c1; (split; [exact St|]); rewrite Sp; cbn; auto.
  - destruct (O _ _ H) as [[[[] l] w] ->]; cbn [next body]; (eapply sres_steps; [exact St|]); [apply F; exact H|]. apply sres_ret. auto.
Qed.
(* one round of a loop *)
Lemma sres_round k P c c1 c2 o Q : step P c = Ok c1 -> steps P c1 c2 -> SRes k P c2 o Q -> SRes (S k) P c o Q.
Proof.
  intros S1 S2 R. destruct o as [o|]; [eapply res_steps; [|exact R]; econstructor; eauto|]. destruct R as [H|H]; [left; eapply ovf_steps; [|exact H]; econstructor; eauto|].
  right. exists c1. split; [exact S1|]. eapply can_steps; eauto.
Qed.
End run.
