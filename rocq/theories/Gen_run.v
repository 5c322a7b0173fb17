(* Running code that is still being generated. *)
Require Import ZArith List Bool Arith Lia.
From Verif Require Import Base Float_model Op_model Op_spec Gen_model Gen_spec Gen_facts.
Import ListNotations.
Local Open Scope nat_scope.

(* emission *)
Lemma pc_dj fs : Pre fs -> pc (dischargejpc fs) = pc fs.
Proof. intros P0. unfold pc, dischargejpc. cbn. apply patch_spec; [apply (p_uniq _ P0)|intros j H; apply (p_jok _ P0 j H)]. Qed.
Lemma grow_dj fs0 fs h l : Pre fs0 -> Grow fs0 fs h l -> Grow fs0 (dischargejpc fs) h l.
Proof.
  intros P0 G. eapply (grow_patch fs0 fs (dischargejpc fs) h l (jpc fs)); eauto; try reflexivity.
  intros j. cbn. rewrite cnt_app. reflexivity.
Qed.
Lemma grow_emit fs0 fs (h' : holes) l i : Pre fs0 -> Grow fs0 fs nohole l -> (forall a b cc, i <> TestSet a b cc) -> (forall p, h' p -> pc fs <= p) ->
  Grow fs0 (emit fs i) h' l.
Proof.
  intros P0 G N Hh. unfold emit. apply grow_app; auto; [apply grow_dj; auto|]. intros p Hp. rewrite pc_dj; [auto|]. eapply grow_pre; eauto.
Qed.
Lemma condjump_eq fs i : condjump fs i = (with_code (dischargejpc fs) (code (dischargejpc fs) ++ [i; Jmp None]), [pc (emit fs i)]).
Proof.
  unfold condjump, luaK_jump, emit. cbn. unfold dischargejpc. cbn. rewrite <- app_assoc. reflexivity.
Qed.
Lemma pc_emit fs i : Pre fs -> pc (emit fs i) = S (pc fs).
Proof. intros P0. pose proof (pc_dj fs P0) as H. unfold emit. unfold pc in *. cbn [code with_code]. rewrite app_length. cbn [length]. lia. Qed.
Lemma grow_condjump fs0 fs (h' : holes) l i : Pre fs0 -> Grow fs0 fs nohole l -> (forall a b cc, i = TestSet a b cc -> a = None) -> (forall p, h' p -> pc fs <= p) ->
  Grow fs0 (fst (condjump fs i)) h' (S (pc fs) :: l) /\ snd (condjump fs i) = [S (pc fs)].
Proof.
  intros P0 G N Hh. pose proof (grow_pre _ _ _ _ G) as P1. rewrite condjump_eq. cbn [fst snd]. rewrite pc_emit by exact P1. split; [|reflexivity].
  rewrite <- (pc_dj fs P1). apply grow_cond; auto; [apply grow_dj; auto|]. intros p Hp. rewrite pc_dj by exact P1. auto.
Qed.
Lemma refines_patch h c m vt reg dt : uniq m -> (forall j, 0 < cnt m j -> jok c j) -> refines h c h (patchlistaux c m vt reg dt).
Proof. intros U J p i H N. split; [exact N|]. apply patch_compat; auto. Qed.
Lemma refines_dj h fs : Pre fs -> refines h (code fs) h (code (dischargejpc fs)).
Proof. intros P0. apply refines_patch; [apply (p_uniq _ P0)|apply (p_jok _ P0)]. Qed.
Lemma refines_app (h h' : holes) c l : (forall p, h' p -> length c <= p) -> refines h c h' (c ++ l).
Proof.
  intros Hh p i H N. assert (p < length c) by (apply nth_lt in H; exact H). split; [intros K; apply Hh in K; lia|].
  exists i. split; [rewrite nth_app1 by lia; exact H|apply compat_refl].
Qed.
Lemma refines_emit h (h' : holes) fs i : Pre fs -> (forall p, h' p -> pc fs <= p) -> refines h (code fs) h' (code (emit fs i)).
Proof.
  intros P0 Hh. eapply refines_trans; [apply (refines_dj h fs P0)|]. unfold emit. cbn [code with_code]. apply refines_app.
  intros p Hp. change (length (code (dischargejpc fs))) with (pc (dischargejpc fs)). rewrite pc_dj by exact P0. auto.
Qed.
Lemma refines_condjump h (h' : holes) fs i : Pre fs -> (forall p, h' p -> pc fs <= p) -> refines h (code fs) h' (code (fst (condjump fs i))).
Proof.
  intros P0 Hh. eapply refines_trans; [apply (refines_dj h fs P0)|]. rewrite condjump_eq. cbn [code with_code fst]. apply refines_app.
  intros p Hp. change (length (code (dischargejpc fs))) with (pc (dischargejpc fs)). rewrite pc_dj by exact P0. auto.
Qed.
Lemma refines_point (h h' : holes) c p i : h p -> (forall q, h' q -> h q) -> refines h c h' (upd c p i).
Proof. intros Hp Hh q x H N. split; [auto|]. exists x. split; [|apply compat_refl]. rewrite upd_other; [exact H|]. intros ->. auto. Qed.
Lemma refines_pop (h : holes) c p : h p -> S p = length c -> refines h c nohole (removelast c).
Proof.
  intros Hp L q x H N. split; [intros []|]. exists x. split; [|apply compat_refl]. assert (q < length c) by (apply nth_lt in H; exact H).
  rewrite removelast_nth; [exact H|]. assert (q <> p) by (intros ->; auto). lia.
Qed.
Lemma emit_nth fs i : Pre fs -> nth_error (code (emit fs i)) (pc fs) = Some i.
Proof. intros P0. unfold emit. cbn [code with_code]. rewrite <- (pc_dj fs P0). apply nth_last. Qed.
Lemma tset_emit fs0 fs h l i j : Grow fs0 fs h l -> 0 < cnt l j -> tset (code (emit fs i)) j = tset (code fs) j.
Proof.
  intros G H. pose proof (grow_pre _ _ _ _ G) as P1. assert (J: jok (code fs) j) by (apply (g_jok _ _ _ _ G); rewrite cnt_app; lia).
  assert (Z: cnt (jpc fs) j = 0) by (pose proof (g_uniq _ _ _ _ G j) as U; rewrite cnt_app in U; lia).
  destruct (patch_jok (code fs) (jpc fs) (pc fs) None (Some (pc fs)) j (p_uniq _ P1) (p_jok _ P1) J Z) as [J1 T1].
  unfold emit. cbn [code with_code]. rewrite <- T1. apply jok_app. exact J1.
Qed.
Lemma tset_condjump fs0 fs h l i j : Grow fs0 fs h l -> 0 < cnt l j -> tset (code (fst (condjump fs i))) j = tset (code fs) j.
Proof.
  intros G H. pose proof (grow_pre _ _ _ _ G) as P1. assert (J: jok (code fs) j) by (apply (g_jok _ _ _ _ G); rewrite cnt_app; lia).
  assert (Z: cnt (jpc fs) j = 0) by (pose proof (g_uniq _ _ _ _ G j) as U; rewrite cnt_app in U; lia).
  destruct (patch_jok (code fs) (jpc fs) (pc fs) None (Some (pc fs)) j (p_uniq _ P1) (p_jok _ P1) J Z) as [J1 T1].
  rewrite condjump_eq. cbn [fst code with_code]. rewrite <- T1. change ([i; Jmp None]) with ([i] ++ [Jmp None]). rewrite app_assoc.
  destruct (jok_app _ i _ J1) as [J2 T2]. destruct (jok_app _ (Jmp None) _ J2) as [_ T3]. etransitivity; [exact T3|exact T2].
Qed.
Lemma cond_nth fs i : Pre fs -> nth_error (code (fst (condjump fs i))) (pc fs) = Some i /\ nth_error (code (fst (condjump fs i))) (S (pc fs)) = Some (Jmp None).
Proof.
  intros P0. rewrite condjump_eq. cbn [fst code with_code]. rewrite <- (pc_dj fs P0). unfold pc. split.
  - rewrite nth_error_app2 by lia. rewrite Nat.sub_diag. reflexivity.
  - rewrite nth_error_app2 by lia. replace (S (length (code (dischargejpc fs))) - length (code (dischargejpc fs))) with 1 by lia. reflexivity.
Qed.

Section run.
Variable W : Type.
Variable E : env W.
Notation step := (step W E).
Notation config := (config W).
Notation state := (state W).
Inductive steps (P : prog) : config -> config -> Prop :=
| st_refl c : steps P c c
| st_more c c1 c2 : step P c = Ok c1 -> steps P c1 c2 -> steps P c c2.
Lemma steps_trans P a b c : steps P a b -> steps P b c -> steps P a c.
Proof. induction 1; intros; auto. econstructor; eauto. Qed.
Lemma steps_one P a b : step P a = Ok b -> steps P a b.
Proof. intros H. econstructor; [exact H|constructor]. Qed.
Definition same {A B} (x : outcome A) (y : outcome B) : Prop :=
  match x, y with Err a, Err b => a = b | UB, UB => True | OutOfFuel, OutOfFuel => True | _, _ => False end.
Lemma same_bind {A B C} (x : outcome A) (y : outcome B) (f : B -> outcome C) : same x y -> same x (bind y f).
Proof. destruct x, y; cbn; auto; contradiction. Qed.
Lemma bind_same {A B C} (x : outcome A) (y : outcome B) (f : A -> outcome C) : same x y -> same (bind x f) y.
Proof. destruct x, y; cbn; auto; contradiction. Qed.
Definition fails {A} (P : prog) (c : config) (o : outcome A) : Prop := exists c1, steps P c c1 /\ same (step P c1) o.
Definition ovf (P : prog) (c : config) : Prop :=
  exists p s a o, steps P c (p, s) /\ nth_error (text P) p = Some (Val a o) /\ overflow_op W (consts P) s o /\ step P (p, s) = UB.
Definition Res {A} (P : prog) (c : config) (o : outcome A) (Q : config -> Prop) : Prop :=
  ovf P c \/ fails P c o \/ exists c1, steps P c c1 /\ Q c1.
Lemma res_ret {A} P c (o : outcome A) (Q : config -> Prop) : Q c -> Res P c o Q.
Proof. right. right. exists c. split; [constructor|assumption]. Qed.
Lemma res_steps {A} P c c1 (o : outcome A) Q : steps P c c1 -> Res P c1 o Q -> Res P c o Q.
Proof.
  intros S [(p & s & a & i & S1 & H)|[(c2 & S1 & H)|(c2 & S1 & H)]].
  - left. exists p, s, a, i. split; [eapply steps_trans; eauto|exact H].
  - right. left. exists c2. split; [eapply steps_trans; eauto|exact H].
  - right. right. exists c2. split; [eapply steps_trans; eauto|exact H].
Qed.
Lemma res_bind {A B} P c (o1 : outcome A) (o : outcome B) Q1 Q : Res P c o1 Q1 -> (forall x : outcome config, same x o1 -> same x o) ->
  (forall c1, Q1 c1 -> Res P c1 o Q) -> Res P c o Q.
Proof.
  intros [H|[(c2 & S1 & H)|(c2 & S1 & H)]] F K.
  - left. exact H.
  - right. left. exists c2. split; [exact S1|apply F; exact H].
  - eapply res_steps; [exact S1|apply K; exact H].
Qed.
Lemma res_fail {A} P c (o : outcome A) Q : same (step P c) o -> Res P c o Q.
Proof. right. left. exists c. split; [constructor|assumption]. Qed.

Definition ext (h : holes) (fs : fstate) (P : prog) : Prop := refines h (code fs) nohole (text P) /\ exists l, consts P = ks fs ++ l.
Lemma ext_refines h fs h1 fs1 P : ext h1 fs1 P -> refines h (code fs) h1 (code fs1) -> (exists k, ks fs1 = ks fs ++ k) -> ext h fs P.
Proof.
  intros [A [l B]] R [k Ek]. split; [eapply refines_trans; eauto|]. exists (k ++ l). rewrite B, Ek, app_assoc. reflexivity.
Qed.
Definition fixed (i : instr) : Prop := match i with Jmp None | TestSet None _ _ => False | _ => True end.
Lemma text_at h fs P p i : ext h fs P -> nth_error (code fs) p = Some i -> ~ h p -> exists i', nth_error (text P) p = Some i' /\ compat i i'.
Proof. intros [A _] H N. destruct (A p i H N) as [_ K]. exact K. Qed.
Lemma text_fixed h fs P p i : ext h fs P -> nth_error (code fs) p = Some i -> fixed i -> ~ h p -> nth_error (text P) p = Some i.
Proof.
  intros X H Fi N. destruct (text_at h fs P p i X H N) as (i' & H' & [->|C]); [exact H'|]. destruct i as [| | | | |[a|]|[d|]|]; contradiction.
Qed.
Lemma const_at h fs P k v : ext h fs P -> nth_error (ks fs) k = Some v -> nth_error (consts P) k = Some v.
Proof. intros [_ [l ->]] H. rewrite nth_app1; [exact H|]. apply nth_lt in H. exact H. Qed.

(* control is at a pending jump *)
Definition atj (c : list instr) (j : nat) (cf : config) (s : state) : Prop :=
  match tset c j with Some (b, cc) => cf = (pred j, s) /\ truthy (reg s b) = cc | None => cf = (j, s) end.
Definition arrive (fs : fstate) (cf : config) (s : state) : Prop := cf = (pc fs, s) \/ exists j, 0 < cnt (jpc fs) j /\ atj (code fs) j cf s.
Lemma tset_nth c j b cc : tset c j = Some (b, cc) -> exists q a, j = S q /\ nth_error c q = Some (TestSet a b cc).
Proof. destruct j as [|q]; cbn; [discriminate|]. destruct (nth_error c q) as [[]|] eqn:H; try discriminate. intros e. injection e as -> ->. eauto. Qed.
Definition upto (s s' : state) (r : nat) (v : val) : Prop := reg s' r = v /\ (forall x, x <> r -> reg s' x = reg s x) /\ world s' = world s.
(* a jump that has been patched; l has no hole at it *)
Lemma patched_run h c m vt r dt fs P j cf s : ext h fs P -> code fs = patchlistaux c m vt r dt -> uniq m -> (forall j, 0 < cnt m j -> jok c j) -> 0 < cnt m j ->
  ~ h j -> (forall q, j = S q -> ~ h q) -> atj c j cf s ->
  match tset c j with
  | Some (b, cc) => exists s', steps P cf (vt, s') /\ match r with Some r => upto s s' r (reg s b) | None => s' = s end
  | None => match dt with Some d => steps P cf (d, s) | None => True end
  end.
Proof.
  intros X Ec U J Hj Nj Nq A. destruct (patch_spec c m vt r dt U) as [_ N]; [intros k Hk; apply (J k Hk)|].
  unfold atj in A. destruct (tset c j) as [[b cc]|] eqn:T.
  - destruct A as [-> Tr]. destruct (tset_nth c j b cc T) as (q & a & -> & Hq). cbn [pred].
    destruct (J (S q) Hj) as [Jq Ta]. assert (a = None) by (eapply Ta; eauto). subst a.
    assert (TJ: nth_error (text P) (S q) = Some (Jmp (Some vt))).
    { apply (text_fixed h fs P); [exact X| |exact Logic.I|exact Nj]. rewrite Ec, N. unfold pnth. apply Nat.ltb_lt in Hj. rewrite Hj, T. reflexivity. }
    assert (TQ: nth_error (text P) q = Some (set_test r b cc)).
    { apply (text_fixed h fs P); [exact X| |unfold set_test; destruct r as [r|]; [destruct (r =? b)|]; exact Logic.I|apply Nq; reflexivity].
      rewrite Ec, N. unfold pnth. assert (Z: cnt m q = 0).
      { destruct (Nat.eq_dec (cnt m q) 0) as [z|z]; [exact z|]. destruct (J q) as [Jx _]; [lia|]. unfold isjmp in Jx. congruence. }
      rewrite Z. change (0 <? 0) with false. cbv iota. apply Nat.ltb_lt in Hj. rewrite Hj, Hq. reflexivity. }
    assert (SJ: forall s', step P (S q, s') = Ok (vt, s')) by (intros s'; unfold Gen_model.step; rewrite TJ; reflexivity).
    assert (EB: Bool.eqb (truthy (reg s b)) cc = true) by (rewrite Tr; apply eqb_reflx).
    unfold set_test in TQ. destruct r as [r|].
    + destruct (Nat.eqb_spec r b) as [->|Nrb].
      * exists s. split; [|repeat split; auto]. econstructor; [|apply steps_one; apply SJ]. unfold Gen_model.step. rewrite TQ, EB. reflexivity.
      * exists (setr s r (reg s b) (world s)). split.
        -- econstructor; [|apply steps_one; apply SJ]. unfold Gen_model.step. rewrite TQ, EB. reflexivity.
        -- repeat split; cbn; [rewrite Nat.eqb_refl; reflexivity|]. intros x Hx. apply Nat.eqb_neq in Hx. rewrite Hx. reflexivity.
    + exists s. split; [|reflexivity]. econstructor; [|apply steps_one; apply SJ]. unfold Gen_model.step. rewrite TQ, EB. reflexivity.
  - destruct dt as [d|]; [|exact Logic.I]. subst cf. apply steps_one.
    assert (TJ: nth_error (text P) j = Some (Jmp (Some d))).
    { apply (text_fixed h fs P); [exact X| |exact Logic.I|exact Nj]. rewrite Ec, N. unfold pnth. apply Nat.ltb_lt in Hj. rewrite Hj, T. reflexivity. }
    unfold Gen_model.step. rewrite TJ. reflexivity.
Qed.
Lemma jok_len c j : jok c j -> j < length c.
Proof. intros [J _]. apply nth_lt in J. exact J. Qed.
(* the pending jumps reach the next instruction *)
Lemma dj_run (h : holes) fs P cf s : Pre fs -> ext h (dischargejpc fs) P -> (forall p, h p -> pc fs <= p) -> arrive fs cf s -> steps P cf (pc fs, s).
Proof.
  intros P0 X Hh [->|(j & Hj & A)]; [constructor|]. pose proof (jok_len _ _ (p_jok _ P0 j Hj)) as L.
  assert (Nh: forall q, q <= j -> ~ h q) by (intros q Hq K; apply Hh in K; unfold pc in K; lia).
  pose proof (patched_run h (code fs) (jpc fs) (pc fs) None (Some (pc fs)) (dischargejpc fs) P j cf s X eq_refl (p_uniq _ P0) (p_jok _ P0) Hj) as R.
  assert (R1: ~ h j) by (apply Nh; lia). assert (R2: forall q, j = S q -> ~ h q) by (intros q e; apply Nh; lia).
  specialize (R R1 R2 A). destruct (tset (code fs) j) as [[b cc]|]; [|exact R]. destruct R as (s' & R & ->). exact R.
Qed.
Lemma emit_run (h' : holes) fs i P cf s : Pre fs -> ext h' (emit fs i) P -> (forall p, h' p -> pc fs <= p) -> arrive fs cf s -> steps P cf (pc fs, s).
Proof.
  intros P0 X Hh A. apply (dj_run h' fs P cf s P0); auto.
  apply (ext_refines h' (dischargejpc fs) h' (emit fs i) P X); [|exists []; rewrite app_nil_r; reflexivity].
  unfold emit. cbn [code with_code]. apply refines_app. intros p Hp. apply Hh in Hp. rewrite <- (pc_dj fs P0) in Hp. exact Hp.
Qed.
Lemma condjump_run (h' : holes) fs i P cf s : Pre fs -> ext h' (fst (condjump fs i)) P -> (forall p, h' p -> pc fs <= p) -> arrive fs cf s -> steps P cf (pc fs, s).
Proof.
  intros P0 X Hh A. apply (dj_run h' fs P cf s P0); auto. rewrite condjump_eq in X. cbn [fst] in X.
  eapply (ext_refines h' (dischargejpc fs) h' _ P X); [|exists []; rewrite app_nil_r; reflexivity].
  cbn [code with_code]. apply refines_app. intros p Hp. apply Hh in Hp. rewrite <- (pc_dj fs P0) in Hp. exact Hp.
Qed.
Lemma arrive_mono fs fs' cf s : code fs' = code fs -> (forall j, 0 < cnt (jpc fs) j -> 0 < cnt (jpc fs') j) -> arrive fs cf s -> arrive fs' cf s.
Proof.
  intros Ec Hj [->|(j & H & A)]; [left; unfold pc; rewrite Ec; reflexivity|]. right. exists j. rewrite Ec. auto.
Qed.
End run.
