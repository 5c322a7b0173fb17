(* The theorems about the code generator. *)
Require Import ZArith List Bool Arith Lia.
From Coq Require Import Floats.SpecFloat.
From Verif Require Import Base Float_model Op_model Op_spec Op_proofs Gen_model Gen_spec Gen_facts Gen_run Gen_inv Gen_ops Gen_put Gen_cond Gen_not Gen_seq Gen_opr Gen_opr2 Gen_gen Gen_store Gen_store2.
Import ListNotations.
Local Open Scope nat_scope.

Lemma tset_dj fs0 fs h l j : Grow fs0 fs h l -> 0 < cnt l j -> tset (code (dischargejpc fs)) j = tset (code fs) j.
Proof.
  intros G H. pose proof (grow_pre _ _ _ _ G) as P1. assert (J: jok (code fs) j) by (apply (g_jok _ _ _ _ G); rewrite cnt_app; lia).
  assert (Z: cnt (jpc fs) j = 0) by (pose proof (g_uniq _ _ _ _ G j) as U; rewrite cnt_app in U; lia).
  destruct (patch_jok (code fs) (jpc fs) (pc fs) None (Some (pc fs)) j (p_uniq _ P1) (p_jok _ P1) J Z) as [_ T1]. exact T1.
Qed.
Section top.
Variable W : Type.
Variable E : env W.
Lemma steps_runs P c c1 : steps W E P c c1 -> runs W E P c c1.
Proof. induction 1; [constructor|econstructor; eauto]. Qed.
Lemma res_computes P c (o : outcome (val * W)) (Q : config W -> Prop) (final : val -> W -> config W -> Prop) : Res W E P c o Q ->
  (forall c1, Q c1 -> exists v w c2, o = Ok (v, w) /\ steps W E P c1 c2 /\ final v w c2) -> computes W E P c o final.
Proof.
  intros [(p & s & a & op & St & T & Ov & _)|[(c1 & St & Sm)|(c1 & St & H)]] F.
  - left. exists p, s, a, op. split; [apply steps_runs; exact St|auto].
  - right. apply steps_runs in St. destruct (step W E P c1) as [?| | |] eqn:Sp, o as [[? ?]| | |]; cbn in Sm; try contradiction; subst; exists c1; auto.
  - right. destruct (F c1 H) as (v & w & c2 & -> & S2 & Fn). exists c2. split; [apply steps_runs; eapply steps_trans; eauto|exact Fn].
Qed.
Lemma starts_pre n lt ut fs : starts n lt ut fs -> Pre fs.
Proof.
  intros (_ & _ & _ & _ & J & K & L). split.
  - rewrite J. intros j. cbn. lia.
  - rewrite J. cbn. intros j H. lia.
  - exact K.
  - intros q Hq a b cc. apply L. exact Hq.
Qed.
Lemma goes_on_ext fs P : goes_on fs P -> ext nohole (dischargejpc fs) P.
Proof.
  intros [[l Ht] K]. split; [|exact K]. rewrite Ht. apply refines_app. intros p [].
Qed.

Lemma start_run n lt ut x fs fs1 e : plain W E ut -> types_ok n lt ut -> tame n lt ut x = true -> starts n lt ut fs -> gen (fmod E) (fpow E) fs x = Ok (fs1, e) ->
  INV W E fs (freereg fs) fs1 e (eval W E n lt ut x) /\ vty e = styp n lt ut x /\ SH n x fs1 e.
Proof.
  intros PL [T1 T2] Tm St G. pose proof (starts_pre _ _ _ _ St) as P0. destruct St as (A1 & A2 & A3 & A4 & _).
  exact (proj1 (gen_good n lt ut T1 T2 W E PL) x Tm fs fs1 e P0 A1 A3 A4 A2 G).
Qed.
Lemma value_ok n lt ut x fs fs1 e fs2 e2 P s : plain W E ut -> types_ok n lt ut -> tame n lt ut x = true -> starts n lt ut fs ->
  gen (fmod E) (fpow E) fs x = Ok (fs1, e) -> exp2nextreg fs1 e = (fs2, e2) -> goes_on fs2 P -> (forall r, r < n -> hast (lt r) (reg s r)) ->
  e2 = mk (VNonreloc (freereg fs)) [] [] (styp n lt ut x) /\ freereg fs2 = S (freereg fs) /\
  (forall v w, eval W E n lt ut x (reg s) (world s) = Ok (v, w) -> hast (styp n lt ut x) v) /\
  computes W E P (pc fs, s) (eval W E n lt ut x (reg s) (world s)) (fun v w c =>
    exists s', c = (pc fs2, s') /\ reg s' (freereg fs) = v /\ world s' = w /\ forall r, r < freereg fs -> reg s' r = reg s r).
Proof.
  intros PL TO Tm St G X GO Ht. pose proof (starts_pre _ _ _ _ St) as P0. destruct (start_run _ _ _ _ _ _ _ PL TO Tm St G) as (I0 & V & S). destruct St as (A1 & A2 & A3 & A4 & _).
  assert (Lq: nactvar fs <= freereg fs) by lia. destruct (exp2nextreg_inv W E _ _ _ _ _ _ _ P0 Lq I0 X) as (I1 & -> & F1). rewrite V in *.
  assert (O: okst W fs s) by (intros r Hr; rewrite A3; apply Ht; lia).
  split; [reflexivity|]. split; [exact F1|]. split; [exact (i_ty _ _ _ _ _ _ _ I1 s O)|].
  destruct (operand_g W E fs (freereg fs) fs2 _ _ (R (freereg fs)) (styp n lt ut x) Lq I1 eq_refl) as (H & Gr & _). pose proof (grow_pre _ _ _ _ Gr) as P2.
  pose proof (goes_on_ext _ _ GO) as Xd. assert (Xp: ext nohole fs2 P) by (eapply ext_refines; [exact Xd|apply refines_dj; exact P2|exists []; rewrite app_nil_r; reflexivity]).
  eapply res_computes; [apply (H P Xp (pc fs, s) s O); left; reflexivity|].
  intros c1 (s' & v & Ke & Ar & Ev & [Rv _]). exists v, (world s'), (pc fs2, s'). split; [exact Ev|]. split; [apply (dj_run W E nohole fs2 P c1 s' P2 Xd); [intros p []|exact Ar]|].
  exists s'. cbn in Rv. injection Rv as <-. auto.
Qed.

Lemma goiftrue_ok n lt ut x fs fs1 e fs2 e2 d P s : plain W E ut -> types_ok n lt ut -> tame n lt ut x = true -> tested n lt ut x T_FALSISH = true -> starts n lt ut fs ->
  gen (fmod E) (fpow E) fs x = Ok (fs1, e) -> goiftrue fs1 e = (fs2, e2) -> branches fs2 (ef e2) d P -> (forall r, r < n -> hast (lt r) (reg s r)) ->
  freereg fs2 = freereg fs /\
  computes W E P (pc fs, s) (eval W E n lt ut x (reg s) (world s)) (fun v w c =>
    exists s', c = (if truthy v then pc fs2 else d, s') /\ world s' = w /\ forall r, r < freereg fs -> reg s' r = reg s r).
Proof.
  intros PL TO Tm Td St G X [[l Ht] [lk Hk]] Hs. pose proof (starts_pre _ _ _ _ St) as P0. destruct (start_run _ _ _ _ _ _ _ PL TO Tm St G) as (I0 & V & S). destruct St as (A1 & A2 & A3 & A4 & _).
  assert (Lq: nactvar fs <= freereg fs) by lia.
  assert (Tp: temporary (nactvar fs) e -> none_of (vty e) T_FALSISH = false).
  { rewrite A1. intros T. rewrite V. apply tested_temp; [exact Td|]. eapply sh_temporary; eauto. }
  destruct (goiftrue_inv W E _ _ _ _ _ _ _ P0 Lq I0 (sh_vk _ _ _ _ S) Tp X) as (Ga & F1 & _ & _ & Hc & _). split; [exact F1|].
  assert (O: okst W fs s) by (intros r Hr; rewrite A3; apply Hs; lia).
  pose proof (grow_pre _ _ _ _ Ga) as P2. pose proof (grow_dj _ _ _ _ P0 Ga) as Gd.
  assert (U: uniq (ef e2)) by (intros j; pose proof (g_uniq _ _ _ _ Gd j) as U; rewrite cnt_app in U; lia).
  assert (J: forall j, 0 < cnt (ef e2) j -> jok (code (dischargejpc fs2)) j) by (intros j Hj; apply (g_jok _ _ _ _ Gd); rewrite cnt_app; lia).
  set (fs3 := with_code (dischargejpc fs2) (patchlistaux (code (dischargejpc fs2)) (ef e2) d None (Some d))).
  assert (X3: ext nohole fs3 P).
  { split; [|exists lk; exact Hk]. rewrite Ht. apply refines_app. intros p []. }
  assert (Xd: ext nohole (dischargejpc fs2) P).
  { eapply ext_refines; [exact X3|apply refines_patch; [exact U|exact J]|exists []; rewrite app_nil_r; reflexivity]. }
  assert (Xp: ext nohole fs2 P) by (eapply ext_refines; [exact Xd|apply refines_dj; exact P2|exists []; rewrite app_nil_r; reflexivity]).
  eapply res_computes; [apply (Hc P Xp (pc fs, s) s O); left; reflexivity|].
  intros c1 (s' & Ke & [[Ar (v & Ev & Tv)]|[(j & Hj & _)|(j & Hj & At & Ev)]]).
  - exists v, (world s'), (pc fs2, s'). split; [exact Ev|]. split; [apply (dj_run W E nohole fs2 P c1 s' P2 Xd); [intros p []|exact Ar]|]. exists s'. rewrite Tv. auto.
  - cbn in Hj. lia.
  - pose proof (tset_dj _ _ _ _ _ Ga Hj) as Td'. 
    assert (At': atj W (code (dischargejpc fs2)) j c1 s') by (unfold atj in *; rewrite Td'; exact At).
    pose proof (patched_run W E nohole (code (dischargejpc fs2)) (ef e2) d None (Some d) fs3 P j c1 s' X3 eq_refl U J Hj ltac:(intros []) ltac:(intros q _ []) At') as R. rewrite Td' in R.
    unfold atj in At. destruct (tset (code fs2) j) as [[b cc]|].
    + destruct R as (s2 & R & ->). destruct At as [_ Tr], Ev as [Ec Ev]. rewrite Ec in Tr. exists (reg s' b), (world s'), (d, s'). split; [exact Ev|]. split; [exact R|]. exists s'. rewrite Tr. auto.
    + exists (Bool false), (world s'), (d, s'). split; [exact Ev|]. split; [exact R|]. exists s'. auto.
Qed.

(* cond treats nil as false *)
Ltac bo Q H := match type of Q with bind ?o ?f = Ok ?z => destruct o as [[? ?]| | |] eqn:H; cbn [bind] in Q; try discriminate Q end.
Ltac okeq Q := match type of Q with Ok ?a = Ok ?b => apply (f_equal (fun o => match o with Ok x => x | _ => b end)) in Q; cbv beta iota in Q end.
Fixpoint tofalse (x : expr) : expr :=
  match x with ENil => EFalse | EParen a => EParen (tofalse a) | EBin BAnd a b => EBin BAnd a (tofalse b) | EBin BOr a b => EBin BOr a (tofalse b) | _ => x end.
Definition alike (o o' : outcome (val * W)) : Prop :=
  match o, o' with Ok (v, w), Ok (v', w') => truthy v = truthy v' /\ w = w' | _, _ => o = o' end.
Lemma alike_refl o : alike o o.
Proof. destruct o as [[]| | |]; cbn; auto. Qed.
Lemma none_of_lor t1 t2 m : none_of (Z.lor t1 t2) m = none_of t1 m && none_of t2 m.
Proof.
  unfold none_of. rewrite Z.land_lor_distr_l. destruct (Z.eqb_spec (Z.lor (Z.land t1 m) (Z.land t2 m)) 0) as [Q|Q].
  - apply Z.lor_eq_0_iff in Q as [-> ->]. reflexivity.
  - destruct (Z.eqb_spec (Z.land t1 m) 0) as [A|A]; [|reflexivity]. destruct (Z.eqb_spec (Z.land t2 m) 0) as [B|B]; [|reflexivity]. rewrite A, B in Q. destruct Q. reflexivity.
Qed.
Lemma dv_lit fs e : (ek e = VNil \/ ek e = VFalse) -> dischargevars fs e = (fs, e).
Proof. unfold dischargevars. intros [->| ->]; reflexivity. Qed.
Lemma dv_nil fs e fs' e' : dischargevars fs e = (fs', e') -> ek e' = VNil -> fs' = fs /\ e' = e.
Proof. intros D K. destruct (dv_cases _ _ _ _ D) as [H|[(_ & r & _ & H)|[[p H] _]]]; [auto|rewrite K in H; discriminate H..]. Qed.
Lemma d2a_nonreloc fs e fs' e' : (match ek e with VReloc _ | VNonreloc _ => True | _ => False end) -> discharge2anyreg fs e = (fs', e') -> exists r, ek e' = VNonreloc r.
Proof.
  intros K D. unfold discharge2anyreg in D. destruct (ek e) eqn:Ke; try contradiction; try (injection D as <- <-; eauto; fail).
  unfold discharge2reg, dischargevars in D. rewrite Ke in D. rewrite Ke in D. injection D as <- <-. cbn. eauto.
Qed.
Lemma tofalse_gen n lt ut : forall x fs fs1 e, tame n lt ut x = true -> gen (fmod E) (fpow E) fs x = Ok (fs1, e) -> ek e = VNil ->
  exists e', gen (fmod E) (fpow E) fs (tofalse x) = Ok (fs1, e') /\ ek e' = VFalse /\ et e' = et e /\ ef e' = ef e /\ none_of (ety e') T_FALSISH = none_of (ety e) T_FALSISH /\
    shape_of (tofalse x) = Lit /\ tame n lt ut (tofalse x) = true /\ (forall l w, alike (eval W E n lt ut x l w) (eval W E n lt ut (tofalse x) l w)).
Proof.
  fix IH 1. intros x fs fs1 e Tm G K. destruct x; cbn [Gen_model.gen] in G; try (injection G as <- <-; discriminate K).
  - injection G as <- <-. exists (init VFalse T_FALSE). cbn. auto 10.
  - destruct (addk fs (Str s)) as [f1 k]. injection G as <- <-. discriminate K.
  - destruct (addk fs (Str name)) as [f1 k]. okeq G. unfold indexed in G. destruct (exp2RK _ _) as [[? ?] ?]. injection G as <- <-. discriminate K.
  - bo G G1. okeq G. destruct (dv_nil _ _ _ _ G K) as [<- <-]. destruct (IH x fs fs1 e Tm G1 K) as (e' & A1 & A2 & A3 & A4 & A5 & A6 & A7 & A8).
    exists e'. cbn [tofalse Gen_model.gen]. rewrite A1. cbn [bind]. rewrite (dv_lit fs1 e' (or_intror A2)). auto 10.
  - bo G G1. destruct (exp2anyreg f e0) as [f1 e1]. bo G G2. destruct (exp2val f0 e2) as [f3 e3]. okeq G. unfold indexed in G. destruct (exp2RK _ _) as [[? ?] ?]. injection G as <- <-. exfalso. cbn in K. destruct (ek e1); discriminate K.
  - exfalso. bo G G1. destruct o; cbn [prefix] in G.
    + assert (H: codeunexpval f o e0 = (fs1, e) -> False).
      { unfold codeunexpval. destruct (exp2anyreg f e0). destruct (codeun _ _). intros Q. injection Q as <- <-. discriminate K. }
      destruct (tonumeral e0); [|okeq G; auto]. destruct (constfolding1 o n0) as [[nn|]| | |]; cbn [bind] in G; try discriminate G; [|okeq G; auto]. injection G as <- <-. destruct nn; discriminate K.
    + okeq G. unfold codelen in G. destruct (exp2anyreg f e0) as [f1 e1]. destruct (within _ _); [injection G as <- <-; discriminate K|]. destruct (within _ _); [|injection G as <- <-; discriminate K].
      cbv zeta in G. set (e9 := with_k e1 _) in G. set (f9 := emit _ _) in G. clearbody f9. assert (K9: exists p, ek e9 = VReloc p) by (eexists; reflexivity). clearbody e9. destruct K9 as [p K9].
      unfold exp2anyreg in G. unfold dischargevars at 1 in G. rewrite K9 in G. rewrite K9 in G. unfold exp2nextreg in G. destruct (dischargevars f9 e9) as [f10 e10]. unfold exp2reg in G. destruct (discharge2reg _ _ _) as [f11 e11].
      injection G as <- <-. discriminate K.
    + okeq G. unfold codenot in G. destruct (dischargevars f e0) as [f1 e1]. destruct (ek e1) eqn:Ke; try (injection G as <- <-; cbn in K; rewrite ?Ke in K; discriminate K); destruct (discharge2anyreg f1 e1); injection G as <- <-; discriminate K.
    + unfold code_type_assertion in G. destruct (dischargevars f e0) as [f1 e1]. destruct (ek e1) eqn:Ke; try discriminate G; try (destruct c; try discriminate G; try (destruct (Z.eqb _ _); [|discriminate G]); injection G as <- <-; rewrite K in Ke; discriminate Ke);
      (destruct (discharge2anyreg f1 e1) as [f2 e2] eqn:Dd; assert (exists r, ek e2 = VNonreloc r) as [r9 Kr] by (eapply d2a_nonreloc; [|exact Dd]; rewrite Ke; exact Logic.I);
      destruct (nothing_to_do _ _); injection G as <- <-; cbn in K; rewrite Kr in K; discriminate K).
  - bo G G1. destruct (infix f o e0) as [f1 e1] eqn:X. bo G G2. destruct o; cbn [posfix] in G.
    + exfalso. assert (H: codebinexpval f0 o e1 e2 = (fs1, e) -> False).
      { unfold codebinexpval. destruct (exp2RK f0 e2) as [[? ?] ?]. destruct (exp2RK _ e1) as [[? ?] ?]. destruct (codebin _ _ _) as [[? ?] ?]. intros Q. injection Q as <- <-. discriminate K. }
      destruct (tonumeral e1); [|okeq G; auto]. destruct (tonumeral e2); [|okeq G; auto]. destruct (constfolding _ _ _ _ _) as [[nn|]| | |]; cbn [bind] in G; try discriminate G; [|okeq G; auto]. injection G as <- <-. destruct nn; discriminate K.
    + exfalso. destruct (exp2val f0 e2) as [f3 e3]. destruct (ek e3); try (destruct (exp2nextreg f3 e3); injection G as <- <-; discriminate K).
      destruct (nth_error _ _) as [[]|]; try (destruct (exp2nextreg f3 e3); injection G as <- <-; discriminate K). destruct o; try (destruct (exp2nextreg f3 e3); injection G as <- <-; discriminate K); injection G as <- <-; discriminate K.
    + exfalso. okeq G. unfold codecomp in G. destruct (exp2RK f0 e2) as [[? ?] ?]. destruct (condjump _ _). injection G as <- <-. discriminate K.
    + destruct (dischargevars f0 e2) as [f3 e3] eqn:D. injection G as <- <-. cbn [ek] in K. destruct (dv_nil _ _ _ _ D K) as [-> ->]. 
      cbn [tame] in Tm. apply andb_prop in Tm as [Tm T3]. apply andb_prop in Tm as [T1 T2]. destruct (IH _ _ _ _ T2 G2 K) as (e' & A1 & A2 & A3 & A4 & A5 & A6 & A7 & A8).
      cbn [tofalse Gen_model.gen]. rewrite G1. cbn [bind]. rewrite X, A1. cbn [bind posfix]. rewrite (dv_lit f0 e' (or_intror A2)). eexists. split; [reflexivity|]. cbn [ek et ef ety]. rewrite A2, A3, A4.
      split; [reflexivity|]. split; [reflexivity|]. split; [reflexivity|]. split; [destruct (none_of (ety e1) T_TRUISH); [reflexivity|]; rewrite !none_of_lor, A5; reflexivity|]. split; [exact A6|].
      split; [cbn [tame]; rewrite T1, A7, T3; reflexivity|]. intros l w. cbn. destruct (eval W E n lt ut x1 l w) as [[v w']| | |]; cbn; auto. destruct (truthy v); [apply A8|cbn; auto].
    + destruct (dischargevars f0 e2) as [f3 e3] eqn:D. injection G as <- <-. cbn [ek] in K. destruct (dv_nil _ _ _ _ D K) as [-> ->]. 
      cbn [tame] in Tm. apply andb_prop in Tm as [Tm T3]. apply andb_prop in Tm as [T1 T2]. destruct (IH _ _ _ _ T2 G2 K) as (e' & A1 & A2 & A3 & A4 & A5 & A6 & A7 & A8).
      cbn [tofalse Gen_model.gen]. rewrite G1. cbn [bind]. rewrite X, A1. cbn [bind posfix]. rewrite (dv_lit f0 e' (or_intror A2)). eexists. split; [reflexivity|]. cbn [ek et ef ety]. rewrite A2, A3, A4.
      split; [reflexivity|]. split; [reflexivity|]. split; [reflexivity|]. split; [destruct (none_of (ety e1) T_FALSISH); [reflexivity|]; rewrite !none_of_lor, A5; reflexivity|]. split; [exact A6|].
      split; [cbn [tame]; rewrite T1, A7, T3; reflexivity|]. intros l w. cbn. destruct (eval W E n lt ut x1 l w) as [[v w']| | |]; cbn; auto. destruct (truthy v); [cbn; auto|apply A8].
  - exfalso. bo G G1. destruct (exp2nextreg f e0). bo G G2. injection G as <- <-. discriminate K.
Qed.
Lemma goiftrue_alike fs e e' : ek e' = VFalse -> et e' = et e -> ef e' = ef e -> none_of (ety e') T_FALSISH = none_of (ety e) T_FALSISH -> fst (goiftrue fs (with_k e VFalse)) = fst (goiftrue fs e') /\ ef (snd (goiftrue fs (with_k e VFalse))) = ef (snd (goiftrue fs e')).
Proof.
  intros K T F N. destruct e as [k t f ty], e' as [k' t' f' ty']. cbn [ek et ef ety] in *. subst. unfold goiftrue, with_k, dischargevars. cbn [ek et ef ety]. rewrite N. destruct (none_of ty T_FALSISH); cbn; auto.
Qed.
Lemma computes_alike P c (o o' : outcome (val * W)) (F : bool -> W -> config W -> Prop) : alike o o' -> computes W E P c o' (fun v w c => F (truthy v) w c) -> computes W E P c o (fun v w c => F (truthy v) w c).
Proof.
  intros A [H|H]; [left; exact H|right]. unfold alike in A. destruct o as [[v w]| | |], o' as [[v' w']| | |]; try discriminate A; try exact H.
  - destruct A as [-> ->]. exact H.
  - injection A as <-. exact H.
Qed.
Lemma cond_ok n lt ut x fs fs1 e fs2 l d P s : plain W E ut -> types_ok n lt ut -> tame n lt ut x = true -> tested n lt ut x T_FALSISH = true -> starts n lt ut fs ->
  gen (fmod E) (fpow E) fs x = Ok (fs1, e) -> cond fs1 e = (fs2, l) -> branches fs2 l d P -> (forall r, r < n -> hast (lt r) (reg s r)) ->
  freereg fs2 = freereg fs /\
  computes W E P (pc fs, s) (eval W E n lt ut x (reg s) (world s)) (fun v w c =>
    exists s', c = (if truthy v then pc fs2 else d, s') /\ world s' = w /\ forall r, r < freereg fs -> reg s' r = reg s r).
Proof.
  intros PL TO Tm Td St G C B Hs. unfold cond in C.
  assert (Dec: ek e = VNil \/ (match ek e with VNil => with_k e VFalse | _ => e end) = e) by (destruct (ek e); auto).
  destruct Dec as [K|K].
  - rewrite K in C. destruct (tofalse_gen _ _ _ _ _ _ _ Tm G K) as (e' & A1 & A2 & A3 & A4 & A5 & A6 & A7 & A8).
    destruct (goiftrue_alike fs1 e e' A2 A3 A4 A5) as [B1 B2]. destruct (goiftrue fs1 (with_k e VFalse)) as [f9 e9]. destruct (goiftrue fs1 e') as [f8 e8] eqn:X. cbn in B1, B2. subst. injection C as <- <-. rewrite B2 in B.
    destruct (goiftrue_ok n lt ut (tofalse x) fs fs1 e' f8 e8 d P s PL TO A7 ltac:(unfold tested; rewrite A6; reflexivity) St A1 X B Hs) as [H1 H2]. split; [exact H1|].
    exact (computes_alike P _ _ _ (fun b w c => exists s', c = (if b then pc f8 else d, s') /\ world s' = w /\ forall r, r < freereg fs -> reg s' r = reg s r) (A8 _ _) H2).
  - rewrite K in C. destruct (goiftrue fs1 e) as [f9 e9] eqn:X. injection C as <- <-. exact (goiftrue_ok _ _ _ _ _ _ _ _ _ _ _ _ PL TO Tm Td St G X B Hs).
Qed.

(* assignments to local variables *)
Lemma exp2reg_local fs e r : et e = [] -> ef e = [] -> (forall p, ek (snd (discharge2reg fs e r)) <> VJmp p) -> fst (exp2reg fs e r) = fst (discharge2reg fs e r) \/ et (snd (discharge2reg fs e r)) <> [] \/ ef (snd (discharge2reg fs e r)) <> [].
Proof.
  intros Et Ef Nj. unfold exp2reg. destruct (discharge2reg fs e r) as [f1 e1]. cbn in *. assert (et e1 = [] \/ et e1 <> []) as [A|A] by (destruct (et e1); [auto|right; discriminate]); [|auto]. assert (ef e1 = [] \/ ef e1 <> []) as [B|B] by (destruct (ef e1); [auto|right; discriminate]); [|auto]. left.
  assert (hasjumps (match ek e1 with VJmp p => mk (ek e1) (et e1 ++ [p]) (ef e1) (ety e1) | _ => e1 end) = false) as ->; [|reflexivity].
  unfold hasjumps. destruct (ek e1) eqn:K; rewrite ?A, ?B; try reflexivity. exfalso. eapply Nj. eauto.
Qed.
Lemma store_tail n lt fs fs1 e rs r fs2 P s : Pre fs -> nactvar fs = n -> lty fs = lt -> r < n -> n <= freereg fs -> INV W E fs (freereg fs) fs1 e rs -> (forall p, ek e <> VJmp p) -> et e = [] -> ef e = [] ->
  declared (lt r) -> ((exists x, ek e = VNonreloc x) \/ forall c, conv_of (lt r) = Some c -> nothing_to_do c (vty e) = true) ->
  fst (exp2reg (freeexp fs1 e) e r) = fs2 -> goes_on fs2 P -> (forall r, r < n -> hast (lt r) (reg s r)) ->
  freereg fs2 = freereg fs /\
  Res W E P (pc fs, s) (then1 W rs (coerceW W (lt r)) (reg s) (world s)) (fun c => exists v w s', then1 W rs (coerceW W (lt r)) (reg s) (world s) = Ok (v, w) /\ steps W E P c (pc fs2, s') /\ reg s' r = v /\ world s' = w /\ forall q, q < freereg fs -> q <> r -> reg s' q = reg s q).
Proof.
  intros P0 A1 A3 Lr Lf I0 Nj Et Ef Dc Sta X GO Hs.
  assert (Lq: nactvar fs <= freereg fs) by lia. assert (O: okst W fs s) by (intros q Hq; rewrite A3; apply Hs; lia).
  (* discharge *)
  destruct (dischargevars (freeexp fs1 e) e) as [fx ex] eqn:Dx.
  assert (D: exists fy, INV W E fs (freereg fs) fy ex rs /\ samefs fy fx /\ discharged (ek ex) /\ vty ex = vty e /\ et ex = [] /\ ef ex = [] /\ freereg fx = freereg fs /\ (forall p, ek ex <> VJmp p)).
  { assert (Dk: (exists x, ek e = VNonreloc x) \/ freeexp fs1 e = fs1) by (unfold freeexp; destruct (ek e); eauto).
    destruct Dk as [[x Kx]|Fe].
    - assert (dischargevars (freeexp fs1 e) e = (freeexp fs1 e, e)) as Q by (unfold dischargevars; rewrite Kx; reflexivity). rewrite Q in Dx. injection Dx as <- <-. exists fs1.
      assert (De: discharged (ek e)) by (rewrite Kx; exact Logic.I).
      destruct (freeexp_base (nactvar fs) (freereg fs) fs1 e Lq (g_nact _ _ _ _ (i_grow _ _ _ _ _ _ _ I0)) (i_kind _ _ _ _ _ _ _ I0) De) as [Fb Sf]. auto 10.
    - rewrite Fe in Dx. destruct (dischargevars_inv W E _ _ _ _ _ _ _ P0 I0 Dx) as (I1 & D1 & Ty & Et1 & Ef1). exists fx. split; [exact I1|]. split; [apply same_refl|]. split; [exact D1|]. split; [exact Ty|].
      split; [congruence|]. split; [congruence|]. 
      destruct (dv_cases _ _ _ _ Dx) as [[-> ->]|[(-> & y & Ky & Kx)|[[p Kx] _]]].
      + split; [|exact Nj]. pose proof (i_kind _ _ _ _ _ _ _ I1) as Ki. unfold kindok in Ki. destruct (ek e) eqn:Ke; cbn in D1; try contradiction; try lia; try (intuition; fail).
        destruct Ki as [Ki|[-> Ki]]; [lia|]. exfalso. unfold freeexp in Fe. rewrite Ke in Fe. unfold free_reg in Fe. rewrite (g_nact _ _ _ _ (i_grow _ _ _ _ _ _ _ I1)) in Fe.
        destruct (Nat.leb_spec (nactvar fs) (freereg fs)); [|lia]. apply (f_equal freereg) in Fe. cbn in Fe. lia.
      + split; [|intros p Q; congruence]. pose proof (i_kind _ _ _ _ _ _ _ I0) as Ki. unfold kindok in Ki. rewrite Ky in Ki. lia.
      + split; [|intros q Q; congruence]. pose proof (i_kind _ _ _ _ _ _ _ I1) as Ki. unfold kindok in Ki. rewrite Kx in Ki. lia. }
  destruct D as (fy & I1 & Sf & D1 & Ty & Et1 & Ef1 & Fr & Nj1).
  assert (Dr: discharge2reg (freeexp fs1 e) e r = discharge2reg fx ex r).
  { unfold discharge2reg. rewrite Dx. assert (dischargevars fx ex = (fx, ex)) as -> by (unfold dischargevars; destruct (ek ex); cbn in D1; try contradiction; reflexivity). reflexivity. }
  destruct (discharge2reg fx ex r) as [f2 e2] eqn:D2. 
  assert (St1: (exists x, ek ex = VNonreloc x) \/ (forall c, conv_of (lty fs r) = Some c -> nothing_to_do c (ety ex) = true)).
  { rewrite A3. destruct Sta as [[x K]|Sta].
    - left. unfold dischargevars in Dx. rewrite K in Dx. injection Dx as _ <-. eauto.
    - right. intros c Hc. specialize (Sta c Hc). rewrite <- Ty in Sta. unfold vty in Sta. destruct (ek ex); cbn in D1; try contradiction; exact Sta. }
  destruct (d2r_local W E fs (freereg fs) fy ex rs r fx f2 e2 P0 ltac:(lia) Lq I1 D1 Nj1 Et1 Ef1 ltac:(rewrite A3; exact Dc) St1 Sf D2) as (H & G & E2 & F2).
  assert (fs2 = f2) as ->.
  { rewrite <- X. destruct (exp2reg_local (freeexp fs1 e) e r Et Ef) as [Q|Q]; rewrite Dr in *; cbn in *; auto.
    - subst e2. intros p Q. discriminate Q.
    - subst e2. cbn in Q. rewrite Et1, Ef1 in Q. destruct Q as [Q|Q]; contradiction. }
  split; [lia|]. pose proof (grow_pre _ _ _ _ G) as P2. pose proof (goes_on_ext _ _ GO) as Xd.
  assert (Xp: ext nohole f2 P) by (eapply ext_refines; [exact Xd|apply refines_dj; exact P2|exists []; rewrite app_nil_r; reflexivity]).
  rewrite A3 in H. eapply res_imp; [|apply (H P Xp (pc fs, s) s O); left; reflexivity].
  intros c (s' & Ar & Er & Ke). exists (reg s' r), (world s'), s'. split; [exact Er|]. split; [apply (dj_run W E nohole f2 P c s' P2 Xd); [intros p []|exact Ar]|]. auto.
Qed.
Lemma coerce_hast t v v' : declared t -> coerce t v = Ok v' -> hast t v'.
Proof.
  intros D C. destruct (conv_of_cases _ D) as [[-> _]|(c & Hc & ->)]; [apply hast_any|]. unfold coerce in C. rewrite Hc in C. destruct c; cbn in C.
  - destruct (tointns v) as [[z|]| | |]; cbn in C; try discriminate C. injection C as <-. reflexivity.
  - destruct (tonumberns v); try discriminate C. injection C as <-. reflexivity.
  - destruct v; try discriminate C; injection C as <-; reflexivity.
  - destruct v; try discriminate C; injection C as <-; reflexivity.
  - destruct v; try discriminate C; injection C as <-; reflexivity.
  - destruct v; try discriminate C; injection C as <-; reflexivity.
  - destruct v; try discriminate C; injection C as <-; reflexivity.
Qed.
Lemma exp2RK_reloc fs0 b0 fs e rs fs2 e2 x : Pre fs0 -> nactvar fs0 <= b0 -> INV W E fs0 b0 fs e rs -> et e = [] -> ef e = [] -> (match ek e with VReloc _ | VUpval _ | VIndexed _ _ _ _ => True | _ => False end) ->
  exp2RK fs e = (fs2, e2, x) -> x = R b0 /\ INV W E fs0 b0 fs2 e2 rs /\ e2 = mk (VNonreloc b0) [] [] (vty e).
Proof.
  intros P0 L I0 Et Ef K X. assert (Va: exp2val fs e = dischargevars fs e) by (unfold exp2val, hasjumps; rewrite Et, Ef; reflexivity). destruct (dischargevars fs e) as [fa ea] eqn:Da.
  destruct (dischargevars_inv W E _ _ _ _ _ _ _ P0 I0 Da) as (I1 & D1 & Ty & Et1 & Ef1).
  assert (Kr: exists p, ek ea = VReloc p).
  { destruct (dv_cases _ _ _ _ Da) as [[-> ->]|[(_ & r & Ky & _)|[H _]]]; [|rewrite Ky in K; contradiction|exact H]. destruct (ek e); cbn in D1; try contradiction. eauto. }
  destruct Kr as [p Kr]. assert (Dv: dischargevars fa ea = (fa, ea)) by (unfold dischargevars; rewrite Kr; reflexivity).
  assert (Ya: exp2anyreg fa ea = exp2nextreg fa ea) by (unfold exp2anyreg; rewrite Dv, Kr; reflexivity).
  destruct (exp2nextreg fa ea) as [fb eb] eqn:Xn. destruct (exp2nextreg_inv W E _ _ _ _ _ _ _ P0 L I1 Xn) as (I2 & -> & _).
  assert (Q: exp2RK fs e = (fb, mk (VNonreloc b0) [] [] (vty ea), R b0)) by (unfold exp2RK; rewrite Va; cbv zeta; rewrite Kr, Ya; reflexivity).
  rewrite Q in X. injection X as <- <- <-. rewrite <- Ty. auto.
Qed.
Lemma dv_local fs e fs' e' r : dischargevars fs e = (fs', e') -> ek e' <> VLocal r.
Proof. intros D K. unfold dischargevars in D. destruct (ek e) eqn:Ke; try (injection D as <- <-; cbn in K; congruence); try (destruct (codeget _ _ _); injection D as <- <-; cbn in K; congruence). Qed.
Lemma gen_local x fs fs1 e r : gen (fmod E) (fpow E) fs x = Ok (fs1, e) -> ek e = VLocal r -> x = ELocal r /\ fs1 = fs.
Proof.
  intros G K. destruct x; cbn [Gen_model.gen] in G; try (injection G as <- <-; discriminate K).
  - destruct (addk fs (Str s)) as [f1 k]. injection G as <- <-. discriminate K.
  - injection G as <- <-. injection K as <-. auto.
  - destruct (addk fs (Str name)) as [f1 k]. okeq G. unfold indexed in G. destruct (exp2RK _ _) as [[? ?] ?]. injection G as <- <-. discriminate K.
  - bo G G1. okeq G. destruct (dv_local _ _ _ _ r G K).
  - bo G G1. destruct (exp2anyreg f e0) as [f1 e1]. bo G G2. destruct (exp2val f0 e2) as [f3 e3]. okeq G. unfold indexed in G. destruct (exp2RK _ _) as [[? ?] ?]. injection G as <- <-. exfalso. cbn in K. destruct (ek e1); discriminate K.
  - exfalso. bo G G1. destruct o; cbn [prefix] in G.
    + assert (H: codeunexpval f o e0 = (fs1, e) -> False).
      { unfold codeunexpval. destruct (exp2anyreg f e0). destruct (codeun _ _). intros Q. injection Q as <- <-. discriminate K. }
      destruct (tonumeral e0); [|okeq G; auto]. destruct (constfolding1 o n) as [[nn|]| | |]; cbn [bind] in G; try discriminate G; [|okeq G; auto]. injection G as <- <-. destruct nn; discriminate K.
    + okeq G. unfold codelen in G. destruct (exp2anyreg f e0) as [f1 e1]. destruct (within _ _); [injection G as <- <-; discriminate K|]. destruct (within _ _); [|injection G as <- <-; discriminate K].
      cbv zeta in G. set (e9 := with_k e1 _) in G. set (f9 := emit _ _) in G. clearbody f9. assert (K9: exists p, ek e9 = VReloc p) by (eexists; reflexivity). clearbody e9. destruct K9 as [p K9].
      unfold exp2anyreg in G. unfold dischargevars at 1 in G. rewrite K9 in G. rewrite K9 in G. unfold exp2nextreg in G. destruct (dischargevars f9 e9) as [f10 e10]. unfold exp2reg in G. destruct (discharge2reg _ _ _) as [f11 e11].
      injection G as <- <-. discriminate K.
    + okeq G. unfold codenot in G. destruct (dischargevars f e0) as [f1 e1] eqn:Dv. destruct (ek e1) eqn:Ke; try (injection G as <- <-; cbn in K; rewrite ?Ke in K; discriminate K); destruct (discharge2anyreg f1 e1); injection G as <- <-; discriminate K.
    + unfold code_type_assertion in G. destruct (dischargevars f e0) as [f1 e1]. destruct (ek e1) eqn:Ke; try discriminate G; try (destruct c; try discriminate G; try (destruct (Z.eqb _ _); [|discriminate G]); injection G as <- <-; rewrite K in Ke; discriminate Ke);
      (destruct (discharge2anyreg f1 e1) as [f2 e2] eqn:Dd; assert (exists r, ek e2 = VNonreloc r) as [r9 Kr] by (eapply d2a_nonreloc; [|exact Dd]; rewrite Ke; exact Logic.I);
      destruct (nothing_to_do _ _); injection G as <- <-; cbn in K; rewrite Kr in K; discriminate K).
  - exfalso. bo G G1. destruct (infix f o e0) as [f1 e1] eqn:X. bo G G2. destruct o; cbn [posfix] in G.
    + assert (H: codebinexpval f0 o e1 e2 = (fs1, e) -> False).
      { unfold codebinexpval. destruct (exp2RK f0 e2) as [[? ?] ?]. destruct (exp2RK _ e1) as [[? ?] ?]. destruct (codebin _ _ _) as [[? ?] ?]. intros Q. injection Q as <- <-. discriminate K. }
      destruct (tonumeral e1); [|okeq G; auto]. destruct (tonumeral e2); [|okeq G; auto]. destruct (constfolding _ _ _ _ _) as [[nn|]| | |]; cbn [bind] in G; try discriminate G; [|okeq G; auto]. injection G as <- <-. destruct nn; discriminate K.
    + destruct (exp2val f0 e2) as [f3 e3]. destruct (ek e3); try (destruct (exp2nextreg f3 e3); injection G as <- <-; discriminate K).
      destruct (nth_error _ _) as [[]|]; try (destruct (exp2nextreg f3 e3); injection G as <- <-; discriminate K). destruct o; try (destruct (exp2nextreg f3 e3); injection G as <- <-; discriminate K); injection G as <- <-; discriminate K.
    + okeq G. unfold codecomp in G. destruct (exp2RK f0 e2) as [[? ?] ?]. destruct (condjump _ _). injection G as <- <-. discriminate K.
    + destruct (dischargevars f0 e2) as [f3 e3] eqn:D. injection G as <- <-. exact (dv_local _ _ _ _ r D K).
    + destruct (dischargevars f0 e2) as [f3 e3] eqn:D. injection G as <- <-. exact (dv_local _ _ _ _ r D K).
  - exfalso. bo G G1. destruct (exp2nextreg f e0). bo G G2. injection G as <- <-. discriminate K.
Qed.
Lemma vindexed_nothing e c : nothing_to_do c (vindexed_ty e) = true -> nothing_to_do c (vty e) = true.
Proof.
  unfold vindexed_ty, vty. destruct (ek e); auto. destruct (Z.eqb_spec (ety e) T_IARR) as [->|]; [auto|]. destruct (Z.eqb_spec (ety e) T_FARR) as [->|]; [auto|]. destruct c; discriminate.
Qed.
Lemma storelocal_ok n lt ut x fs fs1 e r fs2 P s : plain W E ut -> types_ok n lt ut -> tame n lt ut x = true -> starts n lt ut fs -> simple x = true -> shape_of x <> Jump -> r < n -> declared (lt r) ->
  (forall q, x = ELocal q -> lt q = T_ANY -> lt r = T_ANY) -> 
  gen (fmod E) (fpow E) fs x = Ok (fs1, e) -> storelocal fs1 r e = Ok fs2 -> goes_on fs2 P -> (forall q, q < n -> hast (lt q) (reg s q)) ->
  freereg fs2 = freereg fs /\
  computes W E P (pc fs, s) (bind (eval W E n lt ut x (reg s) (world s)) (fun '(v, w) => bind (coerce (lt r) v) (fun v => Ok (v, w)))) (fun v w c =>
    exists s', c = (pc fs2, s') /\ reg s' r = v /\ world s' = w /\ (forall q, q < freereg fs -> q <> r -> reg s' q = reg s q) /\ (forall q, q < n -> hast (lt q) (reg s' q))).
Proof.
  intros PL TO Tm St Sm Sj Lr Dc Lc G X GO Hs. pose proof (starts_pre _ _ _ _ St) as P0. destruct (start_run _ _ _ _ _ _ _ PL TO Tm St G) as (I0 & V & S). destruct St as (A1 & A2 & A3 & A4 & _).
  destruct (sh_simple _ _ _ _ S Sm) as [Et Ef]. assert (Lq: nactvar fs <= freereg fs) by lia.
  assert (Nj: forall p, ek e <> VJmp p) by (intros p K; pose proof (sh_kind _ _ _ _ S) as Kk; rewrite K in Kk; auto).
  assert (Done: forall rs, freereg fs2 = freereg fs /\ Res W E P (pc fs, s) (then1 W rs (coerceW W (lt r)) (reg s) (world s)) (fun c => exists v w s', then1 W rs (coerceW W (lt r)) (reg s) (world s) = Ok (v, w) /\ steps W E P c (pc fs2, s') /\ reg s' r = v /\ world s' = w /\ forall q, q < freereg fs -> q <> r -> reg s' q = reg s q) ->
     then1 W rs (coerceW W (lt r)) (reg s) (world s) = then1 W (eval W E n lt ut x) (coerceW W (lt r)) (reg s) (world s) ->
     freereg fs2 = freereg fs /\ computes W E P (pc fs, s) (bind (eval W E n lt ut x (reg s) (world s)) (fun '(v, w) => bind (coerce (lt r) v) (fun v => Ok (v, w)))) (fun v w c =>
       exists s', c = (pc fs2, s') /\ reg s' r = v /\ world s' = w /\ (forall q, q < freereg fs -> q <> r -> reg s' q = reg s q) /\ (forall q, q < n -> hast (lt q) (reg s' q)))).
  { intros rs [F R] Q. split; [exact F|]. rewrite Q in R. change (bind (eval W E n lt ut x (reg s) (world s)) (fun '(v, w) => bind (coerce (lt r) v) (fun v => Ok (v, w)))) with (then1 W (eval W E n lt ut x) (coerceW W (lt r)) (reg s) (world s)).
    eapply res_computes; [exact R|]. intros c1 (v & w & s' & Eo & Sp & Rv & Wv & Ke). exists v, w, (pc fs2, s'). split; [exact Eo|]. split; [exact Sp|]. exists s'. split; [reflexivity|]. split; [exact Rv|]. split; [exact Wv|]. split; [exact Ke|].
    intros q Hq. destruct (Nat.eq_dec q r) as [->|Nq]; [|rewrite Ke by lia; apply Hs; exact Hq]. rewrite Rv. unfold Gen_opr.then1, coerceW in Eo. destruct (eval W E n lt ut x (reg s) (world s)) as [[a b]| | |]; cbn in Eo; try discriminate Eo.
    destruct (coerce (lt r) a) as [v'| | |] eqn:Co; cbn in Eo; try discriminate Eo. injection Eo as <- _. eapply coerce_hast; eauto. }
  assert (Rt: register_type fs1 r = lt r).
  { unfold register_type. rewrite (g_nact _ _ _ _ (i_grow _ _ _ _ _ _ _ I0)), (g_lty _ _ _ _ (i_grow _ _ _ _ _ _ _ I0)), A1, A3. apply Nat.ltb_lt in Lr. rewrite Lr. reflexivity. }
  unfold storelocal in X. destruct (check_valid_store fs1 (register_type fs1 r) e) as [[f1 e1]| | |] eqn:Ck; cbn [bind] in X; try discriminate X. injection X as X. rewrite Rt in Ck.
  (* the value is stored as it is *)
  assert (Plain: f1 = fs1 -> e1 = e -> ((exists x, ek e = VNonreloc x) \/ forall c, conv_of (lt r) = Some c -> nothing_to_do c (vty e) = true) ->
     freereg fs2 = freereg fs /\ computes W E P (pc fs, s) (bind (eval W E n lt ut x (reg s) (world s)) (fun '(v, w) => bind (coerce (lt r) v) (fun v => Ok (v, w)))) (fun v w c =>
       exists s', c = (pc fs2, s') /\ reg s' r = v /\ world s' = w /\ (forall q, q < freereg fs -> q <> r -> reg s' q = reg s q) /\ (forall q, q < n -> hast (lt q) (reg s' q)))).
  { intros -> -> Sta. eapply Done; [|reflexivity]. eapply (store_tail n lt fs fs1 e); eauto. }
  (* the value is converted first *)
  assert (Conv: forall c, conv_of (lt r) = Some c -> vindexed_ty e = T_ANY -> (match ek e with VNonreloc _ => False | _ => True end) ->
     (let '(fs, ex, x) := exp2RK fs1 e in match x with R r => Ok (emit fs (Conv r c), ex) | K _ => UB end) = Ok (f1, e1) ->
     freereg fs2 = freereg fs /\ computes W E P (pc fs, s) (bind (eval W E n lt ut x (reg s) (world s)) (fun '(v, w) => bind (coerce (lt r) v) (fun v => Ok (v, w)))) (fun v w c =>
       exists s', c = (pc fs2, s') /\ reg s' r = v /\ world s' = w /\ (forall q, q < freereg fs -> q <> r -> reg s' q = reg s q) /\ (forall q, q < n -> hast (lt q) (reg s' q)))).
  { intros c Cv Va Nn Q. destruct (exp2RK fs1 e) as [[fz ez] xz] eqn:Xk.
    assert (Any: (match ek e with VReloc _ | VUpval _ | VIndexed _ _ _ _ => True | _ => False end)).
    { pose proof (sh_kind _ _ _ _ S) as Kk. pose proof (sh_true _ _ _ _ S) as S1. pose proof (sh_false _ _ _ _ S) as S2. destruct (sh_num _ _ _ _ S Et Ef) as [S3 S4]. unfold vindexed_ty in Va. unfold vty in S1, S2. 
      destruct (ek e) eqn:Ke; try exact Logic.I; try contradiction; try (rewrite Va in *; cbn in *; first [discriminate (S1 eq_refl Ef)|discriminate (S2 eq_refl Et)|discriminate (S3 _ eq_refl)|discriminate (S4 _ eq_refl)]).
      (* VLocal *) destruct Kk as [Lr0 Sl]. destruct (gen_local _ _ _ _ _ G Ke) as [Hx _]. subst x. unfold vty in V. rewrite Ke in V. cbn [styp] in V. apply Nat.ltb_lt in Lr0. rewrite Lr0, Va in V.
      rewrite (Lc _ eq_refl (eq_sym V)) in Cv. discriminate Cv. }
    destruct (exp2RK_reloc _ _ _ _ _ _ _ _ P0 Lq I0 Et Ef Any Xk) as (-> & I1 & ->). injection Q as <- <-.
    pose proof (emit_conv W E _ _ _ _ c _ P0 Lq I1) as I2. 
    eapply (Done (then1 W (eval W E n lt ut x) (unary W E (UAssert c)))).
    - assert (X': fst (exp2reg (freeexp (emit fz (Gen_model.Conv (freereg fs) c)) (mk (VNonreloc (freereg fs)) [] [] (conv_ty c))) (mk (VNonreloc (freereg fs)) [] [] (conv_ty c)) r) = fs2).
      { rewrite <- X. unfold exp2reg, discharge2reg, freeexp, dischargevars. cbn. destruct (r =? freereg fs); reflexivity. }
      eapply (store_tail n lt fs); [exact P0|exact A1|exact A3|exact Lr|exact A2|exact I2|intros p Q; discriminate Q|reflexivity|reflexivity|exact Dc|left; eexists; reflexivity|exact X'|exact GO|exact Hs].
    - unfold Gen_opr.then1, coerceW, coerce. rewrite Cv. destruct (eval W E n lt ut x (reg s) (world s)) as [[v w]| | |]; cbn; auto. destruct (do_conv c v) as [v'| | |] eqn:Dv; cbn; auto.
      rewrite (conv_id c (conv_ty c)); [reflexivity|apply nothing_conv|]. assert (Hc: conv_ty c = lt r) by (destruct (conv_of_cases _ Dc) as [[_ Q]|(c' & Q & Hc)]; congruence). rewrite Hc. eapply (coerce_hast (lt r) v); [exact Dc|]. unfold coerce. rewrite Cv. exact Dv. }
  destruct (conv_of_cases _ Dc) as [[Ha Cn]|(c & Cv & Hc)].
  - apply Plain; [| |right; intros c Q; congruence]; rewrite Ha in Ck; unfold check_valid_store in Ck; destruct (ek e); cbn in Ck; injection Ck as <- <-; reflexivity.
  - assert (Ck': ((exists x, ek e = VNonreloc x) /\ f1 = fs1 /\ e1 = e) \/ ((match ek e with VNonreloc _ => False | _ => True end) /\
       (if nothing_to_do c (vindexed_ty e) then Ok (fs1, e) else if Z.eqb (vindexed_ty e) T_ANY then (let '(fs, ex, x) := exp2RK fs1 e in match x with R r => Ok (emit fs (Gen_model.Conv r c), ex) | K _ => UB end) else Err EType) = Ok (f1, e1))).
    { unfold check_valid_store in Ck. rewrite Hc in Ck. destruct (ek e) eqn:Ke; try (right; split; [exact Logic.I|]; destruct c; exact Ck).
      left. split; [eauto|]. destruct c; cbn in Ck; injection Ck as <- <-; auto. }
    destruct Ck' as [(Kx & Q1 & Q2)|[Nn Q]]; [apply Plain; auto|]. destruct (nothing_to_do c (vindexed_ty e)) eqn:Nd.
    + injection Q as Q1 Q2. apply Plain; auto. right. intros c' Hc'. assert (c' = c) as -> by congruence. apply vindexed_nothing. exact Nd.
    + destruct (Z.eqb_spec (vindexed_ty e) T_ANY) as [Va|]; [|discriminate Q]. eapply Conv; eauto.
Qed.
Lemma storelocal_any n lt ut x fs fs1 e r fs2 P s : plain W E ut -> types_ok n lt ut -> tame n lt ut x = true -> starts n lt ut fs -> r < n -> lt r = T_ANY ->
  gen (fmod E) (fpow E) fs x = Ok (fs1, e) -> storelocal fs1 r e = Ok fs2 -> goes_on fs2 P -> (forall q, q < n -> hast (lt q) (reg s q)) ->
  freereg fs2 = freereg fs /\
  computes W E P (pc fs, s) (bind (eval W E n lt ut x (reg s) (world s)) (fun '(v, w) => bind (coerce (lt r) v) (fun v => Ok (v, w)))) (fun v w c =>
    exists s', c = (pc fs2, s') /\ reg s' r = v /\ world s' = w /\ (forall q, q < freereg fs -> q <> r -> reg s' q = reg s q) /\ (forall q, q < n -> hast (lt q) (reg s' q))).
Proof.
  intros PL TO Tm St Lr Ta G X GO Hs. pose proof (starts_pre _ _ _ _ St) as P0. destruct (start_run _ _ _ _ _ _ _ PL TO Tm St G) as (I0 & V & S). destruct St as (A1 & A2 & A3 & A4 & _).
  destruct (store_any W E n lt fs fs1 e _ r fs2 P0 A1 A3 Lr A2 I0 Ta X) as (Fr & H & G2). split; [exact Fr|].
  assert (O: okst W fs s) by (intros q Hq; rewrite A3; apply Hs; lia). pose proof (grow_pre _ _ _ _ G2) as P2. pose proof (goes_on_ext _ _ GO) as Xd.
  assert (Xp: ext nohole fs2 P) by (eapply ext_refines; [exact Xd|apply refines_dj; exact P2|exists []; rewrite app_nil_r; reflexivity]).
  assert (Q: bind (eval W E n lt ut x (reg s) (world s)) (fun '(v, w) => bind (coerce (lt r) v) (fun v => Ok (v, w))) = eval W E n lt ut x (reg s) (world s)).
  { rewrite Ta. destruct (eval W E n lt ut x (reg s) (world s)) as [[v w]| | |]; reflexivity. }
  rewrite Q. eapply res_computes; [apply (H P Xp (pc fs, s) s O); left; reflexivity|].
  intros c (s' & Ar & Er & Ke). exists (reg s' r), (world s'), (pc fs2, s'). split; [exact Er|]. split; [apply (dj_run W E nohole fs2 P c s' P2 Xd); [intros p []|exact Ar]|].
  exists s'. split; [reflexivity|]. split; [reflexivity|]. split; [reflexivity|]. split; [exact Ke|]. intros q Hq. destruct (Nat.eq_dec q r) as [->|Nq]; [rewrite Ta; apply hast_any|]. rewrite Ke by lia. apply Hs. exact Hq.
Qed.
End top.
Lemma expression_value : forall W (E : env W) n lt ut x fs fs1 e fs2 e2 P s, plain W E ut -> types_ok n lt ut -> tame n lt ut x = true -> starts n lt ut fs ->
  gen (fmod E) (fpow E) fs x = Ok (fs1, e) -> exp2nextreg fs1 e = (fs2, e2) -> goes_on fs2 P -> (forall r, r < n -> hast (lt r) (reg s r)) ->
  e2 = mk (VNonreloc (freereg fs)) [] [] (styp n lt ut x) /\ freereg fs2 = S (freereg fs) /\
  (forall v w, eval W E n lt ut x (reg s) (world s) = Ok (v, w) -> hast (styp n lt ut x) v) /\
  computes W E P (pc fs, s) (eval W E n lt ut x (reg s) (world s)) (fun v w c =>
    exists s', c = (pc fs2, s') /\ reg s' (freereg fs) = v /\ world s' = w /\ forall r, r < freereg fs -> reg s' r = reg s r).
Proof. intros. eapply value_ok; eauto. Qed.
Lemma condition_jumps : forall W (E : env W) n lt ut x fs fs1 e fs2 l d P s, plain W E ut -> types_ok n lt ut -> tame n lt ut x = true -> tested n lt ut x T_FALSISH = true -> starts n lt ut fs ->
  gen (fmod E) (fpow E) fs x = Ok (fs1, e) -> cond fs1 e = (fs2, l) -> branches fs2 l d P -> (forall r, r < n -> hast (lt r) (reg s r)) ->
  freereg fs2 = freereg fs /\
  computes W E P (pc fs, s) (eval W E n lt ut x (reg s) (world s)) (fun v w c =>
    exists s', c = (if truthy v then pc fs2 else d, s') /\ world s' = w /\ forall r, r < freereg fs -> reg s' r = reg s r).
Proof. intros. eapply cond_ok; eauto. Qed.
Lemma assignment_typed : forall W (E : env W) n lt ut x fs fs1 e r fs2 P s, plain W E ut -> types_ok n lt ut -> tame n lt ut x = true -> starts n lt ut fs -> r < n -> declared (lt r) ->
  (lt r = T_ANY \/ (simple x = true /\ shape_of x <> Jump /\ forall q, x = ELocal q -> lt q <> T_ANY)) ->
  gen (fmod E) (fpow E) fs x = Ok (fs1, e) -> storelocal fs1 r e = Ok fs2 -> goes_on fs2 P -> (forall q, q < n -> hast (lt q) (reg s q)) ->
  freereg fs2 = freereg fs /\
  computes W E P (pc fs, s) (bind (eval W E n lt ut x (reg s) (world s)) (fun '(v, w) => bind (coerce (lt r) v) (fun v => Ok (v, w)))) (fun v w c =>
    exists s', c = (pc fs2, s') /\ reg s' r = v /\ world s' = w /\ (forall q, q < freereg fs -> q <> r -> reg s' q = reg s q) /\ (forall q, q < n -> hast (lt q) (reg s' q))).
Proof. intros W E n lt ut x fs fs1 e r fs2 P s PL TO Tm St Lr Dc [Ta|(Sm & Sj & Lc)] G X GO Hs; [eapply storelocal_any; eauto|eapply storelocal_ok; eauto]. intros q Q1 Q2. destruct (Lc q Q1 Q2). Qed.
