(* The code of statements does what they say. *)
Require Import ZArith List Bool Arith Lia.
From Verif Require Import Base Float_model Op_model Op_spec Op_proofs Gen_model Gen_spec Gen_facts Gen_run Gen_inv Gen_ops Gen_cond Gen_opr Gen_gen Gen_store Gen_proofs Stat_model Stat_spec Stat_expr Stat_facts.
Import ListNotations.
Local Open Scope nat_scope.

Scheme stat_mut := Induction for stat Sort Prop
  with block_mut := Induction for block Sort Prop
  with clauses_mut := Induction for clauses Sort Prop.
Combined Scheme stat_block_clauses_ind from stat_mut, block_mut, clauses_mut.

Section stat.
Variable W : Type.
Variable E : env W.
Variable ut : nat -> tmap.
Hypothesis PL : plain W E ut.
Variable K : nat.
Notation Res := (Res W E).
Notation steps := (steps W E).
Notation arrive := (arrive W).
Notation atj := (atj W).
Notation SRes := (SRes W E).
Notation so := (so W).
Notation gen := (gen (fmod E) (fpow E)).
Notation gstat := (gstat (fmod E) (fpow E)).
Notation gblock := (gblock (fmod E) (fpow E)).
Notation gclauses := (gclauses (fmod E) (fpow E)).
Notation At := (At ut).
Notation exec := (exec W E ut K).
Notation execb := (execb W E ut K).
Notation execc := (execc W E ut K).
Notation state := (state W).
Definition AtS (c : scope) (fs : fstate) : Prop := At (fst c) (snd c) fs /\ freereg fs = fst c.
(* the registers hold the variables *)
Definition holds (c : scope) (l : locals) (s : state) : Prop := forall r, r < fst c -> reg s r = l r /\ hast (snd c r) (reg s r).
Definition inner (c c' : scope) : Prop := fst c <= fst c' /\ forall r, r < fst c -> snd c' r = snd c r.
Lemma inner_refl c : inner c c.
Proof. split; auto. Qed.
Lemma inner_trans a b c : inner a b -> inner b c -> inner a c.
Proof. intros [A B] [C D]. split; [lia|]. intros r H. rewrite D by lia. apply B. exact H. Qed.
Lemma inner_holds c c' l s : inner c c' -> holds c' l s -> holds c l s.
Proof. intros [A B] H r Hr. rewrite <- B by exact Hr. apply H. lia. Qed.
Lemma inner_adds c t : inner c (adds c t).
Proof. split; cbn; [lia|]. intros r H. destruct (Nat.eqb_spec r (fst c)); [lia|reflexivity]. Qed.
Lemma inner_after1 c s : inner c (after1 c s).
Proof. destruct s; cbn; try apply inner_refl. apply inner_adds. Qed.
Lemma inner_after b : forall c, inner c (after c b).
Proof. induction b as [|s b IH]; intros c; [apply inner_refl|]. cbn. eapply inner_trans; [apply inner_after1|apply IH]. Qed.
Definition fin (fs' : fstate) (c' c : scope) (bl : list nat) (o : so) (cf : config W) : Prop :=
  exists s l, (o = Ok ((Done, l), world s) /\ arrive fs' cf s /\ holds c' l s) \/
              (o = Ok ((Broken, l), world s) /\ (exists j, 0 < cnt bl j /\ atj (code fs') j cf s) /\ holds c l s).
Definition cfin (fs' : fstate) (c : scope) (bl esc : list nat) (o : so) (cf : config W) : Prop :=
  exists s l, (o = Ok ((Done, l), world s) /\ (arrive fs' cf s \/ exists j, 0 < cnt esc j /\ atj (code fs') j cf s) /\ holds c l s) \/
              (o = Ok ((Broken, l), world s) /\ (exists j, 0 < cnt bl j /\ atj (code fs') j cf s) /\ holds c l s).
Definition GS (s : stat) : Prop := forall c fs fs' bl, AtS c fs -> stame ut c s = true -> gstat fs s = Ok (fs', bl) ->
  SG fs fs' bl /\ AtS (after1 c s) fs' /\
  forall P, ext nohole fs' P -> forall cf l st, arrive fs cf st -> holds c l st -> SRes K P cf (exec c s l (world st)) (fin fs' (after1 c s) c bl).
Definition GB (b : block) : Prop := forall c fs fs' bl, AtS c fs -> btame ut c b = true -> gblock fs b = Ok (fs', bl) ->
  SG fs fs' bl /\ AtS (after c b) fs' /\
  forall P, ext nohole fs' P -> forall cf l st, arrive fs cf st -> holds c l st -> SRes K P cf (execb c b l (world st)) (fin fs' (after c b) c bl).
Definition GBt (b : block) : Prop := GB b /\ match b with BCons _ b => GB b | BNil => True end.
Definition GC (cl : clauses) : Prop := forall c fs fs' bl esc, AtS c fs -> ctame ut c cl = true -> gclauses fs cl = Ok (fs', bl, esc) ->
  SG fs fs' (bl ++ esc) /\ AtS c fs' /\
  forall P, ext nohole fs' P -> forall cf l st, arrive fs cf st -> holds c l st -> SRes K P cf (execc c cl l (world st)) (cfin fs' c bl esc).

Lemma fin_ok fs' c' c bl o cf : fin fs' c' c bl o cf -> exists x, o = Ok x.
Proof. intros (s & l & [(-> & _)|(-> & _)]); eauto. Qed.
Lemma holds_okst c fs l s : AtS c fs -> holds c l s -> okst W fs s.
Proof. intros [A _] H r Hr. rewrite (a_n _ _ _ _ A) in Hr. rewrite (a_lt _ _ _ _ A). apply H. exact Hr. Qed.
Lemma holds_eval c x l s : tamec ut c x = true -> holds c l s -> evalc W E ut c x l (world s) = eval W E (fst c) (snd c) ut x (reg s) (world s).
Proof. intros Tm H. unfold evalc. apply (proj1 (eval_lo (fst c) (snd c) ut W E) x Tm). intros r Hr. symmetry. apply H. exact Hr. Qed.
Lemma holds_keep c l s s' : holds c l s -> keep W (fst c) s s' -> holds c l s'.
Proof. intros H Ke r Hr. rewrite Ke by exact Hr. apply H. exact Hr. Qed.
Lemma grow_at n lt fs fs1 l : At n lt fs -> Grow fs fs1 nohole l -> n <= freereg fs1 -> At n lt fs1.
Proof. intros [A B C D F G] Gr L. constructor; auto; [eapply grow_pre; eauto|rewrite (g_nact _ _ _ _ Gr)|rewrite (g_lty _ _ _ _ Gr)|rewrite (g_uty _ _ _ _ Gr)]; assumption. Qed.
Lemma at_same n lt fs fs' : At n lt fs -> Pre fs' -> nactvar fs' = nactvar fs -> n <= freereg fs' -> lty fs' = lty fs -> uty fs' = uty fs -> At n lt fs'.
Proof. intros [A B C D F G] P1 Q1 Q2 Q3 Q4. constructor; congruence || auto. Qed.
(* end of a block *)
Lemma leave_at c c' fs0 fs l : AtS c fs0 -> AtS c' fs -> SG fs0 fs l -> AtS c (leave fs0 fs) /\ SG fs0 (leave fs0 fs) l.
Proof.
  intros [A Fr] [A' Fr'] G. split.
  - split; [|cbn; apply (a_n _ _ _ _ A)]. destruct A as [A B C D F G0]. destruct A' as [A1 B1 C1 D1 F1 G1]. constructor; cbn; auto; [destruct A1; constructor; assumption|lia].
  - eapply sg_same; [exact G|reflexivity..].
Qed.
Lemma arrive_code fs fs' cf s : code fs' = code fs -> jpc fs' = jpc fs -> arrive fs cf s -> arrive fs' cf s.
Proof. intros A B. apply arrive_mono; [exact A|]. rewrite B. auto. Qed.
Lemma arrive_leave fs0 fs cf s : arrive fs cf s -> arrive (leave fs0 fs) cf s.
Proof. apply arrive_code; reflexivity. Qed.
Lemma ext_code fs fs' P : code fs' = code fs -> ks fs' = ks fs -> ext nohole fs' P -> ext nohole fs P.
Proof. intros A B X. unfold ext in *. rewrite A, B in X. exact X. Qed.
Lemma declarable_declared t : declarable t = true -> declared t.
Proof. unfold declarable, declared. intros H. apply orb_prop in H as [H|H]; [left; apply Z.eqb_eq; exact H|right; destruct (conv_of t); [discriminate|discriminate H]]. Qed.
Lemma declared_nz t : declared t -> t <> 0%Z.
Proof. intros D. destruct (conv_of_cases _ D) as [[-> _]|(c & _ & ->)]; [discriminate|destruct c; discriminate]. Qed.
Lemma tested_eq c x m : testedc ut c x m = tested (fst c) (snd c) ut x m.
Proof. reflexivity. Qed.
(* a condition *)
Lemma jumps_at c fs fs2 lj on r : AtS c fs -> jumps W E fs fs2 lj on r -> AtS c fs2.
Proof. intros [A Fr] (G & F & _). split; [|congruence]. eapply grow_at; eauto. lia. Qed.
Lemma jumps_run c fs fs2 lj on x P cf l st k f Q : AtS c fs -> tamec ut c x = true -> jumps W E fs fs2 lj on (eval W E (fst c) (snd c) ut x) -> ext nohole fs2 P -> arrive fs cf st -> holds c l st ->
  (forall v cf1 s1, holds c l s1 -> evalc W E ut c x l (world st) = Ok (v, world s1) -> (if Bool.eqb (truthy v) on then exists j, 0 < cnt lj j /\ atj (code fs2) j cf1 s1 else arrive fs2 cf1 s1) -> SRes k P cf1 (f v (world s1)) Q) ->
  SRes k P cf (value W (evalc W E ut c x l (world st)) f) Q.
Proof.
  intros A Tm (G & Fr & R) X Ar Ho F. pose proof (holds_eval _ _ _ _ Tm Ho) as Ee. rewrite Ee in *. eapply sres_value; [apply (R P X cf st (holds_okst _ _ _ _ A Ho) Ar)|].
  intros c1 (s & v & Ke & Eo & Go). exists v, (world s). split; [exact Eo|]. eapply F; eauto. eapply holds_keep; [exact Ho|]. destruct A as [_ <-]. exact Ke.
Qed.
(* no code, no jump *)
Lemma nocode_stays fs fs2 lj on r s v w : pc fs2 <= pc fs -> jumps W E fs fs2 lj on r -> okst W fs s -> r (reg s) (world s) = Ok (v, w) -> Bool.eqb (truthy v) on = false.
Proof.
  intros L (G & _ & R) O Er. set (P := mkprog (code fs2) (ks fs2)).
  assert (X: ext nohole fs2 P) by (split; [apply refines_refl|exists []; cbn; rewrite app_nil_r; reflexivity]).
  assert (Stop: step W E P (pc fs, s) = UB) by (unfold step, P; cbn [text]; rewrite nth_over; [reflexivity|exact L]).
  assert (Stay: forall c1, steps P (pc fs, s) c1 -> c1 = (pc fs, s)) by (intros c1 S1; inversion S1; subst; [reflexivity|congruence]).
  specialize (R P X (pc fs, s) s O (or_introl eq_refl)). rewrite Er in R. destruct R as [(p & s' & a & o & S1 & T & _)|[(c1 & S1 & Sm)|(c1 & S1 & s1 & v1 & _ & Q & H)]].
  - apply Stay in S1. injection S1 as -> ->. cbn [text P] in T. rewrite nth_over in T; [discriminate T|exact L].
  - apply Stay in S1. subst c1. rewrite Stop in Sm. destruct Sm.
  - apply Stay in S1. subst c1. injection Q as <- _. destruct (Bool.eqb (truthy v) on); [|reflexivity]. exfalso. destruct H as (j & Hj & At). assert (J: jok (code fs2) j) by (apply (g_jok _ _ _ _ G); rewrite cnt_app; lia).
    apply jok_len in J. unfold atj in At. destruct (tset (code fs2) j) as [[b cc]|]; [destruct At as [At _]|]; injection At as At _; unfold pc in *; lia.
Qed.

Lemma assign_good r x : GS (SAssign r x).
Proof.
  intros c fs fs' bl [A Fr] Tm G. cbn [stame] in Tm. apply andb_prop in Tm as [Tm Ta]. apply andb_prop in Tm as [Tm T3]. apply andb_prop in Tm as [T1 T2].
  apply Nat.ltb_lt in T1. apply declarable_declared in T2.
  assert (As: snd c r = T_ANY \/ (simple x = true /\ shape_of x <> Jump /\ forall q, x = ELocal q -> snd c q <> T_ANY)).
  { unfold assignable in Ta. apply orb_prop in Ta as [Ta|Ta]; [left; apply Z.eqb_eq; exact Ta|right]. apply andb_prop in Ta as [Ta T6]. apply andb_prop in Ta as [T4 T5].
    split; [exact T4|]. split; [intros Q; rewrite Q in T5; discriminate T5|]. intros q -> Q. rewrite Q, Z.eqb_refl in T6. discriminate T6. }
  cbn [Stat_model.gstat] in G. bo G G1. destruct (storelocal f r e) as [f1| | |] eqn:St; cbn [bind] in G; try discriminate G. injection G as <- <-.
  destruct (storelocal_ld W E ut PL _ _ x fs f e r f1 A T3 T1 T2 As G1 St) as (F1 & H & Gr).
  assert (A1: At (fst c) (snd c) f1) by (eapply grow_at; eauto; lia). pose proof (grow_pre _ _ _ _ Gr) as P1.
  split; [eapply sg_same; [apply grow_sg; exact Gr|reflexivity..]|]. split.
  - split; [|cbn; apply (a_n _ _ _ _ A1)]. eapply at_same; [exact A1| |reflexivity| |reflexivity..]; [destruct P1; constructor; assumption|cbn; rewrite (a_n _ _ _ _ A1); lia].
  - intros P X cf l st Ar Ho. cbn [Stat_spec.exec after1]. rewrite (holds_eval _ _ _ _ T3 Ho).
    assert (X1: ext nohole f1 P) by (eapply ext_code; [| |exact X]; reflexivity).
    pose proof (H P X1 cf st (holds_okst c fs l st (conj A Fr) Ho) Ar) as R. unfold then1, coerceW in R. set (ev := eval W E (fst c) (snd c) ut x (reg st) (world st)) in *.
    assert (Q: value W ev (fun v w => value W (bind (coerce (snd c r) v) (fun v => Ok (v, w))) (fun v w => done W (set l r v) w)) =
       value W (bind ev (fun '(v, w) => bind (coerce (snd c r) v) (fun v => Ok (v, w)))) (fun v w => done W (set l r v) w)) by (destruct ev as [[v w]| | |]; reflexivity).
    rewrite Q. clear Q. eapply sres_value; [exact R|]. intros c1 (s & A3 & Eo & Ke). exists (reg s r), (world s). split; [exact Eo|]. apply sres_ret.
    exists s, (set l r (reg s r)). left. split; [reflexivity|]. split; [eapply arrive_code; [| |exact A3]; reflexivity|]. intros q Hq. unfold set. destruct (Nat.eqb_spec q r) as [->|Nq].
    + split; [reflexivity|]. destruct ev as [[v w]| | |]; cbn in Eo; try discriminate Eo. destruct (coerce (snd c r) v) as [v'| | |] eqn:Co; cbn in Eo; try discriminate Eo. injection Eo as <- _. eapply coerce_hast; eauto.
    + rewrite Ke by (try exact Nq; lia). apply Ho. exact Hq.
Qed.
Lemma call_good f a : GS (SCall f a).
Proof.
  intros c fs fs' bl [A Fr] Tm G. cbn [stame] in Tm. cbn [Stat_model.gstat] in G. bo G G1. injection G as <- <-. pose proof (call_inv W E ut PL _ _ _ _ _ _ _ A Tm G1) as ->.
  destruct (gen_run W E ut PL _ _ _ _ _ _ A Tm G1) as (I0 & _ & _). assert (Lq: nactvar fs <= freereg fs) by (rewrite (a_n _ _ _ _ A); lia). destruct (inv_ld W E _ _ _ _ _ Lq I0) as (H & Gr & F1).
  assert (A1: At (fst c) (snd c) f0) by (eapply grow_at; eauto; lia). pose proof (grow_pre _ _ _ _ Gr) as P1.
  split; [eapply sg_same; [apply grow_sg; exact Gr|reflexivity..]|]. split.
  - split; [|cbn; apply (a_n _ _ _ _ A1)]. eapply at_same; [exact A1| |reflexivity| |reflexivity..]; [destruct P1; constructor; assumption|cbn; rewrite (a_n _ _ _ _ A1); lia].
  - intros P X cf l st Ar Ho. cbn [Stat_spec.exec after1]. rewrite (holds_eval _ _ _ _ Tm Ho).
    assert (X1: ext nohole f0 P) by (eapply ext_code; [| |exact X]; reflexivity).
    eapply sres_value; [apply (H P X1 cf st (holds_okst c fs l st (conj A Fr) Ho) Ar)|]. intros c1 (s & A3 & Eo & Ke). do 2 eexists. split; [exact Eo|]. apply sres_ret.
    exists s, l. left. split; [reflexivity|]. split; [eapply arrive_code; [| |exact A3]; reflexivity|]. intros q Hq. rewrite Ke by lia. apply Ho. exact Hq.
Qed.
Lemma local_good t x : GS (SLocal t x).
Proof.
  intros c fs fs' bl [A Fr] Tm G. cbn [stame] in Tm. apply andb_prop in Tm as [T1 T2]. apply declarable_declared in T1. cbn [Stat_model.gstat] in G.
  destruct (localstat (fmod E) (fpow E) fs t x) as [f1| | |] eqn:L; cbn [bind] in G; try discriminate G. injection G as <- <-.
  destruct (local_ld W E ut PL _ _ x t fs f1 A Fr T2 T1 L) as (f2 & -> & H & Gr & F2).
  assert (A1: At (fst c) (snd c) f2) by (eapply grow_at; eauto; lia). pose proof (grow_pre _ _ _ _ Gr) as P1.
  split; [eapply sg_same; [apply grow_sg; exact Gr|reflexivity..]|]. split.
  - split; [|cbn; rewrite (a_n _ _ _ _ A1); reflexivity]. destruct A1 as [B1 B2 B3 B4 B5 [B6 B7]]. constructor; cbn; auto.
    + destruct P1; constructor; assumption.
    + lia.
    + rewrite B2, B4. reflexivity.
    + split; [|exact B7]. intros r Hr. destruct (Nat.eqb_spec r (fst c)); [apply declared_nz; exact T1|apply B6; lia].
  - intros P X cf l st Ar Ho. cbn [Stat_spec.exec after1]. rewrite (holds_eval _ _ _ _ T2 Ho).
    assert (X1: ext nohole f2 P) by (eapply ext_code; [| |exact X]; reflexivity).
    pose proof (H P X1 cf st (holds_okst c fs l st (conj A Fr) Ho) Ar) as R. unfold then1, coerceW in R. set (ev := eval W E (fst c) (snd c) ut x (reg st) (world st)) in *.
    assert (Q: value W ev (fun v w => value W (bind (coerce t v) (fun v => Ok (v, w))) (fun v w => done W (set l (fst c) v) w)) =
       value W (bind ev (fun '(v, w) => bind (coerce t v) (fun v => Ok (v, w)))) (fun v w => done W (set l (fst c) v) w)) by (destruct ev as [[v w]| | |]; reflexivity).
    rewrite Q. clear Q. eapply sres_value; [exact R|]. intros c1 (s & A3 & Eo & Ke). exists (reg s (fst c)), (world s). split; [exact Eo|]. apply sres_ret.
    exists s, (set l (fst c) (reg s (fst c))). left. split; [reflexivity|]. split; [eapply arrive_code; [| |exact A3]; reflexivity|]. intros q Hq. cbn [fst snd adds] in *. unfold set. destruct (Nat.eqb_spec q (fst c)) as [->|Nq].
    + split; [reflexivity|]. destruct ev as [[v w]| | |]; cbn in Eo; try discriminate Eo. destruct (coerce t v) as [v'| | |] eqn:Co; cbn in Eo; try discriminate Eo. injection Eo as <- _. eapply coerce_hast; eauto.
    + rewrite Ke by lia. apply Ho. lia.
Qed.
Lemma do_good b : GBt b -> GS (SDo b).
Proof.
  intros [IH _] c fs fs' bl A Tm G. cbn [stame] in Tm. cbn [Stat_model.gstat] in G. bo G G1. injection G as <- <-. destruct (IH c fs f l A Tm G1) as (Sg & A1 & R).
  destruct (leave_at _ _ _ _ _ A A1 Sg) as [A2 S2]. split; [exact S2|]. split; [exact A2|]. intros P X cf lo st Ar Ho. cbn [Stat_spec.exec after1].
  eapply sres_imp; [|apply (R P (ext_code _ _ _ eq_refl eq_refl X) cf lo st Ar Ho)]. intros o cf1 (s & l1 & [(-> & A3 & H3)|H]); exists s, l1; [left|right; exact H].
  split; [reflexivity|]. split; [apply arrive_leave; exact A3|]. eapply inner_holds; [apply inner_after|exact H3].
Qed.
Lemma break_good : GS SBreak.
Proof.
  intros c fs fs' bl [A Fr] _ G. cbn [Stat_model.gstat] in G. destruct (luaK_jump fs) as [f j] eqn:J. injection G as <- <-.
  pose proof (sg_jump fs (a_pre _ _ _ _ A)) as Sg. rewrite J in Sg. cbn [fst snd] in Sg. split; [exact Sg|]. split.
  - assert (f = fst (luaK_jump fs)) as Q by (rewrite J; reflexivity). pose proof (sg_pre _ _ _ Sg) as P1. split; [|rewrite Q; exact Fr]. eapply at_same; [exact A|exact P1|rewrite Q; reflexivity|rewrite Q; cbn; lia|rewrite Q; reflexivity..].
  - intros P X cf l st Ar Ho. cbn [Stat_spec.exec after1]. apply sres_ret. exists st, l. right. split; [reflexivity|]. split; [|exact Ho]. destruct (jump_arrive W fs cf st (a_pre _ _ _ _ A) Ar) as (k & Hk & At). rewrite J in Hk, At. eauto.
Qed.
Lemma nil_good : GBt BNil.
Proof.
  split; [|exact Logic.I]. intros c fs fs' bl A Tm G. injection G as <- <-. split; [apply sg_refl; apply A|]. split; [exact A|]. intros P X cf l st Ar Ho. apply sres_ret. exists st, l. left. auto.
Qed.
Lemma cons_good s b : GS s -> GBt b -> GBt (BCons s b).
Proof.
  intros IS [IB _]. split; [|exact IB]. intros c fs fs' bl A Tm G. cbn [btame] in Tm. apply andb_prop in Tm as [T1 T2]. cbn [Stat_model.gblock] in G. bo G G1. bo G G2. injection G as <- <-.
  destruct (IS c fs _ _ A T1 G1) as (Sg1 & A1 & R1). destruct (IB _ _ _ _ A1 T2 G2) as (Sg2 & A2 & R2).
  split; [eapply sg_trans; eauto; apply A|]. split; [exact A2|]. intros P X cf lo st Ar Ho. cbn [Stat_spec.execb after].
  eapply sres_next; [apply (R1 P (sg_ext _ _ _ _ Sg2 X) cf lo st Ar Ho)| | |apply fin_ok].
  - intros l1 w c1 (s1 & l2 & [(Q & A3 & H3)|(Q & _)]); [|discriminate Q]. injection Q as <- ->. eapply sres_imp; [|apply (R2 P X c1 l1 s1 A3 H3)].
    intros o cf1 (s2 & l3 & [H|(-> & (j & Hj & At) & H4)]); exists s2, l3; [left; exact H|right]. split; [reflexivity|]. split; [exists j; rewrite cnt_app; split; [lia|exact At]|]. eapply inner_holds; [apply inner_after1|exact H4].
  - intros l1 w c1 (s1 & l2 & [(Q & _)|(Q & (j & Hj & At) & H3)]); [discriminate Q|]. injection Q as <- ->. exists s1, l1. right. split; [reflexivity|]. split; [|exact H3]. exists j. rewrite cnt_app. split; [lia|]. eapply sg_atj; [exact Sg1|exact Sg2|exact Hj|exact At].
Qed.
Lemma while_good x b : GBt b -> GS (SWhile x b).
Proof.
  intros [IB _] c fs fs' bl A Tm G. cbn [stame] in Tm. apply andb_prop in Tm as [Tm T3]. apply andb_prop in Tm as [T1 T2]. cbn [Stat_model.gstat] in G. bo G G1. rename f into fs1.
  destruct (cond fs1 e) as [fs2 lf] eqn:C. bo G G2. rename f into fs3, l into bb.
  pose proof (cond_jumps W E ut PL _ _ x fs fs1 e fs2 lf (proj1 A) T1 T2 G1 C) as J. pose proof (jumps_at _ _ _ _ _ _ A J) as A2. assert (S2: SG fs fs2 lf) by (apply grow_sg; apply J).
  destruct (IB c fs2 fs3 bb A2 T3 G2) as (S3 & A3 & R3). assert (S13: SG fs fs3 (lf ++ bb)) by (eapply sg_trans; eauto; apply A).
  destruct (leave_at _ _ _ _ _ A A3 S13) as [A4 S4]. set (f4 := leave fs fs3) in *. pose proof (a_pre _ _ _ _ (proj1 A4)) as P4. pose proof (sg_jump f4 P4) as Sj. pose proof (pc_jump f4) as Pj. pose proof (jump_arrive W f4) as Ja.
  assert (N4: nactvar (fst (luaK_jump f4)) = fst c /\ freereg (fst (luaK_jump f4)) = fst c /\ lty (fst (luaK_jump f4)) = snd c /\ uty (fst (luaK_jump f4)) = ut).
  { destruct A4 as [[B1 B2 B3 B4 B5 B6] B7]. split; [exact B2|]. split; [exact B7|]. split; [exact B4|exact B5]. }
  destruct (luaK_jump f4) as [f5 j] eqn:Ej. cbn [fst snd] in Sj, Pj, Ja, N4. 
  assert (Nd: pc fs <> pc f5) by (pose proof (sg_pc _ _ _ S4); lia).
  assert (Sb: SG f4 (patchback f5 j (pc fs)) []) by (apply sg_patchback; [exact P4|rewrite app_nil_r; exact Sj]).
  set (f6 := patchback f5 j (pc fs)) in *. assert (N6: nactvar f6 = fst c /\ freereg f6 = fst c /\ lty f6 = snd c /\ uty f6 = ut) by (unfold f6, patchback; destruct (_ =? _); exact N4).
  assert (S6: SG fs f6 (lf ++ bb)) by (rewrite <- (app_nil_r (lf ++ bb)); eapply sg_trans; [apply A|exact S4|exact Sb]).
  injection G as <- <-. set (f7 := patchtohere (patchtohere f6 bb) lf).
  assert (S7: SG fs f7 []) by (apply sg_patchtohere; rewrite app_nil_r; apply sg_patchtohere; eapply sg_cnt; [exact S6|]; intros k; rewrite !cnt_app; lia).
  split; [eapply sg_same; [exact S7|reflexivity..]|]. split.
  { destruct N6 as (B1 & B2 & B3 & B4). pose proof (sg_pre _ _ _ S7) as P7. split; [|exact B1]. constructor; cbn; auto; [destruct P7; constructor; assumption|lia|apply A]. }
  intros P X cf l st Ar Ho. cbn [Stat_spec.exec after1].
  assert (X6: ext nohole f6 P) by (eapply ext_code; [| |exact X]; reflexivity). assert (X4: ext nohole f4 P) by (eapply sg_ext; eauto). assert (X3: ext nohole fs3 P) by (eapply ext_code; [| |exact X4]; reflexivity).
  assert (X2: ext nohole fs2 P) by (eapply sg_ext; eauto).
  (* leaving the loop *)
  assert (Out: forall s1 l1 k cf1, 0 < cnt (lf ++ bb) k -> atj (code fs3) k cf1 s1 -> holds c l1 s1 -> fin (endstat f7) c c [] (Ok ((Done, l1), world s1)) cf1).
  { intros s1 l1 k cf1 Hk At H. exists s1, l1. left. split; [reflexivity|]. split; [|exact H]. right. exists k. split; [cbn; rewrite !cnt_app in *; lia|]. exact (sg_atj W fs f4 (lf ++ bb) f6 [] k cf1 s1 S4 Sb Hk At). }
  assert (Loop: forall k, k <= K -> forall cf l st, arrive fs cf st -> holds c l st -> SRes k P cf (loop W (fun again l w => value W (evalc W E ut c x l w) (fun v w => if truthy v then body W (execb c b l w) again else done W l w)) k l (world st)) (fin (endstat f7) c c [])).
  { intros k. induction k as [|k IH]; intros Lk cf0 l0 st0 Ar0 Ho0; [right; exact Logic.I|]. cbn [loop].
    eapply jumps_run; [exact A|exact T1|exact J|exact X2|exact Ar0|exact Ho0|]. intros v cf1 s1 H1 _ Go. destruct (truthy v); cbn in Go.
    - eapply sres_body; [eapply sres_le; [exact Lk|apply (R3 P X3 cf1 l0 s1 Go H1)]| | |apply fin_ok].
      + intros l1 w c1 (s2 & l2 & [(Q & A9 & H9)|(Q & _)]); [|discriminate Q]. injection Q as <- ->.
        destruct (Ja c1 s2 P4 (arrive_leave _ _ _ _ A9)) as (q & Hq & At). assert (Sj': SG f4 f5 (j ++ [])) by (rewrite app_nil_r; exact Sj). destruct (patchback_step W E f4 f5 j [] (pc fs) P q c1 s2 Sj' Nd X6 Hq At) as (c2 & St1 & St2).
        eapply sres_round; [exact St1|exact St2|]. apply IH; [lia|left; reflexivity|]. eapply inner_holds; [apply inner_after|exact H9].
      + intros l1 w c1 (s2 & l2 & [(Q & _)|(Q & (q & Hq & At) & H9)]); [discriminate Q|]. injection Q as <- ->. eapply Out; [|exact At|exact H9]. rewrite cnt_app. lia.
    - destruct Go as (q & Hq & At). apply sres_ret. eapply Out; [|eapply sg_atj; [exact S2|exact S3|exact Hq|exact At]|exact H1]. rewrite cnt_app. lia. }
  apply Loop; auto.
Qed.
Lemma repeat_good x b : GBt b -> GS (SRepeat b x).
Proof.
  intros [IB _] c fs fs' bl A Tm G. cbn [stame] in Tm. apply andb_prop in Tm as [Tm T3]. apply andb_prop in Tm as [T1 T2]. cbn [Stat_model.gstat] in G. bo G G1. rename f into fs1, l into bb. bo G G2. rename f into fs2.
  destruct (cond fs2 e) as [fs3 lf] eqn:C. injection G as <- <-. destruct (IB c fs fs1 bb A T1 G1) as (S1 & A1 & R1).
  pose proof (cond_jumps W E ut PL _ _ x fs1 fs2 e fs3 lf (proj1 A1) T2 T3 G2 C) as J. pose proof (jumps_at _ _ _ _ _ _ A1 J) as A3. assert (S3: SG fs1 fs3 lf) by (apply grow_sg; apply J).
  assert (S13: SG fs fs3 (bb ++ lf)) by (eapply sg_trans; eauto; apply A). destruct (leave_at _ _ _ _ _ A A3 S13) as [A4 S4]. set (f4 := leave fs fs3) in *.
  assert (S34: SG fs1 f4 lf) by (eapply sg_same; [exact S3|reflexivity..]). pose proof (a_pre _ _ _ _ (proj1 A1)) as P1.
  assert (Sb: SG fs1 (patchback f4 lf (pc fs)) []) by (apply sg_patchback; [exact P1|rewrite app_nil_r; exact S34]).
  set (f5 := patchback f4 lf (pc fs)) in *. assert (N5: nactvar f5 = fst c /\ freereg f5 = fst c /\ lty f5 = snd c /\ uty f5 = ut).
  { destruct A4 as [[B1 B2 B3 B4 B5 B6] B7]. unfold f5, patchback; destruct (_ =? _); split; [exact B2|split; [exact B7|split; [exact B4|exact B5]]|exact B2|split; [exact B7|split; [exact B4|exact B5]]]. }
  assert (S5: SG fs f5 bb) by (rewrite <- (app_nil_r bb); eapply sg_trans; [apply A|exact S1|exact Sb]).
  assert (S6: SG fs (patchtohere f5 bb) []) by (apply sg_patchtohere; rewrite app_nil_r; exact S5).
  split; [exact S6|]. split.
  { destruct N5 as (B1 & B2 & B3 & B4). split; [|exact B2]. constructor; cbn; auto; [exact (sg_pre _ _ _ S6)|lia|apply A]. }
  intros P X cf l st Ar Ho. cbn [Stat_spec.exec after1].
  assert (X5: ext nohole f5 P) by (eapply ext_code; [| |exact X]; reflexivity). assert (X1: ext nohole fs1 P) by (eapply sg_ext; eauto).
  assert (X3: ext nohole fs3 P).
  { unfold f5, patchback in X5. destruct (_ =? _); [eapply ext_code; [| |exact X5]; reflexivity|]. eapply ext_refines; [exact X5| |exists []; rewrite app_nil_r; reflexivity]. cbn [code with_code]. apply refines_patch.
    - intros q. pose proof (g_uniq _ _ _ _ S34 q) as U. rewrite cnt_app in U. lia.
    - intros q Hq. eapply sg_jok; [exact S34|exact Hq]. }
  assert (Loop: forall k, k <= K -> forall cf l st, arrive fs cf st -> holds c l st -> SRes k P cf (loop W (fun again l w => body W (execb c b l w) (fun l w => value W (evalc W E ut (after c b) x l w) (fun v w => if truthy v then done W l w else again l w))) k l (world st)) (fin (patchtohere f5 bb) c c [])).
  { intros k. induction k as [|k IH]; intros Lk cf0 l0 st0 Ar0 Ho0; [right; exact Logic.I|]. cbn [loop].
    eapply sres_body; [eapply sres_le; [exact Lk|apply (R1 P X1 cf0 l0 st0 Ar0 Ho0)]| | |apply fin_ok].
    - intros l1 w c1 (s2 & l2 & [(Q & A9 & H9)|(Q & _)]); [|discriminate Q]. injection Q as <- ->.
      eapply jumps_run; [exact A1|exact T2|exact J|exact X3|exact A9|exact H9|]. intros v cf1 s1 H1 Ev Go. destruct (truthy v) eqn:Tv; cbn in Go.
      + apply sres_ret. exists s1, l1. left. split; [reflexivity|]. split; [|eapply inner_holds; [apply inner_after|exact H1]]. 
        (* arrival *)
        unfold f5, patchback. destruct (Nat.eqb_spec (pc fs) (pc f4)).
        * eapply arrive_mono; [| |exact Go]; [reflexivity|]. intros q Hq. cbn. rewrite !cnt_app. lia.
        * destruct Go as [->|(q & Hq & At)]; [left; unfold pc; cbn; rewrite patch_len; reflexivity|]. right. exists q. split; [cbn; rewrite cnt_app; lia|]. cbn [code with_code patchtohere with_jpc].
          assert (Uq: uniq lf) by (intros i; pose proof (g_uniq _ _ _ _ S34 i) as U; rewrite cnt_app in U; lia).
          assert (Jq: forall i, 0 < cnt lf i -> jok (code f4) i) by (intros i Hi; eapply sg_jok; [exact S34|exact Hi]).
          assert (Zq: cnt lf q = 0) by (pose proof (g_uniq _ _ _ _ S34 q) as U; rewrite cnt_app in U; change (jpc (strip f4)) with (jpc fs3) in U; lia).
          destruct (patch_jok (code f4) lf (pc fs) None (Some (pc fs)) q Uq Jq (p_jok _ (a_pre _ _ _ _ (proj1 A3)) q Hq) Zq) as [_ Tq]. unfold Gen_run.atj in *. rewrite Tq. exact At.
      + destruct Go as (q & Hq & At). assert (Nd: pc fs <> pc f4).
        { intros Eq. assert (Le: pc fs3 <= pc fs1) by (pose proof (sg_pc _ _ _ S1); change (pc f4) with (pc fs3) in Eq; lia).
          rewrite (holds_eval _ _ _ _ T2 H9) in Ev. pose proof (nocode_stays _ _ _ _ _ s2 v (world s1) Le J (holds_okst _ _ _ _ A1 H9) Ev) as Bad. rewrite Tv in Bad. discriminate Bad. }
        destruct (patchback_step W E fs1 f4 lf [] (pc fs) P q cf1 s1 ltac:(rewrite app_nil_r; exact S34) Nd X5 Hq At) as (c2 & St1 & St2).
        eapply sres_round; [exact St1|exact St2|]. apply IH; [lia|left; reflexivity|]. eapply inner_holds; [apply inner_after|exact H1].
    - intros l1 w c1 (s2 & l2 & [(Q & _)|(Q & (q & Hq & At) & H9)]); [discriminate Q|]. injection Q as <- ->. exists s2, l1. left. split; [reflexivity|]. split; [|exact H9]. right. exists q. split; [cbn; rewrite cnt_app; lia|].
      exact (sg_atj W fs fs1 bb f5 [] q c1 s2 S1 Sb Hq At). }
  apply Loop; auto.
Qed.
Lemma if_good cl : GC cl -> GS (SIf cl).
Proof.
  intros IC c fs fs' bl A Tm G. cbn [stame] in Tm. cbn [Stat_model.gstat] in G. match type of G with bind ?o _ = _ => destruct o as [[[f1 b1] e1]| | |] eqn:G1 end; cbn [bind] in G; try discriminate G. injection G as <- <-.
  destruct (IC c fs f1 b1 e1 A Tm G1) as (S1 & A1 & R1). assert (S2: SG fs (patchtohere f1 e1) b1) by (apply sg_patchtohere; eapply sg_cnt; [exact S1|]; intros k; rewrite !cnt_app; lia).
  split; [eapply sg_same; [exact S2|reflexivity..]|]. split.
  { destruct A1 as [[B1 B2 B3 B4 B5 B6] B7]. pose proof (sg_pre _ _ _ S2) as P2. split; [|exact B2]. constructor; cbn; auto; [destruct P2; constructor; assumption|lia]. }
  intros P X cf l st Ar Ho. cbn [Stat_spec.exec after1]. eapply sres_imp; [|apply (R1 P (ext_code _ _ _ eq_refl eq_refl X) cf l st Ar Ho)].
  intros o cf1 (s & l1 & [(-> & [A9|(j & Hj & At)] & H)|H]); exists s, l1; [left..|right; exact H]; (split; [reflexivity|]); (split; [|exact H]).
  - eapply arrive_mono; [| |exact A9]; [reflexivity|]. intros q Hq. cbn. rewrite cnt_app. lia.
  - right. exists j. split; [cbn; rewrite cnt_app; lia|exact At].
Qed.
Lemma end_good : GC CEnd.
Proof.
  intros c fs fs' bl esc A Tm G. injection G as <- <- <-. split; [apply sg_refl; apply A|]. split; [exact A|]. intros P X cf l st Ar Ho. apply sres_ret. exists st, l. left. auto.
Qed.
Lemma else_good b : GBt b -> GC (CElse b).
Proof.
  intros [IB _] c fs fs' bl esc A Tm G. cbn [ctame] in Tm. cbn [Stat_model.gclauses] in G. bo G G1. injection G as <- <- <-. destruct (IB c fs f l A Tm G1) as (Sg & A1 & R).
  destruct (leave_at _ _ _ _ _ A A1 Sg) as [A2 S2]. rewrite app_nil_r. split; [exact S2|]. split; [exact A2|]. intros P X cf lo st Ar Ho. cbn [Stat_spec.execc].
  eapply sres_imp; [|apply (R P (ext_code _ _ _ eq_refl eq_refl X) cf lo st Ar Ho)]. intros o cf1 (s & l1 & [(-> & A3 & H3)|H]); exists s, l1; [left|right; exact H].
  split; [reflexivity|]. split; [left; apply arrive_leave; exact A3|]. eapply inner_holds; [apply inner_after|exact H3].
Qed.
(* what follows a clause *)
Lemma escape_good c cl fs : AtS c fs -> let '(f4, j) := escape fs cl in AtS c f4 /\ SG fs f4 j /\
  forall cf s, arrive fs cf s -> (cl = CEnd /\ f4 = fs) \/ (cl <> CEnd /\ exists q, 0 < cnt j q /\ atj (code f4) q cf s).
Proof.
  intros A. assert (Jm: cl <> CEnd -> escape fs cl = luaK_jump fs) by (destruct cl; [contradiction|reflexivity..]). assert (Dc: cl = CEnd \/ cl <> CEnd) by (destruct cl; [left; reflexivity|right; discriminate..]).
  destruct Dc as [->|Ne]; [cbn; split; [exact A|]; split; [apply sg_refl; apply A|]; auto|]. rewrite (Jm Ne). pose proof (a_pre _ _ _ _ (proj1 A)) as P0. pose proof (sg_jump fs P0) as Sj. pose proof (jump_arrive W fs) as Ja.
  assert (N4: nactvar (fst (luaK_jump fs)) = nactvar fs /\ freereg (fst (luaK_jump fs)) = freereg fs /\ lty (fst (luaK_jump fs)) = lty fs /\ uty (fst (luaK_jump fs)) = uty fs) by (repeat split).
  destruct (luaK_jump fs) as [f4 j]. cbn [fst snd] in *. split.
  - destruct A as [A Fr], N4 as (B1 & B2 & B3 & B4). split; [|congruence]. eapply at_same; eauto; [exact (sg_pre _ _ _ Sj)|lia].
  - split; [exact Sj|]. intros cf s Ar. right. split; [exact Ne|]. apply Ja; auto.
Qed.
(* from the block of a clause to the end: jf is the list of jumps to the next clause *)
Definition restk fs0 jf (bl0 : list nat) cl (r : fstate * list nat) : outcome (fstate * list nat * list nat) :=
  let '(fs3, bl) := r in let '(fs4, j) := escape (leave fs0 fs3) cl in
  bind (gclauses (patchtohere fs4 jf) cl) (fun '(fs5, bl', esc) => Ok (fs5, bl0 ++ bl ++ bl', j ++ esc)).
Lemma rest_good c cl fs fs2 fs3 c3 jf bl0 bl fs' bl' esc : GC cl -> AtS c fs -> AtS c3 fs3 -> ctame ut c cl = true -> SG fs fs2 (jf ++ bl0) -> SG fs2 fs3 bl ->
  restk fs jf bl0 cl (fs3, bl) = Ok (fs', bl', esc) ->
  SG fs fs' (bl' ++ esc) /\ AtS c fs' /\ (forall P, ext nohole fs' P -> ext nohole fs3 P) /\
  (forall P, ext nohole fs' P -> forall q cf l st, 0 < cnt jf q -> atj (code fs2) q cf st -> holds c l st -> SRes K P cf (execc c cl l (world st)) (cfin fs' c bl' esc)) /\
  (forall q cf s, 0 < cnt bl0 q -> atj (code fs2) q cf s -> exists q, 0 < cnt bl' q /\ atj (code fs') q cf s) /\
  (forall q cf s, 0 < cnt bl q -> atj (code fs3) q cf s -> exists q, 0 < cnt bl' q /\ atj (code fs') q cf s) /\
  (forall cf s, arrive fs3 cf s -> arrive fs' cf s \/ exists q, 0 < cnt esc q /\ atj (code fs') q cf s).
Proof.
  intros IC A A3 Tm S2 S3 G. pose proof (a_pre _ _ _ _ (proj1 A)) as P0. pose proof (sg_pre _ _ _ S2) as P2. assert (S03: SG fs fs3 ((jf ++ bl0) ++ bl)) by (eapply sg_trans; eauto).
  destruct (leave_at _ _ _ _ _ A A3 S03) as [A4 S4]. unfold restk in G. pose proof (escape_good c cl (leave fs fs3) A4) as Es. destruct (escape (leave fs fs3) cl) as [f4 j] eqn:Ee. destruct Es as (A5 & S5 & Ar5).
  assert (S35: SG fs3 f4 j) by exact S5. assert (S25: SG fs2 f4 (bl ++ j)) by (eapply sg_trans; eauto).
  assert (S05: SG fs f4 (((jf ++ bl0) ++ bl) ++ j)) by (eapply sg_trans; eauto).
  assert (S6: SG fs (patchtohere f4 jf) (bl0 ++ bl ++ j)) by (apply sg_patchtohere; eapply sg_cnt; [exact S05|]; intros k; rewrite !cnt_app; lia).
  set (f6 := patchtohere f4 jf) in *. pose proof (sg_pre _ _ _ S6) as P6.
  assert (A6: AtS c f6) by (destruct A5 as [A5 F5]; split; [|exact F5]; eapply at_same; [exact A5|exact P6|reflexivity|cbn; lia|reflexivity..]).
  match type of G with bind ?o _ = _ => destruct o as [[[f7 b7] e7]| | |] eqn:G7 end; cbn [bind] in G; try discriminate G. injection G as <- <- <-.
  destruct (IC c f6 f7 b7 e7 A6 Tm G7) as (S7 & A7 & R7).
  assert (Lift: forall q cf s, 0 < cnt (bl0 ++ bl ++ j) q -> atj (code f4) q cf s -> atj (code f7) q cf s) by (intros q cf s Hq At; exact (sg_atj W fs f6 _ f7 _ q cf s S6 S7 Hq At)).
  split; [eapply sg_cnt; [eapply sg_trans; [exact P0|exact S6|exact S7]|]; intros k; rewrite !cnt_app; lia|]. split; [exact A7|]. split.
  { intros P X. eapply sg_ext; [exact S35|]. eapply ext_code; [| |eapply sg_ext; [exact S7|exact X]]; reflexivity. }
  split; [|split; [|split]].
  - intros P X q cf l st Hq At Ho. assert (Ar: arrive f6 cf st). { right. exists q. split; [cbn; rewrite cnt_app; lia|]. eapply (sg_atj W fs fs2 _ f4 _ q cf st S2 S25); [rewrite cnt_app; lia|exact At]. }
    eapply sres_imp; [|apply (R7 P X cf l st Ar Ho)]. intros o cf1 (s & l1 & [(-> & A9 & H)|(-> & (k & Hk & At9) & H)]); exists s, l1; [left|right]; (split; [reflexivity|]); (split; [|exact H]).
    + destruct A9 as [A9|(k & Hk & At9)]; [left; exact A9|right; exists k; split; [rewrite cnt_app; lia|exact At9]].
    + exists k. split; [rewrite !cnt_app; lia|exact At9].
  - intros q cf s Hq At. exists q. split; [rewrite cnt_app; lia|]. apply Lift; [rewrite cnt_app; lia|]. eapply (sg_atj W fs fs2 _ f4 _ q cf s S2 S25); [rewrite cnt_app; lia|exact At].
  - intros q cf s Hq At. exists q. split; [rewrite !cnt_app; lia|]. apply Lift; [rewrite !cnt_app; lia|]. exact (sg_atj W fs2 fs3 _ f4 _ q cf s S3 S35 Hq At).
  - intros cf s Ar. destruct (Ar5 cf s (arrive_leave _ _ _ _ Ar)) as [[-> ->]|[_ (q & Hq & At)]].
    + left. cbn in G7. injection G7 as <- _ _. eapply arrive_mono; [| |exact Ar]; [reflexivity|]. intros q Hq. cbn. rewrite cnt_app. lia.
    + right. exists q. split; [rewrite cnt_app; lia|]. apply Lift; [rewrite !cnt_app; lia|exact At].
Qed.
Lemma then_eq fs x b cl : gclauses fs (CThen x b cl) =
  bind (gen fs x) (fun '(fs1, e) =>
  match b with
  | BCons SBreak BNil => let '(fs2, e) := goiffalse fs1 e in bind (gclauses (leave fs fs2) cl) (fun '(fs3, bl, esc) => Ok (fs3, et e ++ bl, esc))
  | BCons SBreak b => let '(fs2, e) := goiffalse fs1 e in let '(fs3, jf) := luaK_jump fs2 in bind (gblock fs3 b) (restk fs jf (et e) cl)
  | _ => let '(fs2, e) := goiftrue fs1 e in bind (gblock fs2 b) (restk fs (ef e) [] cl)
  end).
Proof. reflexivity. Qed.
(* the block does not begin with break *)
Definition begins (b : block) : bool := match b with BCons SBreak _ => true | _ => false end.
Lemma then_plain x b cl : GBt b -> GC cl -> begins b = false -> GC (CThen x b cl).
Proof.
  intros [IB _] IC Nb c fs fs' bl esc A Tm G. rewrite then_eq in G. cbn [ctame] in Tm. apply andb_prop in Tm as [Tm T4]. apply andb_prop in Tm as [Tm T3]. apply andb_prop in Tm as [T1 T2].
  assert (T2': testedc ut c x T_FALSISH = true) by (destruct b as [|[] b]; exact T2 || discriminate Nb). bo G G1.
  assert (G': (let '(fs2, e) := goiftrue f e in bind (gblock fs2 b) (restk fs (ef e) [] cl)) = Ok (fs', bl, esc)) by (destruct b as [|[] b]; exact G || discriminate Nb). clear G T2.
  destruct (goiftrue f e) as [fs2 e2] eqn:C. pose proof (goiftrue_jumps W E ut PL _ _ x fs f e fs2 e2 (proj1 A) T1 T2' G1 C) as J. pose proof (jumps_at _ _ _ _ _ _ A J) as A2.
  assert (S2: SG fs fs2 (ef e2 ++ [])) by (rewrite app_nil_r; apply grow_sg; apply J). destruct (gblock fs2 b) as [[fs3 bb]| | |] eqn:G2; cbn [bind] in G'; try discriminate G'.
  destruct (IB c fs2 fs3 bb A2 T3 G2) as (S3 & A3 & R3). destruct (rest_good c cl fs fs2 fs3 _ (ef e2) [] bb fs' bl esc IC A A3 T4 S2 S3 G') as (S7 & A7 & X7 & Rj & _ & Rb & Ra).
  split; [exact S7|]. split; [exact A7|]. intros P X cf l st Ar Ho. cbn [Stat_spec.execc]. pose proof (X7 P X) as X3. pose proof (sg_ext _ _ _ _ S3 X3) as X2.
  eapply jumps_run; [exact A|exact T1|exact J|exact X2|exact Ar|exact Ho|]. intros v cf1 s1 H1 _ Go. destruct (truthy v); cbn in Go.
  - eapply sres_imp; [|apply (R3 P X3 cf1 l s1 Go H1)]. intros o cf2 (s & l1 & [(-> & A9 & H)|(-> & (k & Hk & At9) & H)]); exists s, l1; [left|right]; (split; [reflexivity|]).
    + split; [apply Ra; exact A9|]. eapply inner_holds; [apply inner_after|exact H].
    + split; [eapply Rb; eauto|exact H].
  - destruct Go as (q & Hq & At). eapply Rj; eauto.
Qed.
Lemma then_break x b cl : GB b -> GC cl -> GC (CThen x (BCons SBreak b) cl).
Proof.
  intros IB IC c fs fs' bl esc A Tm G. rewrite then_eq in G. cbn [ctame] in Tm. apply andb_prop in Tm as [Tm T4]. apply andb_prop in Tm as [Tm T3]. apply andb_prop in Tm as [T1 T2]. change (btame ut c b = true) in T3.
  bo G G1. destruct (goiffalse f e) as [fs2 e2] eqn:C. pose proof (goiffalse_jumps W E ut PL _ _ x fs f e fs2 e2 (proj1 A) T1 T2 G1 C) as J. pose proof (jumps_at _ _ _ _ _ _ A J) as A2. assert (S2: SG fs fs2 (et e2)) by (apply grow_sg; apply J).
  pose proof (a_pre _ _ _ _ (proj1 A)) as P0. pose proof (a_pre _ _ _ _ (proj1 A2)) as P2.
  (* the condition holds *)
  assert (Brk: forall P l w cf, (exists s q, 0 < cnt bl q /\ atj (code fs') q cf s /\ holds c l s /\ world s = w) -> SRes K P cf (execb c (BCons SBreak b) l w) (cfin fs' c bl esc)).
  { intros P l w cf (s & q & Hq & At & Ho & <-). change (SRes K P cf (Some (Ok ((Broken, l), world s))) (cfin fs' c bl esc)). apply sres_ret. exists s, l. right. split; [reflexivity|]. split; [eauto|exact Ho]. }
  destruct b as [|s0 b0].
  - match type of G with bind ?o _ = _ => destruct o as [[[f7 b7] e7]| | |] eqn:G7 end; cbn [bind] in G; try discriminate G. injection G as <- <- <-.
    destruct (leave_at _ _ _ _ _ A A2 S2) as [A4 S4]. destruct (IC c _ f7 b7 e7 A4 T4 G7) as (S7 & A7 & R7).
    split; [rewrite <- app_assoc; eapply sg_trans; eauto|]. split; [exact A7|]. intros P X cf l st Ar Ho. cbn [Stat_spec.execc].
    assert (X2: ext nohole fs2 P) by (eapply ext_code; [| |eapply sg_ext; [exact S7|exact X]]; reflexivity).
    eapply jumps_run; [exact A|exact T1|exact J|exact X2|exact Ar|exact Ho|]. intros v cf1 s1 H1 _ Go. destruct (truthy v); cbn in Go.
    + destruct Go as (q & Hq & At). apply Brk. exists s1, q. split; [rewrite cnt_app; lia|]. split; [|auto]. exact (sg_atj W fs (leave fs fs2) _ f7 _ q cf1 s1 S4 S7 Hq At).
    + eapply sres_imp; [|apply (R7 P X cf1 l s1 (arrive_leave _ _ _ _ Go) H1)]. intros o cf2 (s & l1 & [H|(-> & (k & Hk & At9) & H)]); exists s, l1; [left; exact H|right]. split; [reflexivity|]. split; [|exact H]. exists k. split; [rewrite cnt_app; lia|exact At9].
  - pose proof (sg_jump fs2 P2) as Sj. pose proof (jump_arrive W fs2) as Ja.
    assert (N4: nactvar (fst (luaK_jump fs2)) = nactvar fs2 /\ freereg (fst (luaK_jump fs2)) = freereg fs2 /\ lty (fst (luaK_jump fs2)) = lty fs2 /\ uty (fst (luaK_jump fs2)) = uty fs2) by (repeat split).
    destruct (luaK_jump fs2) as [fsj jf] eqn:Ej. cbn [fst snd] in *.
    assert (Aj: AtS c fsj) by (destruct A2 as [A2 Fr], N4 as (B1 & B2 & B3 & B4); split; [|congruence]; eapply at_same; eauto; [exact (sg_pre _ _ _ Sj)|lia]).
    assert (S2j: SG fs fsj (jf ++ et e2)) by (eapply sg_cnt; [eapply sg_trans; [exact P0|exact S2|exact Sj]|]; intros k; rewrite !cnt_app; lia).
    match type of G with bind ?o _ = _ => destruct o as [[fs3 bb]| | |] eqn:G2 end; cbn [bind] in G; try discriminate G.
    destruct (IB c fsj fs3 bb Aj T3 G2) as (S3 & A3 & R3). destruct (rest_good c cl fs fsj fs3 _ jf (et e2) bb fs' bl esc IC A A3 T4 S2j S3 G) as (S7 & A7 & X7 & Rj & R0 & _ & _).
    split; [exact S7|]. split; [exact A7|]. intros P X cf l st Ar Ho. cbn [Stat_spec.execc]. pose proof (X7 P X) as X3. pose proof (sg_ext _ _ _ _ S3 X3) as Xj. pose proof (sg_ext _ _ _ _ Sj Xj) as X2.
    eapply jumps_run; [exact A|exact T1|exact J|exact X2|exact Ar|exact Ho|]. intros v cf1 s1 H1 _ Go. destruct (truthy v); cbn in Go.
    + destruct Go as (q & Hq & At). apply Brk. destruct (R0 q cf1 s1 Hq (sg_atj W fs fs2 _ fsj _ q cf1 s1 S2 Sj Hq At)) as (k & Hk & At'). eauto 10.
    + destruct (Ja cf1 s1 P2 Go) as (q & Hq & At). eapply Rj; eauto.
Qed.
Lemma all_good : (forall s, GS s) /\ (forall b, GBt b) /\ (forall cl, GC cl).
Proof.
  apply stat_block_clauses_ind; intros.
  - apply assign_good.
  - apply call_good.
  - apply local_good.
  - apply do_good. assumption.
  - apply while_good. assumption.
  - apply repeat_good. assumption.
  - apply if_good. assumption.
  - apply break_good.
  - apply nil_good.
  - apply cons_good; assumption.
  - apply end_good.
  - apply else_good. assumption.
  - destruct (begins b) eqn:Nb; [|apply then_plain; assumption]. destruct b as [|[] b]; try discriminate Nb. apply then_break; [|assumption]. destruct H as [_ H]. exact H.
Qed.
End stat.

Section top.
Variable W : Type.
Variable E : env W.
Lemma sres_computes k P c o (Q : so W -> config W -> Prop) (final : ending * locals -> W -> config W -> Prop) : SRes W E k P c o Q ->
  (forall o c1, Q o c1 -> exists v w c2, o = Ok (v, w) /\ steps W E P c1 c2 /\ final v w c2) ->
  match o with Some o => computes W E P c o final | None => overflows W E P c \/ can_run W E P k c end.
Proof.
  destruct o as [o|]; intros R F.
  - destruct R as [(p & s & a & op & St & T & Ov & _)|[(c1 & St & Sm)|(c1 & St & H)]].
    + left. exists p, s, a, op. split; [apply steps_runs; exact St|auto].
    + right. apply steps_runs in St. destruct (step W E P c1) as [?| | |] eqn:Sp, o as [[? ?]| | |]; cbn in Sm; try contradiction; subst; exists c1; auto.
    + right. destruct (F o c1 H) as (v & w & c2 & -> & S2 & Fn). exists c2. split; [apply steps_runs; eapply steps_trans; eauto|exact Fn].
  - destruct R as [(p & s & a & op & St & T & Ov & _)|R]; [left|right; exact R]. exists p, s, a, op. split; [apply steps_runs; exact St|auto].
Qed.
End top.
Lemma statements_run : forall W (E : env W) ut n lt b fs fs' P s K, plain W E ut -> types_ok n lt ut -> starts n lt ut fs -> freereg fs = n -> btame ut (n, lt) b = true ->
  gbody (fmod E) (fpow E) fs b = Ok fs' -> goes_on fs' P -> (forall r, r < n -> hast (lt r) (reg s r)) ->
  match execb W E ut K (n, lt) b (reg s) (world s) with
  | Some o => computes W E P (pc fs, s) o (fun '(e, l) w c => e = Done /\ exists s', c = (pc fs', s') /\ world s' = w /\
      forall r, r < fst (after (n, lt) b) -> reg s' r = l r /\ hast (snd (after (n, lt) b) r) (reg s' r))
  | None => overflows W E P (pc fs, s) \/ can_run W E P K (pc fs, s)
  end.
Proof.
  intros W E ut n lt b fs fs' P s K PL Ty St Fr Tm G Go Ho. pose proof (starts_pre _ _ _ _ St) as P0. destruct St as (A1 & A2 & A3 & A4 & _).
  unfold gbody in G. destruct (gblock (fmod E) (fpow E) fs b) as [[f1 bl]| | |] eqn:Gb; cbn [bind] in G; try discriminate G. destruct bl; [|discriminate G]. injection G as <-.
  assert (A: AtS ut (n, lt) fs) by (split; [constructor; cbn; auto; lia|exact Fr]).
  destruct (proj1 (proj1 (proj2 (all_good W E ut PL K)) b) (n, lt) fs f1 [] A Tm Gb) as (Sg & A' & R). pose proof (sg_pre _ _ _ Sg) as P2.
  pose proof (goes_on_ext _ _ Go) as Xd. assert (X: ext nohole f1 P) by (eapply ext_refines; [exact Xd|apply refines_dj; exact (a_pre _ _ _ _ (proj1 A'))|exists []; rewrite app_nil_r; reflexivity]).
  eapply sres_computes; [apply (R P X (pc fs, s) (reg s) s); [left; reflexivity|intros r Hr; split; [reflexivity|apply Ho; exact Hr]]|].
  intros o c1 (s' & l & [(-> & Ar & H)|(_ & (j & Hj & _) & _)]); [|cbn in Hj; lia]. exists (Done, l), (world s'), (pc f1, s'). split; [reflexivity|]. split; [apply (dj_run W E nohole f1 P c1 s' (a_pre _ _ _ _ (proj1 A')) Xd); [intros p []|exact Ar]|]. split; [reflexivity|]. exists s'. auto.
Qed.

(* a program that never ends in the meaning never ends in the machine *)
Lemma statements_diverge : forall W (E : env W) ut n lt b fs fs' P s, plain W E ut -> types_ok n lt ut -> starts n lt ut fs -> freereg fs = n -> btame ut (n, lt) b = true ->
  gbody (fmod E) (fpow E) fs b = Ok fs' -> goes_on fs' P -> (forall r, r < n -> hast (lt r) (reg s r)) ->
  (forall K, execb W E ut K (n, lt) b (reg s) (world s) = None) -> forall m, overflows W E P (pc fs, s) \/ can_run W E P m (pc fs, s).
Proof.
  intros W E ut n lt b fs fs' P s PL Ty St Fr Tm G Go Ho N m. pose proof (statements_run W E ut n lt b fs fs' P s m PL Ty St Fr Tm G Go Ho) as R. rewrite N in R. exact R.
Qed.
Section fuel.
Variable W : Type.
Variable E : env W.
Variable ut : nat -> tmap.
Variable K K' : nat.
Hypothesis L : K <= K'.
Notation exec := (exec W E ut).
Notation execb := (execb W E ut).
Notation execc := (execc W E ut).
Definition upto (a b : sresult W) : Prop := forall o, a = Some o -> b = Some o.
Lemma upto_refl a : upto a a.
Proof. intros o H. exact H. Qed.
Lemma upto_value o f g : (forall v w, upto (f v w) (g v w)) -> upto (value W o f) (value W o g).
Proof. intros H. destruct o as [[v w]| | |]; cbn; [apply H|apply upto_refl..]. Qed.
Lemma upto_next a b f g : upto a b -> (forall l w, upto (f l w) (g l w)) -> upto (next W a f) (next W b g).
Proof. intros H F o. destruct a as [a|]; [|discriminate]. rewrite (H a eq_refl). destruct a as [[[[|] l] w]| | |]; cbn; [apply F|auto..]. Qed.
Lemma upto_body a b f g : upto a b -> (forall l w, upto (f l w) (g l w)) -> upto (body W a f) (body W b g).
Proof. intros H F o. destruct a as [a|]; [|discriminate]. rewrite (H a eq_refl). destruct a as [[[[|] l] w]| | |]; cbn; [apply F|auto..]. Qed.
Lemma upto_loop f g : (forall h h', (forall l w, upto (h l w) (h' l w)) -> forall l w, upto (f h l w) (g h' l w)) -> forall k k', k <= k' -> forall l w, upto (loop W f k l w) (loop W g k' l w).
Proof.
  intros H. induction k as [|k IH]; intros k' Lk l w; [intros o Q; discriminate Q|]. destruct k' as [|k']; [lia|]. cbn [loop]. apply H. apply IH. lia.
Qed.
Lemma fuel_up : (forall s c l w, upto (exec K c s l w) (exec K' c s l w)) /\ (forall b c l w, upto (execb K c b l w) (execb K' c b l w)) /\ (forall cl c l w, upto (execc K c cl l w) (execc K' c cl l w)).
Proof.
  apply stat_block_clauses_ind; intros.
  - apply upto_refl.
  - apply upto_refl.
  - apply upto_refl.
  - apply H.
  - apply (upto_loop (fun again l w => value W (evalc W E ut c x l w) (fun v w => if truthy v then body W (execb K c b l w) again else done W l w))
      (fun again l w => value W (evalc W E ut c x l w) (fun v w => if truthy v then body W (execb K' c b l w) again else done W l w))); [|exact L].
    intros h h' Hh l0 w0. apply upto_value. intros v w1. destruct (truthy v); [|apply upto_refl]. apply upto_body; [apply H|exact Hh].
  - apply (upto_loop (fun again l w => body W (execb K c b l w) (fun l w => value W (evalc W E ut (after c b) x l w) (fun v w => if truthy v then done W l w else again l w)))
      (fun again l w => body W (execb K' c b l w) (fun l w => value W (evalc W E ut (after c b) x l w) (fun v w => if truthy v then done W l w else again l w)))); [|exact L].
    intros h h' Hh l0 w0. apply upto_body; [apply H|]. intros l1 w1. apply upto_value. intros v w2. destruct (truthy v); [apply upto_refl|apply Hh].
  - apply H.
  - apply upto_refl.
  - apply upto_refl.
  - apply (upto_next _ _ _ _ (H c l w)). intros. apply H0.
  - apply upto_refl.
  - apply H.
  - apply (upto_value (evalc W E ut c0 x l w) (fun v w => if truthy v then execb K c0 b l w else execc K c0 c l w) (fun v w => if truthy v then execb K' c0 b l w else execc K' c0 c l w)). intros v w1. destruct (truthy v); [apply H|apply H0].
Qed.
End fuel.
Lemma fuel_enough : forall W (E : env W) ut K K' c b l w o, K <= K' -> execb W E ut K c b l w = Some o -> execb W E ut K' c b l w = Some o.
Proof. intros W E ut K K' c b l w o L. exact (proj1 (proj2 (fuel_up W E ut K K' L)) b c l w o). Qed.
