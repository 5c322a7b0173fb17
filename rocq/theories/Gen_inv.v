(* What an expression descriptor stands for: the state of the code generator after an expression
   and what the code that has been generated does. *)
Require Import ZArith List Bool Arith Lia.
From Verif Require Import Base Float_model Op_model Op_spec Op_proofs Gen_model Gen_spec Gen_facts Gen_run.
Import ListNotations.
Local Open Scope nat_scope.

Definition samefs (fs fs1 : fstate) : Prop :=
  code fs1 = code fs /\ jpc fs1 = jpc fs /\ ks fs1 = ks fs /\ nactvar fs1 = nactvar fs /\ lty fs1 = lty fs /\ uty fs1 = uty fs.
Lemma grow_same fs0 fs fs1 h l : samefs fs fs1 -> Grow fs0 fs h l -> Grow fs0 fs1 h l.
Proof. intros (A & B & C & D & F & G) H. eapply grow_move; eauto. intros j. rewrite B. reflexivity. Qed.
Lemma same_free fs n : samefs fs (with_free fs n).
Proof. repeat split. Qed.
Lemma same_trans a b c : samefs a b -> samefs b c -> samefs a c.
Proof. unfold samefs. intuition congruence. Qed.
Lemma same_refl a : samefs a a.
Proof. repeat split. Qed.
Lemma same_free_reg fs r : samefs fs (free_reg fs r).
Proof. unfold free_reg. destruct (_ <=? _); repeat split. Qed.
Lemma grow_cnt fs0 fs h l l' : (forall j, cnt l j = cnt l' j) -> Grow fs0 fs h l -> Grow fs0 fs h l'.
Proof. intros C G. eapply grow_move; eauto. intros j. rewrite !cnt_app, C. reflexivity. Qed.

Definition hole (e : expdesc) : holes := fun p => match ek e with VReloc q => p = q | VJmp q => S p = q | _ => False end.
Definition vj (e : expdesc) : list nat := match ek e with VJmp p => [p] | _ => [] end.
Definition pend (e : expdesc) : list nat := et e ++ ef e ++ vj e.
Definition vty (e : expdesc) : tmap := match ek e with VIndexed _ _ _ _ => elements (ety e) | _ => ety e end.
Definition tmp (n r : nat) : nat := if r <? n then 0 else 1.
Definition tmpk (n : nat) (x : rk) : nat := match x with R r => tmp n r | K _ => 0 end.
(* what is known of the registers and of the code, by kind *)
Definition kindok (n b0 : nat) (fs : fstate) (e : expdesc) : Prop :=
  match ek e with
  | VNonreloc r => (r < n /\ freereg fs = b0) \/ (r = b0 /\ freereg fs = S b0)
  | VLocal r => r < n /\ freereg fs = b0
  | VIndexed up t idx _ =>
    let tt := if up then 0 else tmp n t in
    freereg fs = b0 + tt + tmpk n idx /\ (tt = 1 -> t = b0) /\ (forall r, idx = R r -> r < n \/ r = b0 + tt)
  | VReloc p => S p = pc fs /\ jpc fs = [] /\ freereg fs = b0 /\ lastok (firstn p (code fs)) /\
                exists op, nth_error (code fs) p = Some (Val None op) /\ forall b c, op = OConcat b c -> b = b0 /\ b <= c
  | VJmp p => freereg fs = b0 /\ jpc fs = [] /\ S p = pc fs /\ exists q o c x y, p = S q /\ nth_error (code fs) q = Some (Cmp o c x y)
  | VK k => freereg fs = b0 /\ k < length (ks fs)
  | VKFlt f => freereg fs = b0 /\ literal_ok f = true
  | _ => freereg fs = b0
  end.
Definition arrival (k : kind) : Prop := match k with VReloc _ | VJmp _ => False | _ => True end.
Lemma arrival_hole e : arrival (ek e) -> forall p, ~ hole e p.
Proof. unfold hole. destruct (ek e); cbn; auto. Qed.

Section inv.
Variable W : Type.
Variable E : env W.
Notation step := (step W E).
Notation config := (config W).
Notation state := (state W).
Notation Res := (Res W E).
Notation steps := (steps W E).
Definition result := (nat -> val) -> W -> outcome (val * W).
Definition okst (fs : fstate) (s : state) : Prop := forall r, r < nactvar fs -> hast (lty fs r) (reg s r).
Definition keep (b : nat) (s0 s : state) : Prop := forall r, r < b -> reg s r = reg s0 r.
(* the value of a descriptor whose code is complete *)
Definition valF (P : prog) (fs : fstate) (e : expdesc) (s : state) (o : outcome (val * W)) : Prop :=
  match ek e with
  | VNil => o = Ok (Nil, world s)
  | VTrue => o = Ok (Bool true, world s)
  | VFalse => o = Ok (Bool false, world s)
  | VKInt i => o = Ok (I i, world s)
  | VKFlt f => o = Ok (F f, world s)
  | VK k => exists v, nth_error (ks fs) k = Some v /\ o = Ok (v, world s)
  | VLocal r | VNonreloc r => o = Ok (reg s r, world s)
  | VUpval u => o = Ok (getup E (world s) u, world s)
  | VIndexed up t idx kt =>
    exists vk, rkval W (consts P) s idx = Ok vk /\ hast kt vk /\
    let vt := if up then getup E (world s) t else reg s t in
    hast (ety e) vt /\ o = get W E OP_GETTABLE vt vk (world s)
  | VReloc _ | VJmp _ => False
  end.
(* the value an instruction will compute *)
Definition opv (op : vop) (P : prog) (s : state) (o : outcome (val * W)) : Prop :=
  vres W E (consts P) s op = o \/ (overflow_op W (consts P) s op /\ vres W E (consts P) s op = UB).
Definition cmpv (op : copcode) (c : bool) (x y : rk) (P : prog) (s : state) (o : outcome (val * W)) : Prop :=
  o = bind (cres W E (consts P) s op x y) (fun '(r, w) => Ok (Bool (Bool.eqb r c), w)).
Definition exitF (P : prog) (fs : fstate) (e : expdesc) (cf : config) (s : state) (o : outcome (val * W)) : Prop :=
  match ek e with
  | VReloc p => cf = (p, s) /\ exists op, nth_error (code fs) p = Some (Val None op) /\ opv op P s o
  | VJmp p => cf = (pred p, s) /\ exists op c x y, nth_error (code fs) (pred p) = Some (Cmp op c x y) /\ cmpv op c x y P s o
  | _ => arrive W fs cf s /\ valF P fs e s o
  end.
Definition exitJ (c : list instr) (l : list nat) (tv : bool) (cf : config) (s : state) (o : outcome (val * W)) : Prop :=
  exists j, 0 < cnt l j /\ atj W c j cf s /\
    match tset c j with Some (b, cc) => cc = tv /\ o = Ok (reg s b, world s) | None => o = Ok (Bool tv, world s) end.
Definition exits (P : prog) (fs : fstate) (e : expdesc) (b0 : nat) (s0 : state) (o : outcome (val * W)) (cf : config) : Prop :=
  exists s, keep b0 s0 s /\ (exitF P fs e cf s o \/ exitJ (code fs) (et e) true cf s o \/ exitJ (code fs) (ef e) false cf s o).
Definition CL (fs0 : fstate) (b0 : nat) (fs : fstate) (e : expdesc) (r : result) : Prop :=
  forall P, ext (hole e) fs P -> forall cf0 s0, okst fs0 s0 -> arrive W fs0 cf0 s0 ->
  Res P cf0 (r (reg s0) (world s0)) (exits P fs e b0 s0 (r (reg s0) (world s0))).
Definition typed (t : tmap) (o : outcome (val * W)) : Prop := forall v w, o = Ok (v, w) -> hast t v.
Definition TY (fs0 : fstate) (t : tmap) (r : result) : Prop := forall s0, okst fs0 s0 -> typed t (r (reg s0) (world s0)).
Record INV (fs0 : fstate) (b0 : nat) (fs : fstate) (e : expdesc) (r : result) : Prop := {
  i_grow : Grow fs0 fs (hole e) (pend e);
  i_kind : kindok (nactvar fs0) b0 fs e;
  i_cl : CL fs0 b0 fs e r;
  i_ty : TY fs0 (vty e) r }.
(* the same, before an instruction that completes the value *)
Definition HC (fs0 : fstate) (b0 : nat) (fs : fstate) (t f : list nat) (r : result) (V : prog -> state -> outcome (val * W) -> Prop) : Prop :=
  forall P, ext nohole fs P -> forall cf0 s0, okst fs0 s0 -> arrive W fs0 cf0 s0 ->
  Res P cf0 (r (reg s0) (world s0)) (fun cf => exists s, keep b0 s0 s /\
    ((arrive W fs cf s /\ V P s (r (reg s0) (world s0))) \/ exitJ (code fs) t true cf s (r (reg s0) (world s0)) \/ exitJ (code fs) f false cf s (r (reg s0) (world s0)))).

Lemma keep_refl b s : keep b s s.
Proof. intros r _. reflexivity. Qed.
Lemma keep_trans b s0 s1 s2 : keep b s0 s1 -> keep b s1 s2 -> keep b s0 s2.
Proof. intros A B r H. rewrite B, A by exact H. reflexivity. Qed.
Lemma keep_le b b' s0 s : b' <= b -> keep b s0 s -> keep b' s0 s.
Proof. intros L A r H. apply A. lia. Qed.
Lemma keep_setr b s0 s r v w : keep b s0 s -> b <= r -> keep b s0 (setr s r v w).
Proof. intros A L x H. cbn. destruct (Nat.eqb_spec x r); [lia|]. apply A. exact H. Qed.
Lemma okst_keep fs b s0 s : okst fs s0 -> nactvar fs <= b -> keep b s0 s -> okst fs s.
Proof. intros A L Ke r H. rewrite Ke by lia. apply A. exact H. Qed.
Lemma res_imp {A} P c (o : outcome A) (Q Q' : config -> Prop) : (forall c, Q c -> Q' c) -> Res P c o Q -> Res P c o Q'.
Proof. intros H R. eapply res_bind; [exact R|auto|]. intros c1 H1. apply res_ret. auto. Qed.
Lemma arrive_same fs fs1 cf s : samefs fs fs1 -> arrive W fs cf s -> arrive W fs1 cf s.
Proof. intros (A & B & _). apply arrive_mono; [exact A|]. intros j. rewrite B. auto. Qed.
Lemma samefs_sym a b : samefs a b -> samefs b a.
Proof. unfold samefs. intuition congruence. Qed.
Lemma ext_same h fs fs1 P : samefs fs fs1 -> ext h fs1 P -> ext h fs P.
Proof. intros (A & _ & C & _) X. unfold ext in *. rewrite A, C in X. exact X. Qed.
Lemma hc_same fs0 b0 fs fs1 t f r V : samefs fs fs1 -> HC fs0 b0 fs t f r V -> HC fs0 b0 fs1 t f r V.
Proof.
  intros S H P X cf0 s0 O A. eapply res_imp; [|apply (H P (ext_same _ _ _ _ S X) cf0 s0 O A)]. intros c (s & Ke & [[Ar Va]|X1]).
  - exists s. split; [exact Ke|left]. split; [eapply arrive_same; eauto|exact Va].
  - exists s. split; [exact Ke|right]. destruct S as (-> & _). exact X1.
Qed.
Lemma hc_imp fs0 b0 fs t f r (V V' : prog -> state -> outcome (val * W) -> Prop) : HC fs0 b0 fs t f r V ->
  (forall P s s0, ext nohole fs P -> okst fs0 s0 -> keep b0 s0 s -> V P s (r (reg s0) (world s0)) -> V' P s (r (reg s0) (world s0))) -> HC fs0 b0 fs t f r V'.
Proof.
  intros H F P X cf0 s0 O A. eapply res_imp; [|apply (H P X cf0 s0 O A)]. intros c (s & Ke & [[Ar Va]|X1]).
  - exists s. split; [exact Ke|left]. split; [exact Ar|eapply F; eauto].
  - exists s. auto.
Qed.
Lemma ext_hole (h h' : holes) fs P : (forall p, h p -> h' p) -> ext h fs P -> ext h' fs P.
Proof. intros H [A B]. split; [|exact B]. intros p i Hp N. apply A; auto. Qed.
Lemma inv_hc fs0 b0 fs e r : INV fs0 b0 fs e r -> arrival (ek e) -> HC fs0 b0 fs (et e) (ef e) r (fun P s o => valF P fs e s o).
Proof.
  intros [G Ki C T] A P X cf0 s0 O Ar.
  assert (X': ext (hole e) fs P) by (eapply ext_hole; [|exact X]; intros p []).
  eapply res_imp; [|apply (C P X' cf0 s0 O Ar)]. intros cf (s & Ke & [H|H]); exists s; split; auto. left. unfold exitF in H. destruct (ek e); cbn in A; try contradiction; exact H.
Qed.
Lemma inv_grow fs0 b0 fs e r : INV fs0 b0 fs e r -> arrival (ek e) -> Grow fs0 fs nohole (et e ++ ef e).
Proof.
  intros [G Ki C T] A. assert (Hv: pend e = et e ++ ef e) by (unfold pend, vj; destruct (ek e); cbn in A; try contradiction; rewrite app_nil_r; reflexivity).
  rewrite Hv in G. destruct G as [A1 A2 A3 A4 A5 A6 A7 A8 A9 A10 A11 A12]. split; auto.
  intros p i H N. destruct (A7 p i H N) as (_ & K). split; [intros []|exact K].
Qed.
(* conversely *)
Lemma hc_inv fs0 b0 fs e r : arrival (ek e) -> Grow fs0 fs nohole (et e ++ ef e) -> kindok (nactvar fs0) b0 fs e -> TY fs0 (vty e) r ->
  HC fs0 b0 fs (et e) (ef e) r (fun P s o => valF P fs e s o) -> INV fs0 b0 fs e r.
Proof.
  intros A G Ki T H. assert (Hv: pend e = et e ++ ef e) by (unfold pend, vj; destruct (ek e); cbn in A; try contradiction; rewrite app_nil_r; reflexivity).
  split; auto.
  - rewrite Hv. destruct G as [A1 A2 A3 A4 A5 A6 A7 A8 A9 A10 A11 A12]. split; auto.
    intros p i Hp N. destruct (A7 p i Hp N) as (_ & K). split; [apply arrival_hole; exact A|exact K].
  - intros P X cf0 s0 O Ar. assert (X': ext nohole fs P) by (eapply ext_hole; [|exact X]; intros p Hp; exact (arrival_hole e A p Hp)).
    eapply res_imp; [|apply (H P X' cf0 s0 O Ar)]. intros cf (s & Ke & [Hx|Hx]); exists s; split; auto. left.
    unfold exitF. destruct (ek e); cbn in A; try contradiction; exact Hx.
Qed.
Lemma exitJ_tset c c' l tv cf s o : (forall j, 0 < cnt l j -> tset c' j = tset c j) -> exitJ c l tv cf s o -> exitJ c' l tv cf s o.
Proof. intros T (j & H & A & V). exists j. split; [exact H|]. unfold atj in *. rewrite (T j H). auto. Qed.
Lemma exitJ_app c l l' tv cf s o : exitJ c l tv cf s o -> exitJ c (l ++ l') tv cf s o.
Proof. intros (j & H & A & V). exists j. rewrite cnt_app. split; [lia|]. auto. Qed.
Lemma exitJ_app2 c l l' tv cf s o : exitJ c l tv cf s o -> exitJ c (l' ++ l) tv cf s o.
Proof. intros (j & H & A & V). exists j. rewrite cnt_app. split; [lia|]. auto. Qed.
Lemma lastok_firstn fs0 fs h l i : Pre fs0 -> Grow fs0 fs h l -> lastok (firstn (pc fs) (code (emit fs i))).
Proof.
  intros P0 G. pose proof (grow_pre _ _ _ _ G) as P1. pose proof (g_last _ _ _ _ (grow_dj fs0 fs h l P0 G)) as L.
  unfold emit. cbn [code with_code]. rewrite <- (pc_dj fs P1). unfold pc. rewrite firstn_app, Nat.sub_diag, firstn_all. cbn. rewrite app_nil_r. exact L.
Qed.
Lemma grow_tset_emit fs0 fs t f i : Grow fs0 fs nohole (t ++ f) ->
  (forall j, 0 < cnt t j -> tset (code (emit fs i)) j = tset (code fs) j) /\ (forall j, 0 < cnt f j -> tset (code (emit fs i)) j = tset (code fs) j).
Proof. intros G. split; intros j H; eapply tset_emit; eauto; rewrite cnt_app; lia. Qed.
(* an instruction whose target register is not chosen yet *)
Lemma emit_reloc fs0 b0 fs t f r op ty : Pre fs0 -> Grow fs0 fs nohole (t ++ f) -> freereg fs = b0 -> HC fs0 b0 fs t f r (opv op) ->
  (forall b c, op = OConcat b c -> b = b0 /\ b <= c) -> TY fs0 ty r -> INV fs0 b0 (emit fs (Val None op)) (mk (VReloc (pc fs)) t f ty) r.
Proof.
  intros P0 G Fr H Oc T. pose proof (grow_pre _ _ _ _ G) as P1. destruct (grow_tset_emit fs0 fs t f (Val None op) G) as [Tt Tf].
  split.
  - unfold pend, vj. cbn [et ef ek]. rewrite app_nil_r. apply grow_emit; auto; [discriminate|]. intros p Hp. unfold hole in Hp. cbn in Hp. lia.
  - unfold kindok. cbn [ek]. rewrite pc_emit by exact P1. repeat split; auto.
    + apply (lastok_firstn fs0 fs nohole (t ++ f)); auto.
    + exists op. split; [apply emit_nth; exact P1|exact Oc].
  - intros P X cf0 s0 O A.
    assert (Hh: forall p, hole (mk (VReloc (pc fs)) t f ty) p -> pc fs <= p) by (intros p Hp; unfold hole in Hp; cbn in Hp; lia).
    assert (X': ext nohole fs P) by (eapply ext_refines; [exact X|apply refines_emit; [exact P1|exact Hh]|exists []; rewrite app_nil_r; reflexivity]).
    eapply res_bind; [apply (H P X' cf0 s0 O A)|auto|]. intros cf (s & Ke & [[Ar Va]|[J|J]]).
    + eapply res_steps; [eapply emit_run; eauto|]. apply res_ret. exists s. split; [exact Ke|left]. cbn. split; [reflexivity|].
      exists op. split; [apply emit_nth; exact P1|exact Va].
    + apply res_ret. exists s. split; [exact Ke|]. right. left. cbn [et]. eapply exitJ_tset; eauto.
    + apply res_ret. exists s. split; [exact Ke|]. right. right. cbn [ef]. eapply exitJ_tset; eauto.
  - exact T.
Qed.
(* executing an instruction that puts a value into a register *)
Lemma exec_val P p a op s o b0 s0 (Q : config -> Prop) : nth_error (text P) p = Some (Val (Some a) op) -> opv op P s o -> b0 <= a -> keep b0 s0 s ->
  (forall v w, o = Ok (v, w) -> Q (S p, setr s a v w)) -> Res P (p, s) o Q.
Proof.
  intros Tx Va L Ke HQ. destruct Va as [Va|[II Va]].
  - destruct o as [[v w]|e| |] eqn:Eo.
    + eapply res_steps; [|apply res_ret; apply (HQ v w); reflexivity]. apply steps_one. unfold Gen_model.step. rewrite Tx, Va. reflexivity.
    + apply res_fail. unfold Gen_model.step. rewrite Tx, Va. reflexivity.
    + apply res_fail. unfold Gen_model.step. rewrite Tx, Va. exact Logic.I.
    + apply res_fail. unfold Gen_model.step. rewrite Tx, Va. exact Logic.I.
  - left. exists p, s, (Some a), op. split; [constructor|]. split; [exact Tx|]. split; [exact II|]. unfold Gen_model.step. rewrite Tx, Va. reflexivity.
Qed.
Lemma arrive_pc fs p s : p = pc fs -> arrive W fs (p, s) s.
Proof. intros ->. left. reflexivity. Qed.
Lemma emit_value fs0 b0 fs t f r op ty : Pre fs0 -> Grow fs0 fs nohole (t ++ f) -> freereg fs = S b0 -> HC fs0 b0 fs t f r (opv op) ->
  TY fs0 ty r -> INV fs0 b0 (emit fs (Val (Some b0) op)) (mk (VNonreloc b0) t f ty) r.
Proof.
  intros P0 G Fr H T. pose proof (grow_pre _ _ _ _ G) as P1. destruct (grow_tset_emit fs0 fs t f (Val (Some b0) op) G) as [Tt Tf].
  apply hc_inv; cbn [et ef ek]; auto.
  - exact Logic.I.
  - apply grow_emit; auto; [discriminate|intros p []].
  - right. split; [reflexivity|exact Fr].
  - intros P X cf0 s0 O A.
    assert (X': ext nohole fs P) by (eapply ext_refines; [exact X|apply refines_emit; [exact P1|intros p []]|exists []; rewrite app_nil_r; reflexivity]).
    eapply res_bind; [apply (H P X' cf0 s0 O A)|auto|]. intros cf (s & Ke & [[Ar Va]|[J|J]]).
    + eapply res_steps; [eapply emit_run; eauto; intros p []|]. eapply (exec_val P (pc fs) b0 op s _ b0 s0); eauto.
      * eapply text_fixed; [exact X|apply emit_nth; exact P1|exact Logic.I|intros []].
      * intros v w Eo. exists (setr s b0 v w). split; [apply keep_setr; auto|]. left. split; [apply arrive_pc; rewrite pc_emit; auto|].
        cbn [valF ek]. rewrite Eo. cbn. rewrite Nat.eqb_refl. reflexivity.
    + apply res_ret. exists s. split; [exact Ke|]. right. left. eapply exitJ_tset; eauto.
    + apply res_ret. exists s. split; [exact Ke|]. right. right. eapply exitJ_tset; eauto.
Qed.
End inv.
