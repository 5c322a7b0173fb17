(* The functions that put expressions into registers keep what a descriptor stands for. *)
Require Import ZArith List Bool Arith Lia.
From Coq Require Import Floats.SpecFloat.
From Verif Require Import Base Float_model Op_model Op_spec Op_proofs Gen_model Gen_spec Gen_facts Gen_run Gen_inv.
Import ListNotations.
Local Open Scope nat_scope.

(* constants *)
Lemma flt_eq_same x y : literal_ok x = true -> literal_ok y = true -> flt_eq x y = true -> x = y.
Proof.
  unfold flt_eq, SFeqb. destruct x as [s|s| |s m e], y as [s'|s'| |s' m' e']; try destruct s; try destruct s'; cbn; try discriminate; auto; intros _ _.
  all: destruct (Z.compare e e') eqn:C; cbn; try discriminate; apply Z.compare_eq in C; subst;
    change (Pos.compare_cont Datatypes.Eq m m') with (Pos.compare m m'); destruct (Pos.compare m m') eqn:C; cbn; try discriminate;
    apply Pos.compare_eq in C; subst; reflexivity.
Qed.
Definition litok (v : val) : Prop := forall f, v = F f -> literal_ok f = true.
Lemma same_const_eq l x v : kok l -> In x l -> litok v -> same_const x v = true -> x = v.
Proof.
  intros Kl Ix Lv. destruct x as [|b|[i|f]|s| | | | | | ], v as [|b'|[i'|f']|s'| | | | | | ]; cbn; try discriminate; auto.
  - intros H. apply eqb_prop in H. subst. reflexivity.
  - intros H. apply Z.eqb_eq in H. subst. reflexivity.
  - intros H. apply flt_eq_same in H; [subst; reflexivity|apply Kl; exact Ix|apply Lv; reflexivity].
  - destruct (list_eq_dec Z.eq_dec s s'); [subst; auto|discriminate].
Qed.
Lemma find_const_spec l v i k : find_const l v i = Some k -> exists x, i <= k /\ nth_error l (k - i) = Some x /\ same_const x v = true.
Proof.
  revert i; induction l as [|y l IH]; intros i; cbn; [discriminate|]. destruct (same_const y v) eqn:Sc.
  - intros e. injection e as <-. exists y. rewrite Nat.sub_diag. auto.
  - intros H. destruct (IH (S i) H) as (x & L & N & C). exists x. split; [lia|]. replace (k - i) with (S (k - S i)) by lia. auto.
Qed.
Lemma addk_spec fs v fs' k : kok (ks fs) -> litok v -> addk fs v = (fs', k) ->
  exists l, fs' = with_ks fs (ks fs ++ l) /\ nth_error (ks fs ++ l) k = Some v /\ kok (ks fs ++ l).
Proof.
  intros Kf Lv. unfold addk. destruct (find_const (ks fs) v 0) as [j|] eqn:Fc; intros H; injection H as <- <-.
  - destruct (find_const_spec _ _ _ _ Fc) as (x & _ & N & C). rewrite Nat.sub_0_r in N. exists [].
    split; [destruct fs; cbn; rewrite app_nil_r; reflexivity|]. rewrite app_nil_r. split; [|exact Kf]. rewrite N. f_equal.
    eapply same_const_eq; eauto. eapply nth_error_In; eauto.
  - exists [v]. split; [reflexivity|]. split; [apply nth_last|]. intros f Hf. apply in_app_or in Hf. destruct Hf as [Hf|[Hf|[]]]; [apply Kf; exact Hf|apply Lv; congruence].
Qed.
Lemma grow_ks fs0 fs h l k : Grow fs0 fs h l -> kok (ks fs ++ k) -> Grow fs0 (with_ks fs (ks fs ++ k)) h l.
Proof.
  intros [A1 A2 A3 A4 A5 A6 A7 A8 A9 A10 A11 A12] Hk. split; auto. cbn. destruct A2 as [k0 ->]. exists (k0 ++ k). rewrite app_assoc. reflexivity.
Qed.
Lemma notts_upd c p i q : (forall a b cc, i <> TestSet a b cc) -> notts c q -> notts (upd c p i) q.
Proof.
  intros N H a b cc. destruct (Nat.eq_dec q p) as [->|n]; [|rewrite upd_other by exact n; apply H].
  destruct (Nat.lt_ge_cases p (length c)) as [L|L]; [rewrite upd_same by exact L; intros e; injection e as e; eapply N; exact e|].
  rewrite nth_over by (rewrite upd_len; exact L). discriminate.
Qed.

Definition finish (fs : fstate) (e : expdesc) (r : nat) : fstate * expdesc :=
  let e := match ek e with VJmp p => mk (ek e) (et e ++ [p]) (ef e) (ety e) | _ => e end in
  let fs :=
    if hasjumps e then
      let '(fs, pf, pt) :=
        if need_value (code fs) (et e) || need_value (code fs) (ef e) then
          let '(fs, fj) := match ek e with VJmp _ => (fs, []) | _ => luaK_jump fs end in
          let pf := pc fs in
          let fs := emit fs (LoadBoolSkip r false) in
          let pt := pc fs in
          let fs := emit fs (Val (Some r) (OLoadBool true)) in
          (patchtohere fs fj, Some pf, Some pt)
        else (fs, None, None) in
      let final := pc fs in
      let c := patchlistaux (code fs) (ef e) final (Some r) pf in
      with_code fs (patchlistaux c (et e) final (Some r) pt)
    else fs in
  (fs, mk (VNonreloc r) [] [] (ety e)).
Lemma exp2reg_eq fs e r : exp2reg fs e r = let '(fs, e) := discharge2reg fs e r in finish fs e r.
Proof. reflexivity. Qed.
Lemma need_value_spec c l j : need_value c l = false -> 0 < cnt l j -> isjmp c j -> tset c j <> None.
Proof.
  unfold need_value. intros H Hj J T. apply cnt_in in Hj.
  assert (X: existsb (fun j => match nth_error c (getjumpcontrol c j) with Some (TestSet _ _ _) => false | _ => true end) l = true).
  { apply existsb_exists. exists j. split; [exact Hj|]. unfold isjmp in J. unfold getjumpcontrol, tset in *. destruct j as [|q]; [rewrite J; reflexivity|].
    destruct (nth_error c q) as [i|] eqn:Q; [|rewrite J; reflexivity]. destruct i; cbn [testT]; rewrite ?J, ?Q; try reflexivity. discriminate T. }
  congruence.
Qed.
Lemma grow_jump fs0 fs (h' : holes) l : Pre fs0 -> Grow fs0 fs nohole l -> (forall p, h' p -> pc fs <= p) ->
  Grow fs0 (fst (luaK_jump fs)) h' ((pc fs :: jpc fs) ++ l) /\ code (fst (luaK_jump fs)) = code fs ++ [Jmp None] /\ jpc (fst (luaK_jump fs)) = [].
Proof.
  intros P0 G Hh. split; [|split; reflexivity].
  assert (G1: Grow fs0 (with_jpc fs []) nohole (jpc fs ++ l)) by (eapply grow_move; [exact G|reflexivity..|intros j; cbn; reflexivity]).
  pose proof (grow_appjmp fs0 (with_jpc fs []) h' (jpc fs ++ l) G1 eq_refl Hh) as G2.
  eapply grow_move; [exact G2|reflexivity..|]. intros j. cbn [luaK_jump fst emit dischargejpc with_code with_jpc jpc app]. unfold pc. reflexivity.
Qed.
Lemma dj_nil fs : jpc fs = [] -> samefs fs (dischargejpc fs).
Proof. intros H. unfold dischargejpc. rewrite H. cbn. repeat split; cbn; auto. Qed.

Section ops.
Variable W : Type.
Variable E : env W.
Notation step := (step W E).
Notation config := (config W).
Notation state := (state W).
Notation Res := (Res W E).
Notation steps := (steps W E).
Notation INV := (INV W E).
Notation HC := (HC W E).
Notation TY := (TY W).

Lemma hc_ks fs0 b0 fs t f r V k : HC fs0 b0 fs t f r V -> HC fs0 b0 (with_ks fs (ks fs ++ k)) t f r V.
Proof.
  intros H P X cf0 s0 O A. assert (X': ext nohole fs P) by (eapply ext_refines; [exact X|apply refines_refl|exists k; reflexivity]).
  eapply res_imp; [|apply (H P X' cf0 s0 O A)]. intros c (s & Ke & [[Ar Va]|X1]).
  - exists s. split; [exact Ke|left]. split; [|exact Va]. eapply arrive_mono; [| |exact Ar]; auto.
  - exists s. auto.
Qed.
(* dischargevars *)
Lemma elements_eq t k sh : snd (codeget t k sh) = elements t.
Proof. unfold elements, codeget. repeat match goal with |- context[if ?b then _ else _] => destruct b end; reflexivity. Qed.
Lemma short_key h fs P s idx v : ext h fs P -> isshortstr fs idx = true -> rkval W (consts P) s idx = Ok v -> exists z, v = Str z.
Proof.
  intros X. unfold isshortstr, rkval. destruct idx as [r|k]; [discriminate|]. destruct (nth_error (ks fs) k) as [[]|] eqn:N; try discriminate.
  rewrite (const_at h fs P k _ X N). intros _ e. injection e as <-. eauto.
Qed.
Definition discharged (k : kind) : Prop := match k with VLocal _ | VUpval _ | VIndexed _ _ _ _ => False | _ => True end.
Lemma dischargevars_inv fs0 b0 fs e r fs' e' : Pre fs0 -> INV fs0 b0 fs e r -> dischargevars fs e = (fs', e') ->
  INV fs0 b0 fs' e' r /\ discharged (ek e') /\ vty e' = vty e /\ et e' = et e /\ ef e' = ef e.
Proof.
  intros P0 I0. unfold dischargevars. destruct (ek e) eqn:Ke; intros H; try (injection H as <- <-; split; [exact I0|]; split; [rewrite Ke; exact Logic.I|]; auto).
  - (* VLocal *)
    injection H as <- <-. split; [|repeat split; auto; unfold vty; cbn [ek with_k ety]; rewrite Ke; reflexivity].
    pose proof (inv_grow _ _ _ _ _ _ _ I0) as G. pose proof (inv_hc _ _ _ _ _ _ _ I0) as Hc. rewrite Ke in G, Hc. specialize (G Logic.I). specialize (Hc Logic.I).
    apply hc_inv; cbn [ek with_k]; auto.
    + exact Logic.I.
    + pose proof (i_kind _ _ _ _ _ _ _ I0) as Ki. unfold kindok in *. rewrite Ke in Ki. left. exact Ki.
    + pose proof (i_ty _ _ _ _ _ _ _ I0) as T. unfold vty in *. rewrite Ke in T. exact T.
    + eapply hc_imp; [exact Hc|]. intros P s s0 X O Kp V. unfold valF in *. rewrite Ke in V. exact V.
  - (* VUpval *)
    injection H as <- <-. split; [|repeat split; auto; unfold vty; cbn [ek with_k ety]; rewrite Ke; reflexivity].
    pose proof (inv_grow _ _ _ _ _ _ _ I0) as G. pose proof (inv_hc _ _ _ _ _ _ _ I0) as Hc. rewrite Ke in G, Hc. specialize (G Logic.I). specialize (Hc Logic.I).
    apply emit_reloc; auto.
    + pose proof (i_kind _ _ _ _ _ _ _ I0) as Ki. unfold kindok in *. rewrite Ke in Ki. exact Ki.
    + eapply hc_imp; [exact Hc|]. intros P s s0 X O Kp V. unfold valF in V. rewrite Ke in V. left. symmetry. exact V.
    + discriminate.
    + pose proof (i_ty _ _ _ _ _ _ _ I0) as T. unfold vty in *. rewrite Ke in T. exact T.
  - (* VIndexed *)
    destruct (codeget (ety e) kt (isshortstr fs idx)) as [o ty] eqn:Cg. injection H as <- <-.
    assert (Ty: ty = elements (ety e)) by (rewrite <- (elements_eq (ety e) kt (isshortstr fs idx)), Cg; reflexivity).
    split; [|repeat split; auto; unfold vty; cbn [ek with_k with_ty ety]; rewrite Ke; exact Ty].
    pose proof (inv_grow _ _ _ _ _ _ _ I0) as G. pose proof (inv_hc _ _ _ _ _ _ _ I0) as Hc. rewrite Ke in G, Hc. specialize (G Logic.I). specialize (Hc Logic.I).
    remember (if up then free_rk fs idx else free_reg (free_rk fs idx) t) as fs2.
    assert (Sf: samefs fs fs2).
    { subst fs2. assert (S1: samefs fs (free_rk fs idx)) by (destruct idx; [apply same_free_reg|apply same_refl]).
      destruct up; [exact S1|]. eapply same_trans; [exact S1|apply same_free_reg]. }
    assert (Ep: pc fs = pc fs2) by (unfold pc; destruct Sf as (-> & _); reflexivity).
    replace (with_ty (with_k e (VReloc (pc fs))) ty) with (mk (VReloc (pc fs2)) (et e) (ef e) ty) by (rewrite Ep; reflexivity).
    apply emit_reloc; auto.
    + eapply grow_same; eauto.
    + pose proof (i_kind _ _ _ _ _ _ _ I0) as Ki. unfold kindok in Ki. rewrite Ke in Ki. destruct Ki as (Fr & K1 & K2).
      assert (N1: nactvar fs = nactvar fs0) by apply (g_nact _ _ _ _ G).
      assert (F1: freereg (free_rk fs idx) = b0 + (if up then 0 else tmp (nactvar fs0) t)).
      { destruct idx as [q|k]; cbn [free_rk tmpk] in *; [|lia]. unfold free_reg, tmp in *. rewrite N1.
        destruct (Nat.ltb_spec q (nactvar fs0)), (Nat.leb_spec (nactvar fs0) q); try lia; cbn [freereg with_free]; lia. }
      subst fs2. destruct up; [lia|]. assert (N2: nactvar (free_rk fs idx) = nactvar fs0) by (destruct idx as [q|q]; cbn [free_rk]; [destruct (same_free_reg fs q) as (_ & _ & _ & Hn & _); rewrite Hn|]; exact N1).
      unfold free_reg, tmp in *. rewrite N2. destruct (Nat.ltb_spec t (nactvar fs0)), (Nat.leb_spec (nactvar fs0) t); try lia; cbn [freereg with_free]; lia.
    + eapply hc_same; [exact Sf|]. eapply hc_imp; [exact Hc|]. intros P s s0 X O Kp V. unfold valF in V. rewrite Ke in V. destruct V as (vk & Rk & Tk & Tt & Eo).
      left. destruct up; cbn [vres].
      * rewrite Rk. cbn [bind]. rewrite Eo. destruct ((kt =? T_STR)%Z && isshortstr fs idx) eqn:Sh; [|reflexivity].
        apply andb_prop in Sh. destruct Sh as [_ Sh]. destruct (short_key _ _ _ _ _ _ X Sh Rk) as [z ->]. unfold get. cbn. destruct (getup E (world s) t); reflexivity.
      * rewrite Rk. cbn [bind]. rewrite Eo. replace o with (fst (codeget (ety e) kt (isshortstr fs idx))) by (rewrite Cg; reflexivity).
        unfold get. apply emitted_get; auto.
    + discriminate || (intros b c; destruct up; discriminate).
    + pose proof (i_ty _ _ _ _ _ _ _ I0) as T. unfold vty in *. rewrite Ke in T. rewrite Ty. exact T.
Qed.
(* the register of an instruction is chosen *)
Lemma set_a_eq c p op r : nth_error c p = Some (Val None op) -> set_a c p r = upd c p (Val (Some r) op).
Proof. intros H. unfold set_a. rewrite H. reflexivity. Qed.
Lemma reloc_value fs0 b0 fs e r fs1 p : Pre fs0 -> INV fs0 b0 fs e r -> ek e = VReloc p -> samefs fs fs1 -> freereg fs1 = S b0 ->
  INV fs0 b0 (with_code fs1 (set_a (code fs1) p b0)) (with_k e (VNonreloc b0)) r.
Proof.
  intros P0 I0 Ke Sf Fr. pose proof I0 as [G Ki C T]. unfold kindok in Ki. rewrite Ke in Ki. destruct Ki as (Sp & Jp & Fb & La & op & Np & Oc).
  assert (Ec: code fs1 = code fs) by apply Sf. assert (Nh: hole e p) by (unfold hole; rewrite Ke; reflexivity).
  rewrite Ec, (set_a_eq _ _ op) by exact Np.
  assert (G1: Grow fs0 (with_code fs1 (upd (code fs) p (Val (Some b0) op))) nohole (et e ++ ef e)).
  { destruct Sf as (S1 & S2 & S3 & S4 & S5 & S6). eapply (grow_point fs0 fs (hole e) nohole (et e ++ ef e) p (Val None op) (Val (Some b0) op)); eauto; try discriminate; try (intros; discriminate).
    - eapply grow_cnt; [|exact G]. intros j. unfold pend, vj. rewrite Ke, app_nil_r. reflexivity.
    - intros q []. }
  assert (Te: forall j, tset (upd (code fs) p (Val (Some b0) op)) j = tset (code fs) j) by (intros j; eapply tset_point; [exact Np|discriminate|discriminate]).
  apply hc_inv; cbn [ek with_k et ef]; auto.
  - exact Logic.I.
  - right. split; [reflexivity|exact Fr].
  - unfold vty in *. cbn [ek with_k ety]. rewrite Ke in T. exact T.
  - intros P X cf0 s0 O A.
    assert (X': ext (hole e) fs P).
    { eapply ext_refines; [exact X|cbn [code with_code]; apply refines_point; [exact Nh|intros q []]|]. exists []. cbn. rewrite app_nil_r. apply Sf. }
    eapply res_bind; [apply (C P X' cf0 s0 O A)|auto|]. intros cf (s & Kp & [Hf|[J|J]]).
    + unfold exitF in Hf. rewrite Ke in Hf. destruct Hf as (-> & op' & Np' & Va). rewrite Np in Np'. injection Np' as <-.
      eapply (exec_val W E P p b0 op s _ b0 s0); eauto.
      * eapply text_fixed; [exact X|cbn [code with_code]; apply upd_same; unfold pc in Sp; lia|exact Logic.I|intros []].
      * intros v w Eo. exists (setr s b0 v w). split; [apply keep_setr; auto|]. left. split; [apply arrive_pc; unfold pc in *; cbn [code with_code]; rewrite upd_len; lia|].
        cbn [valF ek with_k]. rewrite Eo. cbn. rewrite Nat.eqb_refl. reflexivity.
    + apply res_ret. exists s. split; [exact Kp|]. right. left. eapply exitJ_tset; eauto.
    + apply res_ret. exists s. split; [exact Kp|]. right. right. eapply exitJ_tset; eauto.
Qed.
Lemma grow_freereg fs0 fs h l n : Grow fs0 fs h l -> Grow fs0 (with_free fs n) h l.
Proof. intros G. eapply grow_same; [apply same_free|exact G]. Qed.
Lemma const_value fs0 b0 fs e r fs1 v fs2 k : Pre fs0 -> INV fs0 b0 fs e r -> arrival (ek e) -> vty e = ety e -> samefs fs fs1 -> freereg fs1 = S b0 -> litok v ->
  (forall P s o, valF W E P fs e s o -> o = Ok (v, world s)) -> addk fs1 v = (fs2, k) ->
  INV fs0 b0 (emit fs2 (Val (Some b0) (OLoadK k))) (with_k e (VNonreloc b0)) r.
Proof.
  intros P0 I0 Ar Vt Sf Fr Lv Hv Ak. pose proof (inv_grow _ _ _ _ _ _ _ I0 Ar) as G. pose proof (inv_hc _ _ _ _ _ _ _ I0 Ar) as Hc.
  assert (G1: Grow fs0 fs1 nohole (et e ++ ef e)) by (eapply grow_same; eauto).
  destruct (addk_spec fs1 v fs2 k (g_kok _ _ _ _ G1) Lv Ak) as (l & -> & Nk & Kk).
  change (with_k e (VNonreloc b0)) with (mk (VNonreloc b0) (et e) (ef e) (ety e)). apply emit_value; auto.
  - apply grow_ks; auto.
  - eapply hc_imp; [apply hc_ks; eapply hc_same; [exact Sf|exact Hc]|]. intros P s s0 X O Kp V. left. cbn [vres rkval].
    rewrite (const_at _ _ P k v X Nk). cbn [bind]. symmetry. eapply Hv; exact V.
  - pose proof (i_ty _ _ _ _ _ _ _ I0) as T. rewrite Vt in T. exact T.
Qed.
Lemma move_any fs r b : nactvar fs <= r -> move fs r b = emit fs (Val (Some r) (OMove b)).
Proof.
  intros L. unfold move, register_type. destruct (Nat.ltb_spec r (nactvar fs)); [lia|]. reflexivity.
Qed.
Lemma d2r fs0 b0 fs e r fs1 fs2 e2 : Pre fs0 -> nactvar fs0 <= b0 -> INV fs0 b0 fs e r -> discharged (ek e) -> samefs fs fs1 -> freereg fs1 = S b0 ->
  discharge2reg fs1 e b0 = (fs2, e2) -> ((exists p, ek e = VJmp p) /\ fs2 = fs1 /\ e2 = e) \/ (INV fs0 b0 fs2 e2 r /\ e2 = with_k e (VNonreloc b0)).
Proof.
  intros P0 Nb I0 Di Sf Fr. unfold discharge2reg.
  assert (Dv: dischargevars fs1 e = (fs1, e)) by (unfold dischargevars; destruct (ek e); cbn in Di; try contradiction; reflexivity). rewrite Dv.
  assert (Vt: vty e = ety e) by (unfold vty; destruct (ek e); cbn in Di; try contradiction; reflexivity).
  assert (Em: forall op, arrival (ek e) -> (forall P s o, ext nohole fs P -> valF W E P fs e s o -> opv W E op P s o) ->
    INV fs0 b0 (emit fs1 (Val (Some b0) op)) (with_k e (VNonreloc b0)) r).
  { intros op Ar Hv. pose proof (inv_grow _ _ _ _ _ _ _ I0 Ar) as G. pose proof (inv_hc _ _ _ _ _ _ _ I0 Ar) as Hc.
    change (with_k e (VNonreloc b0)) with (mk (VNonreloc b0) (et e) (ef e) (ety e)). apply emit_value; auto.
    - eapply grow_same; eauto.
    - eapply hc_same; [exact Sf|]. eapply hc_imp; [exact Hc|]. intros P s s0 X O Kp V. apply Hv; auto.
    - pose proof (i_ty _ _ _ _ _ _ _ I0) as T. rewrite Vt in T. exact T. }
  destruct (ek e) eqn:Ke; cbn in Di; try contradiction.
  - intros H; injection H as <- <-. right. split; [|reflexivity]. apply Em; [exact Logic.I|]. intros P s o X V. unfold valF in V. rewrite Ke in V. left. symmetry. exact V.
  - intros H; injection H as <- <-. right. split; [|reflexivity]. apply Em; [exact Logic.I|]. intros P s o X V. unfold valF in V. rewrite Ke in V. left. symmetry. exact V.
  - intros H; injection H as <- <-. right. split; [|reflexivity]. apply Em; [exact Logic.I|]. intros P s o X V. unfold valF in V. rewrite Ke in V. left. symmetry. exact V.
  - intros H; injection H as <- <-. right. split; [|reflexivity]. apply Em; [exact Logic.I|]. intros P s o X V. unfold valF in V. rewrite Ke in V. destruct V as (v & Nk & ->).
    left. cbn [vres rkval]. rewrite (const_at _ _ P k v X Nk). reflexivity.
  - destruct (addk fs1 (I i)) as [fs3 k] eqn:Ak. intros H; injection H as <- <-. right. split; [|reflexivity].
    eapply (const_value fs0 b0 fs e r fs1 (I i)); eauto; [rewrite Ke; exact Logic.I|discriminate|]. intros P s o V. unfold valF in V. rewrite Ke in V. exact V.
  - destruct (addk fs1 (F f)) as [fs3 k] eqn:Ak. intros H; injection H as <- <-. right. split; [|reflexivity].
    eapply (const_value fs0 b0 fs e r fs1 (F f)); eauto; [rewrite Ke; exact Logic.I| |].
    + pose proof (i_kind _ _ _ _ _ _ _ I0) as Ki. unfold kindok in Ki. rewrite Ke in Ki. intros g Hg. injection Hg as <-. apply Ki.
    + intros P s o V. unfold valF in V. rewrite Ke in V. exact V.
  - (* VNonreloc *)
    intros H. right. destruct (Nat.eqb_spec b0 r0) as [<-|Nr]; injection H as <- <-; (split; [|reflexivity]).
    + assert (Ar: arrival (ek e)) by (rewrite Ke; exact Logic.I). pose proof (inv_grow _ _ _ _ _ _ _ I0 Ar) as G. pose proof (inv_hc _ _ _ _ _ _ _ I0 Ar) as Hc.
      apply hc_inv; cbn [ek with_k et ef]; auto.
      * eapply grow_same; eauto.
      * right. split; [reflexivity|exact Fr].
      * pose proof (i_ty _ _ _ _ _ _ _ I0) as T. rewrite Vt in T. exact T.
      * eapply hc_same; [exact Sf|]. eapply hc_imp; [exact Hc|]. intros P s s0 X O Kp V. unfold valF in *. rewrite Ke in V. exact V.
    + rewrite move_any.
      * apply Em; [exact Logic.I|]. intros P s o X V. unfold valF in V. rewrite Ke in V. left. symmetry. exact V.
      * destruct Sf as (_ & _ & _ & -> & _). rewrite (g_nact _ _ _ _ (i_grow _ _ _ _ _ _ _ I0)). exact Nb.
  - intros H; injection H as <- <-. right. split; [|reflexivity]. eapply reloc_value; eauto.
  - intros H; injection H as <- <-. left. eauto.
Qed.
(* the jumps of an expression are joined *)
Lemma jumps_done fs0 b0 fsB t f pf pt : Pre fs0 -> Grow fs0 fsB nohole (t ++ f) ->
  (forall j, 0 < cnt t j -> tset (code fsB) j = None -> exists q, pt = Some q /\ nth_error (code fsB) q = Some (Val (Some b0) (OLoadBool true)) /\ S q = pc fsB) ->
  (forall j, 0 < cnt f j -> tset (code fsB) j = None -> exists q, pf = Some q /\ nth_error (code fsB) q = Some (LoadBoolSkip b0 false) /\ S (S q) = pc fsB) ->
  let fs2 := with_code fsB (patchlistaux (patchlistaux (code fsB) f (pc fsB) (Some b0) pf) t (pc fsB) (Some b0) pt) in
  Grow fs0 fs2 nohole [] /\ pc fs2 = pc fsB /\ (forall P, ext nohole fs2 P -> ext nohole fsB P) /\
  (forall j, 0 < cnt (jpc fsB) j -> tset (code fs2) j = tset (code fsB) j) /\
  forall P cf (s s0 : state) o (tv : bool), ext nohole fs2 P -> keep W b0 s0 s -> exitJ W (code fsB) (if tv then t else f) tv cf s o ->
    exists s', steps P cf (pc fsB, s') /\ keep W b0 s0 s' /\ o = Ok (reg s' b0, world s').
Proof.
  intros P0 G Ht Hf. set (c1 := patchlistaux (code fsB) f (pc fsB) (Some b0) pf). cbv zeta.
  set (fs2 := with_code fsB (patchlistaux c1 t (pc fsB) (Some b0) pt)). set (fs1 := with_code fsB c1).
  assert (U: uniq (jpc fsB ++ t ++ f)) by apply (g_uniq _ _ _ _ G). assert (J: forall j, 0 < cnt (jpc fsB ++ t ++ f) j -> jok (code fsB) j) by apply (g_jok _ _ _ _ G).
  assert (G1: Grow fs0 fs1 nohole t).
  { eapply (grow_patch fs0 fsB fs1 nohole (t ++ f) f); eauto; try reflexivity. intros j. cbn [jpc with_code fs1]. rewrite !cnt_app. lia. }
  assert (G2: Grow fs0 fs2 nohole []).
  { eapply (grow_patch fs0 fs1 fs2 nohole t t); eauto; try reflexivity. intros j. cbn [jpc with_code fs1 fs2]. rewrite !cnt_app. cbn. lia. }
  assert (Uf: uniq f) by (intros j; specialize (U j); rewrite !cnt_app in U; lia). assert (Jf: forall j, 0 < cnt f j -> jok (code fsB) j) by (intros j H; apply J; rewrite !cnt_app; lia).
  assert (Ut: uniq t) by (intros j; specialize (U j); rewrite !cnt_app in U; lia). assert (Jt: forall j, 0 < cnt t j -> jok c1 j) by (intros j H; apply (g_jok _ _ _ _ G1); rewrite cnt_app; lia).
  assert (T1: forall j, 0 < cnt (jpc fsB ++ t) j -> tset c1 j = tset (code fsB) j).
  { intros j H. apply patch_jok; auto; [apply J; rewrite !cnt_app in *; lia|]. specialize (U j). rewrite !cnt_app in *. lia. }
  assert (T2: forall j, 0 < cnt (jpc fsB) j -> tset (code fs2) j = tset c1 j).
  { intros j H. apply patch_jok; auto; [apply (g_jok _ _ _ _ G1); cbn [jpc fs1 with_code]; rewrite cnt_app; lia|]. specialize (U j). rewrite !cnt_app in *. lia. }
  assert (X1: forall P, ext nohole fs2 P -> ext nohole fs1 P).
  { intros P X. eapply ext_refines; [exact X|apply refines_patch; auto|exists []; rewrite app_nil_r; reflexivity]. }
  assert (X2: forall P, ext nohole fs2 P -> ext nohole fsB P).
  { intros P X. eapply ext_refines; [apply (X1 P X)|apply refines_patch; auto|exists []; rewrite app_nil_r; reflexivity]. }
  split; [exact G2|]. split.
  { unfold pc. cbn [code with_code fs2]. destruct (patch_spec c1 t (length (code fsB)) (Some b0) pt Ut) as [L _]; [intros j H; apply (Jt j H)|]. unfold pc. rewrite L.
    destruct (patch_spec (code fsB) f (pc fsB) (Some b0) pf Uf) as [L1 _]; [intros j H; apply (Jf j H)|]. exact L1. }
  split; [exact X2|]. split; [intros j H; rewrite (T2 j H); apply T1; rewrite cnt_app; lia|].
  intros P cf s s0 o tv X Kp (j & Hj & Aj & Vo). pose proof (X2 P X) as XB.
  assert (Up: forall s' v, upto W s s' b0 v -> keep W b0 s0 s' /\ Ok (v, world s) = Ok (reg s' b0, world s')).
  { intros s' v (U1 & U2 & U3). split; [intros q Hq; rewrite U2 by lia; apply Kp; exact Hq|]. rewrite U1, U3. reflexivity. }
  assert (Nn: forall q, ~ nohole q) by (intros q []).
  destruct tv.
  - (* true *)
    assert (Et: tset c1 j = tset (code fsB) j) by (apply T1; rewrite cnt_app; lia).
    assert (A1: atj W c1 j cf s) by (unfold atj in *; rewrite Et; exact Aj).
    pose proof (patched_run W E nohole c1 t (pc fsB) (Some b0) pt fs2 P j cf s X eq_refl Ut Jt Hj (Nn j) (fun q _ => Nn q) A1) as R. rewrite Et in R.
    destruct (tset (code fsB) j) as [[b cc]|] eqn:Tb.
    + destruct R as (s' & R & Us). destruct Vo as [-> ->]. destruct (Up s' _ Us) as [K1 K2]. exists s'. auto.
    + destruct (Ht j Hj Tb) as (q & -> & Nq & Sq). subst o. exists (setr s b0 (Bool true) (world s)). split.
      * eapply steps_trans; [exact R|]. rewrite <- Sq. apply steps_one. unfold Gen_model.step. rewrite (text_fixed nohole fsB P q _ XB Nq Logic.I (Nn q)). reflexivity.
      * split; [apply keep_setr; auto|]. cbn. rewrite Nat.eqb_refl. reflexivity.
  - pose proof (patched_run W E nohole (code fsB) f (pc fsB) (Some b0) pf fs1 P j cf s (X1 P X) eq_refl Uf Jf Hj (Nn j) (fun q _ => Nn q) Aj) as R.
    destruct (tset (code fsB) j) as [[b cc]|] eqn:Tb.
    + destruct R as (s' & R & Us). destruct Vo as [-> ->]. destruct (Up s' _ Us) as [K1 K2]. exists s'. auto.
    + destruct (Hf j Hj Tb) as (q & -> & Nq & Sq). subst o. exists (setr s b0 (Bool false) (world s)). split.
      * eapply steps_trans; [exact R|]. rewrite <- Sq. apply steps_one. unfold Gen_model.step. rewrite (text_fixed nohole fsB P q _ XB Nq Logic.I (Nn q)). reflexivity.
      * split; [apply keep_setr; auto|]. cbn. rewrite Nat.eqb_refl. reflexivity.
Qed.
Lemma grow_nohole fs0 fs h l : Grow fs0 fs h l -> Grow fs0 fs nohole l.
Proof.
  intros [A1 A2 A3 A4 A5 A6 A7 A8 A9 A10 A11 A12]. split; auto. intros p i H N. destruct (A7 p i H N) as (_ & K). split; [intros []|exact K].
Qed.
Lemma code_emit fs i : jpc fs = [] -> code (emit fs i) = code fs ++ [i].
Proof. intros H. unfold emit, dischargejpc. rewrite H. reflexivity. Qed.
Lemma tset_app2 c i j : jok c j -> tset (c ++ [i]) j = tset c j.
Proof. intros H. apply jok_app. exact H. Qed.
Lemma lastok_tset c : lastok c -> tset c (length c) = None.
Proof. intros L. destruct (length c) as [|q] eqn:Hl; [reflexivity|]. cbn. assert (N: notts c q) by (apply L; lia). unfold notts in N. destruct (nth_error c q) as [[]|]; try reflexivity. exfalso. eapply N. reflexivity. Qed.
Lemma lastok_tset_app c l : lastok c -> tset (c ++ l) (length c) = None.
Proof.
  intros L. rewrite <- (lastok_tset c L). destruct (length c) as [|q] eqn:Hl; [reflexivity|]. cbn. rewrite nth_app1 by lia. reflexivity.
Qed.
Lemma finish_nonreloc fs0 b0 fs e r fs2 e2 : Pre fs0 -> INV fs0 b0 fs e r -> freereg fs = S b0 -> ek e = VNonreloc b0 ->
  finish fs e b0 = (fs2, e2) -> INV fs0 b0 fs2 e2 r /\ e2 = mk (VNonreloc b0) [] [] (ety e).
Proof.
  intros P0 I0 Fr Ke. assert (Ar: arrival (ek e)) by (rewrite Ke; exact Logic.I).
  pose proof (inv_grow _ _ _ _ _ _ _ I0 Ar) as G. pose proof (inv_hc _ _ _ _ _ _ _ I0 Ar) as Hc. pose proof (grow_pre _ _ _ _ G) as P1.
  assert (T: TY fs0 (ety e) r) by (pose proof (i_ty _ _ _ _ _ _ _ I0) as T; unfold vty in T; rewrite Ke in T; exact T).
  unfold finish. rewrite Ke. cbv iota.
  (* the general step *)
  assert (D: forall fsB pf pt, Grow fs0 fsB nohole (et e ++ ef e) -> freereg fsB = S b0 ->
    (forall j, 0 < cnt (et e) j -> tset (code fsB) j = None -> exists q, pt = Some q /\ nth_error (code fsB) q = Some (Val (Some b0) (OLoadBool true)) /\ S q = pc fsB) ->
    (forall j, 0 < cnt (ef e) j -> tset (code fsB) j = None -> exists q, pf = Some q /\ nth_error (code fsB) q = Some (LoadBoolSkip b0 false) /\ S (S q) = pc fsB) ->
    refines nohole (code fs) nohole (code fsB) -> ks fsB = ks fs ->
    (forall j, 0 < cnt (et e ++ ef e) j -> tset (code fsB) j = tset (code fs) j) ->
    (pc fsB = pc fs \/ (0 < cnt (jpc fsB) (pc fs) /\ tset (code fsB) (pc fs) = None)) ->
    (forall j, 0 < cnt (jpc fs) j -> 0 < cnt (jpc fsB) j /\ tset (code fsB) j = tset (code fs) j) ->
    INV fs0 b0 (with_code fsB (patchlistaux (patchlistaux (code fsB) (ef e) (pc fsB) (Some b0) pf) (et e) (pc fsB) (Some b0) pt)) (mk (VNonreloc b0) [] [] (ety e)) r).
  { intros fsB pf pt GB FB Ht Hf Rf Ek Tj Hp Hj. destruct (jumps_done fs0 b0 fsB (et e) (ef e) pf pt P0 GB Ht Hf) as (G2 & Pc & X2 & Tk & Run).
    apply hc_inv; cbn [ek et ef]; auto.
    - exact Logic.I.
    - right. split; [reflexivity|exact FB].
    - intros P X cf0 s0 O A. pose proof (X2 P X) as XB. assert (X': ext nohole fs P) by (eapply ext_refines; [exact XB|exact Rf|exists []; rewrite app_nil_r; exact Ek]).
      eapply res_bind; [apply (Hc P X' cf0 s0 O A)|auto|]. intros cf (s & Kp & [[Ap V]|[J|J]]).
      + apply res_ret. exists s. split; [exact Kp|left]. split; [|unfold valF in *; rewrite Ke in V; exact V].
        destruct Ap as [->|(j & H1 & H2)].
        * destruct Hp as [Hp|[Hp1 Hp2]]; [left; rewrite Pc, Hp; reflexivity|]. right. exists (pc fs). split; [exact Hp1|]. unfold atj. rewrite (Tk _ Hp1), Hp2. reflexivity.
        * right. destruct (Hj j H1) as [H3 H4]. exists j. split; [exact H3|]. unfold atj in *. rewrite (Tk _ H3), H4. exact H2.
      + assert (J': exitJ W (code fsB) (et e) true cf s (r (reg s0) (world s0))) by (eapply exitJ_tset; [|exact J]; intros j H; apply Tj; rewrite cnt_app; lia).
        destruct (Run P cf s s0 _ true X Kp J') as (s' & R & K2 & Eo).
        eapply res_steps; [exact R|]. apply res_ret. exists s'. split; [exact K2|left]. split; [apply arrive_pc; symmetry; exact Pc|exact Eo].
      + assert (J': exitJ W (code fsB) (ef e) false cf s (r (reg s0) (world s0))) by (eapply exitJ_tset; [|exact J]; intros j H; apply Tj; rewrite cnt_app; lia).
        destruct (Run P cf s s0 _ false X Kp J') as (s' & R & K2 & Eo).
        eapply res_steps; [exact R|]. apply res_ret. exists s'. split; [exact K2|left]. split; [apply arrive_pc; symmetry; exact Pc|exact Eo]. }
  destruct (hasjumps e) eqn:Hj.
  - destruct (need_value (code fs) (et e) || need_value (code fs) (ef e)) eqn:Nv.
    + destruct (luaK_jump fs) as [fsA fj] eqn:Lj. intros H; injection H as <- <-. split; [|reflexivity].
      destruct (grow_jump fs0 fs nohole (et e ++ ef e) P0 G) as (GA & CA & JA); [intros p []|]. rewrite Lj in GA, CA, JA. cbn [fst] in GA, CA, JA.
      assert (Efj: fj = pc fs :: jpc fs) by (unfold luaK_jump in Lj; injection Lj as _ <-; reflexivity).
      assert (FA: freereg fsA = S b0) by (unfold luaK_jump in Lj; injection Lj as <- _; exact Fr).
      assert (KA: ks fsA = ks fs) by (unfold luaK_jump in Lj; injection Lj as <- _; reflexivity).
      set (fsC := emit fsA (LoadBoolSkip b0 false)). set (fsD := emit fsC (Val (Some b0) (OLoadBool true))).
      assert (GC: Grow fs0 fsC nohole ((pc fs :: jpc fs) ++ et e ++ ef e)) by (apply grow_emit; auto; [discriminate|intros p []]).
      assert (GD: Grow fs0 fsD nohole ((pc fs :: jpc fs) ++ et e ++ ef e)) by (apply grow_emit; auto; [discriminate|intros p []]).
      assert (CC: code fsC = (code fs ++ [Jmp None]) ++ [LoadBoolSkip b0 false]) by (unfold fsC; rewrite code_emit by exact JA; rewrite CA; reflexivity).
      assert (CD: code fsD = ((code fs ++ [Jmp None]) ++ [LoadBoolSkip b0 false]) ++ [Val (Some b0) (OLoadBool true)]) by (unfold fsD; rewrite code_emit by reflexivity; rewrite CC; reflexivity).
      assert (PA: pc fsA = S (pc fs)) by (unfold pc; rewrite CA, app_length; cbn; lia).
      assert (PC: pc fsC = S (S (pc fs))) by (unfold pc; rewrite CC, !app_length; cbn; lia).
      assert (PD: pc fsD = S (S (S (pc fs)))) by (unfold pc; rewrite CD, !app_length; cbn; lia).
      assert (TD: forall j, jok (code fs) j -> tset (code fsD) j = tset (code fs) j).
      { intros j Jj. rewrite CD. destruct (jok_app _ (Jmp None) _ Jj) as [J1 T1]. destruct (jok_app _ (LoadBoolSkip b0 false) _ J1) as [J2 T2].
        destruct (jok_app _ (Val (Some b0) (OLoadBool true)) _ J2) as [J3 T3]. rewrite T3, T2, T1. reflexivity. }
      assert (JJ: forall j, 0 < cnt (jpc fs ++ et e ++ ef e) j -> jok (code fs) j) by apply (g_jok _ _ _ _ G).
      rewrite Ke. cbv beta iota zeta. fold fsC. fold fsD. rewrite PA, PC. apply D.
      * eapply grow_move; [exact GD|reflexivity..|]. intros j. unfold patchtohere. cbn [jpc with_jpc]. rewrite Efj. rewrite app_assoc. reflexivity.
      * exact FA.
      * intros j _ _. exists (S (S (pc fs))). split; [reflexivity|]. cbn [code patchtohere with_jpc]. split; [|unfold pc at 2; cbn [code patchtohere with_jpc]; fold (pc fsD); lia].
        rewrite CD. replace (S (S (pc fs))) with (length ((code fs ++ [Jmp None]) ++ [LoadBoolSkip b0 false])) by (rewrite !app_length; cbn; unfold pc; lia). apply nth_last.
      * intros j _ _. exists (S (pc fs)). split; [reflexivity|]. cbn [code patchtohere with_jpc]. split; [|unfold pc at 2; cbn [code patchtohere with_jpc]; fold (pc fsD); lia].
        rewrite CD. rewrite nth_app1 by (rewrite !app_length; cbn; unfold pc; lia). replace (S (pc fs)) with (length (code fs ++ [Jmp None])) by (rewrite !app_length; cbn; unfold pc; lia). apply nth_last.
      * cbn [code patchtohere with_jpc]. rewrite CD, <- !app_assoc. apply refines_app. intros p [].
      * exact KA.
      * intros j H. cbn [code patchtohere with_jpc]. apply TD. apply JJ. rewrite cnt_app. lia.
      * right. cbn [code jpc patchtohere with_jpc]. rewrite Efj. cbn [app]. split; [rewrite cnt_app, cnt_cons, cnt_self; lia|]. rewrite CD, <- !app_assoc.
        apply lastok_tset_app. apply (g_last _ _ _ _ G).
      * intros j H. cbn [code jpc patchtohere with_jpc]. rewrite Efj. split; [rewrite cnt_app, cnt_cons; lia|]. apply TD. apply JJ. rewrite cnt_app. lia.
    + intros H; injection H as <- <-. split; [|reflexivity]. apply orb_false_iff in Nv. destruct Nv as [N1 N2].
      assert (JJ: forall j, 0 < cnt (jpc fs ++ et e ++ ef e) j -> jok (code fs) j) by apply (g_jok _ _ _ _ G).
      cbv beta iota zeta. apply D; auto; try reflexivity.
      * intros j H1 H2. exfalso. eapply (need_value_spec _ _ j N1 H1); [|exact H2]. apply JJ. rewrite !cnt_app. lia.
      * intros j H1 H2. exfalso. eapply (need_value_spec _ _ j N2 H1); [|exact H2]. apply JJ. rewrite !cnt_app. lia.
      * apply refines_refl.
  - intros H; injection H as <- <-. split; [|reflexivity]. unfold hasjumps in Hj. destruct (et e) eqn:Et; [|discriminate]. destruct (ef e) eqn:Ef; [|discriminate].
    apply hc_inv; cbn [ek et ef]; auto.
    + exact Logic.I.
    + right. split; [reflexivity|exact Fr].
    + eapply hc_imp; [exact Hc|]. intros P s s0 X O Kp V. unfold valF in *. rewrite Ke in V. exact V.
Qed.
Lemma finish_jmp fs0 b0 fs e r fs1 fs2 e2 p : Pre fs0 -> INV fs0 b0 fs e r -> ek e = VJmp p -> samefs fs fs1 -> freereg fs1 = S b0 ->
  finish fs1 e b0 = (fs2, e2) -> INV fs0 b0 fs2 e2 r /\ e2 = mk (VNonreloc b0) [] [] (ety e).
Proof.
  intros P0 I0 Ke Sf Fr. pose proof I0 as [G0 Ki C T]. unfold kindok in Ki. rewrite Ke in Ki. destruct Ki as (Fb & Jp0 & Sp0 & q & op & c & x & y & -> & Nq0).
  assert (T1: TY fs0 (ety e) r) by (unfold vty in T; rewrite Ke in T; exact T).
  assert (Ec: code fs1 = code fs) by apply Sf. assert (Jp: jpc fs1 = []) by (destruct Sf as (_ & -> & _); exact Jp0).
  assert (Sp: S (S q) = pc fs1) by (unfold pc in *; rewrite Ec; exact Sp0). assert (Nq: nth_error (code fs1) q = Some (Cmp op c x y)) by (rewrite Ec; exact Nq0).
  set (t := et e ++ [S q]). set (f := ef e).
  assert (G: Grow fs0 fs1 nohole (t ++ f)).
  { eapply grow_cnt; [|eapply grow_nohole; eapply grow_same; [exact Sf|exact G0]]. intros j. unfold pend, vj, t, f. rewrite Ke, !cnt_app. lia. }
  pose proof (grow_pre _ _ _ _ G) as P1.
  assert (JJ: forall j, 0 < cnt (t ++ f) j -> jok (code fs1) j) by (intros j H; apply (g_jok _ _ _ _ G); rewrite cnt_app; lia).
  assert (Tq: tset (code fs1) (S q) = None) by (cbn; rewrite Nq; reflexivity).
  assert (Iq: 0 < cnt t (S q)) by (unfold t; rewrite cnt_app, cnt_self; lia).
  unfold finish. rewrite Ke. cbv iota zeta. cbn [et ef ek ety]. fold t f.
  assert (Hj: hasjumps (mk (VJmp (S q)) t f (ety e)) = true) by (unfold hasjumps, t; cbn [et ef]; destruct (et e); reflexivity).
  rewrite Hj. destruct (need_value (code fs1) t) eqn:Nv.
  2: { exfalso. eapply (need_value_spec _ _ (S q) Nv Iq); [|exact Tq]. apply JJ. rewrite cnt_app. lia. }
  cbn [orb]. intros H; injection H as <- <-. split; [|reflexivity].
  set (fsC := emit fs1 (LoadBoolSkip b0 false)). set (fsD := emit fsC (Val (Some b0) (OLoadBool true))). set (fsB := patchtohere fsD []).
  assert (GC: Grow fs0 fsC nohole (t ++ f)) by (apply grow_emit; auto; [discriminate|intros p []]).
  assert (GD: Grow fs0 fsD nohole (t ++ f)) by (apply grow_emit; auto; [discriminate|intros p []]).
  assert (GB: Grow fs0 fsB nohole (t ++ f)) by (eapply grow_move; [exact GD|reflexivity..|intros j; reflexivity]).
  assert (CC: code fsC = code fs1 ++ [LoadBoolSkip b0 false]) by (unfold fsC; rewrite code_emit by exact Jp; reflexivity).
  assert (CD: code fsD = (code fs1 ++ [LoadBoolSkip b0 false]) ++ [Val (Some b0) (OLoadBool true)]) by (unfold fsD; rewrite code_emit by reflexivity; rewrite CC; reflexivity).
  assert (CB: code fsB = code fsD) by reflexivity.
  assert (PC: pc fsC = S (pc fs1)) by (unfold pc; rewrite CC, app_length; cbn; lia).
  assert (PB: pc fsB = S (S (pc fs1))) by (unfold pc; rewrite CB, CD, !app_length; cbn; lia).
  assert (TB: forall j, 0 < cnt (t ++ f) j -> tset (code fsB) j = tset (code fs) j).
  { intros j H. rewrite CB, CD, <- Ec. destruct (jok_app _ (LoadBoolSkip b0 false) _ (JJ j H)) as [J1 T2].
    destruct (jok_app _ (Val (Some b0) (OLoadBool true)) _ J1) as [J3 T3]. rewrite T3, T2. reflexivity. }
  assert (Ht: forall j, 0 < cnt t j -> tset (code fsB) j = None -> exists q, Some (S (pc fs1)) = Some q /\ nth_error (code fsB) q = Some (Val (Some b0) (OLoadBool true)) /\ S q = pc fsB).
  { intros j _ _. exists (S (pc fs1)). split; [reflexivity|]. split; [|lia]. rewrite CB, CD. replace (S (pc fs1)) with (length (code fs1 ++ [LoadBoolSkip b0 false])) by (rewrite app_length; cbn; unfold pc; lia). apply nth_last. }
  assert (NL: nth_error (code fsB) (pc fs1) = Some (LoadBoolSkip b0 false)) by (rewrite CB, CD, nth_app1 by (rewrite app_length; cbn; unfold pc; lia); apply nth_last).
  assert (Hf: forall j, 0 < cnt f j -> tset (code fsB) j = None -> exists q, Some (pc fs1) = Some q /\ nth_error (code fsB) q = Some (LoadBoolSkip b0 false) /\ S (S q) = pc fsB).
  { intros j _ _. exists (pc fs1). split; [reflexivity|]. split; [exact NL|lia]. }
  rewrite ?Ke. cbv beta iota zeta. fold fsC. fold fsD. fold fsB. rewrite PC. destruct (jumps_done fs0 b0 fsB t f (Some (pc fs1)) (Some (S (pc fs1))) P0 GB Ht Hf) as (G2 & Pc & X2 & Tk & Run).
  apply hc_inv; cbn [ek et ef]; auto.
  - exact Logic.I.
  - right. split; [reflexivity|exact Fr].
  - intros P X cf0 s0 O A. pose proof (X2 P X) as XB.
    assert (X1: ext nohole fs1 P).
    { eapply ext_refines; [exact XB| |exists []; rewrite app_nil_r; reflexivity]. rewrite CB, CD, <- !app_assoc. apply refines_app. intros p []. }
    assert (X': ext (hole e) fs P) by (eapply ext_hole; [|eapply ext_same; [exact Sf|exact X1]]; intros p []).
    eapply res_bind; [apply (C P X' cf0 s0 O A)|auto|]. intros cf (s & Kp & Ex). remember (r (reg s0) (world s0)) as o.
    assert (Fin: forall tv cf1 s1, keep W b0 s0 s1 -> exitJ W (code fsB) (if tv : bool then t else f) tv cf1 s1 o ->
      Res P cf1 o (fun cf => exists s, keep W b0 s0 s /\ ((arrive W (with_code fsB (patchlistaux (patchlistaux (code fsB) f (pc fsB) (Some b0) (Some (pc fs1))) t (pc fsB) (Some b0) (Some (S (pc fs1))))) cf s /\ valF W E P (with_code fsB (patchlistaux (patchlistaux (code fsB) f (pc fsB) (Some b0) (Some (pc fs1))) t (pc fsB) (Some b0) (Some (S (pc fs1))))) (mk (VNonreloc b0) [] [] (ety e)) s o) \/ exitJ W (code (with_code fsB (patchlistaux (patchlistaux (code fsB) f (pc fsB) (Some b0) (Some (pc fs1))) t (pc fsB) (Some b0) (Some (S (pc fs1)))))) [] true cf s o \/ exitJ W (code (with_code fsB (patchlistaux (patchlistaux (code fsB) f (pc fsB) (Some b0) (Some (pc fs1))) t (pc fsB) (Some b0) (Some (S (pc fs1)))))) [] false cf s o))).
    { intros tv cf1 s1 K1 J1. destruct (Run P cf1 s1 s0 o tv X K1 J1) as (s' & R & K2 & Eo). eapply res_steps; [exact R|]. apply res_ret. exists s'. split; [exact K2|left].
      split; [apply arrive_pc; symmetry; exact Pc|exact Eo]. }
    destruct Ex as [Hx|[J|J]].
    + unfold exitF in Hx. rewrite Ke in Hx. cbn [pred] in Hx. destruct Hx as (-> & op' & c' & x' & y' & N' & Vc). rewrite Nq0 in N'. injection N' as <- <- <- <-.
      unfold cmpv in Vc. assert (Tx: nth_error (text P) q = Some (Cmp op c x y)) by (eapply text_fixed; [exact X1|exact Nq|exact Logic.I|intros []]).
      destruct (cres W E (consts P) s op x y) as [[b w]|er| |] eqn:Cr; cbn [bind] in Vc.
      * assert (St: step P (q, s) = Ok (if Bool.eqb b c then S q else S (S q), mkst (reg s) w)) by (unfold Gen_model.step; rewrite Tx, Cr; reflexivity).
        eapply res_steps; [apply steps_one; exact St|]. destruct (Bool.eqb b c) eqn:Bc.
        -- apply (Fin true _ (mkst (reg s) w)); [exact Kp|]. exists (S q). split; [exact Iq|]. unfold atj. rewrite (TB (S q)) by (rewrite cnt_app; lia). rewrite <- Ec, Tq. split; [reflexivity|exact Vc].
        -- eapply res_steps; [|apply res_ret]; [rewrite Sp; apply steps_one; unfold Gen_model.step; rewrite (text_fixed nohole fsB P _ _ XB NL Logic.I); [reflexivity|intros []]|].
           exists (setr (mkst (reg s) w) b0 (Bool false) w). split; [apply keep_setr; [exact Kp|lia]|left]. split; [apply arrive_pc; etransitivity; [|symmetry; exact Pc]; lia|].
           cbn [valF ek]. rewrite Vc. cbn. rewrite Nat.eqb_refl. reflexivity.
      * apply res_fail. unfold Gen_model.step. rewrite Tx, Cr, Vc. reflexivity.
      * apply res_fail. unfold Gen_model.step. rewrite Tx, Cr, Vc. exact Logic.I.
      * apply res_fail. unfold Gen_model.step. rewrite Tx, Cr, Vc. exact Logic.I.
    + apply (Fin true _ s); [exact Kp|]. eapply exitJ_tset; [|apply exitJ_app; exact J]. intros j H. apply TB. rewrite cnt_app. fold t in H. lia.
    + apply (Fin false _ s); [exact Kp|]. eapply exitJ_tset; [|exact J]. intros j H. apply TB. rewrite cnt_app. fold f in H. lia.
Qed.
End ops.
