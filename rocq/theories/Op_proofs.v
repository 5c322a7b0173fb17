(* Proofs about the operators. *)
Require Import ZArith List Bool Lia QArith.
From Coq Require Import Floats.SpecFloat.
From Verif Require Import Base Base_facts IntArith_model IntArith_spec IntArith_proofs Float_model Float_spec Float_facts Float_proofs IntArith_thm Float_thm Op_model Op_spec.
Import ListNotations.
Open Scope Z_scope.

Lemma tointns_spec v : wfval v -> exists o, tointns v = Ok o /\ forall z, o = Some z <-> int_val v z.
Proof.
  destruct v as [|b|[i|f]| | | | | | | ]; intros H; try (exists None; split; [reflexivity|]; intros z; split; [discriminate|intros []]).
  - exists (Some i); split; [reflexivity|]. intros z; cbn. unfold num_is; cbn. split.
    + intros E; injection E as <-. split; [exists (inject_Z i); split; [reflexivity|apply Qeq_refl]|exact H].
    + intros [(q & E & Q) S]. injection E as <-. unfold Qeq in Q; cbn in Q. f_equal. lia.
  - destruct (C04_convert f F2Ieq H) as (o & E & Hz). exists o. split; [exact E|]. intros z. rewrite Hz. cbn. unfold num_is, is_exact; cbn. tauto.
Qed.

(* floating-point addition and multiplication commute (all NaNs are one value) *)
Lemma fadd_comm x y : fadd x y = fadd y x.
Proof.
  unfold fadd. destruct x as [[|]|[|]| |sx mx ex], y as [[|]|[|]| |sy my ey]; cbn; try reflexivity.
  rewrite (Z.min_comm ey ex). f_equal. apply Z.add_comm.
Qed.
Lemma fmul_comm x y : fmul x y = fmul y x.
Proof.
  unfold fmul. destruct x as [[|]|[|]| |sx mx ex], y as [[|]|[|]| |sy my ey]; cbn; try reflexivity; try (destruct sx; reflexivity); try (destruct sy; reflexivity).
  rewrite (xorb_comm sy sx), (Pos.mul_comm my mx), (Z.add_comm ey ex). reflexivity.
Qed.

(* type maps *)
Lemma within_spec t m v : within t m = true -> hast t v -> hast m v.
Proof.
  unfold within, hast. intros H B. apply Z.eqb_eq in H.
  assert (E := f_equal (fun z => Z.testbit z (tag v)) H). cbn beta in E. rewrite Z.land_spec, Z.bits_0, B in E.
  destruct (Z.testbit m (tag v)) eqn:M; [reflexivity|]. rewrite Z.lnot_spec, M in E by (destruct v as [|[|]|[|]| | | | | | | ]; cbn; lia). discriminate.
Qed.
Lemma none_spec t m v : none_of t m = true -> hast t v -> hast m v -> False.
Proof.
  unfold none_of, hast. intros H B M. apply Z.eqb_eq in H.
  assert (E := f_equal (fun z => Z.testbit z (tag v)) H). cbn beta in E. rewrite Z.land_spec, Z.bits_0, B, M in E. discriminate.
Qed.
Ltac tags v := destruct v as [|[|]|[?i|?f]| | | | | | | ].
Lemma hast_int v : hast T_INT v -> exists i, v = I i.
Proof. tags v; cbn; intros H; try discriminate H. eexists; reflexivity. Qed.
Lemma hast_flt v : hast T_FLT v -> exists f, v = F f.
Proof. tags v; cbn; intros H; try discriminate H. eexists; reflexivity. Qed.
Lemma hast_num v : hast T_NUM v -> is_num v.
Proof. tags v; cbn; intros H; try discriminate H; eexists; reflexivity. Qed.
Lemma num_ty t v : within t T_NUM = true -> hast t v -> is_num v.
Proof. intros A B. apply hast_num. eapply within_spec; eauto. Qed.
Lemma hast_any v : hast T_ANY v.
Proof. tags v; reflexivity. Qed.
Lemma hast_lor t1 t2 v : hast (Z.lor t1 t2) v <-> hast t1 v \/ hast t2 v.
Proof. unfold hast. rewrite Z.lor_spec, orb_true_iff. tauto. Qed.
Lemma hast_land t1 t2 v : hast (Z.land t1 t2) v <-> hast t1 v /\ hast t2 v.
Proof. unfold hast. rewrite Z.land_spec, andb_true_iff. tauto. Qed.

Section ops.
Variable W : Type.
Variable fmod fpow : flt -> flt -> flt.
Variable tmbin : bop -> val -> val -> W -> outcome (val * W).
Variable tmun : uop -> val -> W -> outcome (val * W).
Variable tmcmp : cop -> val -> val -> W -> outcome (bool * W).
Notation generic := (generic W fmod fpow tmbin).
Notation exec_bin := (exec_bin W fmod fpow tmbin).
Notation exec_un := (exec_un W tmun).
Notation exec_cmp := (exec_cmp W tmcmp).
Notation means := (means W fmod fpow tmbin).
Notation means1 := (means1 W tmun).
Notation meansc := (meansc W tmcmp).
Notation constfolding := (constfolding fmod fpow).

Lemma is_int_val z : is_s64 z -> int_val (I z) z.
Proof. intros H. split; [|exact H]. exists (inject_Z z). split; [reflexivity|apply Qeq_refl]. Qed.
Lemma int_val_uniq v x y : int_val v x -> int_val v y -> x = y.
Proof.
  destruct v; try contradiction. intros [(q & E & Q) _] [(q' & E' & Q') _]. rewrite E in E'. injection E' as <-.
  rewrite Q in Q'. unfold Qeq in Q'; cbn in Q'. lia.
Qed.
Lemma int_val_s64 v x : int_val v x -> is_s64 x.
Proof. destruct v; try contradiction. intros [_ H]; exact H. Qed.

Lemma intarith_ok o x y w : is_s64 x -> is_s64 y -> o <> Div -> o <> Pow -> iresult W o x y w (iret W w (intarith2 o x y)).
Proof.
  intros Hx Hy N1 N2. destruct (C01_dispatch x y Hx Hy) as (A & S & M & _ & D & SL & SR & BA & BO & BX & _).
  destruct o; try congruence; cbn [intarith2 iresult] in *.
  - destruct A as (r & E & H). injection E as E. exists r. unfold iret; cbn. rewrite E. auto.
  - destruct S as (r & E & H). injection E as E. exists r. unfold iret; cbn. rewrite E. auto.
  - destruct M as (r & E & H). injection E as E. exists r. unfold iret; cbn. rewrite E. auto.
  - split.
    + intros ->. reflexivity.
    + intros Ny. destruct (D Ny) as (q & r & qr & E1 & E2 & E3 & E4). exists q, r. cbn in E2. unfold iret; rewrite E2. cbn. auto.
  - split.
    + intros ->. reflexivity.
    + intros Ny. destruct (D Ny) as (q & r & qr & E1 & E2 & E3 & E4). exists q, qr, r. cbn in E1. unfold iret; rewrite E1. cbn. auto.
  - destruct BA as (r & E & H). injection E as E. exists r. unfold iret; cbn. rewrite E. split; [reflexivity|exact H].
  - destruct BO as (r & E & H). injection E as E. exists r. unfold iret; cbn. rewrite E. split; [reflexivity|exact H].
  - destruct BX as (r & E & H). injection E as E. exists r. unfold iret; cbn. rewrite E. split; [reflexivity|exact H].
  - destruct SL as (r & E & H). cbn in E. exists r. unfold iret. rewrite E. cbn. auto.
  - intros Ny. destruct (SR Ny) as (r & E & H). cbn in E. exists r. unfold iret. rewrite E. cbn. auto.
Qed.

Lemma bitop_means o b c w : wfval b -> wfval c -> o <> Div -> o <> Pow ->
  let r := bitop_ W tmbin o (intarith2 o) b c w in
  (forall x y, int_val b x -> int_val c y -> iresult W o x y w r) /\
  ((forall x, ~ int_val b x) \/ (forall y, ~ int_val c y) -> r = tmbin o b c w).
Proof.
  intros Hb Hc N1 N2 r. subst r. unfold bitop_.
  destruct (tointns_spec b Hb) as (ob & Eb & Sb). destruct (tointns_spec c Hc) as (oc & Ec & Sc). rewrite Eb, Ec. cbn [bind].
  split.
  - intros x y Hx Hy. apply Sb in Hx as Ex. apply Sc in Hy as Ey. rewrite Ex, Ey. cbn [bind].
    apply intarith_ok; auto; eapply int_val_s64; eauto.
  - intros [N|N].
    + destruct ob as [x|]; [|reflexivity]. destruct (N x). now apply Sb.
    + destruct ob as [x|]; [|reflexivity]. destruct oc as [y|]; [|reflexivity]. destruct (N y). now apply Sc.
Qed.
Lemma flt_val_ns v x : flt_val v x <-> tonumberns v = Some x.
Proof. tags v; cbn; try (split; [intros []|discriminate]); (split; [intros ->; reflexivity|congruence]). Qed.
Lemma not_num_ns v : ~ is_num v -> tonumberns v = None.
Proof. tags v; cbn; intros H; try reflexivity; destruct H; eexists; reflexivity. Qed.

Lemma arith_means o fo b c w : wfval b -> wfval c -> o <> Div -> o <> Pow ->
  let r := arith_ W tmbin o (intarith2 o) fo b c w in
  (forall x y, b = I x -> c = I y -> iresult W o x y w r) /\
  (forall x y, ~ ((exists i, b = I i) /\ (exists j, c = I j)) -> flt_val b x -> flt_val c y -> r = Ok (F (fo x y), w)) /\
  (~ is_num b \/ ~ is_num c -> r = tmbin o b c w).
Proof.
  intros Hb Hc N1 N2 r. subst r. unfold arith_. split; [|split].
  - intros x y -> ->. apply intarith_ok; auto.
  - intros x y N Fx Fy. apply flt_val_ns in Fx, Fy. rewrite Fx, Fy.
    tags b; tags c; try reflexivity. destruct N; split; eexists; reflexivity.
  - intros [N|N]; apply not_num_ns in N; rewrite N; tags b; tags c; try discriminate N; try reflexivity;
      destruct (tonumberns _); reflexivity.
Qed.

Lemma generic_means o b c w : wfval b -> wfval c -> means o b c w (generic o b c w).
Proof.
  intros Hb Hc.
  destruct o;
    try (match goal with |- means ?o _ _ _ _ => exact (arith_means o (fop fmod fpow o) b c w Hb Hc ltac:(discriminate) ltac:(discriminate)) end);
    try (match goal with |- means ?o _ _ _ _ => exact (bitop_means o b c w Hb Hc ltac:(discriminate) ltac:(discriminate)) end).
  - split.
    + intros x y Fx Fy. apply flt_val_ns in Fx, Fy. cbn. unfold arithf_. rewrite Fx, Fy. reflexivity.
    + intros [N|N]; apply not_num_ns in N; cbn; unfold arithf_; rewrite N; destruct (tonumberns b); reflexivity.
  - split.
    + intros x y Fx Fy. apply flt_val_ns in Fx, Fy. cbn. unfold arithf_. rewrite Fx, Fy. reflexivity.
    + intros [N|N]; apply not_num_ns in N; cbn; unfold arithf_; rewrite N; destruct (tonumberns b); reflexivity.
Qed.

Lemma generic_un o b w : wfval b -> means1 o b w (exec_un (OP_U o) b w).
Proof.
  intros Hb. destruct o; cbn.
  - split; [|split].
    + intros x ->. cbn. exists (int_unm x). split; [reflexivity|]. apply C01_add_sub_mul_unm_wrap. exact 0.
    + intros x ->. reflexivity.
    + intros N. tags b; try reflexivity; destruct N; eexists; reflexivity.
  - destruct (tointns_spec b Hb) as (ob & Eb & Sb). rewrite Eb. cbn [bind]. split.
    + intros x Hx. apply Sb in Hx as E. subst ob. apply int_val_s64 in Hx.
      destruct (C01_dispatch x 0 Hx ltac:(unfold is_s64; unfold_consts; lia)) as (_ & _ & _ & _ & _ & _ & _ & _ & _ & _ & r & E & H).
      injection E as E. exists r. unfold iret. cbn. rewrite E. split; [reflexivity|exact H].
    + intros N. destruct ob as [x|]; [|reflexivity]. destruct (N x). now apply Sb.
Qed.
Lemma generic_cmp o b c w : wfval b -> wfval c -> meansc o b c w (exec_cmp (OP_C o) b c w).
Proof.
  intros Hb Hc. split.
  - intros x y -> ->. cbn in *. destruct o.
    + destruct (C03_eq x y Hb Hc) as (r & E & H). rewrite E. exists r. auto.
    + destruct (C03_lt x y Hb Hc) as (r & E & H). rewrite E. exists r. auto.
    + destruct (C03_le x y Hb Hc) as (r & E & H). rewrite E. exists r. auto.
  - intros [N|N]; tags b; tags c; try reflexivity; destruct N; eexists; reflexivity.
Qed.

(* the specialised opcodes *)
Lemma wraps_s64 x z : wraps_to x z -> is_s64 x -> z = x.
Proof. intros [R [k E]] H. unfold is_s64, minint, maxint in H. lia. Qed.
Lemma signed_ok x : is_s64 x -> c_signed x = Ok x.
Proof.
  intros H. unfold c_signed. unfold is_s64 in H.
  replace (minint <=? x) with true by (symmetry; apply Z.leb_le; lia). replace (x <=? maxint) with true by (symmetry; apply Z.leb_le; lia). reflexivity.
Qed.
Lemma int_ops x y : (is_s64 (x + y) -> int_add x y = x + y) /\ (is_s64 (x - y) -> int_sub x y = x - y) /\ (is_s64 (x * y) -> int_mul x y = x * y).
Proof.
  destruct (C01_add_sub_mul_unm_wrap x y) as (A & S & M & _). repeat split; intros H; eapply wraps_s64; eauto.
Qed.

Definition operands (sw : bool) (b c : val) : val * val := if sw then (c, b) else (b, c).
Lemma emit_arith o s t1 t2 b c w : hast t1 b -> hast t2 c ->
  (forall x y, b = F x -> c = F y -> exec_bin (o_ff s) b c w = generic o b c w) ->
  (forall x y, b = F x -> c = I y -> exec_bin (o_fi s) b c w = generic o b c w) ->
  (forall x y, b = I x -> c = F y -> let '(p, q) := operands (o_swap s) b c in exec_bin (o_if s) p q w = generic o b c w) ->
  (forall x y, b = I x -> c = I y -> exec_bin (o_ii s) b c w = generic o b c w) ->
  let '(oc, sw, t) := gen_arith o s t1 t2 in let '(x, y) := operands sw b c in exec_bin oc x y w = generic o b c w.
Proof.
  intros H1 H2 A1 A2 A3 A4. unfold gen_arith.
  destruct (Z.eqb_spec t1 T_FLT) as [->|]; [|destruct (Z.eqb_spec t1 T_INT) as [->|]; [|reflexivity]].
  - apply hast_flt in H1 as [x E]. destruct (Z.eqb_spec t2 T_FLT) as [->|]; [|destruct (Z.eqb_spec t2 T_INT) as [->|]; [|reflexivity]].
    + apply hast_flt in H2 as [y E2]. eapply A1; eauto.
    + apply hast_int in H2 as [y E2]. eapply A2; eauto.
  - apply hast_int in H1 as [x E]. destruct (Z.eqb_spec t2 T_FLT) as [->|]; [|destruct (Z.eqb_spec t2 T_INT) as [->|]; [|reflexivity]].
    + apply hast_flt in H2 as [y E2]. eapply A3; eauto.
    + apply hast_int in H2 as [y E2]. eapply A4; eauto.
Qed.
Lemma emit_int o s t1 t2 b c w : hast t1 b -> hast t2 c ->
  (forall x y, b = I x -> c = I y -> exec_bin s b c w = generic o b c w) ->
  let '(oc, sw, t) := gen_int o s t1 t2 in let '(x, y) := operands sw b c in exec_bin oc x y w = generic o b c w.
Proof.
  intros H1 H2 A. unfold gen_int. destruct (Z.eqb_spec t1 T_INT) as [->|]; [destruct (Z.eqb_spec t2 T_INT) as [->|]|]; cbn [andb].
  - apply hast_int in H1 as [x E], H2 as [y E2]. eapply A; eauto.
  - destruct (within _ _ && within _ _); reflexivity.
  - destruct (within _ _ && within _ _); reflexivity.
Qed.
Lemma emitted o t1 t2 b c w : hast t1 b -> hast t2 c -> in_range o b c ->
  let '(oc, sw, t) := codebin o t1 t2 in
  let '(x, y) := operands sw b c in exec_bin oc x y w = generic o b c w.
Proof.
  intros H1 H2 R. destruct o; cbn [codebin];
    first [apply emit_arith; [assumption|assumption| | | | ] | apply emit_int; [assumption|assumption|]];
    intros x y -> ->; cbn [o_ff o_fi o_if o_swap o_ii allgen operands]; try reflexivity;
    try (cbn; rewrite ?(fadd_comm y), ?(fmul_comm y); reflexivity);
    try (destruct (int_ops x y) as (A & S & M); cbn in R; cbn; unfold ii, signed, iret, done; cbn [bind ivalue I];
      rewrite signed_ok by exact R; cbn; rewrite ?A, ?S, ?M by exact R; reflexivity).
Qed.

(* what the compiler says about the type of the result *)
Lemma generic_type o t1 t2 b c w v w' : hast t1 b -> hast t2 c -> plain_numbers W tmbin tmun ->
  generic o b c w = Ok (v, w') -> hast (snd (codebin o t1 t2)) v.
Proof.
  intros H1 H2 [PN _] E.
  assert (AR: forall iop fo, (o = Add \/ o = Sub \/ o = Mul \/ o = Mod \/ o = IDiv) -> is_num b -> is_num c -> arith_ W tmbin o iop fo b c w = Ok (v, w') ->
    (exists x y z, b = I x /\ c = I y /\ v = I z) \/ (exists z, v = F z /\ ~ ((exists i, b = I i) /\ (exists j, c = I j)))).
  { intros iop fo O [nb ->] [nc ->] E'. unfold arith_ in E'. destruct nb as [x|x], nc as [y|y]; cbn in E'.
    - left. unfold iret, done in E'. destruct (iop x y); try discriminate E'. injection E' as <- _. exists x, y. eexists. auto.
    - right. injection E' as <- _. eexists. split; [reflexivity|]. intros [_ [j Ej]]. discriminate Ej.
    - right. injection E' as <- _. eexists. split; [reflexivity|]. intros [[j Ej] _]. discriminate Ej.
    - right. injection E' as <- _. eexists. split; [reflexivity|]. intros [[j Ej] _]. discriminate Ej. }
  assert (AF: forall fo, (o = Div \/ o = Pow) -> is_num b -> is_num c -> arithf_ W tmbin o fo b c w = Ok (v, w') -> exists z, v = F z).
  { intros fo _ [nb ->] [nc ->] E'. unfold arithf_ in E'. destruct nb as [x|x], nc as [y|y]; cbn in E'; injection E' as <- _; eexists; reflexivity. }
  assert (BT: forall iop, is_num b -> is_num c -> bitop_ W tmbin o iop b c w = Ok (v, w') -> exists z, v = I z).
  { intros iop [nb ->] [nc ->] E'. unfold bitop_ in E'. destruct (tointns (Num nb)) as [[x|]| | | ]; cbn [bind] in E'; try discriminate E'.
    - destruct (tointns (Num nc)) as [[y|]| | | ]; cbn [bind] in E'; try discriminate E'.
      + unfold iret, done in E'. destruct (iop x y); try discriminate E'. injection E' as <- _. eexists; reflexivity.
      + exfalso. eapply PN; eauto.
    - exfalso. eapply PN; eauto. }
  assert (FI: hast T_FLT (F S754_nan) -> forall z, hast T_FLT (F z)) by (intros ? z; reflexivity).
  assert (GA: forall s iop fo, (o = Add \/ o = Sub \/ o = Mul \/ o = Mod \/ o = IDiv) -> o_iit s = T_INT -> arith_ W tmbin o iop fo b c w = Ok (v, w') -> hast (snd (gen_arith o s t1 t2)) v).
  { intros s iop fo O S E'. unfold gen_arith. rewrite S.
    assert (OT: hast (if within t1 T_NUM && within t2 T_NUM then if none_of (Z.land t1 t2) T_INT then T_FLT else Z.lor T_FLT T_INT else T_ANY) v).
    { destruct (within t1 T_NUM) eqn:W1; [|apply hast_any]. destruct (within t2 T_NUM) eqn:W2; [|apply hast_any]. cbn [andb].
      pose proof (hast_num _ (within_spec _ _ _ W1 H1)) as Nb. pose proof (hast_num _ (within_spec _ _ _ W2 H2)) as Nc.
      destruct (AR _ _ O Nb Nc E') as [(x & y & z & -> & -> & ->)|(z & -> & _)].
      - destruct (none_of (Z.land t1 t2) T_INT) eqn:NO; [|reflexivity]. exfalso.
        eapply (none_spec _ _ (I 0) NO); [|reflexivity]. apply hast_land. split; [exact H1|exact H2].
      - destruct (none_of (Z.land t1 t2) T_INT); reflexivity. }
    destruct (Z.eqb_spec t1 T_FLT) as [->|]; [|destruct (Z.eqb_spec t1 T_INT) as [->|]; [|exact OT]].
    - destruct (Z.eqb_spec t2 T_FLT) as [->|]; [|destruct (Z.eqb_spec t2 T_INT) as [->|]; [|exact OT]]; cbn [snd]; assert (NB : is_num b) by (first [exact (num_ty T_FLT b eq_refl H1) | exact (num_ty T_INT b eq_refl H1)]); assert (NC : is_num c) by (first [exact (num_ty T_FLT c eq_refl H2) | exact (num_ty T_INT c eq_refl H2)]);
      (destruct (AR iop fo O NB NC E') as [(x & y & z & -> & -> & ->)|(z & -> & _)]; [discriminate H1|reflexivity]).
    - destruct (Z.eqb_spec t2 T_FLT) as [->|]; [|destruct (Z.eqb_spec t2 T_INT) as [->|]; [|exact OT]]; cbn [snd]; assert (NB : is_num b) by (first [exact (num_ty T_FLT b eq_refl H1) | exact (num_ty T_INT b eq_refl H1)]); assert (NC : is_num c) by (first [exact (num_ty T_FLT c eq_refl H2) | exact (num_ty T_INT c eq_refl H2)]);
      (destruct (AR iop fo O NB NC E') as [(x & y & z & -> & -> & ->)|(z & -> & N)]).
      + discriminate H2.
      + reflexivity.
      + reflexivity.
      + destruct N. split; apply hast_int; assumption. }
  assert (GF: forall s fo, (o = Div \/ o = Pow) -> o_iit s = T_FLT -> arithf_ W tmbin o fo b c w = Ok (v, w') -> hast (snd (gen_arith o s t1 t2)) v).
  { intros s fo O S E'. unfold gen_arith. rewrite S.
    assert (OT: hast (if within t1 T_NUM && within t2 T_NUM then if none_of (Z.land t1 t2) T_INT then T_FLT else Z.lor T_FLT T_FLT else T_ANY) v).
    { destruct (within t1 T_NUM) eqn:W1; [|apply hast_any]. destruct (within t2 T_NUM) eqn:W2; [|apply hast_any]. cbn [andb].
      pose proof (hast_num _ (within_spec _ _ _ W1 H1)) as Nb. pose proof (hast_num _ (within_spec _ _ _ W2 H2)) as Nc.
      destruct (AF _ O Nb Nc E') as [z ->]. destruct (none_of (Z.land t1 t2) T_INT); reflexivity. }
    destruct (Z.eqb_spec t1 T_FLT) as [->|]; [|destruct (Z.eqb_spec t1 T_INT) as [->|]; [|exact OT]];
      (destruct (Z.eqb_spec t2 T_FLT) as [->|]; [|destruct (Z.eqb_spec t2 T_INT) as [->|]; [|exact OT]]; cbn [snd]; assert (NB : is_num b) by (first [exact (num_ty T_FLT b eq_refl H1) | exact (num_ty T_INT b eq_refl H1)]); assert (NC : is_num c) by (first [exact (num_ty T_FLT c eq_refl H2) | exact (num_ty T_INT c eq_refl H2)]);
       (destruct (AF fo O NB NC E') as [z ->]; reflexivity)). }
  assert (GI: forall s iop, bitop_ W tmbin o iop b c w = Ok (v, w') -> hast (snd (gen_int o s t1 t2)) v).
  { intros s iop E'. unfold gen_int. destruct (Z.eqb_spec t1 T_INT) as [->|].
    - destruct (Z.eqb_spec t2 T_INT) as [->|]; cbn [andb snd].
      + apply hast_int in H1 as [x ->]. apply hast_int in H2 as [y ->]. destruct (BT iop ltac:(eexists; reflexivity) ltac:(eexists; reflexivity) E') as [z ->]. reflexivity.
      + change (within T_INT T_NUM) with true. cbn [andb]. destruct (within t2 T_NUM) eqn:W2; [|apply hast_any].
        apply hast_int in H1 as [x ->]. destruct (BT iop ltac:(eexists; reflexivity) (hast_num _ (within_spec _ _ _ W2 H2)) E') as [z ->]. reflexivity.
    - cbn [andb]. destruct (within t1 T_NUM) eqn:W1; [|apply hast_any]. destruct (within t2 T_NUM) eqn:W2; [|apply hast_any].
      destruct (BT iop (hast_num _ (within_spec _ _ _ W1 H1)) (hast_num _ (within_spec _ _ _ W2 H2)) E') as [z ->]. reflexivity. }
  destruct o; cbn [codebin generic] in *; first [eapply GA; eauto; fail | eapply GF; eauto; fail | eapply GI; eauto].
Qed.

Lemma emitted_un o t b w : hast t b -> exec_un (fst (codeun o t)) b w = exec_un (OP_U o) b w.
Proof.
  intros H. destruct o; cbn [codeun fst]; [reflexivity|]. destruct (Z.eqb_spec t T_INT) as [->|]; [|reflexivity].
  apply hast_int in H as [x ->]. reflexivity.
Qed.
Lemma generic_un_type o t b w v w' : hast t b -> plain_numbers W tmbin tmun -> exec_un (OP_U o) b w = Ok (v, w') -> hast (snd (codeun o t)) v.
Proof.
  intros H [_ PN] E. destruct o; cbn [codeun snd].
  - destruct (within t T_NUM) eqn:Wt; [|apply hast_any]. pose proof (hast_num _ (within_spec _ _ _ Wt H)) as [[x|x] ->]; cbn in E; injection E as <- _; exact H.
  - destruct (Z.eqb_spec t T_INT) as [->|].
    + apply hast_int in H as [x ->]. cbn in E. injection E as <- _. reflexivity.
    + cbn [snd]. destruct (Z.eqb_spec t T_FLT) as [->|]; [|apply hast_any]. apply hast_flt in H as [x ->]. cbn -[tointns] in E.
      destruct (tointns (F x)) as [[z|]| | | ]; cbn [bind] in E; try discriminate E.
      * injection E as <- _. reflexivity.
      * exfalso. eapply PN; eauto.
Qed.
Lemma emitted_cmp o t1 t2 b c w : hast t1 b -> hast t2 c -> exec_cmp (comp_op o t1 t2) b c w = exec_cmp (OP_C o) b c w.
Proof.
  intros H1 H2.
  destruct o; cbn [comp_op];
    destruct (Z.eqb_spec t1 T_INT) as [E1|], (Z.eqb_spec t2 T_INT) as [E2|], (Z.eqb_spec t1 T_FLT) as [E3|], (Z.eqb_spec t2 T_FLT) as [E4|]; cbn [andb]; try reflexivity;
    try (rewrite E1 in H1; rewrite E2 in H2; apply hast_int in H1 as [x ->], H2 as [y ->]; reflexivity);
    try (rewrite E3 in H1; rewrite E4 in H2; apply hast_flt in H1 as [x ->], H2 as [y ->]; reflexivity).
Qed.

(* constant folding *)
Lemma keep_spec r r' : keep r = Some r' -> r' = r /\ (forall f, r = NFlt f -> f <> S754_nan /\ forall s, f <> S754_zero s).
Proof.
  unfold keep. destruct r as [i|f]; intros H.
  - injection H as <-. split; [reflexivity|]. discriminate.
  - destruct (negb (flt_eq f f) || flt_eq f fzero) eqn:B; [discriminate|]. injection H as <-. split; [reflexivity|].
    intros g E. injection E as <-. split; [intros ->; discriminate B|intros s ->; destruct s; discriminate B].
Qed.
Lemma both_ints_ok a b : both_ints a b = Ok true -> exists x y, tointegerns a F2Ieq = Ok (Some x) /\ tointegerns b F2Ieq = Ok (Some y).
Proof.
  unfold both_ints. destruct (tointegerns a F2Ieq) as [[x|]| | | ]; cbn [bind]; try discriminate.
  destruct (tointegerns b F2Ieq) as [[y|]| | | ]; cbn [bind]; try discriminate. intros _. eauto.
Qed.

Ltac one_bind := match goal with |- bind ?u _ = _ -> _ => destruct u; cbn [bind]; try discriminate; intros E; injection E as <-; reflexivity end.
Lemma raw_generic o a b w r : rawarith fmod fpow o a b = Ok (Some r) -> generic o (Num a) (Num b) w = Ok (Num r, w).
Proof.
  assert (BT: forall iop, bind (tointegerns a F2Ieq) (fun oa => match oa with None => Ok None | Some x =>
      bind (tointegerns b F2Ieq) (fun ob => match ob with None => Ok None | Some y => bind (iop x y) (fun z => Ok (Some (NInt z))) end) end) = Ok (Some r) ->
      bitop_ W tmbin o iop (Num a) (Num b) w = Ok (Num r, w)).
  { intros iop. unfold bitop_, iret, done. cbn [tointns]. destruct (tointegerns a F2Ieq) as [[x|]| | | ]; cbn [bind]; try discriminate.
    destruct (tointegerns b F2Ieq) as [[y|]| | | ]; cbn [bind]; try discriminate. one_bind. }
  assert (AR: forall iop fo, match a, b with NInt x, NInt y => bind (iop x y) (fun z => Ok (Some (NInt z))) | _, _ => Ok (Some (NFlt (fo (real a) (real b)))) end = Ok (Some r) ->
      arith_ W tmbin o iop fo (Num a) (Num b) w = Ok (Num r, w)).
  { intros iop fo. unfold arith_, iret, done. destruct a as [x|x], b as [y|y]; cbn [real tonumberns]; try (intros E; injection E as <-; reflexivity). one_bind. }
  destruct o; try (apply (AR _ _)); try (apply (BT _)).
  - destruct a as [x|x], b as [y|y]; cbn; intros E; injection E as <-; reflexivity.
  - destruct a as [x|x], b as [y|y]; cbn; intros E; injection E as <-; reflexivity.
Qed.
Lemma fold_ok o a b w r : constfolding o a b = Ok (Some r) ->
  generic o (Num a) (Num b) w = Ok (Num r, w) /\ (forall f, r = NFlt f -> f <> S754_nan /\ forall s, f <> S754_zero s).
Proof.
  unfold constfolding. destruct (validop o a b) as [[|]| | | ]; cbn [bind]; try discriminate.
  unfold must. destruct (rawarith fmod fpow o a b) as [[q|]| | | ] eqn:R; cbn [bind]; try discriminate.
  intros E. injection E as E. destruct (keep_spec _ _ E) as [-> K]. split; [|exact K]. now apply raw_generic.
Qed.
Lemma fold1_ok o a w r : constfolding1 o a = Ok (Some r) ->
  exec_un (OP_U o) (Num a) w = Ok (Num r, w) /\ (forall f, r = NFlt f -> f <> S754_nan /\ forall s, f <> S754_zero s).
Proof.
  unfold constfolding1. destruct (validop1 o a) as [[|]| | | ]; cbn [bind]; try discriminate.
  unfold must. destruct (rawarith1 o a) as [[q|]| | | ] eqn:R; cbn [bind]; try discriminate.
  intros E. injection E as E. destruct (keep_spec _ _ E) as [-> K]. split; [|exact K].
  destruct o; cbn in R |- *.
  - destruct a; injection R as <-; reflexivity.
  - destruct (tointegerns a F2Ieq) as [[x|]| | | ]; cbn [bind] in R |- *; try discriminate R. injection R as <-. reflexivity.
Qed.
(* the folder itself never fails, except where the operator is undefined at run time too *)
Lemma eq_zero n : wfnum n -> flt_eq (nvalue n) fzero = false -> n <> NInt 0.
Proof. intros _ H ->. discriminate H. Qed.
Lemma fold_total o a b : wfnum a -> wfnum b -> (o = Shr -> b <> NInt minint /\ ~ num_is b minint) ->
  exists q, constfolding o a b = Ok q.
Proof.
  intros Ha Hb Hs. destruct (tointns_spec (Num a) Ha) as (oa & Ea & Sa). destruct (tointns_spec (Num b) Hb) as (ob & Eb & Sb). cbn [tointns] in Ea, Eb.
  assert (BI: both_ints a b = Ok (match oa, ob with Some _, Some _ => true | _, _ => false end)).
  { unfold both_ints. rewrite Ea, Eb. destruct oa, ob; reflexivity. }
  unfold constfolding. destruct o; cbn [validop]; rewrite ?BI; cbn [bind]; try (destruct a, b; cbn; eexists; reflexivity);
    try (destruct oa as [x|], ob as [y|]; try (eexists; reflexivity); unfold must; cbn [rawarith]; rewrite Ea, Eb; cbn [bind intarith2]; try (eexists; reflexivity)).
  - destruct (flt_eq (nvalue b) fzero) eqn:Z0; cbn [negb]; [eexists; reflexivity|]. unfold must. destruct a as [x|x], b as [y|y]; try (cbn; eexists; reflexivity).
    cbn [rawarith intarith2]. destruct (C01_dispatch x y Ha Hb) as (_ & _ & _ & _ & D & _). destruct D as (q & r & qr & _ & E2 & _).
    { intros ->. discriminate Z0. } cbn [intarith] in E2. rewrite E2. cbn. eexists; reflexivity.
  - destruct (flt_eq (nvalue b) fzero) eqn:Z0; cbn [negb]; [eexists; reflexivity|]. unfold must. destruct a as [x|x], b as [y|y]; try (cbn; eexists; reflexivity).
  - destruct (flt_eq (nvalue b) fzero) eqn:Z0; cbn [negb]; [eexists; reflexivity|]. unfold must. destruct a as [x|x], b as [y|y]; try (cbn; eexists; reflexivity).
    cbn [rawarith intarith2]. destruct (C01_dispatch x y Ha Hb) as (_ & _ & _ & _ & D & _). destruct D as (q & r & qr & E1 & E2 & _).
    { intros ->. discriminate Z0. } cbn [intarith] in E1. rewrite E1. cbn. eexists; reflexivity.
  - destruct (Hs eq_refl) as [_ N]. assert (Iy: int_val (Num b) y) by (apply Sb; reflexivity). destruct Iy as [Ny Sy].
    destruct (Z.eq_dec y minint) as [->|Ne]; [contradiction|].
    destruct (C02_shr_partial x y Sy Ne) as (r & E & _). rewrite E. cbn. eexists; reflexivity.
Qed.
End ops.

Lemma hast_str v : hast T_STR v -> exists s, v = Str s.
Proof. tags v; cbn; intros H; try discriminate H. eexists; reflexivity. Qed.
Lemma hast_tab v : hast T_TAB v -> exists s, v = Tab s.
Proof. tags v; cbn; intros H; try discriminate H. eexists; reflexivity. Qed.
Lemma hast_iarr v : hast T_IARR v -> exists s, v = IArr s.
Proof. tags v; cbn; intros H; try discriminate H. eexists; reflexivity. Qed.
Lemma hast_farr v : hast T_FARR v -> exists s, v = FArr s.
Proof. tags v; cbn; intros H; try discriminate H. eexists; reflexivity. Qed.
Section index.
Variable W : Type.
Variable tabget : nat -> val -> W -> outcome (val * W).
Variable iget : nat -> Z -> W -> outcome Z.
Variable fget : nat -> Z -> W -> outcome flt.
Variable otherget : val -> val -> W -> outcome (val * W).
Variable tabset : nat -> val -> val -> W -> outcome W.
Variable iset : nat -> Z -> Z -> W -> outcome W.
Variable fset : nat -> Z -> flt -> W -> outcome W.
Variable otherset : val -> val -> val -> W -> outcome W.
Notation exec_get := (exec_get W tabget iget fget otherget).
Notation exec_set := (exec_set W tabset iset fset otherset).

Lemma emitted_get t k sh vt vk w : hast t vt -> hast k vk ->
  exec_get (fst (codeget t k sh)) vt vk w = exec_get OP_GETTABLE vt vk w.
Proof.
  intros H1 H2. unfold codeget. cbn [fst].
  destruct (Z.eqb_spec k T_INT) as [->|].
  - apply hast_int in H2 as [z ->]. destruct (Z.eqb_spec t T_FARR) as [->|]; [apply hast_farr in H1 as [a ->]; reflexivity|].
    destruct (Z.eqb_spec t T_IARR) as [->|]; [apply hast_iarr in H1 as [a ->]; reflexivity|].
    tags vt; reflexivity.
  - destruct (Z.eqb_spec k T_STR) as [->|]; [|reflexivity]. destruct sh; [|reflexivity]. cbn [andb].
    apply hast_str in H2 as [s ->]. destruct (Z.eqb_spec t T_TAB) as [->|]; [apply hast_tab in H1 as [a ->]; reflexivity|].
    tags vt; reflexivity.
Qed.
Lemma get_type t k sh vt vk w v w' : hast t vt -> exec_get OP_GETTABLE vt vk w = Ok (v, w') -> hast (snd (codeget t k sh)) v.
Proof.
  intros H E. unfold codeget. cbn [snd]. destruct (within t (Z.lor T_IARR T_FARR)) eqn:B; cbn [negb]; [|apply hast_any].
  pose proof (within_spec _ _ _ B H) as B'. apply hast_lor in B' as [B'|B'].
  - apply hast_iarr in B' as [a ->]. cbn in E. destruct (index_key vk); cbn in E; try discriminate E.
    unfold aget_i in E. destruct (iget _ _ _); cbn in E; try discriminate E. injection E as <- _.
    apply hast_lor. left. destruct (none_of t T_IARR) eqn:N; [|reflexivity]. exfalso. eapply none_spec; eauto. reflexivity.
  - apply hast_farr in B' as [a ->]. cbn in E. destruct (index_key vk); cbn in E; try discriminate E.
    unfold aget_f in E. destruct (fget _ _ _); cbn in E; try discriminate E. injection E as <- _.
    apply hast_lor. right. destruct (none_of t T_FARR) eqn:N; [|reflexivity]. exfalso. eapply none_spec; eauto. reflexivity.
Qed.
(* storing into an array: the value is not a float that is no integer *)
Lemma f2i_exact f z : valid f -> is_exact f z -> is_s64 z -> f2i f = Ok z.
Proof.
  intros V [q [E Q]] S. destruct f as [s|s| |s m e]; cbn in E; try discriminate E; try (destruct s; discriminate E).
  - injection E as <-. unfold Qeq in Q; cbn in Q. cbn. f_equal. lia.
  - injection E as <-. cbn. assert (T: trunc_Z s m e = z).
    { unfold trunc_Z, dyadic in *. fold (sgn_m s m) in Q. destruct (Z.leb_spec 0 e).
      - unfold Qeq in Q; cbn in Q. lia.
      - unfold Qeq in Q. cbn [Qnum Qden inject_Z] in Q. assert (P: 0 < 2 ^ (- e)) by (apply Z.pow_pos_nonneg; lia).
        rewrite Z2Pos.id in Q by exact P. replace (sgn_m s m) with (z * 2 ^ (- e)) by lia. apply Z.quot_mul. lia. }
    rewrite T. unfold is_s64 in S. replace (minint <=? z) with true by (symmetry; apply Z.leb_le; lia). replace (z <=? maxint) with true by (symmetry; apply Z.leb_le; lia). reflexivity.
Qed.
Lemma emitted_set t k tv sh vt vk v w : hast t vt -> hast k vk -> hast tv v -> wfval v ->
  (t = T_IARR -> forall f, v = F f -> exists z, int_val v z) ->
  exec_set (codeset t k tv sh) vt vk v w = exec_set OP_SETTABLE vt vk v w.
Proof.
  intros H1 H2 H3 Wf Hi. unfold codeset. cbn [fst].
  destruct (Z.eqb_spec k T_INT) as [->|].
  - apply hast_int in H2 as [z ->]. destruct (Z.eqb_spec t T_FARR) as [->|].
    { apply hast_farr in H1 as [a ->]. destruct (Z.eqb_spec tv T_FLT) as [->|]; [|reflexivity]. apply hast_flt in H3 as [f ->]. reflexivity. }
    destruct (Z.eqb_spec t T_IARR) as [->|].
    { apply hast_iarr in H1 as [a ->]. destruct (Z.eqb_spec tv T_INT) as [->|]; [apply hast_int in H3 as [f ->]; reflexivity|].
      tags v; try reflexivity. destruct (Hi eq_refl f eq_refl) as [y Hy]. cbn -[tointns f2i]. unfold store_int. destruct (tointns_spec (F f) Wf) as (o & E & S). apply S in Hy as Ey. unfold F in E. rewrite E, Ey. cbn [bind].
      rewrite (f2i_exact f y); [reflexivity|exact Wf| |apply Hy]. destruct Hy as [(q & A & B) _]. exists q. auto. }
    tags vt; reflexivity.
  - destruct (Z.eqb_spec k T_STR) as [->|]; [|reflexivity]. destruct sh; [|reflexivity]. cbn [andb].
    apply hast_str in H2 as [s ->]. destruct (Z.eqb_spec t T_TAB) as [->|]; [apply hast_tab in H1 as [a ->]; reflexivity|].
    tags vt; reflexivity.
Qed.
End index.

(* the theorems *)
Lemma op_fold : forall W fmod fpow tmbin o a b r (w : W), wfnum a -> wfnum b ->
  constfolding fmod fpow o a b = Ok (Some r) ->
  means W fmod fpow tmbin o (Num a) (Num b) w (Ok (Num r, w)) /\
  generic W fmod fpow tmbin o (Num a) (Num b) w = Ok (Num r, w) /\
  r <> NFlt S754_nan /\ r <> NFlt (S754_zero false) /\ r <> NFlt (S754_zero true).
Proof. intros W fmod fpow tmbin o a b r w.
  intros Ha Hb E. destruct (fold_ok W fmod fpow tmbin _ _ _ w _ E) as [G K].
  split; [rewrite <- G; apply generic_means; assumption|]. split; [exact G|].
  repeat split; intros ->; destruct (K _ eq_refl) as [A B]; eauto; eapply B; reflexivity.
Qed.
Lemma op_fold1 : forall W tmun o a r (w : W), wfnum a -> constfolding1 o a = Ok (Some r) ->
  means1 W tmun o (Num a) w (Ok (Num r, w)) /\
  exec_un W tmun (OP_U o) (Num a) w = Ok (Num r, w) /\
  r <> NFlt S754_nan /\ r <> NFlt (S754_zero false) /\ r <> NFlt (S754_zero true).
Proof. intros W tmun o a r w.
  intros Ha E. destruct (fold1_ok W tmun _ _ w _ E) as [G K].
  split; [rewrite <- G; apply generic_un; assumption|]. split; [exact G|].
  repeat split; intros ->; destruct (K _ eq_refl) as [A B]; eauto; eapply B; reflexivity.
Qed.
Lemma op_fold_total : forall fmod fpow o a b, wfnum a -> wfnum b -> (o = Shr -> ~ num_is b minint) ->
  exists q, constfolding fmod fpow o a b = Ok q.
Proof. intros fmod fpow o a b.
  intros Ha Hb H. apply fold_total; auto. intros ->. split; [|auto]. intros ->. apply H; [reflexivity|].
  exists (inject_Z minint). split; [reflexivity|apply Qeq_refl].
Qed.
Lemma op_fold_shr_refuted : forall fmod fpow, wfnum (NInt 1) /\ wfnum (NInt minint) /\ constfolding fmod fpow Shr (NInt 1) (NInt minint) = UB.
Proof. intros fmod fpow. repeat split; unfold wfnum, is_s64; unfold_consts; try lia. Qed.

Lemma op_arith : forall W fmod fpow tmbin o t1 t2 b c (w : W), wfval b -> wfval c -> hast t1 b -> hast t2 c -> in_range o b c ->
  let '(oc, sw, t) := codebin o t1 t2 in
  let r := exec_bin W fmod fpow tmbin oc (if sw then c else b) (if sw then b else c) w in
  means W fmod fpow tmbin o b c w r /\ r = generic W fmod fpow tmbin o b c w.
Proof. intros W fmod fpow tmbin o t1 t2 b c w.
  intros Wb Wc H1 H2 R. pose proof (emitted W fmod fpow tmbin o t1 t2 b c w H1 H2 R) as E.
  destruct (codebin o t1 t2) as [[oc sw] t]. cbn zeta.
  assert (E': exec_bin W fmod fpow tmbin oc (if sw then c else b) (if sw then b else c) w = generic W fmod fpow tmbin o b c w) by (destruct sw; exact E).
  rewrite E'. split; [apply generic_means; assumption|reflexivity].
Qed.
Lemma op_arith_type : forall W fmod fpow tmbin tmun o t1 t2 b c (w : W) v w', hast t1 b -> hast t2 c -> in_range o b c -> plain_numbers W tmbin tmun ->
  let '(oc, sw, t) := codebin o t1 t2 in
  exec_bin W fmod fpow tmbin oc (if sw then c else b) (if sw then b else c) w = Ok (v, w') -> hast t v.
Proof. intros W fmod fpow tmbin tmun o t1 t2 b c w v w'.
  intros H1 H2 R P. pose proof (emitted W fmod fpow tmbin o t1 t2 b c w H1 H2 R) as E.
  pose proof (generic_type W fmod fpow tmbin tmun o t1 t2 b c w v w' H1 H2 P) as T.
  destruct (codebin o t1 t2) as [[oc sw] t]. cbn [snd] in T. intros X. apply T. destruct sw; cbn [operands] in E; rewrite <- E; exact X.
Qed.
Lemma op_overflow_refuted : forall W fmod fpow tmbin (w : W), hast T_INT (I maxint) /\ hast T_INT (I 1) /\ wfval (I maxint) /\ wfval (I 1) /\
  codebin Add T_INT T_INT = (ADDII, false, T_INT) /\ exec_bin W fmod fpow tmbin ADDII (I maxint) (I 1) w = UB /\
  generic W fmod fpow tmbin Add (I maxint) (I 1) w = Ok (I minint, w).
Proof. intros W fmod fpow tmbin w. repeat split; unfold wfval, is_s64, I, wfnum, is_s64; unfold_consts; try lia. Qed.
(* a metamethod of the numbers, set with debug.setmetatable(0, {__band = function () return "x" end}) *)
Definition number_meta (o : bop) (a b : val) (w : unit) : outcome (val * unit) :=
  match o, a with Band, Num _ => Ok (Str [120], tt) | _, _ => Err EType end.
Definition half : flt := S754_finite false 4503599627370496 (-53).
Lemma op_type_refuted : forall fmod fpow, hast T_FLT (F half) /\ hast T_INT (I 1) /\ wfval (F half) /\
  codebin Band T_FLT T_INT = (OP_G Band, false, T_INT) /\
  exec_bin unit fmod fpow number_meta (OP_G Band) (F half) (I 1) tt = Ok (Str [120], tt) /\ ~ hast T_INT (Str [120]).
Proof. intros fmod fpow. repeat split; try discriminate. Qed.

Lemma op_unary : forall W tmun o t b (w : W), wfval b -> hast t b ->
  means1 W tmun o b w (exec_un W tmun (fst (codeun o t)) b w) /\ exec_un W tmun (fst (codeun o t)) b w = exec_un W tmun (OP_U o) b w.
Proof. intros W tmun o t b w. intros Wb H. rewrite emitted_un by exact H. split; [apply generic_un; assumption|reflexivity]. Qed.
Lemma op_unary_type : forall W tmbin tmun o t b (w : W) v w', hast t b -> plain_numbers W tmbin tmun ->
  exec_un W tmun (fst (codeun o t)) b w = Ok (v, w') -> hast (snd (codeun o t)) v.
Proof. intros W tmbin tmun o t b w v w'. intros H P E. rewrite emitted_un in E by exact H. eapply generic_un_type; eauto. Qed.
Lemma op_compare : forall W tmcmp o t1 t2 b c (w : W), wfval b -> wfval c -> hast t1 b -> hast t2 c ->
  meansc W tmcmp o b c w (exec_cmp W tmcmp (comp_op o t1 t2) b c w) /\
  exec_cmp W tmcmp (comp_op o t1 t2) b c w = exec_cmp W tmcmp (OP_C o) b c w.
Proof. intros W tmcmp o t1 t2 b c w. intros Wb Wc H1 H2. rewrite emitted_cmp by assumption. split; [apply generic_cmp; assumption|reflexivity]. Qed.
Lemma op_get : forall W tabget iget fget otherget t k sh vt vk (w : W), hast t vt -> hast k vk ->
  exec_get W tabget iget fget otherget (fst (codeget t k sh)) vt vk w = exec_get W tabget iget fget otherget OP_GETTABLE vt vk w /\
  forall v w', exec_get W tabget iget fget otherget (fst (codeget t k sh)) vt vk w = Ok (v, w') -> hast (snd (codeget t k sh)) v.
Proof. intros W tabget iget fget otherget t k sh vt vk w.
  intros H1 H2. pose proof (emitted_get W tabget iget fget otherget t k sh vt vk w H1 H2) as E. split; [exact E|].
  intros v w'. rewrite E. apply get_type. exact H1.
Qed.
Lemma op_set : forall W tabset iset fset otherset t k tv sh vt vk v (w : W), hast t vt -> hast k vk -> hast tv v -> wfval v ->
  (t = T_IARR -> forall f, v = F f -> exists z, int_val v z) ->
  exec_set W tabset iset fset otherset (codeset t k tv sh) vt vk v w = exec_set W tabset iset fset otherset OP_SETTABLE vt vk v w.
Proof. intros W tabset iset fset otherset t k tv sh vt vk v w. apply emitted_set. Qed.
Lemma op_set_refuted : forall W tabset iset fset otherset (w w' : W), iset 0%nat 1 0 w = Ok w' ->
  codeset T_IARR T_INT T_ANY false = OP_IARRAY_SET /\ hast T_IARR (IArr 0) /\ hast T_INT (I 1) /\ hast T_ANY (F half) /\
  exec_set W tabset iset fset otherset OP_IARRAY_SET (IArr 0) (I 1) (F half) w = Ok w' /\
  exec_set W tabset iset fset otherset OP_SETTABLE (IArr 0) (I 1) (F half) w = Err EType /\
  exec_set W tabset iset fset otherset OP_IARRAY_SET (IArr 0) (I 1) (F (S754_infinity false)) w = UB.
Proof. intros W tabset iset fset otherset w w'. intros E. repeat split. exact E. Qed.
