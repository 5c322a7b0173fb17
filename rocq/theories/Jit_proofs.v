(* Compiled code does what the interpreter does: proofs. *)
Require Import ZArith List Bool Arith Lia.
From Coq Require Import Floats.SpecFloat.
From Verif Require Import Base IntArith_model Float_model Op_model Op_proofs Jit_model Jit_spec Jit_facts.
Import ListNotations.
Open Scope Z_scope.

Definition lens {W} (L : lib W) : Prop := forall a m, 0 <= l_alen L a m < two32.
(* what a piece of the text leads to, as a step of the interpreter; w: the number of instructions of the piece *)
Definition to_next {W} (pc w : nat) (r : outcome (@flow W)) : outcome (@next W) :=
  bind r (fun f => match f with
                   | Fall c => Ok (At (pc + w) (mem c))
                   | Jump l c => Ok (At l (mem c))
                   | Ret a b m => Ok (Done a b m)
                   end).

Lemma lit_ok : forall z, z <> minint -> lit z = Ok (VI z).
Proof. intros z H. unfold lit. destruct (Z.eqb_spec z minint); [contradiction|reflexivity]. Qed.
Lemma bind_ok : forall A B (x : A) (f : A -> outcome B), bind (Ok x) f = f x. Proof. reflexivity. Qed.

Lemma nils_ok : forall W (L : lib W) kst b a c, ptrs c Pa = LR a ->
  exists c', cexec L kst (emit_nils b) c = Ok (Fall c') /\ mem c' = nils a b (mem c).
Proof.
  intros W L kst b. induction b as [|b IH]; intros a c H.
  - cbn [emit_nils cexec]. unfold put. rewrite H. cbn [bind cexec setmem ptrs]. rewrite H. cbn [bind]. eexists. split; [reflexivity|]. reflexivity.
  - cbn [emit_nils cexec]. unfold put. rewrite H. cbn [bind cexec setmem ptrs]. rewrite H. cbn [bind].
    destruct (IH (S a) (setptr (setmem c (upr (mem c) a Nil)) Pa (LR (a + 1)))) as (c' & E & M).
    { cbn. f_equal. lia. }
    exists c'. split; [exact E|]. rewrite M. reflexivity.
Qed.

Ltac crush := cbn [cexec bind eval test deref put assign setptr setvar setmem ptrs vars mem ptr_eqb is_double to_i to_d
  regk].

Section ops.
Context {W : Type}.
Variable L : lib W.
Variable kst : nat -> val.
Hypothesis K : const_ok kst.
Hypothesis LEN : lens L.

Lemma regk_ok : forall p x c, cexec L kst (regk p x) c = Ok (Fall (setptr c p (match x with RR n => LR n | RK n => LK n end))).
Proof. intros p x c. destruct x; reflexivity. Qed.
(* after ra, rb and rc have been set *)
Definition ready (c : @cst W) (a : nat) (b d : rk) : @cst W :=
  setptr (setptr (setptr c Pa (LR a)) Pb (match b with RR n => LR n | RK n => LK n end)) Pc (match d with RR n => LR n | RK n => LK n end).
Lemma abc_ok : forall a b d s c, cexec L kst (abc a b d s) c = cexec L kst s (ready c a b d).
Proof. intros a b d s c. unfold abc. cbn [cexec bind]. rewrite regk_ok. cbn [bind]. rewrite regk_ok. reflexivity. Qed.
Lemma ready_a : forall c a b d, ptrs (ready c a b d) Pa = LR a. Proof. reflexivity. Qed.
Lemma ready_m : forall c a b d, mem (ready c a b d) = mem c. Proof. reflexivity. Qed.
Lemma ready_b : forall c a b d, deref kst (ready c a b d) Pb = Ok (rkv kst (mem c) b). Proof. intros c a b d. destruct b; reflexivity. Qed.
Lemma ready_c : forall c a b d, deref kst (ready c a b d) Pc = Ok (rkv kst (mem c) d). Proof. intros c a b d. destruct d; reflexivity. Qed.

Lemma putres_ok : forall pc a (c : @cst W) r, ptrs c Pa = LR a -> to_next pc 1 (putres c r) = set_res pc a r.
Proof.
  intros pc a c r H. unfold putres, set_res, put. destruct r as [[v m]|e| |]; try reflexivity.
  cbn [bind setmem ptrs]. rewrite H. cbn [bind to_next mem setmem]. rewrite Nat.add_1_r. reflexivity.
Qed.

(* luaO_arith is the generic operator *)
Lemma arith_generic : forall o x y (m : state W), luaO_arith L o x y m = generic _ (l_fmod L) (l_fpow L) (l_tmbin L) o x y m.
Proof.
  intros o x y m. unfold luaO_arith, generic, arith_, arithf_, bitop_, iret, fret, done, intarith2, numarith.
  destruct o; cbn [bind]; try reflexivity;
    try (destruct x as [| |[x|x]| | | | | | |]; destruct y as [| |[y|y]| | | | | | |]; cbn [tonumberns bind]; try reflexivity;
         match goal with |- context [bind ?e _] => destruct e; reflexivity end);
    destruct (tointns x) as [[a|]|e| |]; cbn [bind]; try reflexivity;
    destruct (tointns y) as [[b|]|e| |]; cbn [bind]; try reflexivity;
    unfold op_shl, op_shr; cbn [bind]; try reflexivity;
    destruct (c_signed (- b)); reflexivity.
Qed.

Definition fop (o : cbin) : flt -> flt -> flt := match o with CAdd => fadd | CSub => fsub | CMul => fmul | CDiv => fdiv end.
Definition zop (o : cbin) : Z -> Z -> Z := match o with CAdd => Z.add | CSub => Z.sub | CMul => Z.mul | CDiv => Z.quot end.
Lemma kflt_eval : forall n c, eval L kst (kflt kst n) c = match kst n with Num (NFlt f) => Ok (lit17 f) | _ => UB end.
Proof. intros n c. unfold kflt. destruct (kst n) as [| |[z|f]| | | | | | |]; reflexivity. Qed.
Lemma kint_eval : forall n c, eval L kst (kint kst n) c = match kst n with Num (NInt z) => Ok (VI z) | _ => UB end.
Proof.
  intros n c. unfold kint. pose proof (K n) as H. destruct (kst n) as [| |[z|f]| | | | | | |]; try reflexivity.
  cbn [eval]. apply lit_ok. assumption.
Qed.

Lemma ff_ok : forall o pc a b d c,
  set_res pc a (ff _ (fop o) (rkv kst (mem c) b) (rkv kst (mem c) d) (mem c)) <> UB ->
  to_next pc 1 (cexec L kst (emit_ff kst o a b d) c) = set_res pc a (ff _ (fop o) (rkv kst (mem c) b) (rkv kst (mem c) d) (mem c)).
Proof.
  intros o pc a b d c H. unfold emit_ff, ff, done, set_res in *.
  assert (P : forall x y, cbinop o (VD x) (VD y) = Ok (VD (fop o x y))) by (intros; destruct o; reflexivity).
  destruct b as [b|b].
  - destruct d as [d|d].
    + crush; cbn [rkv] in *.
      destruct (fltvalue (fst (mem c) b)) as [x|e| |] eqn:X; cbn [bind] in *; try reflexivity; try contradiction.
      destruct (fltvalue (fst (mem c) d)) as [y|e| |] eqn:Y; cbn [bind] in *; try reflexivity; try contradiction.
      rewrite P. cbn. rewrite Nat.add_1_r. reflexivity.
    + crush; cbn [rkv] in *. rewrite kflt_eval.
      pose proof (K d) as Kd.
      destruct (fltvalue (fst (mem c) b)) as [x|e| |] eqn:X; cbn [bind] in *; try reflexivity; try contradiction.
      destruct (kst d) as [| |[z|f]| | | | | | |]; try (exfalso; apply H; reflexivity).
      cbn [bind fltvalue] in *. rewrite lit17_bin_r, P by apply Kd. cbn. rewrite Nat.add_1_r. reflexivity.
  - pose proof (K b) as Kb. cbn [rkv] in *. cbn [cexec bind]. rewrite regk_ok. cbn [cexec bind eval]. rewrite kflt_eval.
    destruct (kst b) as [| |[z|f]| | | | | | |]; try (exfalso; apply H; reflexivity).
    cbn [bind fltvalue] in *.
    match goal with |- context [deref kst ?c Pc] => replace (deref kst c Pc) with (Ok (rkv kst (mem c) d)) by (destruct d; reflexivity) end.
    cbn [bind mem setptr] in *.
    destruct (fltvalue (rkv kst (mem c) d)) as [y|e| |] eqn:Y; cbn [bind] in *; try reflexivity; try contradiction.
    rewrite lit17_bin_l, P by apply Kb. cbn. rewrite Nat.add_1_r. reflexivity.
Qed.
Lemma ii_ok : forall o pc a b d c, o <> CDiv ->
  set_res pc a (ii _ (signed (zop o)) (rkv kst (mem c) b) (rkv kst (mem c) d) (mem c)) <> UB ->
  to_next pc 1 (cexec L kst (emit_ii kst o a b d) c) = set_res pc a (ii _ (signed (zop o)) (rkv kst (mem c) b) (rkv kst (mem c) d) (mem c)).
Proof.
  intros o pc a b d c O H. unfold emit_ii, ii, done, set_res, signed in *.
  assert (P : forall x y, cbinop o (VI x) (VI y) = bind (c_signed (zop o x y)) (fun z => Ok (VI z))) by (intros; destruct o; [reflexivity..|congruence]).
  destruct b as [b|b].
  - destruct d as [d|d].
    + crush; cbn [rkv] in *.
      destruct (ivalue (fst (mem c) b)) as [x|e| |] eqn:X; cbn [bind] in *; try reflexivity; try contradiction.
      destruct (ivalue (fst (mem c) d)) as [y|e| |] eqn:Y; cbn [bind] in *; try reflexivity; try contradiction.
      rewrite P. destruct (c_signed (zop o x y)); cbn; try reflexivity. rewrite Nat.add_1_r. reflexivity.
    + crush; cbn [rkv] in *. rewrite kint_eval.
      destruct (ivalue (fst (mem c) b)) as [x|e| |] eqn:X; cbn [bind] in *; try reflexivity; try contradiction.
      destruct (kst d) as [| |[y|f]| | | | | | |]; try (exfalso; apply H; reflexivity).
      cbn [bind ivalue] in *. rewrite P. destruct (c_signed (zop o x y)); cbn; try reflexivity. rewrite Nat.add_1_r. reflexivity.
  - cbn [rkv] in *. cbn [cexec bind]. rewrite regk_ok. cbn [cexec bind eval]. rewrite kint_eval.
    destruct (kst b) as [| |[x|f]| | | | | | |]; try (exfalso; apply H; reflexivity).
    cbn [bind ivalue] in *.
    match goal with |- context [deref kst ?c Pc] => replace (deref kst c Pc) with (Ok (rkv kst (mem c) d)) by (destruct d; reflexivity) end.
    cbn [bind mem setptr] in *.
    destruct (ivalue (rkv kst (mem c) d)) as [y|e| |] eqn:Y; cbn [bind] in *; try reflexivity; try contradiction.
    rewrite P. destruct (c_signed (zop o x y)); cbn; try reflexivity. rewrite Nat.add_1_r. reflexivity.
Qed.

(* the operators whose operands are all read through rb and rc *)
Ltac start := rewrite abc_ok; cbn [cexec eval]; rewrite ?ready_b, ?ready_c; cbn [bind].
Ltac fin := cbn; rewrite ?Nat.add_1_r; reflexivity.
Lemma fin_put : forall pc a (c : @cst W) v, ptrs c Pa = LR a ->
  to_next pc 1 (bind (put c v) (fun c => Ok (Fall c))) = Ok (At (S pc) (upr (mem c) a v)).
Proof. intros pc a c v H. unfold put. rewrite H. cbn. rewrite Nat.add_1_r. reflexivity. Qed.
Lemma deref_var : forall (c : @cst W) v x p, deref kst (setvar c v x) p = deref kst c p. Proof. reflexivity. Qed.
Lemma in64_signed : forall z, in64 z -> c_signed z = Ok z.
Proof. intros z [A B]. unfold c_signed. apply Z.leb_le in A, B. rewrite A, B. reflexivity. Qed.

Lemma slow_ok : forall o c0 pc a b d c,
  (o = Add /\ c0 = CAdd) \/ (o = Sub /\ c0 = CSub) \/ (o = Mul /\ c0 = CMul) ->
  (forall x y z, rkv kst (mem c) b = I x -> rkv kst (mem c) d = I y -> result o x y = Some z -> in64 z) ->
  to_next pc 1 (cexec L kst (emit_slow o c0) (ready c a b d)) =
  set_res pc a (generic _ (l_fmod L) (l_fpow L) (l_tmbin L) o (rkv kst (mem c) b) (rkv kst (mem c) d) (mem c)).
Proof.
  intros o c0 pc a b d c O A.
  assert (G : generic _ (l_fmod L) (l_fpow L) (l_tmbin L) o = arith_ _ (l_tmbin L) o (fun x y => Ok (intop (zop c0) x y)) (fop c0))
    by (destruct O as [[-> ->]|[[-> ->]|[-> ->]]]; reflexivity).
  assert (R : forall x y, in64 (zop c0 x y) -> cbinop c0 (VI x) (VI y) = Ok (VI (zop c0 x y)) /\ intop (zop c0) x y = zop c0 x y).
  { intros x y H. pose proof (int_ops x y) as (I1 & I2 & I3). unfold in64 in H.
    destruct O as [[-> ->]|[[-> ->]|[-> ->]]]; cbn [zop cbinop] in *; rewrite in64_signed by exact H; (split; [reflexivity|]);
      [apply I1|apply I2|apply I3]; exact H. }
  assert (RF : forall x y, cbinop c0 (VD x) (VD y) = Ok (VD (fop c0 x y))) by (intros; destruct c0; reflexivity).
  assert (RS : forall x y, result o x y = Some (zop c0 x y)) by (intros; destruct O as [[-> ->]|[[-> ->]|[-> ->]]]; reflexivity).
  rewrite G. clear G. unfold arith_, emit_slow. cbn [cexec test]. rewrite ready_b. cbn [bind].
  destruct (rkv kst (mem c) b) as [| |[x|x]| | | | | | |] eqn:X; cbn [is_tag tonumberns];
    rewrite ?ready_b, ?ready_c; cbn [bind];
    destruct (rkv kst (mem c) d) as [| |[y|y]| | | | | | |] eqn:Y; cbn [is_tag bind tonumberns];
    rewrite ?ready_b, ?X; cbn [bind tonumberns eval assign is_double cexec to_i]; rewrite ?deref_var, ?ready_b, ?ready_c, ?X, ?Y;
    cbn [bind ivalue tonumberns cexec to_i assign is_double eval setvar vars to_d var_eq];
    rewrite ?deref_var, ?ready_b, ?ready_c, ?X, ?Y; cbn [bind ivalue tonumberns cexec to_i assign is_double eval setvar vars to_d];
    try (rewrite deref_var, ready_c, Y; cbn [bind ivalue tonumberns cexec to_i assign is_double eval setvar vars to_d]);
    try (apply putres_ok; reflexivity).
  - destruct (R x y (A x y _ eq_refl eq_refl (RS x y))) as [E1 E2].
    match goal with |- to_next _ _ (bind (cbinop _ ?p ?q) _) = _ => change p with (VI x); change q with (VI y) end.
    rewrite E1. cbn [bind to_i]. rewrite (fin_put pc a) by reflexivity. unfold iret, done, set_res. cbn [bind]. rewrite E2. reflexivity.
  - match goal with |- to_next _ _ (bind (cbinop _ ?p ?q) _) = _ => change p with (VD (cast_num x)); change q with (VD y) end.
    rewrite RF. cbn [bind to_i to_d]. rewrite (fin_put pc a) by reflexivity. reflexivity.
  - match goal with |- to_next _ _ (bind (cbinop _ ?p ?q) _) = _ => change p with (VD x); change q with (VD (cast_num y)) end.
    rewrite RF. cbn [bind to_i to_d]. rewrite (fin_put pc a) by reflexivity. reflexivity.
  - match goal with |- to_next _ _ (bind (cbinop _ ?p ?q) _) = _ => change p with (VD x); change q with (VD y) end.
    rewrite RF. cbn [bind to_i to_d]. rewrite (fin_put pc a) by reflexivity. reflexivity.
Qed.

Lemma arith_ok : forall o pc a b d c,
  to_next pc 1 (cexec L kst (Arith o) (ready c a b d)) =
  set_res pc a (generic _ (l_fmod L) (l_fpow L) (l_tmbin L) o (rkv kst (mem c) b) (rkv kst (mem c) d) (mem c)).
Proof.
  intros o pc a b d c. cbn [cexec]. rewrite ready_b, ready_c. cbn [bind]. rewrite ready_m, arith_generic. apply putres_ok. reflexivity.
Qed.

Lemma bin_ok : forall op o pc a b d c,
  agree kst (l_alen L) op (mem c) (BIN o a b d) ->
  set_res pc a (exec_bin' L o (rkv kst (mem c) b) (rkv kst (mem c) d) (mem c)) <> UB ->
  to_next pc 1 (cexec L kst (emit_bin kst op o a b d) c) = set_res pc a (exec_bin' L o (rkv kst (mem c) b) (rkv kst (mem c) d) (mem c)).
Proof.
  intros op o pc a b d c A H. unfold exec_bin', exec_bin in *.
  destruct o; unfold emit_bin, emit_fi, emit_if; try (apply ff_ok; assumption);
    try (match goal with |- context [signed Z.add] => apply (ii_ok CAdd) | |- context [signed Z.sub] => apply (ii_ok CSub)
         | |- context [signed Z.mul] => apply (ii_ok CMul) end; [discriminate|assumption]);
    try (apply (ff_ok CAdd); assumption); try (apply (ff_ok CSub); assumption); try (apply (ff_ok CMul); assumption); try (apply (ff_ok CDiv); assumption).
  1: { destruct o; rewrite abc_ok; try apply arith_ok; destruct (inline_arith op) eqn:IO; try apply arith_ok; apply slow_ok; auto;
       intros x y z; apply (A IO). }
  all: rewrite abc_ok; cbn [cexec eval]; rewrite ?ready_b, ?ready_c; cbn [bind];
    unfold fi, if_, ii, done, set_res, wrapped in *.
  all: destruct (rkv kst (mem c) b) as [| |[x|x]| | | | | | |] eqn:X; try (exfalso; apply H; reflexivity);
       destruct (rkv kst (mem c) d) as [| |[y|y]| | | | | | |] eqn:Y; try (exfalso; apply H; reflexivity);
       cbn [ivalue fltvalue bind cbinop to_i to_d assign is_double cexec eval].
  all: try (rewrite (fin_put pc a) by reflexivity; reflexivity).
  unfold op_shr in *. rewrite ?deref_var, ready_b, X. cbn [ivalue bind].
  match goal with |- context [vars (setvar ?c Vic ?v) Vic] => change (vars (setvar c Vic v) Vic) with v end. cbn [bind].
  destruct (c_signed (- y)); cbn [bind]; try reflexivity. cbn [to_i bind]. rewrite (fin_put pc a) by reflexivity. reflexivity.
Qed.

(* after ra and rb *)
Definition ready2 (c : @cst W) (a b : nat) : @cst W := setptr (setptr c Pa (LR a)) Pb (LR b).
Lemma un_ok : forall o pc a b c,
  to_next pc 1 (cexec L kst (emit_un o a b) c) = set_res pc a (exec_un' L o (fst (mem c) b) (mem c)) \/
  set_res pc a (exec_un' L o (fst (mem c) b) (mem c)) = UB.
Proof.
  intros o pc a b c. unfold emit_un, exec_un', exec_un. destruct o as [[|]|].
  - left. change (to_next pc 1 (cexec L kst (If (KTag TInt Pb) (Assign Vi (EIval Pb) ;; SetI (EIntop Z.sub (EInt 0) (EVar Vi)))
       (If (KToNum Pb Vn) (SetF (ENeg (EVar Vn))) (TryTMun Unm))) (ready2 c a b)) = set_res pc a
      match fst (mem c) b with Num (NInt x) => iret _ (mem c) (Ok (int_unm x)) | Num (NFlt f) => fret _ (mem c) (fneg f) | _ => l_tmun L Unm (fst (mem c) b) (mem c) end).
    assert (D : deref kst (ready2 c a b) Pb = Ok (fst (mem c) b)) by reflexivity.
    cbn [cexec test]. rewrite D. cbn [bind]. destruct (fst (mem c) b) as [| |[x|x]| | | | | | |] eqn:X;
      cbn [is_tag cexec eval]; rewrite ?D; cbn [bind ivalue tonumberns assign is_double to_i cexec eval to_d]; rewrite ?D; cbn [bind];
      try (apply putres_ok; reflexivity).
    + rewrite lit_ok by discriminate. cbn [bind].
      match goal with |- context [vars (setvar ?c Vi ?v) Vi] => change (vars (setvar c Vi v) Vi) with v end. cbn [bind to_i].
      rewrite (fin_put pc a) by reflexivity. reflexivity.
    + match goal with |- context [vars (setvar ?c Vn ?v) Vn] => change (vars (setvar c Vn v) Vn) with v end. cbn [bind to_d].
      rewrite (fin_put pc a) by reflexivity. reflexivity.
  - left. change (to_next pc 1 (cexec L kst OpBnot (ready2 c a b)) = set_res pc a
      (bind (tointns (fst (mem c) b)) (fun ob => match ob with Some x => iret _ (mem c) (Ok (int_bnot x)) | None => l_tmun L Bnot (fst (mem c) b) (mem c) end))).
    assert (D : deref kst (ready2 c a b) Pb = Ok (fst (mem c) b)) by reflexivity.
    cbn [cexec]. rewrite D. cbn [bind]. destruct (tointns (fst (mem c) b)) as [[z|]|e| |]; cbn [bind]; try reflexivity; apply putres_ok; reflexivity.
  - change (to_next pc 1 (cexec L kst (Assign Vi (EIval Pb) ;; SetI (EIntop Z.lxor (EInt (two64 - 1)) (EVar Vi))) (ready2 c a b)) = set_res pc a
      (done _ (mem c) (bind (ivalue (fst (mem c) b)) (fun x => Ok (I (int_bnot x))))) \/
      set_res pc a (done _ (mem c) (bind (ivalue (fst (mem c) b)) (fun x => Ok (I (int_bnot x))))) = UB).
    assert (D : deref kst (ready2 c a b) Pb = Ok (fst (mem c) b)) by reflexivity.
    cbn [cexec eval]. rewrite D. cbn [bind]. destruct (fst (mem c) b) as [| |[x|x]| | | | | | |] eqn:X; try (right; reflexivity). left.
    cbn [ivalue bind assign is_double to_i]. rewrite lit_ok by discriminate. cbn [bind].
    match goal with |- context [vars (setvar ?c Vi ?v) Vi] => change (vars (setvar c Vi v) Vi) with v end. cbn [bind to_i].
    rewrite (fin_put pc a) by reflexivity. reflexivity.
Qed.

Lemma u64_32 : forall z, u32 (u64 z) = u32 z.
Proof. intros z. unfold u32, u64. rewrite <- (Znumtheory.Zmod_div_mod two32 two64 z); [reflexivity|reflexivity|reflexivity|exists two32; reflexivity]. Qed.
Lemma u64_small : forall z n, u64 z < n -> n <= two32 -> u32 z = u64 z.
Proof.
  intros z n A B. rewrite <- u64_32. unfold u32. apply Z.mod_small. unfold u64 in *.
  pose proof (Z.mod_pos_bound z two64 ltac:(reflexivity)). lia.
Qed.
Lemma get_int_ok : forall op a k m, index_ok (l_alen L) op m a k ->
  (u64 k <? l_alen L a m) = (u32 k <? l_alen L a m) /\ (u32 k < l_alen L a m -> u64 k = u32 k) /\ (omit_range op = true -> u64 k < l_alen L a m).
Proof.
  intros op a k m [A B]. pose proof (LEN a m) as LA. change (2 ^ 32) with two32 in A. unfold u32, u64 in *.
  assert (P : k mod two32 < l_alen L a m -> k mod two64 = k mod two32).
  { intros H. specialize (A H). rewrite !Z.mod_small; [reflexivity| |]; unfold two32, two64 in *; lia. }
  split; [|split]; auto.
  - destruct (Z.ltb_spec (k mod two32) (l_alen L a m)) as [C|C].
    + rewrite P by exact C. apply Z.ltb_lt. exact C.
    + apply Z.ltb_ge. destruct (Z.lt_ge_cases (k mod two64) (l_alen L a m)) as [D|D]; [|exact D].
      pose proof (u64_small k (l_alen L a m) D ltac:(lia)) as E. unfold u32, u64 in E. lia.
  - intros O. specialize (B O). rewrite Z.mod_small; unfold two32, two64 in *; lia.
Qed.

Lemma get_ok : forall op o pc a b d c,
  agree kst (l_alen L) op (mem c) (GET o a b d) ->
  set_res pc a (exec_get' L o (fst (mem c) b) (rkv kst (mem c) d) (mem c)) <> UB ->
  to_next pc 1 (cexec L kst (emit_get op o a b d) c) = set_res pc a (exec_get' L o (fst (mem c) b) (rkv kst (mem c) d) (mem c)).
Proof.
  intros op o pc a b d c A H. unfold emit_get.
  assert (E : forall s, cexec L kst (Reg Pa a ;; Reg Pb b ;; regk Pc d ;; s) c = cexec L kst s (ready c a (RR b) d)).
  { intros s. cbn [cexec bind]. rewrite regk_ok. reflexivity. }
  rewrite E. clear E.
  assert (G : forall o', set_res pc a (exec_get' L o' (fst (mem c) b) (rkv kst (mem c) d) (mem c)) = to_next pc 1 (cexec L kst (GetCall o') (ready c a (RR b) d))).
  { intros o'. cbn [cexec]. rewrite ready_b, ready_c. cbn [bind rkv]. rewrite (putres_ok pc a) by reflexivity. reflexivity. }
  destruct o; try (symmetry; apply G).
  - rewrite <- G. unfold exec_get', exec_get in *. unfold tsvalue in *.
    destruct (rkv kst (mem c) d) eqn:X; try (exfalso; apply H; reflexivity).
    destruct (fst (mem c) b) eqn:Y; try (exfalso; apply H; reflexivity). reflexivity.
  - cbn [cexec]. rewrite ready_c. cbn [bind]. unfold exec_get', exec_get in *. cbn [agree] in A. unfold operand in A.
    destruct (rkv kst (mem c) d) as [| |[k|]| | | | | | |] eqn:X; try (exfalso; apply H; reflexivity). cbn [ivalue bind] in *.
    change (deref kst (mkC (ptrs (ready c a (RR b) d)) (vars (ready c a (RR b) d)) (u64 k) (tarr (ready c a (RR b) d)) (mem (ready c a (RR b) d))) Pb)
      with (deref kst (ready c a (RR b) d) Pb). rewrite ready_b. cbn [rkv bind].
    destruct (fst (mem c) b) as [| | | |t| | | | |] eqn:Y; try (exfalso; apply H; reflexivity). cbn [bind].
    destruct (get_int_ok op t k (mem c) (A t k eq_refl X)) as (B1 & B2 & B3).
    unfold aget_i, iget.
    destruct (omit_range op).
    + cbn [cexec eval elem tarr ukey mem ready setptr]. specialize (B3 eq_refl). apply Z.ltb_lt in B3. rewrite B3.
      rewrite B1 in B3. rewrite B3. apply Z.ltb_lt in B3. cbn [bind to_i]. rewrite (fin_put pc a) by reflexivity. cbn [mem set_res bind]. rewrite (B2 B3). reflexivity.
    + cbn [cexec test tarr ukey mem ready setptr]. rewrite B1. destruct (u32 k <? l_alen L t (mem c)) eqn:R; cbn [bind cexec]; [|reflexivity].
      cbn [eval elem tarr ukey mem]. rewrite B1. apply Z.ltb_lt in R. cbn [bind to_i]. rewrite (fin_put pc a) by reflexivity. cbn [mem set_res bind]. rewrite (B2 R). reflexivity.
  - cbn [cexec]. rewrite ready_c. cbn [bind]. unfold exec_get', exec_get in *. cbn [agree] in A. unfold operand in A.
    destruct (rkv kst (mem c) d) as [| |[k|]| | | | | | |] eqn:X; try (exfalso; apply H; reflexivity). cbn [ivalue bind] in *.
    change (deref kst (mkC (ptrs (ready c a (RR b) d)) (vars (ready c a (RR b) d)) (u64 k) (tarr (ready c a (RR b) d)) (mem (ready c a (RR b) d))) Pb)
      with (deref kst (ready c a (RR b) d) Pb). rewrite ready_b. cbn [rkv bind].
    destruct (fst (mem c) b) as [| | | | |t| | | |] eqn:Y; try (exfalso; apply H; reflexivity). cbn [bind].
    destruct (get_int_ok op t k (mem c) (A t k eq_refl X)) as (B1 & B2 & B3).
    unfold aget_f, fget.
    destruct (omit_range op).
    + cbn [cexec eval elem tarr ukey mem ready setptr]. specialize (B3 eq_refl). apply Z.ltb_lt in B3. rewrite B3.
      rewrite B1 in B3. rewrite B3. apply Z.ltb_lt in B3. cbn [bind to_d]. rewrite (fin_put pc a) by reflexivity. cbn [mem set_res bind]. rewrite (B2 B3). reflexivity.
    + cbn [cexec test tarr ukey mem ready setptr]. rewrite B1. destruct (u32 k <? l_alen L t (mem c)) eqn:R; cbn [bind cexec]; [|reflexivity].
      cbn [eval elem tarr ukey mem]. rewrite B1. apply Z.ltb_lt in R. cbn [bind to_d]. rewrite (fin_put pc a) by reflexivity. cbn [mem set_res bind]. rewrite (B2 R). reflexivity.
Qed.

(* writing: the long way cuts the key *)
Lemma iset_eq : forall a k v m, iset L a k v m = if u64 k <? l_alen L a m then Ok (l_iput L a (u64 k) v m) else set_int L a (u64 k) v m.
Proof.
  intros a k v m. unfold iset, set_int. rewrite u64_32. replace (u32 (u32 k)) with (u32 k) by (unfold u32; rewrite Z.mod_mod by discriminate; reflexivity).
  destruct (Z.ltb_spec (u64 k) (l_alen L a m)) as [A|A].
  - pose proof (LEN a m). pose proof (u64_small k _ A ltac:(lia)) as E. rewrite E. apply Z.ltb_lt in A. rewrite A. reflexivity.
  - destruct (u32 k <? l_alen L a m); reflexivity.
Qed.
Lemma fset_eq : forall a k v m, fset L a k v m = if u64 k <? l_alen L a m then Ok (l_fput L a (u64 k) v m) else set_float L a (u64 k) v m.
Proof.
  intros a k v m. unfold fset, set_float. rewrite u64_32. replace (u32 (u32 k)) with (u32 k) by (unfold u32; rewrite Z.mod_mod by discriminate; reflexivity).
  destruct (Z.ltb_spec (u64 k) (l_alen L a m)) as [A|A].
  - pose proof (LEN a m). pose proof (u64_small k _ A ltac:(lia)) as E. rewrite E. apply Z.ltb_lt in A. rewrite A. reflexivity.
  - destruct (u32 k <? l_alen L a m); reflexivity.
Qed.
(* the end of a store *)
Definition stored (pc : nat) (r : outcome (state W)) : outcome (@next W) := bind r (fun m => Ok (At (S pc) m)).
Lemma store_i : forall pc x z a c, tarr c = Some (IArr a) -> eval L kst x c = Ok (VI z) ->
  to_next pc 1 (cexec L kst (If KRange (Store x) (SlowSet x)) c) =
  stored pc (if ukey c <? l_alen L a (mem c) then Ok (l_iput L a (ukey c) z (mem c)) else set_int L a (ukey c) z (mem c)).
Proof.
  intros pc x z a c T E. cbn [cexec test]. rewrite T. cbn [bind]. destruct (ukey c <? l_alen L a (mem c)); cbn [cexec]; rewrite E, T; cbn [bind].
  - cbn. rewrite Nat.add_1_r. reflexivity.
  - destruct (set_int L a (ukey c) z (mem c)); cbn; rewrite ?Nat.add_1_r; reflexivity.
Qed.
Lemma store_f : forall pc x z a c, tarr c = Some (FArr a) -> eval L kst x c = Ok (VD z) ->
  to_next pc 1 (cexec L kst (If KRange (Store x) (SlowSet x)) c) =
  stored pc (if ukey c <? l_alen L a (mem c) then Ok (l_fput L a (ukey c) z (mem c)) else set_float L a (ukey c) z (mem c)).
Proof.
  intros pc x z a c T E. cbn [cexec test]. rewrite T. cbn [bind]. destruct (ukey c <? l_alen L a (mem c)); cbn [cexec]; rewrite E, T; cbn [bind].
  - cbn. rewrite Nat.add_1_r. reflexivity.
  - destruct (set_float L a (ukey c) z (mem c)); cbn; rewrite ?Nat.add_1_r; reflexivity.
Qed.
(* t = arrvalue(ra); ukey = ivalue(rb) *)
Definition keyed (c : @cst W) (a : nat) (b d : rk) (t : val) (k : Z) : @cst W :=
  mkC (ptrs (ready c a b d)) (vars c) (u64 k) (Some t) (mem c).
Lemma keyed_c : forall c a b d t k, deref kst (keyed c a b d t k) Pc = Ok (rkv kst (mem c) d). Proof. intros. destruct d; reflexivity. Qed.
Lemma arr_key : forall s a b d c t k, fst (mem c) a = t -> (exists i, t = IArr i \/ t = FArr i) -> rkv kst (mem c) b = I k ->
  cexec L kst (Arr Pa ;; Ukey Pb ;; s) (ready c a b d) = cexec L kst s (keyed c a b d t k).
Proof.
  intros s a b d c t k T A B. cbn [cexec].
  assert (D : deref kst (ready c a b d) Pa = Ok t) by (rewrite <- T; reflexivity). rewrite D. cbn [bind].
  assert (Q : (match t with IArr _ | FArr _ => Ok (Fall (mkC (ptrs (ready c a b d)) (vars (ready c a b d)) (ukey (ready c a b d)) (Some t) (mem (ready c a b d)))) | _ => UB end)
              = Ok (Fall (mkC (ptrs (ready c a b d)) (vars c) (ukey c) (Some t) (mem c)))) by (destruct A as [i [-> | ->]]; reflexivity).
  rewrite Q. cbn [bind cexec].
  assert (D2 : deref kst (mkC (ptrs (ready c a b d)) (vars c) (ukey c) (Some t) (mem c)) Pb = Ok (I k)) by (rewrite <- B; destruct b; reflexivity).
  rewrite D2. reflexivity.
Qed.

Lemma set_ok : forall op o pc a b d c,
  agree kst (l_alen L) op (mem c) (SET o a b d) ->
  stored pc (exec_set' L o (fst (mem c) a) (rkv kst (mem c) b) (rkv kst (mem c) d) (mem c)) <> UB ->
  to_next pc 1 (cexec L kst (emit_set o a b d) c) = stored pc (exec_set' L o (fst (mem c) a) (rkv kst (mem c) b) (rkv kst (mem c) d) (mem c)).
Proof.
  intros op o pc a b d c A H. unfold emit_set.
  change (cexec L kst (Reg Pa a ;; regk Pb b ;; regk Pc d ;; ?s) c) with (cexec L kst (abc a b d s) c).
  rewrite abc_ok.
  assert (G : forall o', stored pc (exec_set' L o' (fst (mem c) a) (rkv kst (mem c) b) (rkv kst (mem c) d) (mem c)) = to_next pc 1 (cexec L kst (SetCall o') (ready c a b d))).
  { intros o'. cbn [cexec]. rewrite ready_b, ready_c. replace (deref kst (ready c a b d) Pa) with (Ok (fst (mem c) a)) by reflexivity. cbn [bind]. rewrite ready_m.
    destruct (exec_set' L o' (fst (mem c) a) (rkv kst (mem c) b) (rkv kst (mem c) d) (mem c)); cbn; rewrite ?Nat.add_1_r; reflexivity. }
  destruct o; try (symmetry; apply G).
  - rewrite <- G. unfold exec_set', exec_set, tsvalue in *.
    destruct (rkv kst (mem c) b) eqn:X; try (exfalso; apply H; reflexivity).
    destruct (fst (mem c) a) eqn:Y; try (exfalso; apply H; reflexivity). reflexivity.
  - unfold exec_set', exec_set in *. cbn [agree] in A. unfold operand in A.
    destruct (fst (mem c) a) as [| | | |t| | | | |] eqn:Y; try (exfalso; apply H; reflexivity).
    destruct (rkv kst (mem c) b) as [| |[k|]| | | | | | |] eqn:X; try (exfalso; apply H; reflexivity). cbn [ivalue bind].
    rewrite (arr_key _ a b d c _ k Y) by eauto. remember (If KRange _ _) as tl eqn:TL. cbn [cexec test]. rewrite keyed_c. cbn [bind].
    destruct (rkv kst (mem c) d) as [| |[z|f]| | | | | | |] eqn:Z; cbn [is_tag negb cexec bind]; try reflexivity.
    + cbn [eval]. rewrite keyed_c, Z. cbn [bind ivalue assign is_double to_i]. subst tl.
      rewrite (store_i pc _ z t) by reflexivity. rewrite iset_eq. reflexivity.
    + exfalso. apply (A f). exact Z.
  - unfold exec_set', exec_set in *.
    destruct (fst (mem c) a) as [| | | |t| | | | |] eqn:Y; try (exfalso; apply H; reflexivity).
    destruct (rkv kst (mem c) b) as [| |[k|]| | | | | | |] eqn:X; try (exfalso; apply H; reflexivity). cbn [ivalue bind] in *.
    rewrite (arr_key _ a b d c _ k Y) by eauto.
    destruct (rkv kst (mem c) d) as [| |[z|f]| | | | | | |] eqn:Z; try (exfalso; apply H; reflexivity).
    rewrite (store_i pc _ z t); [cbn [ivalue bind]; rewrite iset_eq; reflexivity|reflexivity|]. cbn [eval]. rewrite keyed_c, Z. reflexivity.
  - unfold exec_set', exec_set in *. unfold store_flt in *.
    destruct (fst (mem c) a) as [| | | | |t| | | |] eqn:Y; try (exfalso; apply H; reflexivity).
    destruct (rkv kst (mem c) b) as [| |[k|]| | | | | | |] eqn:X; try (exfalso; apply H; reflexivity). cbn [ivalue bind].
    rewrite (arr_key _ a b d c _ k Y) by eauto. remember (If KRange _ _) as tl eqn:TL. cbn [cexec test]. rewrite keyed_c. cbn [bind].
    destruct (rkv kst (mem c) d) as [| |[z|f]| | | | | | |] eqn:Z; cbn [is_tag negb cexec bind]; try reflexivity;
      cbn [eval]; rewrite !keyed_c, ?Z; cbn [bind ivalue fltvalue is_tag assign is_double to_i to_d tonumberns]; rewrite ?keyed_c, ?Z; cbn [bind ivalue fltvalue to_d]; subst tl;
      [rewrite (store_f pc _ (cast_num z) t) by reflexivity|rewrite (store_f pc _ f t) by reflexivity]; rewrite fset_eq; reflexivity.
  - unfold exec_set', exec_set in *.
    destruct (fst (mem c) a) as [| | | | |t| | | |] eqn:Y; try (exfalso; apply H; reflexivity).
    destruct (rkv kst (mem c) b) as [| |[k|]| | | | | | |] eqn:X; try (exfalso; apply H; reflexivity). cbn [ivalue bind] in *.
    rewrite (arr_key _ a b d c _ k Y) by eauto.
    destruct (rkv kst (mem c) d) as [| |[z|f]| | | | | | |] eqn:Z; try (exfalso; apply H; reflexivity).
    rewrite (store_f pc _ f t); [cbn [fltvalue bind]; rewrite fset_eq; reflexivity|reflexivity|]. cbn [eval]. rewrite keyed_c, Z. reflexivity.
Qed.

Lemma loadk_ok : forall pc a bx c, to_next pc 1 (cexec L kst (emit_loadk kst a bx) c) = Ok (At (S pc) (upr (mem c) a (kst bx))).
Proof.
  intros pc a bx c. unfold emit_loadk. pose proof (K bx) as Kb.
  destruct (kst bx) as [|b|[z|f]| | | | | | |] eqn:X;
    try (cbn; rewrite X, Nat.add_1_r; reflexivity).
  - cbn [cexec bind eval]. rewrite lit_ok by (destruct b; discriminate). cbn [bind to_i]. rewrite (fin_put pc a) by reflexivity. destruct b; reflexivity.
  - cbn [cexec bind eval]. rewrite lit_ok by assumption. cbn [bind to_i]. rewrite (fin_put pc a) by reflexivity; reflexivity.
  - cbn [cexec bind eval]. rewrite lit17_d by apply Kb. rewrite (fin_put pc a) by reflexivity; reflexivity.
Qed.
Lemma goto_ok : forall w pc ja j c, to_next pc w (cexec L kst (emit_goto ja j) c) =
  bind (match ja with O => Ok (mem c) | S r => l_close L r (mem c) end) (fun m => Ok (At j m)).
Proof.
  intros w pc ja j c. destruct ja as [|r]; [reflexivity|]. cbn [emit_goto]. crush. destruct (l_close L r (mem c)); reflexivity.
Qed.

Lemma step1 : forall op sizep code pc i c,
  nth_error code pc = Some i -> pairs i = false -> agree kst (l_alen L) op (mem c) i ->
  istep L kst sizep code pc (mem c) <> UB ->
  to_next pc 1 (cexec L kst (emit1 kst sizep op pc i) c) = istep L kst sizep code pc (mem c).
Proof.
  intros op sizep code pc i c E P A H. unfold istep in *. rewrite E in *.
  destruct i; try discriminate P; unfold emit1; try (exfalso; exact A).
  - crush. fin.
  - apply loadk_ok.
  - crush. rewrite lit_ok by (destruct b; discriminate). crush. destruct c0; destruct b; cbn; rewrite ?Nat.add_1_r; try reflexivity; f_equal; f_equal; lia.
  - cbn [cexec bind]. destruct (nils_ok W L kst b a (setptr c Pa (LR a)) eq_refl) as (c' & E1 & M). rewrite E1. cbn. rewrite M, Nat.add_1_r. reflexivity.
  - crush. fin.
  - crush. rewrite lit_ok by discriminate. crush. fin.
  - apply (bin_ok op o); assumption.
  - destruct (un_ok o pc a b c) as [U|U]; [exact U|contradiction].
  - crush. destruct (ivalue (fst (mem c) b)) as [x|e| |]; cbn [bind] in *; try reflexivity. destruct (c_signed (- x)); cbn [bind] in *; try reflexivity. crush. fin.
  - crush. destruct (fltvalue (fst (mem c) b)) as [x|e| |]; cbn [bind] in *; try reflexivity. fin.
  - crush. cbn. rewrite Nat.add_1_r. destruct (fst (mem c) b) as [|[]| | | | | | | |]; reflexivity.
  - rewrite goto_ok. unfold dojump. destruct a; [reflexivity|]. reflexivity.
  - apply get_ok; assumption.
  - apply (set_ok op); assumption.
  - cbn [agree] in A. crush. rewrite lit_ok by discriminate. crush. unfold to_int, tointns in *.
    destruct (fst (mem c) b) as [| |[x|x]| | | | | | |] eqn:X; cbn [is_tag]; crush; rewrite ?X; cbn [ivalue bind]; crush; try reflexivity.
    + fin.
    + exfalso. apply (A x). reflexivity.
  - crush. unfold to_flt.
    destruct (fst (mem c) b) as [| |[x|x]| | | | | | |] eqn:X; cbn [is_tag]; crush; rewrite ?X; cbn [ivalue fltvalue bind is_tag]; crush; rewrite ?X; crush; try reflexivity;
      cbn; rewrite Nat.add_1_r; reflexivity.
  - unfold emit_move, move_if. crush. destruct (is_tag TIArr (fst (mem c) b)); crush; [fin|reflexivity].
  - unfold emit_move, move_if. crush. destruct (is_tag TFArr (fst (mem c) b)); crush; [fin|reflexivity].
  - unfold emit_move, move_if. crush. destruct (is_tag TLtab (fst (mem c) b)); crush; [fin|reflexivity].
  - crush. rewrite lit_ok by discriminate. crush. unfold to_int. destruct (tointns (fst (mem c) a)) as [[z|]|e| |]; crush; try reflexivity. cbn. rewrite Nat.add_1_r. reflexivity.
  - crush. unfold to_flt.
    destruct (fst (mem c) a) as [| |[x|x]| | | | | | |] eqn:X; cbn [is_tag]; crush; rewrite ?X; cbn [ivalue fltvalue bind is_tag]; crush; rewrite ?X; crush; try reflexivity;
      cbn; rewrite Nat.add_1_r; reflexivity.
  - unfold emit_check, check_if. crush. destruct (is_tag TLtab (fst (mem c) a)); cbn; rewrite ?Nat.add_1_r; reflexivity.
  - unfold emit_check, check_if. crush. destruct (is_tag TIArr (fst (mem c) a)); cbn; rewrite ?Nat.add_1_r; reflexivity.
  - unfold emit_check, check_if. crush. destruct (is_tag TFArr (fst (mem c) a)); cbn; rewrite ?Nat.add_1_r; reflexivity.
  - unfold emit_check_nil, check_if. crush. destruct (fst (mem c) a); cbn; rewrite ?Nat.add_1_r; reflexivity.
  - unfold emit_check_nil, check_if. crush. destruct (fst (mem c) a); cbn; rewrite ?Nat.add_1_r; reflexivity.
  - destruct sizep; crush; [|reflexivity]. destruct (l_close L 0 (mem c)); reflexivity.
Qed.

(* ---- comparisons ---- *)
Definition after (x : outcome (@flow W)) (f : @cst W -> outcome (@flow W)) : outcome (@flow W) :=
  bind x (fun y => match y with Fall c => f c | _ => Ok y end).
Lemma seq_ok : forall s t c, cexec L kst (s ;; t) c = after (cexec L kst s c) (cexec L kst t). Proof. reflexivity. Qed.
(* the part of a comparison that computes res *)
Definition cmp_part (o : copcode) (b d : rk) : stmt :=
  match o with
  | LT_II => cmp_ii kst CLt b d | LE_II => cmp_ii kst CLe b d | EQ_II => cmp_ii kst CEq b d
  | LT_FF => cmp_ff kst CLt b d | LE_FF => cmp_ff kst CLe b d | EQ_FF => cmp_ff kst CEq b d
  | OP_C Lt => cmp_slow Lt CLt b d | OP_C Le => cmp_slow Le CLe b d
  | OP_C Eq => regk Pb b ;; regk Pc d ;; CmpCall Eq
  end.
(* res has been computed *)
Definition res_is (r : outcome (bool * state W)) (x : outcome (@flow W)) : Prop :=
  match r with
  | Ok (v, m) => exists c', x = Ok (Fall c') /\ mem c' = m /\ vars c' Vres = VI (b2z v)
  | Err e => x = Err e
  | UB => True
  | OutOfFuel => x = OutOfFuel
  end.
Definition zcmp (o : ccmp) : Z -> Z -> bool := match o with CLt => Z.ltb | CLe => Z.leb | CEq => Z.eqb end.
Lemma zcmp_ok : forall o x y, ccmpop o (VI x) (VI y) = zcmp o x y. Proof. intros o x y. destruct o; reflexivity. Qed.
Lemma fcmp_ok : forall o x y, ccmpop o (VD x) (VD y) = fcmp o x y. Proof. intros o x y. destruct o; reflexivity. Qed.
Lemma res_end : forall (c : @cst W) b m, mem c = m -> res_is (Ok (b, m)) (bind (assign c Vres (VI (b2z b))) (fun c => Ok (Fall c))).
Proof. intros c b m <-. cbn. eexists. split; [reflexivity|]. split; reflexivity. Qed.
Lemma cmp_ii_ok : forall o b d c, res_is (cii _ (zcmp o) (rkv kst (mem c) b) (rkv kst (mem c) d) (mem c)) (cexec L kst (cmp_ii kst o b d) c).
Proof.
  intros o b d c. unfold cii, cdone, cmp_ii. destruct b as [b|b]; destruct d as [d|d]; cbn [rkv]; crush; rewrite ?kint_eval.
  - destruct (fst (mem c) b) as [| |[x|x]| | | | | | |]; try exact Logic.I. destruct (fst (mem c) d) as [| |[y|y]| | | | | | |]; try exact Logic.I.
    cbn [ivalue bind]. rewrite zcmp_ok. apply res_end. reflexivity.
  - destruct (fst (mem c) b) as [| |[x|x]| | | | | | |]; try exact Logic.I. destruct (kst d) as [| |[y|y]| | | | | | |]; try exact Logic.I.
    cbn [ivalue bind]. rewrite zcmp_ok. apply res_end. reflexivity.
  - destruct (kst b) as [| |[x|x]| | | | | | |]; try exact Logic.I. cbn [bind ivalue]. destruct (fst (mem c) d) as [| |[y|y]| | | | | | |]; try exact Logic.I.
    cbn [ivalue bind]. rewrite zcmp_ok. apply res_end. reflexivity.
  - destruct (kst b) as [| |[x|x]| | | | | | |]; try exact Logic.I. cbn [bind ivalue]. destruct (kst d) as [| |[y|y]| | | | | | |]; try exact Logic.I.
    cbn [ivalue bind]. rewrite zcmp_ok. apply res_end. reflexivity.
Qed.
Lemma cmp_ff_ok : forall o b d c, res_is (cff _ (fcmp o) (rkv kst (mem c) b) (rkv kst (mem c) d) (mem c)) (cexec L kst (cmp_ff kst o b d) c).
Proof.
  intros o b d c. unfold cff, cdone, cmp_ff. destruct b as [b|b]; destruct d as [d|d]; cbn [rkv]; crush; rewrite ?kflt_eval.
  - destruct (fst (mem c) b) as [| |[x|x]| | | | | | |]; try exact Logic.I. destruct (fst (mem c) d) as [| |[y|y]| | | | | | |]; try exact Logic.I.
    cbn [fltvalue bind]. rewrite fcmp_ok. apply res_end. reflexivity.
  - pose proof (K d) as Kd. destruct (fst (mem c) b) as [| |[x|x]| | | | | | |]; try exact Logic.I. destruct (kst d) as [| |[y|y]| | | | | | |]; try exact Logic.I.
    cbn [fltvalue bind]. rewrite lit17_cmp_r by apply Kd. apply res_end. reflexivity.
  - pose proof (K b) as Kb. destruct (kst b) as [| |[x|x]| | | | | | |]; try exact Logic.I. cbn [bind fltvalue]. destruct (fst (mem c) d) as [| |[y|y]| | | | | | |]; try exact Logic.I.
    cbn [fltvalue bind]. rewrite lit17_cmp_l by apply Kb. apply res_end. reflexivity.
  - pose proof (K b) as Kb. pose proof (K d) as Kd. destruct (kst b) as [| |[x|x]| | | | | | |]; try exact Logic.I. cbn [bind fltvalue]. destruct (kst d) as [| |[y|y]| | | | | | |]; try exact Logic.I.
    cbn [fltvalue bind]. rewrite lit17_cmp by (apply Kb || apply Kd). apply res_end. reflexivity.
Qed.
(* after rb and rc *)
Definition readybc (c : @cst W) (b d : rk) : @cst W :=
  setptr (setptr c Pb (match b with RR n => LR n | RK n => LK n end)) Pc (match d with RR n => LR n | RK n => LK n end).
Lemma bc_ok : forall b d s c, cexec L kst (regk Pb b ;; regk Pc d ;; s) c = cexec L kst s (readybc c b d).
Proof. intros b d s c. cbn [cexec]. rewrite regk_ok. cbn [bind]. rewrite regk_ok. reflexivity. Qed.
Lemma bc_b : forall c b d, deref kst (readybc c b d) Pb = Ok (rkv kst (mem c) b). Proof. intros c b d. destruct b; reflexivity. Qed.
Lemma bc_c : forall c b d, deref kst (readybc c b d) Pc = Ok (rkv kst (mem c) d). Proof. intros c b d. destruct d; reflexivity. Qed.
Lemma call_ok : forall o b d c,
  res_is (exec_cmp' L (OP_C o) (rkv kst (mem c) b) (rkv kst (mem c) d) (mem c)) (cexec L kst (CmpCall o) (readybc c b d)).
Proof.
  intros o b d c. cbn [cexec]. rewrite bc_b, bc_c. cbn [bind]. change (mem (readybc c b d)) with (mem c).
  destruct (exec_cmp' L (OP_C o) (rkv kst (mem c) b) (rkv kst (mem c) d) (mem c)) as [[v m]|e| |]; cbn [bind]; try reflexivity.
  apply res_end. reflexivity.
Qed.
Lemma cmp_slow_ok : forall o r b d c, (o = Lt /\ r = CLt) \/ (o = Le /\ r = CLe) ->
  res_is (exec_cmp' L (OP_C o) (rkv kst (mem c) b) (rkv kst (mem c) d) (mem c)) (cexec L kst (cmp_slow o r b d) c).
Proof.
  intros o r b d c O. unfold cmp_slow. rewrite bc_ok. pose proof (call_ok o b d c) as C.
  remember (CmpCall o) as call. cbn [cexec test]. rewrite bc_b. cbn [bind].
  destruct (rkv kst (mem c) b) as [| |[x|x]| | | | | | |] eqn:X; cbn [is_tag bind]; try exact C.
  rewrite bc_c. cbn [bind]. destruct (rkv kst (mem c) d) as [| |[y|y]| | | | | | |] eqn:Y; cbn [is_tag bind]; try exact C.
  cbn [cexec eval]. rewrite bc_b, bc_c, X, Y. cbn [bind ivalue]. rewrite zcmp_ok.
  destruct O as [[-> ->]|[-> ->]]; apply res_end; reflexivity.
Qed.
Lemma cmp_part_ok : forall o b d c,
  res_is (exec_cmp' L o (rkv kst (mem c) b) (rkv kst (mem c) d) (mem c)) (cexec L kst (cmp_part o b d) c).
Proof.
  intros o b d c. destruct o as [[]| | | | | |]; cbn [cmp_part].
  - rewrite bc_ok. apply call_ok.
  - apply cmp_slow_ok. auto.
  - apply cmp_slow_ok. auto.
  - apply (cmp_ii_ok CEq).
  - apply (cmp_ff_ok CEq).
  - apply (cmp_ii_ok CLt).
  - apply (cmp_ff_ok CLt).
  - apply (cmp_ii_ok CLe).
  - apply (cmp_ff_ok CLe).
Qed.

Lemma step2 : forall sizep code pc i ja sbx s c,
  nth_error code pc = Some i -> nth_error code (S pc) = Some (JMP ja sbx) -> emit2 kst pc i ja sbx = Some s ->
  istep L kst sizep code pc (mem c) <> UB ->
  to_next pc 2 (cexec L kst s c) = istep L kst sizep code pc (mem c).
Proof.
  intros sizep code pc i ja sbx s c E E2 P H. unfold istep, donextjump in *. rewrite E, ?E2 in *.
  assert (F : forall m, Ok (At (pc + 2) m) = Ok (At (S (S pc)) m) :> outcome (@next W)) by (intros; do 2 f_equal; lia).
  destruct i; cbn [emit2] in P; try discriminate P; injection P as <-.
  - unfold emit_cmp. change (match o with OP_C Eq => _ | _ => _ end) with (cmp_part o b c0). rewrite seq_ok.
    pose proof (cmp_part_ok o b c0 c) as R. destruct (exec_cmp' L o (rkv kst (mem c) b) (rkv kst (mem c) c0) (mem c)) as [[v m]|e| |]; cbn [res_is] in R.
    + destruct R as (c' & -> & M & V). cbn [after bind cexec test]. rewrite V. cbn [bind].
      destruct (b2z v =? a); [|cbn; rewrite M; apply F]. rewrite goto_ok, M. unfold dojump. destruct ja; reflexivity.
    + rewrite R. reflexivity.
    + exfalso. apply H. reflexivity.
    + rewrite R. reflexivity.
  - unfold emit_test. remember (emit_goto ja (target (S pc) sbx)) as g. 
    assert (V : cexec L kst (Reg Pa a ;; Assign Vres (if c0 then EFalse Pa else ENFalse Pa) ;; If (KEqv Vres 0) g Skip) c =
      (if (if c0 then is_tag TFalse (fst (mem c) a) else negb (is_tag TFalse (fst (mem c) a)))
       then Ok (Fall (setvar (setptr c Pa (LR a)) Vres (VI 1))) else cexec L kst g (setvar (setptr c Pa (LR a)) Vres (VI 0)))).
    { destruct c0; crush; destruct (is_tag TFalse (fst (mem c) a)); reflexivity. }
    rewrite V. destruct (if c0 then is_tag TFalse (fst (mem c) a) else negb (is_tag TFalse (fst (mem c) a))); [apply F|].
    subst g. rewrite goto_ok. destruct ja; reflexivity.
  - unfold emit_testset. remember (emit_goto ja (target (S pc) sbx)) as g. 
    assert (V : cexec L kst (Reg Pb b ;; Assign Vres (if c0 then EFalse Pb else ENFalse Pb) ;; If (KEqv Vres 0) (Reg Pa a ;; SetObj Pb ;; g) Skip) c =
      (if (if c0 then is_tag TFalse (fst (mem c) b) else negb (is_tag TFalse (fst (mem c) b)))
       then Ok (Fall (setvar (setptr c Pb (LR b)) Vres (VI 1)))
       else cexec L kst g (setmem (setptr (setvar (setptr c Pb (LR b)) Vres (VI 0)) Pa (LR a)) (upr (mem c) a (fst (mem c) b))))).
    { destruct c0; crush; destruct (is_tag TFalse (fst (mem c) b)); reflexivity. }
    rewrite V. destruct (if c0 then is_tag TFalse (fst (mem c) b) else negb (is_tag TFalse (fst (mem c) b))); [apply F|].
    subst g. rewrite goto_ok. destruct ja; reflexivity.
Qed.
End ops.

(* ---- labels ---- *)
Lemma pairs_test : forall i, pairs i = is_test i. Proof. intros i. destruct i; reflexivity. Qed.
Lemma jmps_at : forall code pc l, jmps pc code l = true <-> exists k i, nth_error code k = Some i /\ scan_target (pc + k) i = Some l.
Proof.
  induction code as [|i r IH]; intros pc l; cbn [jmps].
  - split; [discriminate|]. intros (k & i & E & _). destruct k; discriminate.
  - rewrite orb_true_iff, IH. split.
    + intros [H|(k & j & E & ST)].
      * exists 0%nat, i. split; [reflexivity|]. rewrite Nat.add_0_r. destruct (scan_target pc i) as [t|]; [|discriminate]. apply Nat.eqb_eq in H. subst. reflexivity.
      * exists (S k), j. split; [exact E|]. rewrite <- ST. f_equal. lia.
    + intros (k & j & E & ST). destruct k as [|k].
      * left. cbn in E. injection E as <-. rewrite Nat.add_0_r in ST. rewrite ST. apply Nat.eqb_refl.
      * right. exists k, j. split; [exact E|]. rewrite <- ST. f_equal. lia.
Qed.
Lemma find_from : forall kst sizep op lab l, lab l = true ->
  forall n code pc, (length code <= n)%nat -> (pc <= l)%nat -> unit_at pc code l = true ->
  (forall k i, nth_error code k = Some i -> is_test i = true -> exists a s, nth_error code (S k) = Some (JMP a s)) ->
  find_label l (emit_from kst sizep op lab pc code) = Some (emit_from kst sizep op lab l (skipn (l - pc) code)).
Proof.
  intros kst sizep op lab l B n. induction n as [|n IH]; intros code pc LE LE2 U T.
  - destruct code; [discriminate U|cbn in LE; lia].
  - destruct code as [|i r]; [discriminate U|]. cbn [unit_at] in U. destruct (Nat.eqb_spec pc l) as [->|NE].
    + rewrite Nat.sub_diag. cbn [skipn]. cbn [emit_from]. rewrite B. destruct (pairs i) eqn:PI.
      * destruct (T 0%nat i eq_refl ltac:(rewrite <- pairs_test; exact PI)) as (a & s & E). destruct r as [|j r]; [discriminate E|]. cbn in E. injection E as ->.
        destruct (emit2 kst l i a s) eqn:E2; [|destruct i; discriminate]. cbn [find_label]. rewrite Nat.eqb_refl. reflexivity.
      * cbn [find_label]. rewrite Nat.eqb_refl. reflexivity.
    + cbn [orb] in U. cbn [emit_from]. rewrite <- pairs_test in U.
      assert (NL : forall s x, find_label l ((if lab pc then Some pc else None, s) :: x) = find_label l x).
      { intros s x. cbn [find_label]. destruct (lab pc); [|reflexivity]. destruct (Nat.eqb_spec pc l); [contradiction|reflexivity]. }
      destruct (pairs i) eqn:PI.
      * destruct (T 0%nat i eq_refl ltac:(rewrite <- pairs_test; exact PI)) as (a & s & E). destruct r as [|j r]; [discriminate E|]. cbn in E. injection E as ->.
        destruct (emit2 kst pc i a s) eqn:E2; [|destruct i; discriminate]. rewrite NL.
        assert (S (S pc) <= l)%nat.
        { destruct (Nat.eq_dec (S pc) l) as [e|]; [|lia]. exfalso. clear - U e. subst l.
          assert (G : forall c p q, (q < p)%nat -> unit_at p c q = false).
          { assert (G : forall n c p q, (length c <= n)%nat -> (q < p)%nat -> unit_at p c q = false).
            { induction n as [|n IH]; intros c p q A Q; destruct c as [|x c]; try reflexivity; cbn in A; [lia|]. cbn [unit_at].
              destruct (Nat.eqb_spec p q); [lia|]. cbn [orb]. destruct (is_test x); [|apply IH; lia]. destruct c as [|y c]; [reflexivity|]. cbn in A. apply IH; lia. }
            intros c p q Q. exact (G (length c) c p q (le_n _) Q). }
          rewrite G in U by lia. discriminate. }
        rewrite IH; [|cbn in LE; lia|assumption|exact U|].
        -- replace (l - pc)%nat with (S (S (l - S (S pc)))) by lia. reflexivity.
        -- intros k x. apply (T (S (S k)) x).
      * rewrite NL. rewrite IH; [|cbn in LE; lia|lia|exact U|].
        -- replace (l - pc)%nat with (S (l - S pc)) by lia. reflexivity.
        -- intros k x. apply (T (S k) x).
Qed.

Lemma goes_scan : forall pc i l, scan_target pc i = Some l <-> goes pc i l.
Proof.
  intros pc i l. unfold goes, scan_target, target. destruct i; try (split; [discriminate|tauto]);
    try (split; [intros H; injection H as <-|intros ->]; reflexivity).
  destruct c; [split; [intros H; injection H as <-|intros ->]; reflexivity|split; [discriminate|tauto]].
Qed.
Definition tests_jump (code : list instr) : Prop :=
  forall pc i, nth_error code pc = Some i -> is_test i = true -> exists a s, nth_error code (S pc) = Some (JMP a s).
Lemma nth_skipn : forall A k (l : list A), nth_error l k = nth_error (skipn k l) 0.
Proof. induction k as [|k IH]; intros l; [reflexivity|]. destruct l; [reflexivity|]. cbn. apply IH. Qed.
Lemma skipn_cons : forall A k (l : list A) x, nth_error l k = Some x -> skipn k l = x :: skipn (S k) l.
Proof. induction k as [|k IH]; intros l x H; destruct l; try discriminate; cbn in *; [injection H as ->; reflexivity|]. rewrite (IH _ _ H). reflexivity. Qed.
Lemma nth_skip : forall A k (l : list A) n, nth_error (skipn k l) n = nth_error l (k + n).
Proof. induction k as [|k IH]; intros l n; [reflexivity|]. destruct l; cbn; [destruct n; reflexivity|apply IH]. Qed.

Fixpoint gotos (s : stmt) : list nat :=
  match s with
  | Seq s t | If _ s t => gotos s ++ gotos t
  | Goto l => [l]
  | _ => []
  end.
Lemma jump_gotos : forall (W : Type) (L : lib W) kst s c l c', cexec L kst s c = Ok (Jump l c') -> In l (gotos s).
Proof.
  intros W L kst. induction s; intros c0 l0 c' H; cbn [cexec] in H; cbn [gotos]; try discriminate H;
    try (unfold putres, put in H; unfold bind in H; repeat match type of H with context [match ?x with _ => _ end] => destruct x; try discriminate H end; fail).
  - apply in_app_iff. destruct (cexec L kst s1 c0) as [[c1|k c1|a b m]|e| |] eqn:E; cbn [bind] in H; try discriminate.
    + right. eapply IHs2. exact H.
    + left. injection H as -> ->. eapply IHs1. exact E.
  - apply in_app_iff. destruct (test L kst c c0) as [[[|] c1]|e| |]; cbn [bind] in H; try discriminate; [left; eapply IHs1|right; eapply IHs2]; exact H.
  - injection H as -> _. left. reflexivity.
Qed.
Lemma regk_gotos : forall p x, gotos (regk p x) = []. Proof. intros p x. destruct x; reflexivity. Qed.
Lemma goto_gotos : forall a j l, In l (gotos (emit_goto a j)) -> l = j.
Proof. intros a j l H. destruct a; cbn in H; destruct H as [H|[]]; auto. Qed.
Lemma nils_gotos : forall b, gotos (emit_nils b) = [].
Proof. induction b as [|b IH]; [reflexivity|]. cbn [emit_nils gotos app]. exact IH. Qed.
Lemma gotos1 : forall kst sizep op pc i l, In l (gotos (emit1 kst sizep op pc i)) -> scan_target pc i = Some l.
Proof.
  intros kst sizep op pc i l H. destruct i; cbn [emit1 gotos app In] in H; try contradiction;
    try (destruct H as [<-|[]]; reflexivity).
  - unfold emit_loadk in H. destruct (kst bx) as [| |[|]| | | | | | |]; contradiction.
  - destruct c; cbn in H; [destruct H as [<-|[]]; reflexivity|contradiction].
  - rewrite nils_gotos in H. contradiction.
  - exfalso. unfold emit_bin, emit_ff, emit_ii, emit_fi, emit_if, abc in H.
    destruct o as [[]| | | | | | | | | | | | | | | | | | |]; destruct b; destruct c; try contradiction; destruct (inline_arith op); contradiction.
  - destruct o as [[]|]; contradiction.
  - apply goto_gotos in H. subst. reflexivity.
  - exfalso. unfold emit_get in H. destruct o; destruct c; destruct (omit_range op); contradiction.
  - exfalso. unfold emit_set in H. destruct o; destruct b; destruct c; contradiction.
  - cbn in H. destruct H as [<-|[<-|[]]]; reflexivity.
  - destruct one; cbn in H; destruct H as [<-|[]]; reflexivity.
  - destruct sizep; contradiction.
Qed.
Lemma gotos2 : forall kst pc i ja sbx s l, emit2 kst pc i ja sbx = Some s -> In l (gotos s) -> l = target (S pc) sbx.
Proof.
  intros kst pc i ja sbx s l E H. destruct i; cbn [emit2] in E; try discriminate E; injection E as <-.
  - unfold emit_cmp, cmp_ii, cmp_ff, cmp_slow in H. destruct o as [[]| | | | | |]; destruct b; destruct c; cbn [gotos app regk] in H; rewrite app_nil_r in H; apply goto_gotos in H; exact H.
  - unfold emit_test in H. cbn [gotos app] in H. rewrite app_nil_r in H. apply goto_gotos in H. exact H.
  - unfold emit_testset in H. cbn [gotos app] in H. rewrite app_nil_r in H. apply goto_gotos in H. exact H.
Qed.

(* one piece of the text and one instruction *)
Lemma piece : forall (W : Type) (L : lib W) kst sizep op code pc i c,
  const_ok kst -> lens L -> well_formed code -> nth_error code pc = Some i ->
  agree kst (l_alen L) op (mem c) i -> istep L kst sizep code pc (mem c) <> UB ->
  forall lab, exists w s,
    emit_from kst sizep op lab pc (skipn pc code) = ((if lab pc then Some pc else None), s) :: emit_from kst sizep op lab (pc + w) (skipn (pc + w) code) /\
    to_next pc w (cexec L kst s c) = istep L kst sizep code pc (mem c) /\
    (forall l c', cexec L kst s c = Ok (Jump l c') -> unit_at 0 code l = true /\ jmps 0 code l = true).
Proof.
  intros W L kst sizep op code pc i c K LEN [G T] E A H lab.
  assert (J : forall p x l, nth_error code p = Some x -> scan_target p x = Some l -> unit_at 0 code l = true /\ jmps 0 code l = true).
  { intros p x l N ST. split.
    - apply (G p x l N). apply goes_scan. exact ST.
    - apply jmps_at. exists p, x. split; assumption. }
  destruct (pairs i) eqn:P.
  - destruct (T pc i E ltac:(rewrite <- pairs_test; exact P)) as (ja & sbx & E2).
    destruct (emit2 kst pc i ja sbx) as [s|] eqn:EM; [|destruct i; discriminate].
    exists 2%nat, s. split; [|split].
    + rewrite (skipn_cons _ pc code i E), (skipn_cons _ (S pc) code _ E2). cbn [emit_from]. rewrite P, EM.
      replace (pc + 2)%nat with (S (S pc)) by lia. reflexivity.
    + apply (step2 L kst K sizep code pc i ja sbx); assumption.
    + intros l c' X. apply jump_gotos in X. apply (gotos2 _ _ _ _ _ _ _ EM) in X. apply (J (S pc) (JMP ja sbx) l E2). rewrite X. reflexivity.
  - exists 1%nat, (emit1 kst sizep op pc i). split; [|split].
    + rewrite (skipn_cons _ pc code i E). cbn [emit_from]. rewrite P. rewrite Nat.add_1_r. reflexivity.
    + apply step1; assumption.
    + intros l c' X. apply jump_gotos in X. apply gotos1 in X. exact (J pc i l E X).
Qed.

Lemma run_from : forall (W : Type) (L : lib W) kst sizep op code, const_ok kst -> lens L -> well_formed code ->
  forall n pc c, along kst (l_alen L) (istep L kst sizep code) op code n pc (mem c) ->
  irun L kst sizep n code pc (mem c) <> UB ->
  crun L kst n (emit kst sizep op code) (emit_from kst sizep op (jmps 0 code) pc (skipn pc code)) c = irun L kst sizep n code pc (mem c).
Proof.
  intros W L kst sizep op code K LEN WF. induction n as [|n IH]; intros pc c A H; [reflexivity|].
  cbn [along] in A. destruct A as [A AN]. cbn [irun] in *.
  destruct (nth_error code pc) as [i|] eqn:E; [|exfalso; apply H; unfold istep; rewrite E; reflexivity].
  assert (NU : istep L kst sizep code pc (mem c) <> UB) by (intros X; rewrite X in H; apply H; reflexivity).
  destruct (piece W L kst sizep op code pc i c K LEN WF E (A i eq_refl) NU (jmps 0 code)) as (w & s & EM & ST & J).
  rewrite EM. cbn [crun]. destruct (cexec L kst s c) as [[c1|l c1|a b m]|e| |] eqn:X; cbn [to_next bind] in *; rewrite <- ST in *; cbn [bind] in *; try reflexivity.
  - apply IH; assumption.
  - destruct (J l c1 eq_refl) as [U JM]. unfold emit at 1.
    rewrite (find_from kst sizep op (jmps 0 code) l JM (length code) code 0 (le_n _) ltac:(lia) U) by apply WF.
    rewrite Nat.sub_0_r. apply IH; assumption.
Qed.
Lemma run_same : forall (W : Type) (L : lib W) kst sizep op code n m, const_ok kst -> lens L -> well_formed code ->
  along kst (l_alen L) (istep L kst sizep code) op code n 0 m -> irun L kst sizep n code 0 m <> UB ->
  crun L kst n (emit kst sizep op code) (emit kst sizep op code) (cinit m) = irun L kst sizep n code 0 m.
Proof.
  intros W L kst sizep op code n m K LEN WF A H. exact (run_from W L kst sizep op code K LEN WF n 0 (cinit m) A H).
Qed.

(* ---- numeric loops ---- *)
Section loops.
Context {W : Type}.
Variable L : lib W.
Variable kst : nat -> val.
Variable sizep : bool.
Variable a : nat.
Notation St := (state W).

Lemma off_upr : forall (m m' : St) r v, off a m m' -> off a (upr m r v) (upr m' r v).
Proof.
  intros m m' r v [H1 H2]. split; [exact H1|]. intros q A B C. cbn. destruct (Nat.eqb q r); [reflexivity|]. apply H2; assumption.
Qed.
Lemma off_l : forall (m m' : St) k v, (k < 3)%nat -> off a m m' -> off a (upr m (a + k) v) m'.
Proof.
  intros m m' k v K [H1 H2]. split; [exact H1|]. intros q A B C. cbn. destruct (Nat.eqb_spec q (a + k)); [|apply H2; assumption].
  exfalso. subst q. destruct k as [|[|[|]]]; lia.
Qed.
Lemma upr_eq : forall (m : St) r v, fst (upr m r v) r = v. Proof. intros. cbn. rewrite Nat.eqb_refl. reflexivity. Qed.
Lemma upr_ne : forall (m : St) r q v, q <> r -> fst (upr m r v) q = fst m q.
Proof. intros m r q v H. cbn. destruct (Nat.eqb_spec q r); [contradiction|reflexivity]. Qed.

(* the loop's variables hold what the registers hold *)
Definition held_i (m : St) (c : @cst W) : Prop := exists i l s, off a m (mem c) /\
  fst m a = I i /\ fst m (a + 1)%nat = I l /\ fst m (a + 2)%nat = I s /\
  vars c (Lint a) = VI 1 /\ vars c (Li a) = VI i /\ vars c (Llim a) = VI l /\ vars c (Lstep a) = VI s /\
  in64 (i + s) /\ in64 (l + s) /\ in64 l /\ in64 s.
Definition held_f (m : St) (c : @cst W) : Prop := exists i l s, off a m (mem c) /\
  fst m a = F i /\ fst m (a + 1)%nat = F l /\ fst m (a + 2)%nat = F s /\
  vars c (Lint a) = VI 0 /\ vars c (Lninit a) = VD i /\ vars c (Lnlim a) = VD l /\ vars c (Lnstep a) = VD s.
Definition held_1 (one : bool) (m : St) (c : @cst W) : Prop := exists i l s, off a m (mem c) /\
  fst m a = I i /\ fst m (a + 1)%nat = I l /\ (one = false -> fst m (a + 2)%nat = I s) /\ (one = true -> s = 1) /\
  vars c (Li a) = VI i /\ vars c (Llim a) = VI l /\ (one = false -> vars c (Lstep a) = VI s).

Lemma var_self : forall (c : @cst W) v x, vars (setvar c v x) v = x.
Proof. intros c v x. cbn. destruct (var_eq v v); [reflexivity|contradiction]. Qed.
Lemma var_other : forall (c : @cst W) v w x, w <> v -> vars (setvar c v x) w = vars c w.
Proof. intros c v w x H. cbn. destruct (var_eq w v); [contradiction|reflexivity]. Qed.
Ltac vs := repeat first [rewrite var_self | rewrite var_other by discriminate].

Lemma in64_add : forall x y, in64 (x + y) -> int_add x y = x + y.
Proof. intros x y H. pose proof (int_ops x y) as (A & _). apply A. exact H. Qed.
Lemma in64_sub : forall x y, in64 (x - y) -> int_sub x y = x - y.
Proof. intros x y H. pose proof (int_ops x y) as (_ & A & _). apply A. exact H. Qed.

(* one turn *)
Definition turn (H : St -> @cst W -> Prop) (x : outcome (@next W)) (y : outcome (@flow W)) : Prop :=
  match x with
  | UB => True
  | Ok (At O m) => exists l c, y = Ok (Jump l c) /\ H m c
  | Ok (At (S _) m) => exists c, y = Ok (Fall c) /\ off a m (mem c)
  | Err e => y = Err e
  | OutOfFuel => y = OutOfFuel
  | Ok (Done _ _ _) => False
  end.
Lemma turn_i : forall m c, held_i m c -> turn held_i (istep L kst sizep [FORLOOP a (-1)] 0 m) (cexec L kst (emit_forloop a 0) c).
Proof.
  intros m c (i & l & s & O & A & B & D & V0 & V1 & V2 & V3 & R1 & R2 & R3 & R4).
  unfold istep. cbn [nth_error]. unfold forloop_. rewrite A, D. cbn [ivalue bind I F].
  rewrite in64_add by exact R1. rewrite B. cbn [ivalue bind I F].
  unfold emit_forloop. cbn [cexec test]. rewrite V0. cbn [bind]. change (negb (1 =? 0)) with true.
  cbn [cexec eval]. rewrite V1, V3. cbn [bind cbinop]. rewrite in64_signed by exact R1. cbn [bind assign is_double to_i].
  cbn [cexec test eval]. vs. rewrite V3. change (lit 0) with (Ok (VI 0)). cbn [bind ccmpop]. vs. rewrite V2. cbn [ccmpop].
  replace (negb (b2z (0 <? s) =? 0)) with (0 <? s) by (destruct (0 <? s); reflexivity).
  assert (E : forall (b : bool) (c : @cst W) (x y : cval) (o : ccmp), (negb (b2z b =? 0), c) = (b, c)) by (intros []; reflexivity).
  assert (G : (if 0 <? s then Ok (negb (b2z (i + s <=? l) =? 0), setvar c (Li a) (VI (i + s)))
               else Ok (negb (b2z (l <=? i + s) =? 0), setvar c (Li a) (VI (i + s)))) =
              Ok (if 0 <? s then i + s <=? l else l <=? i + s, setvar c (Li a) (VI (i + s))))
    by (destruct (0 <? s); [destruct (i + s <=? l)|destruct (l <=? i + s)]; reflexivity).
  rewrite G. cbn [bind]. clear E G.
  destruct (if 0 <? s then i + s <=? l else l <=? i + s) eqn:T.
  - change (target 0 (-1)) with 0%nat. cbn [turn cexec bind eval].
    change (vars (setptr (setvar c (Li a) (VI (i + s))) Pa (LR (a + 3))) (Li a)) with (vars (setvar c (Li a) (VI (i + s))) (Li a)). vs.
    cbn [to_i bind]. unfold put. cbn [setptr ptrs ptr_eqb bind]. eexists. eexists. split; [reflexivity|].
    exists (i + s), l, s. cbn [mem setmem setvar setptr vars].
    split; [|split; [|split; [|split]]].
    + apply off_upr. rewrite <- (Nat.add_0_r a) at 2. apply off_l; [lia|]. exact O.
    + rewrite upr_ne by lia. apply upr_eq.
    + rewrite !upr_ne by lia. exact B.
    + rewrite !upr_ne by lia. exact D.
    + change (vars (setvar c (Li a) (VI (i + s))) (Lint a) = VI 1 /\ vars (setvar c (Li a) (VI (i + s))) (Li a) = VI (i + s) /\
        vars (setvar c (Li a) (VI (i + s))) (Llim a) = VI l /\ vars (setvar c (Li a) (VI (i + s))) (Lstep a) = VI s /\ in64 (i + s + s) /\ in64 (l + s) /\ in64 l /\ in64 s).
      vs. repeat split; try assumption; try (unfold in64 in *; lia);
        unfold in64 in *; destruct (Z.ltb_spec 0 s); apply Z.leb_le in T; lia.
  - cbn [turn cexec]. eexists. split; [reflexivity|]. exact O.
Qed.
Lemma turn_f : forall m c, held_f m c -> turn held_f (istep L kst sizep [FORLOOP a (-1)] 0 m) (cexec L kst (emit_forloop a 0) c).
Proof.
  intros m c (i & l & s & O & A & B & D & V0 & V1 & V2 & V3).
  unfold istep. cbn [nth_error]. unfold forloop_. rewrite A, D, B. cbn [fltvalue bind I F].
  unfold emit_forloop. cbn [cexec test]. rewrite V0. cbn [bind]. change (negb (negb (0 =? 0))) with true. change (negb (0 =? 0)) with false.
  cbn [cexec eval]. rewrite V1, V3. cbn [bind cbinop to_d assign is_double].
  cbn [cexec test eval]. vs. rewrite V3. cbn [bind ccmpop to_d]. vs. rewrite V2. cbn [ccmpop to_d].
  replace (negb (b2z (flt_lt fzero s) =? 0)) with (flt_lt fzero s) by (destruct (flt_lt fzero s); reflexivity).
  assert (G : (if flt_lt fzero s then Ok (negb (b2z (flt_le (fadd i s) l) =? 0), setvar c (Lninit a) (VD (fadd i s)))
               else Ok (negb (b2z (flt_le l (fadd i s)) =? 0), setvar c (Lninit a) (VD (fadd i s)))) =
              Ok (if flt_lt fzero s then flt_le (fadd i s) l else flt_le l (fadd i s), setvar c (Lninit a) (VD (fadd i s))))
    by (destruct (flt_lt fzero s); [destruct (flt_le (fadd i s) l)|destruct (flt_le l (fadd i s))]; reflexivity).
  rewrite G. cbn [bind]. clear G.
  destruct (if flt_lt fzero s then flt_le (fadd i s) l else flt_le l (fadd i s)) eqn:T.
  - change (target 0 (-1)) with 0%nat. cbn [turn cexec bind eval].
    change (vars (setptr (setvar c (Lninit a) (VD (fadd i s))) Pa (LR (a + 3))) (Lninit a)) with (vars (setvar c (Lninit a) (VD (fadd i s))) (Lninit a)). vs.
    cbn [to_d bind]. unfold put. cbn [setptr ptrs ptr_eqb bind]. eexists. eexists. split; [reflexivity|].
    exists (fadd i s), l, s. cbn [mem setmem setvar setptr vars].
    split; [|split; [|split; [|split]]].
    + apply off_upr. rewrite <- (Nat.add_0_r a) at 2. apply off_l; [lia|]. exact O.
    + rewrite upr_ne by lia. apply upr_eq.
    + rewrite !upr_ne by lia. exact B.
    + rewrite !upr_ne by lia. exact D.
    + change (vars (setvar c (Lninit a) (VD (fadd i s))) (Lint a) = VI 0 /\ vars (setvar c (Lninit a) (VD (fadd i s))) (Lninit a) = VD (fadd i s) /\
        vars (setvar c (Lninit a) (VD (fadd i s))) (Lnlim a) = VD l /\ vars (setvar c (Lninit a) (VD (fadd i s))) (Lnstep a) = VD s).
      vs. auto.
  - cbn [turn cexec]. eexists. split; [reflexivity|]. exact O.
Qed.
Lemma turn_1 : forall one m c, held_1 one m c ->
  turn (held_1 one) (istep L kst sizep [IFORLOOP one a (-1)] 0 m) (cexec L kst (emit_iforloop one a 0) c).
Proof.
  intros one m c (i & l & s & O & A & B & D & D1 & V1 & V2 & V3).
  unfold istep. cbn [nth_error]. unfold iforloop_. rewrite A, B.
  assert (E1 : (if one then Ok 1 else ivalue (fst m (a + 2)%nat)) = Ok s) by (destruct one; [rewrite D1|rewrite D]; reflexivity).
  rewrite E1. cbn [ivalue bind I F]. destruct (c_signed (i + s)) as [z|e| |] eqn:CS; try exact Logic.I;
    try (unfold c_signed in CS; destruct ((minint <=? i + s) && (i + s <=? maxint)); discriminate CS).
  cbn [bind]. unfold emit_iforloop. cbn [cexec eval]. rewrite V1. cbn [bind].
  assert (E2 : eval L kst (if one then EInt 1 else EVar (Lstep a)) c = Ok (VI s)) by (destruct one; cbn [eval]; [rewrite D1|rewrite V3]; reflexivity).
  rewrite E2. cbn [bind cbinop]. rewrite CS. cbn [bind assign is_double to_i test eval]. vs. rewrite V2. cbn [bind ccmpop].
  replace (negb (b2z (z <=? l) =? 0)) with (z <=? l) by (destruct (z <=? l); reflexivity).
  destruct (z <=? l).
  - change (target 0 (-1)) with 0%nat. cbn [turn cexec bind eval].
    change (vars (setptr (setvar c (Li a) (VI z)) Pa (LR (a + 3))) (Li a)) with (vars (setvar c (Li a) (VI z)) (Li a)). vs.
    cbn [to_i bind]. unfold put. cbn [setptr ptrs ptr_eqb bind]. eexists. eexists. split; [reflexivity|].
    exists z, l, s. cbn [mem setmem setvar setptr vars].
    split; [|split; [|split; [|split; [|split]]]].
    + apply off_upr. rewrite <- (Nat.add_0_r a) at 2. apply off_l; [lia|]. exact O.
    + rewrite upr_ne by lia. apply upr_eq.
    + rewrite !upr_ne by lia. exact B.
    + rewrite !upr_ne by lia. exact D.
    + exact D1.
    + change (vars (setvar c (Li a) (VI z)) (Li a) = VI z /\ vars (setvar c (Li a) (VI z)) (Llim a) = VI l /\
        (one = false -> vars (setvar c (Li a) (VI z)) (Lstep a) = VI s)).
      vs. auto.
  - cbn [turn cexec]. eexists. split; [reflexivity|]. exact O.
Qed.

(* the turns *)
Lemma loop_same : forall (H : St -> @cst W -> Prop) step exec, (forall m c, H m c -> turn H (step m) (exec c)) ->
  (forall m c m1 m2, H m c -> off a m1 m2 -> (forall k, (k < 3)%nat -> fst m1 (a + k)%nat = fst m (a + k)%nat) -> H m1 (setmem c m2)) ->
  (forall m c, H m c -> off a m (mem c)) ->
  forall body, blind a body -> forall n m c, H m c -> same a (iloop step n body m) (cloop exec n body c).
Proof.
  intros H step exec T M O body [B1 B2]. induction n as [|n IH]; intros m c Hc; [exact Logic.I|].
  cbn [iloop cloop]. pose proof (T m c Hc) as X. destruct (step m) as [[[|p] m1|x y m1]|e| |]; cbn [turn bind] in *; try exact Logic.I.
  - destruct X as (l & c1 & -> & H1). cbn [bind]. pose proof (B1 m1 (mem c1) (O _ _ H1)) as S1.
    destruct (body m1) as [m2|e| |] eqn:E1; destruct (body (mem c1)) as [m3|e'| |]; cbn [same bind] in *; try contradiction; try assumption; try exact Logic.I.
    apply IH. apply (M m1 c1); [exact H1|exact S1|]. apply (B2 m1). exact E1.
  - destruct X as (c1 & -> & O1). cbn [bind same]. exact O1.
  - rewrite X. reflexivity.
  - rewrite X. exact Logic.I.
Qed.

Lemma keep_i : forall m c m1 m2, held_i m c -> off a m1 m2 -> (forall k, (k < 3)%nat -> fst m1 (a + k)%nat = fst m (a + k)%nat) -> held_i m1 (setmem c m2).
Proof.
  intros m c m1 m2 (i & l & s & O & A & B & D & R) O1 E. exists i, l, s. split; [exact O1|].
  pose proof (E 0%nat ltac:(lia)) as E0. rewrite Nat.add_0_r in E0. rewrite E0, (E 1%nat), (E 2%nat) by lia. auto.
Qed.
Lemma keep_f : forall m c m1 m2, held_f m c -> off a m1 m2 -> (forall k, (k < 3)%nat -> fst m1 (a + k)%nat = fst m (a + k)%nat) -> held_f m1 (setmem c m2).
Proof.
  intros m c m1 m2 (i & l & s & O & A & B & D & R) O1 E. exists i, l, s. split; [exact O1|].
  pose proof (E 0%nat ltac:(lia)) as E0. rewrite Nat.add_0_r in E0. rewrite E0, (E 1%nat), (E 2%nat) by lia. auto.
Qed.
Lemma keep_1 : forall one m c m1 m2, held_1 one m c -> off a m1 m2 -> (forall k, (k < 3)%nat -> fst m1 (a + k)%nat = fst m (a + k)%nat) -> held_1 one m1 (setmem c m2).
Proof.
  intros one m c m1 m2 (i & l & s & O & A & B & D & R) O1 E. exists i, l, s. split; [exact O1|].
  pose proof (E 0%nat ltac:(lia)) as E0. rewrite Nat.add_0_r in E0. rewrite E0, (E 1%nat), (E 2%nat) by lia. auto.
Qed.
Lemma off_refl : forall m : St, off a m m. Proof. intros m. split; [reflexivity|]. intros. reflexivity. Qed.

Lemma ifor_1 : forall op one n body c i l s, blind a body ->
  fst (mem c) a = I i -> fst (mem c) (a + 1)%nat = I l -> (one = false -> fst (mem c) (a + 2)%nat = I s) ->
  same a (ifor L kst sizep (IFORPREP one a 0) (IFORLOOP one a (-1)) n body (mem c))
         (cfor L kst sizep op (IFORPREP one a 0) (IFORLOOP one a (-1)) n body c).
Proof.
  intros op one n body c i l s0 B A BL D0. unfold ifor, cfor. unfold istep at 1. cbn [nth_error]. unfold iforprep_.
  rewrite A. cbn [ivalue bind I].
  set (s := if one then 1 else s0).
  assert (D : one = false -> fst (mem c) (a + 2)%nat = I s) by (intros E; unfold s; rewrite E; auto).
  assert (D1 : one = true -> s = 1) by (intros E; unfold s; rewrite E; auto). clearbody s.
  assert (E1 : (if one then Ok 1 else ivalue (fst (mem c) (a + 2)%nat)) = Ok s) by (destruct one; [rewrite D1|rewrite D]; reflexivity).
  rewrite E1. cbn [bind].
  destruct (c_signed (i - s)) as [z|e| |] eqn:CS; try exact Logic.I;
    try (unfold c_signed in CS; destruct ((minint <=? i - s) && (i - s <=? maxint)); discriminate CS).
  cbn [bind].
  assert (P : exists c', cexec L kst (emit1 kst sizep op 0 (IFORPREP one a 0)) c = Ok (Jump 1 c') /\ held_1 one (upr (mem c) a (I z)) c').
  { cbn [emit1]. unfold emit_iforprep.
    cbn [cexec bind eval]. change (deref kst (setptr c Pa (LR a)) Pa) with (Ok (fst (mem c) a)). rewrite A. cbn [bind ivalue I assign is_double to_i].
    match goal with |- context [deref kst (setptr ?c (Pa) (LR (a + 1))) Pa] => change (deref kst (setptr c Pa (LR (a + 1))) Pa) with (Ok (fst (mem c) (a + 1)%nat)) end.
    cbn [mem setvar setptr]. rewrite BL. cbn [bind ivalue I assign is_double to_i].
    match goal with |- context [setvar ?c0 (Llim a) (VI l)] => set (c1 := setvar c0 (Llim a) (VI l)) end.
    assert (M1 : mem c1 = mem c) by reflexivity.
    assert (X1 : vars c1 (Li a) = VI i) by (unfold c1; vs; change (vars (setvar (setptr c Pa (LR a)) (Li a) (VI i)) (Li a) = VI i); vs; reflexivity).
    assert (X2 : vars c1 (Llim a) = VI l) by (unfold c1; vs; reflexivity).
    clearbody c1.
    assert (G : exists c', cexec L kst (if one then Assign (Li a) (EBin CSub (EVar (Li a)) (EInt 1))
      else Reg Pa (a + 2) ;; Assign (Lstep a) (EIval Pa) ;; Assign (Li a) (EBin CSub (EVar (Li a)) (EVar (Lstep a)))) c1 = Ok (Fall c') /\
      mem c' = mem c /\ vars c' (Li a) = VI z /\ vars c' (Llim a) = VI l /\ (one = false -> vars c' (Lstep a) = VI s)).
    { destruct one.
      - cbn [cexec eval]. rewrite X1. change (lit 1) with (Ok (VI 1)). cbn [bind cbinop]. rewrite <- (D1 eq_refl), CS. cbn [bind assign is_double to_i].
        eexists. split; [reflexivity|]. vs. repeat split; try assumption. discriminate.
      - cbn [cexec bind eval]. change (deref kst (setptr c1 Pa (LR (a + 2))) Pa) with (Ok (fst (mem c1) (a + 2)%nat)). rewrite M1, (D eq_refl).
        cbn [bind ivalue I assign is_double to_i]. vs.
        change (vars (setptr c1 Pa (LR (a + 2))) (Li a)) with (vars c1 (Li a)). rewrite X1. cbn [bind cbinop]. rewrite CS. cbn [bind assign is_double to_i].
        eexists. split; [reflexivity|]. split; [exact M1|]. vs. change (vars (setptr c1 Pa (LR (a + 2))) (Llim a)) with (vars c1 (Llim a)). auto. }
    destruct G as (c2 & -> & M2 & Y1 & Y2 & Y3). cbn [bind]. eexists. split; [reflexivity|].
    exists z, l, s. rewrite M2. split; [|split; [|split; [|split; [|split]]]]; auto.
    - rewrite <- (Nat.add_0_r a) at 2. apply off_l; [lia|]. apply off_refl.
    - apply upr_eq.
    - rewrite upr_ne by lia. exact BL.
    - rewrite upr_ne by lia. exact D. }
  destruct P as (c1 & -> & HL). cbn [bind].
  apply (loop_same (held_1 one)); [intros; apply turn_1; assumption|apply keep_1| |exact B|exact HL].
  intros m c2 (i2 & l2 & s2 & O & _). exact O.
Qed.

(* after ra, rb and rc of a generic loop *)
Definition readyf (c : @cst W) : @cst W := setptr (setptr (setptr c Pa (LR a)) Pb (LR (a + 1))) Pc (LR (a + 2)).
Lemma readyf_ok : forall s c, cexec L kst (Reg Pa a ;; PtrAdd Pb Pa 1 ;; PtrAdd Pc Pa 2 ;; s) c = cexec L kst s (readyf c). Proof. reflexivity. Qed.
Lemma rf_a : forall c, deref kst (readyf c) Pa = Ok (fst (mem c) a). Proof. reflexivity. Qed.
Lemma rf_b : forall c, deref kst (readyf c) Pb = Ok (fst (mem c) (a + 1)%nat). Proof. reflexivity. Qed.
Lemma rf_c : forall c, deref kst (readyf c) Pc = Ok (fst (mem c) (a + 2)%nat). Proof. reflexivity. Qed.
Lemma dv : forall (c : @cst W) v x p, deref kst (setvar c v x) p = deref kst c p. Proof. reflexivity. Qed.
Lemma rkm : forall (c : @cst W) v x, mem (setvar c v x) = mem c. Proof. reflexivity. Qed.

Definition prepared (x : outcome (@next W)) (y : outcome (@flow W)) : Prop :=
  match x with
  | Ok (At _ m) => exists l c, y = Ok (Jump l c) /\ (held_i m c \/ held_f m c)
  | Err e => y = Err e
  | _ => False
  end.
(* the path of floats *)
Lemma prep_floats : forall c i l s,
  exists c', cexec L kst
    (If (KNot (KTag TNum Pb)) (Raise EType) Skip ;; If (KNot (KTag TNum Pc)) (Raise EType) Skip ;;
     If (KNot (KTag TNum Pa)) (Raise EType) Skip ;;
     Do (KToNum Pb (Lnlim a)) ;; Do (KToNum Pa (Lninit a)) ;; Do (KToNum Pc (Lnstep a)) ;;
     Assign (Lninit a) (EBin CSub (EVar (Lninit a)) (EVar (Lnstep a))) ;; Assign (Lint a) (EInt 0)) (readyf c) =
  match tonumberns (fst (mem c) (a + 1)%nat), tonumberns (fst (mem c) (a + 2)%nat), tonumberns (fst (mem c) a) with
  | Some _, Some _, Some _ => Ok (Fall c')
  | _, _, _ => Err EType
  end /\
  (tonumberns (fst (mem c) (a + 1)%nat) = Some l -> tonumberns (fst (mem c) (a + 2)%nat) = Some s -> tonumberns (fst (mem c) a) = Some i ->
   mem c' = mem c /\ vars c' (Lint a) = VI 0 /\ vars c' (Lninit a) = VD (fsub i s) /\ vars c' (Lnlim a) = VD l /\ vars c' (Lnstep a) = VD s).
Proof.
  intros c i l s.
  assert (N : forall v, is_tag TNum v = match tonumberns v with Some _ => true | None => false end) by (intros [| |[|]| | | | | | |]; reflexivity).
  cbn [cexec test]. rewrite rf_b. cbn [bind]. rewrite N.
  destruct (tonumberns (fst (mem c) (a + 1)%nat)) as [l0|] eqn:B; [|exists c; split; [reflexivity|discriminate]].
  cbn [negb cexec bind]. rewrite rf_c. cbn [bind]. rewrite N.
  destruct (tonumberns (fst (mem c) (a + 2)%nat)) as [s0|] eqn:D; [|exists c; split; [reflexivity|discriminate]].
  cbn [negb cexec bind]. rewrite rf_a. cbn [bind]. rewrite N.
  destruct (tonumberns (fst (mem c) a)) as [i0|] eqn:A; [|exists c; split; [reflexivity|discriminate]].
  cbn [negb cexec bind]. rewrite rf_b. cbn [bind]. rewrite B. cbn [assign is_double to_d bind].
  rewrite dv, rf_a. cbn [bind]. rewrite A. cbn [assign is_double to_d bind].
  rewrite !dv, rf_c. cbn [bind]. rewrite D. cbn [assign is_double to_d bind eval]. vs. cbn [bind cbinop to_d assign is_double].
  change (lit 0) with (Ok (VI 0)). cbn [bind to_i]. eexists. split; [reflexivity|]. intros [= ->] [= ->] [= ->]. rewrite !rkm. vs. auto.
Qed.
Lemma prep_ok : forall op c, bounds_ok a (mem c) -> wide a (mem c) ->
  prepared (istep L kst sizep [FORPREP a 0] 0 (mem c)) (cexec L kst (emit1 kst sizep op 0 (FORPREP a 0)) c).
Proof.
  intros op c BO WI. unfold istep. cbn [nth_error]. unfold forprep_. cbn [emit1]. unfold emit_forprep. rewrite readyf_ok.
  set (m := mem c) in *.
  assert (FL : forall k, test L kst k (readyf c) = Ok (false, readyf c) -> k = KAnd (KTag TInt Pa) (KAnd (KTag TInt Pc) (KTag TInt Pb)) -> forall t,
    prepared (match tonumberns (fst m (a + 1)%nat), tonumberns (fst m (a + 2)%nat), tonumberns (fst m a) with
    | Some l, Some s, Some i => Ok (At (target 0 0) (upr (upr (upr m (a + 1)%nat (F l)) (a + 2)%nat (F s)) a (F (fsub i s))))
    | _, _, _ => Err EType end)
    (cexec L kst (If k t (If (KNot (KTag TNum Pb)) (Raise EType) Skip ;; If (KNot (KTag TNum Pc)) (Raise EType) Skip ;;
      If (KNot (KTag TNum Pa)) (Raise EType) Skip ;;
      Do (KToNum Pb (Lnlim a)) ;; Do (KToNum Pa (Lninit a)) ;; Do (KToNum Pc (Lnstep a)) ;;
      Assign (Lninit a) (EBin CSub (EVar (Lninit a)) (EVar (Lnstep a))) ;; Assign (Lint a) (EInt 0)) ;; Goto 1) (readyf c))).
  { intros k T _ t. rewrite seq_ok.
    set (l := match tonumberns (fst m (a + 1)%nat) with Some l => l | None => fzero end).
    set (s := match tonumberns (fst m (a + 2)%nat) with Some l => l | None => fzero end).
    set (i := match tonumberns (fst m a) with Some l => l | None => fzero end).
    destruct (prep_floats c i l s) as (c' & E & V). fold m in E, V.
    match type of E with cexec L kst ?fl _ = _ => change (cexec L kst (If k t fl) (readyf c)) with (bind (test L kst k (readyf c)) (fun '(b, c) => if b then cexec L kst t c else cexec L kst fl c)) end.
    rewrite T. cbn [bind]. rewrite E. clear E.
    destruct (tonumberns (fst m (a + 1)%nat)) as [l0|]; [|reflexivity].
    destruct (tonumberns (fst m (a + 2)%nat)) as [s0|]; [|reflexivity].
    destruct (tonumberns (fst m a)) as [i0|]; [|reflexivity].
    destruct (V eq_refl eq_refl eq_refl) as (M & V0 & V1 & V2 & V3). cbn [after bind cexec prepared]. eexists. eexists. split; [reflexivity|]. right.
    exists (fsub i0 s0), l0, s0. rewrite M. split; [|split; [|split; [|split]]]; auto.
    - rewrite <- (Nat.add_0_r a) at 4. apply off_l; [lia|]. apply off_l; [lia|]. apply off_l; [lia|]. apply off_refl.
    - apply upr_eq.
    - rewrite !upr_ne by lia. apply upr_eq.
    - rewrite upr_ne by lia. apply upr_eq. }
  destruct (fst m a) as [| |[i|fi]| | | | | | |] eqn:A;
    try (apply (FL _); [|reflexivity]; cbn [test]; rewrite rf_a; fold m; rewrite A; reflexivity).
  destruct (fst m (a + 2)%nat) as [| |[s|fs]| | | | | | |] eqn:D;
    try (apply (FL _); [|reflexivity]; cbn [test]; rewrite rf_a; fold m; rewrite A; cbn [is_tag bind]; rewrite rf_c; fold m; rewrite D; reflexivity).
  specialize (BO i s A D).
  destruct (fst m (a + 1)%nat) as [| |[l|fl]| | | | | | |] eqn:B;
    try (apply (FL _); [|reflexivity]; cbn [test]; rewrite rf_a; fold m; rewrite A; cbn [is_tag bind]; rewrite rf_c; fold m; rewrite D; cbn [is_tag bind]; rewrite rf_b; fold m; rewrite B; reflexivity);
    [|contradiction].
  clear FL. destruct BO as [R1 R2]. cbn [bind prepared]. rewrite in64_sub by exact R1.
  rewrite seq_ok. cbn [cexec test]. rewrite rf_a. fold m. rewrite A. cbn [bind is_tag]. rewrite rf_c. fold m. rewrite D. cbn [bind is_tag]. rewrite rf_b. fold m. rewrite B.
  cbn [bind is_tag cexec eval]. rewrite rf_b. fold m. rewrite B. cbn [bind ivalue assign is_double to_i].
  rewrite dv, rf_a. fold m. rewrite A. cbn [bind ivalue assign is_double to_i].
  rewrite !dv, rf_c. fold m. rewrite D. cbn [bind ivalue assign is_double to_i]. vs. cbn [cbinop]. rewrite in64_signed by exact R1.
  cbn [bind assign is_double to_i]. change (lit 1) with (Ok (VI 1)). cbn [bind to_i after]. eexists. eexists. split; [reflexivity|]. left.
  pose proof (WI 0%nat ltac:(lia)) as W0. rewrite Nat.add_0_r, A in W0. pose proof (WI 1%nat ltac:(lia)) as W1. rewrite B in W1. pose proof (WI 2%nat ltac:(lia)) as W2. rewrite D in W2.
  exists (i - s), l, s. rewrite !rkm. vs. split; [|split; [|split; [|split]]]; auto.
  - rewrite <- (Nat.add_0_r a) at 3. apply off_l; [lia|]. apply off_l; [lia|]. apply off_refl.
  - apply upr_eq.
  - rewrite !upr_ne by lia. apply upr_eq.
  - rewrite !upr_ne by lia. exact D.
  - repeat split; try assumption; try apply R2; try apply W1; try apply W2; unfold in64 in *; lia.
Qed.
Lemma for_same : forall op n body c, blind a body -> bounds_ok a (mem c) -> wide a (mem c) ->
  same a (ifor L kst sizep (FORPREP a 0) (FORLOOP a (-1)) n body (mem c))
         (cfor L kst sizep op (FORPREP a 0) (FORLOOP a (-1)) n body c).
Proof.
  intros op n body c B BO WI. unfold ifor, cfor. pose proof (prep_ok op c BO WI) as P.
  destruct (istep L kst sizep [FORPREP a 0] 0 (mem c)) as [[p m|x y m]|e| |]; cbn [prepared bind] in *; try contradiction.
  - destruct P as (l & c1 & -> & [HI|HF]); cbn [bind emit1].
    + apply (loop_same held_i); [intros; apply turn_i; assumption|apply keep_i| |exact B|exact HI]. intros m1 c2 (i2 & l2 & s2 & O & _). exact O.
    + apply (loop_same held_f); [intros; apply turn_f; assumption|apply keep_f| |exact B|exact HF]. intros m1 c2 (i2 & l2 & s2 & O & _). exact O.
  - rewrite P. reflexivity.
Qed.
End loops.

(* ---- where the two differ ---- *)
(* one array of integers *)
Definition put_nth (k z : Z) (l : list Z) : list Z := firstn (Z.to_nat k) l ++ z :: skipn (S (Z.to_nat k)) l.
Definition lib1 : lib (list Z) := mkLib (list Z) (fun x _ => x) (fun x _ => x) (fun _ _ _ _ => Err EType) (fun _ _ _ => Err EType)
  (fun _ _ _ _ => Err EType) (fun _ m => Ok m) (fun _ _ m => Ok (Nil, m)) (fun _ _ _ => Err EType) (fun _ _ _ m => Ok m) (fun _ _ _ _ => Err EType)
  (fun _ m => Z.min (Z.of_nat (length (snd m))) 100) (fun _ k m => nth (Z.to_nat k) (snd m) 0) (fun _ _ _ => fzero)
  (fun _ k z m => (fst m, put_nth k z (snd m))) (fun _ _ _ m => m) (fun _ _ _ => Err EBounds) (fun _ _ _ => Err EBounds).
Definition regs (l : list val) (w : list Z) : state (list Z) := (fun n => nth n l Nil, w).
Definition noconst (n : nat) : val := Nil.
(* what the function returns: the register and the array *)
Definition answer (x : outcome (nat * nat * state (list Z))) : outcome (val * list Z) := bind x (fun '(a, _, m) => Ok (fst m a, snd m)).
Definition ians (code : list instr) (n : nat) (m : state (list Z)) := answer (irun lib1 noconst false n code 0 m).
Definition cans (op : options) (code : list instr) (n : nat) (m : state (list Z)) :=
  answer (crun lib1 noconst n (emit noconst false op code) (emit noconst false op code) (cinit m)).
Lemma noconst_ok : const_ok noconst. Proof. intros n. exact Logic.I. Qed.
Lemma lib1_lens : lens lib1. Proof. intros a m. cbn. unfold two32. lia. Qed.
Ltac wf := split; [intros pc i l E G; do 8 (destruct pc as [|pc]; [cbn in E; (discriminate E || (injection E as <-; cbn in G; first [contradiction|subst l; reflexivity]))|]); destruct pc; discriminate E
                  |intros pc i E T; do 8 (destruct pc as [|pc]; [cbn in E; (discriminate E || (injection E as <-; cbn in T; first [discriminate T|eexists; eexists; reflexivity]))|]); destruct pc; discriminate E].

Lemma movei_differs : exists code m, well_formed code /\ ians code 2 m = Ok (I 2, []) /\ forall op, cans op code 2 m = Err EType.
Proof.
  exists [MOVEI 0 1; RETURN 0 2], (regs [Nil; F (cast_num 2)] []). split; [wf|]. split; [vm_compute; reflexivity|].
  intros [x y]. vm_compute. reflexivity.
Qed.
Lemma for_limit_differs : exists code m, well_formed code /\ ians code 3 m = Ok (I 1, []) /\ forall op, cans op code 3 m = Ok (F (cast_num 1), []).
Proof.
  exists [FORPREP 0 1; RETURN 3 2; FORLOOP 0 (-2); RETURN 0 1], (regs [I 1; F (fdiv (cast_num 7) (cast_num 2)); I 1] []).
  split; [wf|]. split; [vm_compute; reflexivity|]. intros [x y]. vm_compute. reflexivity.
Qed.
Lemma for_overflow_differs : exists code m n, well_formed code /\ ians code n m = Ok (I minint, []) /\ forall op, cans op code n m = UB.
Proof.
  (* for i = maxint, maxint do if i < 0 then return i end end *)
  exists [FORPREP 0 3; CMP LT_II 1 (RR 3) (RR 4); JMP 0 2; JMP 0 0; FORLOOP 0 (-4); RETURN 3 2], (regs [I maxint; I maxint; I 1; Nil; I 0] []), 7%nat.
  split; [wf|]. split; [vm_compute; reflexivity|]. intros [x y]. vm_compute. reflexivity.
Qed.
Lemma inline_differs : exists code m, well_formed code /\ ians code 2 m = Ok (I minint, []) /\
  cans auto_options code 2 m = Ok (I minint, []) /\ cans manual_options code 2 m = UB.
Proof.
  exists [BIN (OP_G Add) 0 (RR 1) (RR 2); RETURN 0 2], (regs [Nil; I maxint; I 1] []). split; [wf|]. repeat split; vm_compute; reflexivity.
Qed.
Lemma omit_differs : exists code m, well_formed code /\ ians code 2 m = Err EBounds /\
  cans auto_options code 2 m = Err EBounds /\ cans manual_options code 2 m = UB.
Proof.
  exists [GET OP_IARRAY_GET 0 1 (RR 2); RETURN 0 2], (regs [Nil; IArr 0; I 5] [10; 11; 12]). split; [wf|]. repeat split; vm_compute; reflexivity.
Qed.
Lemma index_differs : exists code m, well_formed code /\ ians code 2 m = Ok (I 11, [10; 11; 12]) /\ cans auto_options code 2 m = Err EBounds.
Proof.
  exists [GET OP_IARRAY_GET 0 1 (RR 2); RETURN 0 2], (regs [Nil; IArr 0; I (two32 + 1)] [10; 11; 12]). split; [wf|]. repeat split; vm_compute; reflexivity.
Qed.
Lemma iset_differs : exists code m, well_formed code /\ ians code 2 m = Ok (IArr 0, [10; 7; 12]) /\ forall op, cans op code 2 m = Err EType.
Proof.
  exists [SET OP_IARRAY_SET 0 (RR 1) (RR 2); RETURN 0 2], (regs [IArr 0; I 1; F (fdiv (cast_num 15) (cast_num 2))] [10; 11; 12]). split; [wf|].
  split; [vm_compute; reflexivity|]. intros [x y]. vm_compute. reflexivity.
Qed.

(* ---- statements ---- *)
Lemma jit_run : forall (W : Type) (L : lib W) kst sizep op code n m,
  const_ok kst -> lens L -> well_formed code ->
  along kst (l_alen L) (istep L kst sizep code) op code n 0 m -> irun L kst sizep n code 0 m <> UB ->
  crun L kst n (emit kst sizep op code) (emit kst sizep op code) (cinit m) = irun L kst sizep n code 0 m.
Proof. exact run_same. Qed.
Lemma jit_for : forall (W : Type) (L : lib W) kst sizep op a n body c,
  blind a body -> bounds_ok a (mem c) -> wide a (mem c) ->
  same a (ifor L kst sizep (FORPREP a 0) (FORLOOP a (-1)) n body (mem c))
         (cfor L kst sizep op (FORPREP a 0) (FORLOOP a (-1)) n body c).
Proof. intros W L kst sizep op a n body c. apply for_same. Qed.
Lemma jit_ifor : forall (W : Type) (L : lib W) kst sizep op a one n body c i l s,
  blind a body -> fst (mem c) a = I i -> fst (mem c) (a + 1)%nat = I l -> (one = false -> fst (mem c) (a + 2)%nat = I s) ->
  same a (ifor L kst sizep (IFORPREP one a 0) (IFORLOOP one a (-1)) n body (mem c))
         (cfor L kst sizep op (IFORPREP one a 0) (IFORLOOP one a (-1)) n body c).
Proof. intros W L kst sizep op a one n body c i l s. apply ifor_1. Qed.
