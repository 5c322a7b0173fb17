Require Import ZArith List Bool Lia Permutation.
From Verif Require Import Base Base_facts Defer_model Defer_spec.
Import ListNotations.
Open Scope Z_scope.

Section PROOF.
Variable moves : Z -> bool.
Notation exec := (exec moves). Notation docall := (docall moves). Notation luaF_close := (luaF_close moves). Notation calldeferredfunction := (calldeferredfunction moves). Notation luaD_pcall := (luaD_pcall moves). Notation may_move := (may_move moves).

(* ends in x, given enough fuel *)
Definition ev {X} (F : nat -> outcome X) (x : X) : Prop := exists N, forall fuel, (N <= fuel)%nat -> F fuel = Ok x.
Lemma ev_S : forall X (F G : nat -> outcome X) x, (forall fuel, F (S fuel) = G fuel) -> ev G x -> ev F x.
Proof. intros X F G x E (N & H). exists (S N). intros [|fuel] L; [lia|]. rewrite E. apply H. lia. Qed.
Lemma ev_bind : forall X Y (F : nat -> outcome X) (K : nat -> X -> outcome Y) x y, ev F x -> ev (fun fuel => K fuel x) y -> ev (fun fuel => bind (F fuel) (K fuel)) y.
Proof. intros X Y F K x y (N & H) (M & H'). exists (N + M)%nat. intros fuel L. rewrite H by lia. cbn [bind]. apply H'. lia. Qed.
Lemma ev_ok : forall X (x : X), ev (fun _ => Ok x) x. Proof. intros. exists 0%nat. reflexivity. Qed.
Lemma ev_ext : forall X (F G : nat -> outcome X) x, (forall fuel, F fuel = G fuel) -> ev G x -> ev F x.
Proof. intros X F G x E (N & H). exists N. intros fuel L. rewrite E. apply H. exact L. Qed.

Definition fin (s s' : st) (base : Z) (rest : list upv) (t : list event) (n' : nat) : Prop :=
  (forall i, i < base -> s_stk s' i = s_stk s i) /\ s_open s' = rest /\ s_log s' = s_log s ++ t /\ (exists l, s_funs s' = s_funs s ++ l) /\ length (s_funs s') = n'.
Definition errobj (s : st) (status : Z) (v : value) : Prop := message status (s_stk s (s_top s - 1)) = v.
Definition reach (s'' s' : st) (off status : Z) : Prop :=
  forall x, ev (fun fuel => luaF_close fuel s'' (restorestack s'' off) status) x -> ev (fun fuel => luaF_close fuel s' (restorestack s' off) status) x.
Definition post (s : st) (base : Z) (rest : list upv) (d : list event * nat * dres) (F : nat -> outcome (res * st)) : Prop :=
  let '(t, n', r) := d in
  match r with
  | DRet vs => exists s', ev F (RRet vs, s') /\ fin s s' base rest t n'
  | DErr v => exists status s', ev F (RErr status, s') /\ is_error status /\ forall off, off <= base -> exists s'', reach s'' s' off status /\ fin s s'' base rest t n' /\ errobj s'' status v
  end.
Definition under (l : list upv) (b : Z) : Prop := forall u, In u l -> u_idx u < b.
Definition triple0 (size : Z) (c : code) : Prop :=
  forall s base rest, s_open s = rest -> under rest base -> s_top s = base + size -> post s base rest (D c [] (length (s_funs s))) (fun fuel => exec fuel s base 0 size c).
Definition good (s : st) (k : nat) (f : den) : Prop := exists sz c, nth_error (s_funs s) k = Some (sz, c) /\ 0 <= sz /\ f = D c [] /\ triple0 sz c.
Fixpoint pend (s : st) (base : Z) (es : list entry) (O rest : list upv) : Prop :=
  match es with
  | [] => O = rest
  | EVal v cap :: es' => let i := base + Z.of_nat (length es') in s_stk s i = v /\
      (if cap then exists r O', O = UpV i false r :: O' /\ 0 < r /\ pend s base es' O' rest else pend s base es' O rest)
  | EDef k f :: es' => let i := base + Z.of_nat (length es') in s_stk s i = VFun k /\ good s k f /\ exists O', O = UpV i true 0 :: O' /\ pend s base es' O' rest
  end.

Lemma under_le : forall l a b, a <= b -> under l a -> under l b. Proof. intros l a b H U u IN. specialize (U u IN). lia. Qed.
Lemma pend_under : forall s base es O rest, under rest base -> pend s base es O rest -> under O (base + Z.of_nat (length es)).
Proof.
  intros s base. induction es as [|[v [|]|k f] es IH]; intros O rest U P; cbn [pend length] in *.
  - subst. apply (under_le rest base); [lia|exact U].
  - destruct P as (_ & r & O' & -> & _ & P). specialize (IH O' rest U P). intros u [<-|IN]; [cbn; lia|]. specialize (IH u IN). lia.
  - destruct P as (_ & P). specialize (IH O rest U P). intros u IN. specialize (IH u IN). lia.
  - destruct P as (_ & _ & O' & -> & P). specialize (IH O' rest U P). intros u [<-|IN]; [cbn; lia|]. specialize (IH u IN). lia.
Qed.
Lemma pend_frame : forall s s' base es O rest, (forall i, i < base + Z.of_nat (length es) -> base <= i -> s_stk s' i = s_stk s i) -> (exists l, s_funs s' = s_funs s ++ l) -> pend s base es O rest -> pend s' base es O rest.
Proof.
  intros s s' base es O rest H (l & EF). revert O rest H. induction es as [|[v cap|k f] es IH]; intros O rest H P; cbn [pend] in *; [exact P| |].
  - destruct P as (E & P). split; [rewrite H by (cbn [length]; lia); exact E|]. assert (H' : forall i, i < base + Z.of_nat (length es) -> base <= i -> s_stk s' i = s_stk s i) by (intros i L L'; apply H; [cbn [length]; lia|exact L']).
    destruct cap; [destruct P as (r & O' & EO & R & P); exists r, O'; auto|auto].
  - destruct P as (E & (sz & c & N & SZ & EF' & T) & O' & EO & P). split; [rewrite H by (cbn [length]; lia); exact E|]. split; [exists sz, c; split; [rewrite EF; rewrite nth_error_app1; [exact N|apply nth_error_Some; congruence]|auto]|]. exists O'. split; [exact EO|]. apply IH; [intros i L L'; apply H; [cbn [length]; lia|exact L']|exact P].
Qed.
Lemma fin_refl : forall s base rest, s_open s = rest -> fin s s base rest [] (length (s_funs s)).
Proof. intros. repeat split; auto. - rewrite app_nil_r. reflexivity. - exists []. rewrite app_nil_r. reflexivity. Qed.
Lemma fin_trans : forall s1 s2 s3 b1 b2 b r1 r2 t1 t2 n1 n2, fin s1 s2 b1 r1 t1 n1 -> fin s2 s3 b2 r2 t2 n2 -> b <= b1 -> b <= b2 -> fin s1 s3 b r2 (t1 ++ t2) n2.
Proof.
  intros s1 s2 s3 b1 b2 b r1 r2 t1 t2 n1 n2 (A1 & A2 & A3 & (l1 & A4) & A5) (B1 & B2 & B3 & (l2 & B4) & B5) L1 L2. split; [intros i L; rewrite B1, A1 by lia; reflexivity|]. split; [exact B2|]. split; [rewrite B3, A3, app_assoc; reflexivity|]. split; [exists (l1 ++ l2); rewrite B4, A4, app_assoc; reflexivity|exact B5].
Qed.
Lemma fin_weak : forall s s' b b' r t n, b' <= b -> fin s s' b r t n -> fin s s' b' r t n.
Proof. intros s s' b b' r t n L (A1 & A). split; [intros i H; apply A1; lia|exact A]. Qed.
Lemma fin_funs : forall s s' b r t n, fin s s' b r t n -> n = length (s_funs s'). Proof. intros s s' b r t n (_ & _ & _ & _ & E). auto. Qed.
Lemma reach_refl : forall s off st, reach s s off st. Proof. intros s off st x H. exact H. Qed.
Lemma reach_trans : forall s1 s2 s3 off st, reach s1 s2 off st -> reach s2 s3 off st -> reach s1 s3 off st. Proof. intros s1 s2 s3 off st H1 H2 x H. apply H2. apply H1. exact H. Qed.
Lemma message_idem : forall st v, message st (message st v) = message st v.
Proof. intros. unfold message. destruct (st =? LUA_ERRMEM); [reflexivity|]. destruct (st =? LUA_ERRERR); reflexivity. Qed.
Lemma errobj_msg : forall s st v, errobj s st v -> message st v = v. Proof. unfold errobj. intros s st v <-. apply message_idem. Qed.

(* ---- calls ---- *)
Lemma docall_ok : forall s func sz c, triple0 sz c -> under (s_open s) (func + 1) -> post s (func + 1) (s_open s) (D c [] (length (s_funs s))) (fun fuel => docall fuel s func sz c).
Proof.
  intros s func sz c T U. set (s1 := set_top (may_move (set_top s (func + 1))) (func + 1 + sz)). specialize (T s1 (func + 1) (s_open s) eq_refl U eq_refl). change (length (s_funs s1)) with (length (s_funs s)) in T.
  assert (F : forall s' b r t n, fin s1 s' b r t n -> fin s s' b r t n) by (intros s' b r t n H; exact H). unfold post in *. destruct (D c [] (length (s_funs s))) as [[t n'] r]. destruct r as [vs|v].
  - destruct T as (s' & E & H). exists s'. split; [|apply F; exact H]. apply (ev_S _ _ (fun fuel => exec fuel s1 (func + 1) 0 sz c)); [reflexivity|exact E].
  - destruct T as (status & s' & E & IE & H). exists status, s'. split; [apply (ev_S _ _ (fun fuel => exec fuel s1 (func + 1) 0 sz c)); [reflexivity|exact E]|]. split; [exact IE|exact H].
Qed.
Lemma close_nil : forall s off st, under (s_open s) off -> ev (fun fuel => luaF_close fuel s (restorestack s off) st) (CDone st, s).
Proof.
  intros s off st U. apply (ev_S _ _ (fun _ => Ok (CDone st, s))); [|apply ev_ok]. intros fuel. cbn [Defer_model.luaF_close]. destruct (s_open s) as [|uv l]; [reflexivity|]. cbn [restorestack fst snd]. rewrite Z.eqb_refl. cbn [negb]. specialize (U uv (or_introl eq_refl)). destruct (Z.leb_spec off (u_idx uv)); [lia|reflexivity].
Qed.
Lemma seterr_ok : forall s st off v, is_error st -> errobj s st v -> luaD_seterrorobj s st (restorestack s off) = Ok (set_top (set_stk s off v) (off + 1)).
Proof.
  intros s st off v IE E. unfold luaD_seterrorobj, wr, restorestack. cbn [fst snd]. rewrite Z.eqb_refl. cbn [bind]. unfold errobj, message in E. unfold is_error in IE. destruct (st =? LUA_ERRMEM); [rewrite <- E; reflexivity|]. destruct (st =? LUA_ERRERR); [rewrite <- E; reflexivity|]. destruct (Z.eqb_spec st CLOSEPROTECT) as [EQ|]; [unfold CLOSEPROTECT in EQ; lia|]. rewrite <- E. reflexivity.
Qed.
Lemma stk_eq : forall s i v, s_stk (set_stk s i v) i = v. Proof. intros. cbn. rewrite Z.eqb_refl. reflexivity. Qed.
Lemma stk_ne : forall s i v j, j <> i -> s_stk (set_stk s i v) j = s_stk s j. Proof. intros. cbn. destruct (Z.eqb_spec j i); [contradiction|reflexivity]. Qed.
Lemma pcall_ok : forall s func sz c old, triple0 sz c -> under (s_open s) old -> old <= func + 1 ->
  let '(t, n', r) := D c [] (length (s_funs s)) in
  exists x s', ev (fun fuel => luaD_pcall fuel s func sz c old) (x, s') /\ fin s s' old (s_open s) t n' /\
  match r with DRet vs => x = RRet vs /\ s_top s' = func | DErr v => exists st, x = RErr st /\ is_error st /\ s_stk s' old = v /\ s_top s' = old + 1 end.
Proof.
  intros s func sz c old T U L. pose proof (docall_ok s func sz c T (under_le _ _ _ L U)) as P. unfold post in P. destruct (D c [] (length (s_funs s))) as [[t n'] r]. destruct r as [vs|v].
  - destruct P as (s' & E & F). exists (RRet vs), (set_top s' func). split; [|split; [apply (fin_weak _ _ (func + 1)); [lia|exact F]|auto]].
    eapply ev_S; [intros fuel; cbn [Defer_model.exec Defer_model.docall Defer_model.luaF_close Defer_model.calldeferredfunction Defer_model.luaD_pcall]; reflexivity|]; cbv beta. eapply ev_bind; [exact E|]. cbv beta iota. apply ev_ok.
  - destruct P as (st & s' & E & IE & H). destruct (H old L) as (s'' & R & F & EO). assert (OU : under (s_open s'') old) by (destruct F as (_ & -> & _); exact U).
    exists (RErr st), (may_move (set_top (set_stk s'' old v) (old + 1))). split; [|split].
    + eapply ev_S; [intros fuel; cbn [Defer_model.exec Defer_model.docall Defer_model.luaF_close Defer_model.calldeferredfunction Defer_model.luaD_pcall]; reflexivity|]; cbv beta. eapply ev_bind; [exact E|]. cbv beta iota zeta. eapply ev_bind; [apply R; apply close_nil; exact OU|]. cbv beta iota zeta. rewrite (seterr_ok s'' st old v IE EO). cbn [bind]. apply ev_ok.
    + destruct F as (F1 & F2 & F3 & F4 & F5). split; [|split; [exact F2|split; [exact F3|split; [exact F4|exact F5]]]]. intros i LI. cbn [Defer_model.may_move set_top s_stk]. rewrite stk_ne by lia. apply F1. lia.
    + exists st. split; [reflexivity|]. split; [exact IE|]. split; [cbn [Defer_model.may_move set_top s_stk]; apply stk_eq|reflexivity].
Qed.
Lemma calldef_err : forall s uv st v k f, is_error st -> errobj s st v -> s_stk s uv = VFun k -> good s k f -> under (s_open s) (uv + 1) ->
  let '(t, n', _) := f (length (s_funs s)) in
  exists s', ev (fun fuel => calldeferredfunction fuel s uv st) (CDone st, s') /\ fin s s' (uv + 1) (s_open s) (Run k v :: t) n' /\ errobj s' st v.
Proof.
  intros s uv st v k f IE EO EK (sz & c & N & SZ & -> & T) U. set (s1 := set_top (set_stk s (uv + 1) v) (uv + 1 + 1)). set (s2 := set_top (set_stk (set_stk s1 (uv + 2) (VFun k)) (uv + 2 + 1) v) (uv + 2 + 2)). set (s3 := add_log s2 (Run k v)).
  assert (O3 : s_open s3 = s_open s) by reflexivity. assert (F3 : s_funs s3 = s_funs s) by reflexivity.
  pose proof (pcall_ok s3 (uv + 2) sz c (uv + 2) T) as P. rewrite O3, F3 in P. specialize (P (under_le _ (uv + 1) (uv + 2) ltac:(lia) U) ltac:(lia)). destruct (D c [] (length (s_funs s))) as [[t n'] r]. destruct P as (x & s' & E & F & H).
  assert (S3 : forall i, i < uv + 1 -> s_stk s3 i = s_stk s i) by (intros i L; cbn [s3 add_log s2 set_top s_stk]; rewrite !stk_ne by lia; cbn [s1 set_top s_stk]; rewrite stk_ne by lia; reflexivity).
  assert (V3 : s_stk s3 (uv + 1) = v) by (cbn [s3 add_log s2 set_top s_stk]; rewrite !stk_ne by lia; cbn [s1 set_top s_stk]; apply stk_eq).
  assert (FIN : fin s (set_top s' (uv + 2)) (uv + 1) (s_open s) (Run k v :: t) n').
  { destruct F as (A1 & A2 & A3 & A4 & A5). split; [intros i L; cbn [set_top s_stk]; rewrite A1 by lia; apply S3; exact L|]. split; [exact A2|]. split; [cbn [set_top s_log]; rewrite A3; cbn [s3 add_log s_log]; rewrite <- app_assoc; reflexivity|]. split; [exact A4|exact A5]. }
  exists (set_top s' (uv + 2)). split; [|split; [exact FIN|]].
  - eapply ev_S; [intros fuel; cbn [Defer_model.exec Defer_model.docall Defer_model.luaF_close Defer_model.calldeferredfunction Defer_model.luaD_pcall]; reflexivity|]; cbv beta. destruct (Z.eqb_spec st LUA_OK) as [EQ|_]; [unfold is_error, LUA_OK in *; lia|]. cbv zeta. rewrite (seterr_ok s st (uv + 1) v IE EO). cbn [bind]. fold s1. replace (s_top s1) with (uv + 2) by (cbn; lia).
    replace (s_stk s1 uv) with (VFun k) by (cbn [s1 set_top s_stk]; rewrite stk_ne by lia; auto). replace (s_stk s1 (uv + 1)) with v by (cbn [s1 set_top s_stk]; rewrite stk_eq; reflexivity). fold s2.
    unfold calldeferred. replace (s_stk s2 (uv + 2)) with (VFun k) by (cbn [s2 set_top s_stk]; rewrite stk_ne by lia; rewrite stk_eq; reflexivity). change (s_funs s2) with (s_funs s). rewrite N. replace (s_stk s2 (uv + 2 + 1)) with v by (cbn [s2 set_top s_stk]; rewrite stk_eq; reflexivity). fold s3. cbn [bind].
    eapply ev_bind; [replace (uv + 1 + 1) with (uv + 2) by lia; exact E|]. cbv beta iota. replace (uv + 1 + 1) with (uv + 2) by lia. destruct x as [vs|ns]; [apply ev_ok|]. destruct (Z.eqb_spec st CLOSEPROTECT) as [EQ|]; [unfold CLOSEPROTECT, is_error in *; lia|apply ev_ok].
  - unfold errobj. cbn [set_top s_top s_stk]. replace (uv + 2 - 1) with (uv + 1) by lia. destruct F as (A1 & _). rewrite A1 by lia. rewrite V3. apply (errobj_msg s st v EO).
Qed.
Lemma calldef_ok : forall s uv k f, s_stk s uv = VFun k -> good s k f -> uv < s_top s -> under (s_open s) (s_top s) ->
  let '(t, n', r) := f (length (s_funs s)) in
  match r with
  | DRet _ => exists s', ev (fun fuel => calldeferredfunction fuel s uv LUA_OK) (CDone LUA_OK, s') /\ fin s s' (s_top s) (s_open s) (Run k VNil :: t) n' /\ s_top s' = s_top s
  | DErr v => exists st s', ev (fun fuel => calldeferredfunction fuel s uv LUA_OK) (CThrow st, s') /\ is_error st /\ forall off, off <= s_top s -> exists s'', reach s'' s' off st /\ fin s s'' (s_top s) (s_open s) (Run k VNil :: t) n' /\ errobj s'' st v
  end.
Proof.
  intros s uv k f EK (sz & c & N & SZ & -> & T) L U. set (func := s_top s) in *. set (s2 := set_top (set_stk (set_stk s func (VFun k)) (func + 1) VNil) (func + 2)). set (s3 := add_log s2 (Run k VNil)).
  pose proof (docall_ok s3 func sz c T) as P. change (s_open s3) with (s_open s) in P. change (s_funs s3) with (s_funs s) in P. specialize (P (under_le _ func (func + 1) ltac:(lia) U)). unfold post in P.
  assert (CD : calldeferred s2 func = Ok (sz, c, s3)). { unfold calldeferred. replace (s_stk s2 func) with (VFun k) by (cbn [s2 set_top s_stk]; rewrite stk_ne by lia; rewrite stk_eq; reflexivity). change (s_funs s2) with (s_funs s). rewrite N. replace (s_stk s2 (func + 1)) with VNil by (cbn [s2 set_top s_stk]; rewrite stk_eq; reflexivity). reflexivity. }
  assert (FF : forall s' b t n, func <= b -> fin s3 s' b (s_open s) t n -> fin s s' func (s_open s) (Run k VNil :: t) n).
  { intros s' b t n LB (A1 & A2 & A3 & A4 & A5). split; [intros i LI; rewrite A1 by lia; cbn [s3 add_log s2 set_top s_stk]; rewrite !stk_ne by lia; reflexivity|]. split; [exact A2|]. split; [rewrite A3; cbn [s3 add_log s_log]; rewrite <- app_assoc; reflexivity|]. split; [exact A4|exact A5]. }
  destruct (D c [] (length (s_funs s))) as [[t n'] r]. destruct r as [vs|v].
  - destruct P as (s' & E & F). exists (set_top s' func). split; [|split; [apply (FF (set_top s' func) (func + 1)); [lia|exact F]|reflexivity]].
    eapply ev_S; [intros fuel; cbn [Defer_model.exec Defer_model.docall Defer_model.luaF_close Defer_model.calldeferredfunction Defer_model.luaD_pcall]; reflexivity|]; cbv beta. rewrite Z.eqb_refl. cbv zeta. fold func. rewrite EK. fold s2. rewrite CD. cbn [bind]. eapply ev_bind; [exact E|]. cbv beta iota. apply ev_ok.
  - destruct P as (st & s' & E & IE & H). exists st, s'. split; [|split; [exact IE|]].
    + eapply ev_S; [intros fuel; cbn [Defer_model.exec Defer_model.docall Defer_model.luaF_close Defer_model.calldeferredfunction Defer_model.luaD_pcall]; reflexivity|]; cbv beta. rewrite Z.eqb_refl. cbv zeta. fold func. rewrite EK. fold s2. rewrite CD. cbn [bind]. eapply ev_bind; [exact E|]. cbv beta iota. apply ev_ok.
    + intros off LO. destruct (H off ltac:(lia)) as (s'' & R & F & EO). exists s''. split; [exact R|]. split; [|exact EO]. apply (FF s'' (func + 1)); [lia|exact F].
Qed.
(* ---- closing ---- *)
Lemma close_skip : forall s u l off st, s_open s = u :: l -> off <= u_idx u -> (u_ref u =? 0) && negb (st =? NOCLOSINGMETH) && u_flags u && ttisfunction (s_stk s (u_idx u)) = false -> forall x, ev (fun fuel => luaF_close fuel (set_open s l) (restorestack (set_open s l) off) st) x -> ev (fun fuel => luaF_close fuel s (restorestack s off) st) x.
Proof.
  intros s u l off st E L NC x H. eapply ev_S; [intros fuel; cbn [Defer_model.exec Defer_model.docall Defer_model.luaF_close Defer_model.calldeferredfunction Defer_model.luaD_pcall]; reflexivity|]; cbv beta. rewrite E. cbn [restorestack fst snd]. rewrite Z.eqb_refl. cbn [negb]. destruct (Z.leb_spec off (u_idx u)); [|lia]. cbv zeta. cbn [set_open s_stk]. rewrite NC. exact H.
Qed.
Lemma close_call : forall s i l off st s' st' x, s_open s = UpV i true 0 :: l -> off <= i -> st <> NOCLOSINGMETH -> ttisfunction (s_stk s i) = true -> ev (fun fuel => calldeferredfunction fuel (set_open s l) i st) (CDone st', s') -> ev (fun fuel => luaF_close fuel s' (restorestack s' off) st') x -> ev (fun fuel => luaF_close fuel s (restorestack s off) st) x.
Proof.
  intros s i l off st s' st' x E L NC F EC H. eapply ev_S; [intros fuel; cbn [Defer_model.exec Defer_model.docall Defer_model.luaF_close Defer_model.calldeferredfunction Defer_model.luaD_pcall]; reflexivity|]; cbv beta. rewrite E. cbn [restorestack fst snd u_idx u_ref u_flags]. rewrite Z.eqb_refl. cbn [negb]. destruct (Z.leb_spec off i); [|lia]. cbv zeta. cbn [set_open s_stk]. rewrite F. destruct (Z.eqb_spec st NOCLOSINGMETH); [contradiction|]. cbn [negb andb Z.eqb]. eapply ev_bind; [exact EC|]. cbv beta iota. exact H.
Qed.
Lemma close_throw : forall s i l off st s' st', s_open s = UpV i true 0 :: l -> off <= i -> st <> NOCLOSINGMETH -> ttisfunction (s_stk s i) = true -> ev (fun fuel => calldeferredfunction fuel (set_open s l) i st) (CThrow st', s') -> ev (fun fuel => luaF_close fuel s (restorestack s off) st) (CThrow st', s').
Proof.
  intros s i l off st s' st' E L NC F EC. eapply ev_S; [intros fuel; cbn [Defer_model.exec Defer_model.docall Defer_model.luaF_close Defer_model.calldeferredfunction Defer_model.luaD_pcall]; reflexivity|]; cbv beta. rewrite E. cbn [restorestack fst snd u_idx u_ref u_flags]. rewrite Z.eqb_refl. cbn [negb]. destruct (Z.leb_spec off i); [|lia]. cbv zeta. cbn [set_open s_stk]. rewrite F. destruct (Z.eqb_spec st NOCLOSINGMETH); [contradiction|]. cbn [negb andb Z.eqb]. eapply ev_bind; [exact EC|]. cbv beta iota. apply ev_ok.
Qed.
Lemma pend_open : forall s base es O rest l, pend s base es O rest -> pend (set_open s l) base es O rest.
Proof. intros s base es O rest l P. apply (pend_frame s); [reflexivity|exists []; rewrite app_nil_r; reflexivity|exact P]. Qed.
Lemma close_err_ok : forall es s base rest st v off, pend s base es (s_open s) rest -> under rest base -> is_error st -> errobj s st v -> off <= base ->
  let '(t, n') := close_err es v (length (s_funs s)) in exists s'', reach s'' s off st /\ fin s s'' base rest t n' /\ errobj s'' st v.
Proof.
  induction es as [|[w cap|k f] es IH]; intros s base rest st v off P U IE EO L; cbn [pend close_err] in *.
  - exists s. split; [apply reach_refl|]. split; [apply fin_refl; exact P|exact EO].
  - destruct P as (_ & P). destruct cap; [|apply IH; assumption]. destruct P as (r & O' & E & R & P). specialize (IH (set_open s O') base rest st v off (pend_open _ _ _ _ _ O' P) U IE EO L). change (s_funs (set_open s O')) with (s_funs s) in IH. destruct (close_err es v (length (s_funs s))) as [t n']. destruct IH as (s'' & R' & F & E'). exists s''. split; [|split; [exact F|exact E']].
    intros x H. apply (close_skip s (UpV (base + Z.of_nat (length es)) false r) O'); [exact E|cbn; lia|cbn; destruct (Z.eqb_spec r 0); [lia|reflexivity]|]. apply R'. exact H.
  - destruct P as (EK & G & O' & E & P). set (i := base + Z.of_nat (length es)) in *. pose proof (pend_under _ _ _ _ _ U P) as UO. fold i in UO.
    pose proof (calldef_err (set_open s O') i st v k f IE EO EK G (under_le O' i (i + 1) ltac:(lia) UO)) as C. change (s_funs (set_open s O')) with (s_funs s) in C. destruct (f (length (s_funs s))) as [[t1 n1] r1]. destruct C as (s1 & EC & F1 & EO1).
    pose proof F1 as (A1 & A2 & A3 & A4 & A5). cbn [set_open s_open] in A2.
    assert (P1 : pend s1 base es (s_open s1) rest) by (rewrite A2; apply (pend_frame (set_open s O')); [intros j LJ _; apply A1; unfold i; lia|exact A4|apply pend_open; exact P]).
    specialize (IH s1 base rest st v off P1 U IE EO1 L). rewrite A5 in IH. destruct (close_err es v n1) as [t2 n2]. destruct IH as (s'' & R' & F2 & E2). exists s''. split; [|split; [|exact E2]].
    + intros x H. apply (close_call s i O' off st s1 st); [exact E|unfold i; lia|unfold is_error, NOCLOSINGMETH in *; lia|rewrite EK; reflexivity|exact EC|]. apply R'. exact H.
    + change (Run k v :: t1 ++ t2) with ((Run k v :: t1) ++ t2). apply (fin_trans s s1 s'' (i + 1) base base (s_open (set_open s O')) rest (Run k v :: t1) t2 n1 n2); [exact F1|exact F2|unfold i; lia|lia].
Qed.
Lemma close_err_app : forall a b v n, close_err (a ++ b) v n = let '(t, n1) := close_err a v n in let '(t', n2) := close_err b v n1 in (t ++ t', n2).
Proof.
  induction a as [|[w cap|k f] a IH]; intros b v n; cbn [app close_err].
  - destruct (close_err b v n); reflexivity.
  - apply IH.
  - destruct (f n) as [[t1 n1] r1]. rewrite IH. destruct (close_err a v n1) as [t2 n2]. destruct (close_err b v n2) as [t3 n3]. cbn [app]. rewrite app_assoc. reflexivity.
Qed.
Lemma close_ok_ok : forall ea eb s base rest, pend s base (ea ++ eb) (s_open s) rest -> under rest base -> base + Z.of_nat (length (ea ++ eb)) <= s_top s ->
  let '(t, n', o) := close_ok ea (length (s_funs s)) in
  match o with
  | None => exists s', ev (fun fuel => luaF_close fuel s (restorestack s (base + Z.of_nat (length eb))) LUA_OK) (CDone LUA_OK, s') /\ fin s s' (s_top s) (s_open s') t n' /\ s_top s' = s_top s /\ pend s' base eb (s_open s') rest
  | Some v => exists st s', ev (fun fuel => luaF_close fuel s (restorestack s (base + Z.of_nat (length eb))) LUA_OK) (CThrow st, s') /\ is_error st /\
      let '(t2, n2) := close_err eb v n' in forall off, off <= base -> exists s'', reach s'' s' off st /\ fin s s'' base rest (t ++ t2) n2 /\ errobj s'' st v
  end.
Proof.
  induction ea as [|[w cap|k f] ea IH]; intros eb s base rest P U LT; cbn [app pend close_ok] in *.
  - exists s. pose proof (pend_under _ _ _ _ _ U P) as UO. split; [apply close_nil; exact UO|]. split; [apply fin_refl; reflexivity|]. split; [reflexivity|exact P].
  - destruct P as (_ & P). cbn [length] in LT. destruct cap; [|apply IH; [exact P|exact U|lia]]. destruct P as (r & O' & E & R & P). specialize (IH eb (set_open s O') base rest (pend_open _ _ _ _ _ O' P) U ltac:(cbn [set_open s_top]; lia)). change (s_funs (set_open s O')) with (s_funs s) in IH. change (s_top (set_open s O')) with (s_top s) in IH.
    assert (SK : forall x, ev (fun fuel => luaF_close fuel (set_open s O') (restorestack (set_open s O') (base + Z.of_nat (length eb))) LUA_OK) x -> ev (fun fuel => luaF_close fuel s (restorestack s (base + Z.of_nat (length eb))) LUA_OK) x).
    { intros x. apply (close_skip s (UpV (base + Z.of_nat (length (ea ++ eb))) false r) O'); [exact E|cbn [u_idx]; rewrite app_length; lia|cbn; destruct (Z.eqb_spec r 0); [lia|reflexivity]]. }
    destruct (close_ok ea (length (s_funs s))) as [[t n'] o]. destruct o as [v|].
    + destruct IH as (st & s' & E' & IE & H). exists st, s'. split; [apply SK; exact E'|]. split; [exact IE|]. exact H.
    + destruct IH as (s' & E' & F & T & P'). exists s'. split; [apply SK; exact E'|]. split; [exact F|]. split; [exact T|exact P'].
  - destruct P as (EK & G & O' & E & P). cbn [length] in LT. set (i := base + Z.of_nat (length (ea ++ eb))) in *. pose proof (pend_under _ _ _ _ _ U P) as UO. fold i in UO.
    assert (LI : base + Z.of_nat (length eb) <= i) by (unfold i; rewrite app_length; lia).
    assert (LS : i < s_top s) by (unfold i; lia). pose proof (calldef_ok (set_open s O') i k f EK G LS (under_le O' i (s_top s) (Z.lt_le_incl _ _ LS) UO)) as C. change (s_funs (set_open s O')) with (s_funs s) in C. change (s_top (set_open s O')) with (s_top s) in C. destruct (f (length (s_funs s))) as [[t1 n1] r1]. destruct r1 as [vs|v].
    + destruct C as (s1 & EC & F1 & T1). pose proof F1 as (A1 & A2 & A3 & A4 & A5). cbn [set_open s_open] in A2.
      assert (P1 : pend s1 base (ea ++ eb) (s_open s1) rest) by (rewrite A2; apply (pend_frame (set_open s O')); [intros j LJ _; apply A1; lia|exact A4|apply pend_open; exact P]).
      specialize (IH eb s1 base rest P1 U ltac:(lia)). rewrite A5, T1 in IH. destruct (close_ok ea n1) as [[t2 n2] o].
      assert (SK : forall x, ev (fun fuel => luaF_close fuel s1 (restorestack s1 (base + Z.of_nat (length eb))) LUA_OK) x -> ev (fun fuel => luaF_close fuel s (restorestack s (base + Z.of_nat (length eb))) LUA_OK) x) by (intros x H; apply (close_call s i O' _ LUA_OK s1 LUA_OK); [exact E|exact LI|unfold LUA_OK, NOCLOSINGMETH; lia|rewrite EK; reflexivity|exact EC|exact H]).
      destruct o as [v|].
      * destruct IH as (st & s' & E' & IE & H). exists st, s'. split; [apply SK; exact E'|]. split; [exact IE|]. destruct (close_err eb v n2) as [t3 n3]. intros off LO. destruct (H off LO) as (s'' & R & F2 & EO). exists s''. split; [exact R|]. split; [|exact EO].
        cbn [app]. rewrite <- app_assoc. apply (fin_trans s s1 s'' (s_top s) base base (s_open (set_open s O')) rest (Run k VNil :: t1) (t2 ++ t3) n1 n3); [exact F1|exact F2|lia|lia].
      * destruct IH as (s' & E' & F2 & T2 & P2). exists s'. split; [apply SK; exact E'|]. split; [apply (fin_trans s s1 s' (s_top s) (s_top s) (s_top s) (s_open (set_open s O')) (s_open s') (Run k VNil :: t1) t2 n1 n2); [exact F1|exact F2|lia|lia]|]. split; [exact T2|exact P2].
    + destruct C as (st & s1 & EC & IE & H). assert (CE := close_err_app ea eb v n1). destruct (close_err ea v n1) as [t2 n2]. destruct (close_err eb v n2) as [t3 n3] eqn:EB. exists st, s1. split; [apply (close_throw s i O' _ LUA_OK s1 st); [exact E|exact LI|unfold LUA_OK, NOCLOSINGMETH; lia|rewrite EK; reflexivity|exact EC]|]. split; [exact IE|].
      intros off LO. destruct (H off ltac:(lia)) as (s2 & R & F1 & EO). pose proof F1 as (A1 & A2 & A3 & A4 & A5). cbn [set_open s_open] in A2.
      assert (P1 : pend s2 base (ea ++ eb) (s_open s2) rest) by (rewrite A2; apply (pend_frame (set_open s O')); [intros j LJ _; apply A1; lia|exact A4|apply pend_open; exact P]).
      pose proof (close_err_ok (ea ++ eb) s2 base rest st v off P1 U IE EO LO) as CE'. rewrite A5, CE in CE'. destruct CE' as (s'' & R' & F2 & E2). exists s''. split; [apply (reach_trans s'' s2 s1); assumption|]. split; [|exact E2].
      cbn [app]. rewrite <- app_assoc. apply (fin_trans s s2 s'' (s_top s) base base (s_open (set_open s O')) rest (Run k VNil :: t1) (t2 ++ t3) n1 n3); [exact F1|exact F2|lia|lia].
Qed.
(* ---- registers ---- *)
Lemma set_vals_ok : forall vs s i, let s' := set_vals s i vs in (forall j, j < i -> s_stk s' j = s_stk s j) /\ (forall n, (n < length vs)%nat -> s_stk s' (i + Z.of_nat n) = nth n vs VNil) /\
  s_open s' = s_open s /\ s_top s' = s_top s /\ s_gen s' = s_gen s /\ s_funs s' = s_funs s /\ s_log s' = s_log s.
Proof.
  induction vs as [|v vs IH]; intros s i; cbn [set_vals]; cbv zeta in *.
  - repeat split; auto. intros n H. cbn in H. lia.
  - destruct (IH (set_stk s i v) (i + 1)) as (A & B & C). split; [intros j L; rewrite A by lia; apply stk_ne; lia|]. split; [|exact C]. intros [|n] L; cbn [nth].
    + rewrite Z.add_0_r. rewrite A by lia. apply stk_eq.
    + cbn [length] in L. rewrite <- (B n) by lia. f_equal. lia.
Qed.
Lemma get_vals_ok : forall vs s i, (forall n, (n < length vs)%nat -> s_stk s (i + Z.of_nat n) = nth n vs VNil) -> get_vals s i (length vs) = vs.
Proof.
  intros vs s i H. unfold get_vals. apply nth_ext with (d := VNil) (d' := VNil); [rewrite map_length, seq_length; reflexivity|]. intros n L. rewrite map_length, seq_length in L. rewrite <- (H n L). assert (G : nth_error (map (fun j => s_stk s (i + Z.of_nat j)) (seq 0 (length vs))) n = Some (s_stk s (i + Z.of_nat n))) by (rewrite nth_error_map; rewrite (nth_error_nth' (seq 0 (length vs)) 0%nat) by (rewrite seq_length; exact L); rewrite seq_nth by exact L; reflexivity). apply nth_error_nth. exact G.
Qed.
Definition kof (e : entry) : kind := match e with EVal _ c => KVal c | EDef _ _ => KDef end.
Lemma kat_at : forall es i c, kat (map kof es) i = Some (KVal c) -> exists v, at_ es i = Some (EVal v c) /\ (i < length es)%nat.
Proof.
  induction es as [|e es IH]; intros i c E; [discriminate|]. cbn [map kat at_] in *. rewrite map_length in E. cbn [length]. destruct (Nat.eqb_spec i (length es)) as [->|]; [destruct e as [v c'|]; [|discriminate]; injection E as ->; exists v; split; [reflexivity|lia]|]. destruct (IH i c E) as (v & A & L). exists v. split; [exact A|lia].
Qed.
Lemma set_at_len : forall es i e, length (set_at es i e) = length es.
Proof. induction es as [|x es IH]; intros i e; [reflexivity|]. cbn [set_at]. destruct (Nat.eqb i (length es)); cbn [length]; [reflexivity|rewrite IH; reflexivity]. Qed.
Lemma kof_set : forall es i e, map kof (set_at es i e) = kset (map kof es) i (kof e).
Proof. induction es as [|x es IH]; intros i e; [reflexivity|]. cbn [set_at map kset]. rewrite map_length. destruct (Nat.eqb i (length es)); cbn [map]; [reflexivity|rewrite IH; reflexivity]. Qed.
Lemma kset_same : forall ks i k, kat ks i = Some k -> kset ks i k = ks.
Proof. induction ks as [|x ks IH]; intros i k E; [reflexivity|]. cbn [kat kset] in *. destruct (Nat.eqb i (length ks)); [congruence|rewrite IH; auto]. Qed.
Lemma pend_val : forall es s base O rest i v c, pend s base es O rest -> at_ es i = Some (EVal v c) -> s_stk s (base + Z.of_nat i) = v.
Proof.
  induction es as [|e es IH]; intros s base O rest i v c P E; [discriminate|]. cbn [at_] in E. destruct (Nat.eqb_spec i (length es)) as [->|].
  - injection E as ->. cbn [pend] in P. apply P.
  - destruct e as [w [|]|k f]; cbn [pend] in P; [destruct P as (_ & r & O' & _ & _ & P)|destruct P as (_ & P)|destruct P as (_ & _ & O' & _ & P)]; apply (IH _ _ _ _ _ _ _ P E).
Qed.
Lemma pend_setl : forall es s base O rest i v w c, pend s base es O rest -> at_ es i = Some (EVal w c) -> pend (set_stk s (base + Z.of_nat i) v) base (set_at es i (EVal v c)) O rest.
Proof.
  induction es as [|e es IH]; intros s base O rest i v w c P E; [discriminate|]. cbn [at_ set_at] in *. destruct (Nat.eqb_spec i (length es)) as [->|N].
  - injection E as ->. cbn [pend] in *. destruct P as (_ & P). split; [apply stk_eq|].
    assert (FR : forall O', pend s base es O' rest -> pend (set_stk s (base + Z.of_nat (length es)) v) base es O' rest) by (intros O' H; apply (pend_frame s); [intros j L _; apply stk_ne; lia|exists []; rewrite app_nil_r; reflexivity|exact H]).
    destruct c; [destruct P as (r & O' & EO & R & P); exists r, O'; auto|auto].
  - assert (NE : base + Z.of_nat (length es) <> base + Z.of_nat i) by lia. destruct e as [x cap|k f]; cbn [pend] in *; rewrite set_at_len; rewrite stk_ne by exact NE.
    + destruct P as (EX & P). split; [exact EX|]. destruct cap; [destruct P as (r & O' & EO & R & P); exists r, O'; split; [exact EO|]; split; [exact R|]|]; apply (IH _ _ _ _ _ _ _ _ P E).
    + destruct P as (EX & G & O' & EO & P). split; [exact EX|]. split; [exact G|]. exists O'. split; [exact EO|]. apply (IH _ _ _ _ _ _ _ _ P E).
Qed.
Lemma find_head : forall l i f, under l i -> findupval l i f = f (UpV i false 0) :: l.
Proof. intros [|p l] i f U; [reflexivity|]. cbn [findupval]. specialize (U p (or_introl eq_refl)). destruct (Z.leb_spec i (u_idx p)); [lia|reflexivity]. Qed.
Lemma pend_capture : forall es s base O rest i v c, under rest base -> pend s base es O rest -> at_ es i = Some (EVal v c) -> pend s base (set_at es i (EVal v true)) (findupval O (base + Z.of_nat i) incref) rest.
Proof.
  induction es as [|e es IH]; intros s base O rest i v c U P E; [discriminate|]. cbn [at_ set_at] in *. destruct (Nat.eqb_spec i (length es)) as [->|N].
  - injection E as ->. cbn [pend] in *. destruct P as (EX & P). split; [exact EX|]. destruct c.
    + destruct P as (r & O' & -> & R & P). exists (r + 1), O'. split; [|split; [lia|exact P]]. cbn [findupval u_idx u_flags]. destruct (Z.leb_spec (base + Z.of_nat (length es)) (base + Z.of_nat (length es))); [|lia]. rewrite Z.eqb_refl. reflexivity.
    + exists 1, O. split; [rewrite find_head by (apply (pend_under _ _ _ _ _ U P)); reflexivity|]. split; [lia|exact P].
  - assert (LI : (i < length es)%nat) by (clear -E; revert i E; induction es as [|y es IH]; intros i E; [discriminate|]; cbn [at_] in E; cbn [length]; destruct (Nat.eqb_spec i (length es)); [lia|specialize (IH i E); lia]).
    destruct e as [x [|]|k f]; cbn [pend] in *; rewrite set_at_len.
    + destruct P as (EX & r & O' & -> & R & P). split; [exact EX|]. exists r, (findupval O' (base + Z.of_nat i) incref). split; [|split; [exact R|apply (IH _ _ _ _ _ _ _ U P E)]]. cbn [findupval u_idx u_flags]. destruct (Z.leb_spec (base + Z.of_nat i) (base + Z.of_nat (length es))); [|lia]. destruct (Z.eqb_spec (base + Z.of_nat (length es)) (base + Z.of_nat i)); [lia|reflexivity].
    + destruct P as (EX & P). split; [exact EX|]. apply (IH _ _ _ _ _ _ _ U P E).
    + destruct P as (EX & G & O' & -> & P). split; [exact EX|]. split; [exact G|]. exists (findupval O' (base + Z.of_nat i) incref). split; [|apply (IH _ _ _ _ _ _ _ U P E)]. cbn [findupval u_idx u_flags]. destruct (Z.leb_spec (base + Z.of_nat i) (base + Z.of_nat (length es))); [|lia]. rewrite andb_false_r. reflexivity.
Qed.
Lemma raise_ok : forall s st v, is_error st -> errobj (raise s st v) st (message st v) /\ s_open (raise s st v) = s_open s /\ s_funs (raise s st v) = s_funs s /\ s_log (raise s st v) = s_log s /\ forall i, i < s_top s -> s_stk (raise s st v) i = s_stk s i.
Proof.
  intros s st v IE. unfold raise, errobj, message. destruct (st =? LUA_ERRMEM); cbn [orb]; [auto 6|]. destruct (st =? LUA_ERRERR); cbn [orb]; [auto 6|]. cbn [set_top s_top]. replace (s_top s + 1 - 1) with (s_top s) by lia. split; [cbn [set_top s_stk]; apply stk_eq|]. repeat split. intros i L. cbn [set_top s_stk]. apply stk_ne. lia.
Qed.
Lemma close_none : forall es s base rest, pend s base es (s_open s) rest -> under rest base -> Forall (fun e => e <> KDef) (map kof es) -> ev (fun fuel => luaF_close fuel s (restorestack s base) NOCLOSINGMETH) (CDone NOCLOSINGMETH, set_open s rest).
Proof.
  induction es as [|[w cap|k f] es IH]; intros s base rest P U ND; cbn [pend map] in *.
  - assert (E : set_open s rest = s) by (rewrite <- P; destruct s; reflexivity). rewrite E. apply close_nil. rewrite P. exact U.
  - inversion ND as [|? ? _ ND']; subst. destruct P as (_ & P). destruct cap; [|apply IH; assumption]. destruct P as (r & O' & E & R & P). apply (close_skip s (UpV (base + Z.of_nat (length es)) false r) O'); [exact E|cbn; lia|cbn; destruct (Z.eqb_spec r 0); [lia|reflexivity]|]. change (set_open s rest) with (set_open (set_open s O') rest). apply IH; [apply pend_open; exact P|exact U|exact ND'].
  - inversion ND as [|? ? H _]; subst. exfalso. apply H. reflexivity.
Qed.
Lemma pend_drop : forall ea eb s base O rest, pend s base (ea ++ eb) O rest -> Forall (fun e => e = KVal false) (map kof ea) -> pend s base eb O rest.
Proof.
  induction ea as [|[w cap|k f] ea IH]; intros eb s base O rest P F; cbn [app map pend] in *; [exact P| |]; inversion F as [|? ? E F']; subst; [|discriminate]. cbn in E. injection E as ->. destruct P as (_ & P). apply (IH _ _ _ _ _ P F').
Qed.
Lemma close_ok_none : forall ea n, Forall (fun e => e = KVal false) (map kof ea) -> close_ok ea n = ([], n, None).
Proof. induction ea as [|[w cap|k f] ea IH]; intros n F; cbn [map close_ok] in *; [reflexivity| |]; inversion F as [|? ? E F']; subst; [|discriminate]. apply IH. exact F'. Qed.
Lemma post_ext : forall s base rest d F G, (forall fuel, F (S fuel) = G fuel) -> post s base rest d G -> post s base rest d F.
Proof.
  intros s base rest [[t n'] [vs|v]] F G E P; unfold post in *.
  - destruct P as (s' & H & X). exists s'. split; [apply (ev_S _ F G); assumption|exact X].
  - destruct P as (st & s' & H & X). exists st, s'. split; [apply (ev_S _ F G); assumption|exact X].
Qed.
(* a step that keeps what lies under the frame, then the rest *)
Lemma post_step : forall s s1 base b1 r1 rest t1 n1 d F, fin s s1 b1 r1 t1 n1 -> base <= b1 -> post s1 base rest d F -> post s base rest (let '(t, n, r) := d in (t1 ++ t, n, r)) F.
Proof.
  intros s s1 base b1 r1 rest t1 n1 [[t n'] [vs|v]] F FI L P; unfold post in *.
  - destruct P as (s' & H & X). exists s'. split; [exact H|]. apply (fin_trans s s1 s' b1 base base r1 rest t1 t n1 n'); [exact FI|exact X|lia|lia].
  - destruct P as (st & s' & H & IE & X). exists st, s'. split; [exact H|]. split; [exact IE|]. intros off LO. destruct (X off LO) as (s'' & R & FX & EO). exists s''. split; [exact R|]. split; [|exact EO]. apply (fin_trans s s1 s'' b1 base base r1 rest t1 t n1 n'); [exact FI|exact FX|lia|lia].
Qed.
Lemma post_bind : forall s base rest d F (K : nat -> res * st -> outcome (res * st)) x, ev F x -> post s base rest d (fun fuel => K fuel x) -> post s base rest d (fun fuel => bind (F fuel) (K fuel)).
Proof.
  intros s base rest [[t n'] [vs|v]] F K x E P; unfold post in *.
  - destruct P as (s' & H & X). exists s'. split; [apply (ev_bind _ _ F K x); assumption|exact X].
  - destruct P as (st & s' & H & X). exists st, s'. split; [apply (ev_bind _ _ F K x); assumption|exact X].
Qed.
Lemma post_bindc : forall s base rest d F (K : nat -> cres * st -> outcome (res * st)) x, ev F x -> post s base rest d (fun fuel => K fuel x) -> post s base rest d (fun fuel => bind (F fuel) (K fuel)).
Proof.
  intros s base rest [[t n'] [vs|v]] F K x E P; unfold post in *.
  - destruct P as (s' & H & X). exists s'. split; [apply (ev_bind _ _ F K x); assumption|exact X].
  - destruct P as (st & s' & H & X). exists st, s'. split; [apply (ev_bind _ _ F K x); assumption|exact X].
Qed.
Lemma split_es : forall es lev, (lev <= length es)%nat -> es = above es lev ++ below es lev /\ length (below es lev) = lev.
Proof. intros es lev L. unfold above, below. split; [symmetry; apply firstn_skipn|]. rewrite skipn_length. lia. Qed.
Lemma fin_clk : forall s s' b r, s_stk s' = s_stk s -> s_open s' = r -> s_funs s' = s_funs s -> s_log s' = s_log s -> fin s s' b r [] (length (s_funs s)).
Proof. intros s s' b r E1 E2 E3 E4. split; [intros; rewrite E1; reflexivity|]. split; [exact E2|]. split; [rewrite E4, app_nil_r; reflexivity|]. split; [exists []; rewrite E3, app_nil_r; reflexivity|rewrite E3; reflexivity]. Qed.
Lemma exec_ok : forall c es size s base rest, legal (map kof es) size c -> pend s base es (s_open s) rest -> under rest base -> s_top s = base + size -> Z.of_nat (length es) <= size ->
  post s base rest (D c es (length (s_funs s))) (fun fuel => exec fuel s base (length es) size c).
Proof.
  induction c as [vs multi|st v|z k IH|v k IH|i v k IH|i k IH|i k IH|sz f IHf k IHk|st v|cl lev k IH|d sz f IHf k IHk|sz f IHf k IHk|d sz f IHf]; intros es size s base rest L P U T LE; cbn [legal] in L; rewrite ?map_length in L; cbn [D].
  - (* Ret *) set (r0 := base + Z.of_nat (length es)). destruct (set_vals_ok vs s r0) as (A1 & A2 & A3 & A4 & A5 & A6 & A7). set (s0 := set_vals s r0 vs) in *. set (s1 := if multi then set_top s0 (r0 + Z.of_nat (length vs)) else s0).
    assert (B : s_stk s1 = s_stk s0 /\ s_open s1 = s_open s /\ s_funs s1 = s_funs s /\ s_log s1 = s_log s /\ r0 + Z.of_nat (length vs) <= s_top s1 /\ (multi = true -> s_top s1 = r0 + Z.of_nat (length vs))) by (unfold s1; destruct multi; cbn [set_top s_stk s_open s_funs s_log s_top]; repeat split; auto; try discriminate; unfold r0 in *; lia).
    destruct B as (B1 & B2 & B3 & B4 & B5 & B6).
    assert (P1 : pend s1 base (es ++ []) (s_open s1) rest) by (rewrite app_nil_r, B2; apply (pend_frame s); [intros j LJ _; rewrite B1; apply A1; exact LJ|exists []; rewrite app_nil_r; exact B3|exact P]).
    pose proof (close_ok_ok es [] s1 base rest P1 U ltac:(rewrite app_nil_r; unfold r0 in *; lia)) as C. rewrite B3 in C. cbn [length close_err] in C. rewrite Z.add_0_r in C.
    assert (F01 : forall s' b t n, b <= r0 -> fin s1 s' b rest t n -> fin s s' b rest t n) by (intros s' b t n LB (X1 & X2 & X3 & X4 & X5); split; [intros j LJ; rewrite X1 by exact LJ; rewrite B1; apply A1; lia|]; split; [exact X2|]; split; [rewrite X3, B4; reflexivity|]; split; [rewrite <- B3; exact X4|exact X5]).
    destruct (close_ok es (length (s_funs s))) as [[t n'] o]. eapply post_ext; [intros fuel; cbn [Defer_model.exec]; reflexivity|]. cbv zeta. fold r0. fold s0. fold s1. destruct o as [v|].
    + destruct C as (st & s' & E & IE & H). eapply post_bindc; [exact E|]. cbv beta iota. exists st, s'. split; [apply ev_ok|]. split; [exact IE|]. intros off LO. destruct (H off LO) as (s'' & R & F & EO). rewrite app_nil_r in F. exists s''. split; [exact R|]. split; [|exact EO]. apply F01; [unfold r0; lia|exact F].
    + destruct C as (s' & E & F & TT & PP). cbn [pend] in PP. eapply post_bindc; [exact E|]. cbv beta iota. exists s'. assert (GV : get_vals s' r0 (if multi then Z.to_nat (s_top s' - r0) else length vs) = vs).
      { replace (if multi then Z.to_nat (s_top s' - r0) else length vs) with (length vs) by (destruct multi; [rewrite TT, B6 by reflexivity; lia|reflexivity]). apply get_vals_ok. intros n LN. destruct F as (F1 & _). rewrite F1 by lia. rewrite B1. apply A2. exact LN. }
      rewrite GV. split; [apply ev_ok|]. rewrite PP in F. apply F01; [unfold r0; lia|]. apply (fin_weak _ _ (s_top s1)); [unfold r0 in *; lia|exact F].
  - (* Throw *) destruct (raise_ok s st v L) as (R1 & R2 & R3 & R4 & R5). assert (P1 : pend (raise s st v) base es (s_open (raise s st v)) rest) by (rewrite R2; apply (pend_frame s); [intros j LJ _; apply R5; lia|exists []; rewrite app_nil_r; exact R3|exact P]).
    assert (H : forall off, off <= base -> let '(t, n') := close_err es (message st v) (length (s_funs s)) in exists s'', reach s'' (raise s st v) off st /\ fin (raise s st v) s'' base rest t n' /\ errobj s'' st (message st v)) by (intros off LO; pose proof (close_err_ok es _ base rest st _ off P1 U L R1 LO) as C; rewrite R3 in C; exact C).
    destruct (close_err es (message st v) (length (s_funs s))) as [t n']. eapply post_ext; [intros fuel; cbn [Defer_model.exec]; reflexivity|]. exists st, (raise s st v). split; [apply ev_ok|]. split; [exact L|]. intros off LO. destruct (H off LO) as (s'' & R & (X1 & X2 & X3 & X4 & X5) & EO). exists s''. split; [exact R|]. split; [|exact EO]. split; [intros j LJ; rewrite X1 by exact LJ; apply R5; lia|]. split; [exact X2|]. split; [rewrite X3, R4; reflexivity|]. split; [rewrite <- R3; exact X4|exact X5].
  - (* Print *) set (s1 := add_log s (Out z)). assert (P1 : pend s1 base es (s_open s1) rest) by (apply (pend_frame s); [reflexivity|exists []; rewrite app_nil_r; reflexivity|exact P]). pose proof (IH es size s1 base rest L P1 U T LE) as Q. change (s_funs s1) with (s_funs s) in Q.
    assert (FI : fin s s1 base (s_open s) [Out z] (length (s_funs s))) by (split; [reflexivity|]; split; [reflexivity|]; split; [reflexivity|]; split; [exists []; rewrite app_nil_r; reflexivity|reflexivity]).
    eapply post_ext; [intros fuel; cbn [Defer_model.exec]; reflexivity|]. pose proof (post_step s s1 base base (s_open s) rest [Out z] _ _ _ FI (Z.le_refl _) Q) as X. destruct (D k es (length (s_funs s))) as [[t n'] r]. exact X.
  - (* Local *) destruct L as (L1 & L2). set (r0 := base + Z.of_nat (length es)). set (s1 := set_stk s r0 v). assert (P1 : pend s1 base (EVal v false :: es) (s_open s1) rest) by (cbn [pend]; split; [apply stk_eq|]; apply (pend_frame s); [intros j LJ _; apply stk_ne; unfold r0; lia|exists []; rewrite app_nil_r; reflexivity|exact P]).
    pose proof (IH (EVal v false :: es) size s1 base rest L2 P1 U T ltac:(cbn [length]; lia)) as Q. eapply post_ext; [intros fuel; cbn [Defer_model.exec]; reflexivity|]. change (s_funs s1) with (s_funs s) in Q.
    assert (FI : fin s s1 r0 (s_open s) [] (length (s_funs s))) by (split; [intros j LJ; apply stk_ne; lia|]; split; [reflexivity|]; split; [cbn; rewrite app_nil_r; reflexivity|]; split; [exists []; rewrite app_nil_r; reflexivity|reflexivity]).
    pose proof (post_step s s1 base r0 (s_open s) rest [] _ _ _ FI ltac:(unfold r0; lia) Q) as X. destruct (D k (EVal v false :: es) (length (s_funs s))) as [[t n'] r]. exact X.
  - (* SetL *) destruct L as ((c & K) & L). destruct (kat_at _ _ _ K) as (w & A & LI). unfold cap_at. rewrite A. set (s1 := set_stk s (base + Z.of_nat i) v). pose proof (pend_setl es s base (s_open s) rest i v w c P A) as P1. fold s1 in P1.
    assert (L' : legal (map kof (set_at es i (EVal v c))) size k) by (rewrite kof_set; cbn [kof]; rewrite kset_same by exact K; exact L). pose proof (IH (set_at es i (EVal v c)) size s1 base rest L' P1 U T ltac:(rewrite set_at_len; exact LE)) as Q. rewrite set_at_len in Q. change (s_funs s1) with (s_funs s) in Q.
    eapply post_ext; [intros fuel; cbn [Defer_model.exec]; reflexivity|].
    assert (FI : fin s s1 base (s_open s) [] (length (s_funs s))) by (split; [intros j LJ; apply stk_ne; lia|]; split; [reflexivity|]; split; [cbn; rewrite app_nil_r; reflexivity|]; split; [exists []; rewrite app_nil_r; reflexivity|reflexivity]).
    pose proof (post_step s s1 base base (s_open s) rest [] _ _ _ FI (Z.le_refl _) Q) as X. destruct (D k (set_at es i (EVal v c)) (length (s_funs s))) as [[t n'] r]. exact X.
  - (* Get *) destruct L as ((c & K) & L). destruct (kat_at _ _ _ K) as (w & A & LI). unfold val_at. rewrite A. eapply post_ext; [intros fuel; cbn [Defer_model.exec]; reflexivity|]. rewrite (pend_val es s base _ rest i w c P A). apply IH; auto.
  - (* Capture *) destruct L as ((c & K) & L). destruct (kat_at _ _ _ K) as (w & A & LI). unfold val_at. rewrite A. set (s1 := set_open s (findupval (s_open s) (base + Z.of_nat i) incref)). pose proof (pend_capture es s base (s_open s) rest i w c U P A) as P1. assert (P2 : pend s1 base (set_at es i (EVal w true)) (s_open s1) rest) by (apply pend_open; exact P1).
    assert (L' : legal (map kof (set_at es i (EVal w true))) size k) by (rewrite kof_set; exact L). pose proof (IH (set_at es i (EVal w true)) size s1 base rest L' P2 U T ltac:(rewrite set_at_len; exact LE)) as Q. rewrite set_at_len in Q. change (s_funs s1) with (s_funs s) in Q. eapply post_ext; [intros fuel; cbn [Defer_model.exec]; reflexivity|].
    pose proof (post_step s s1 base base (s_open s1) rest [] _ _ _ (fin_clk s s1 base (s_open s1) eq_refl eq_refl eq_refl eq_refl) (Z.le_refl _) Q) as X. destruct (D k (set_at es i (EVal w true)) (length (s_funs s))) as [[t n'] r]. exact X.
  - (* Defer *) destruct L as (L1 & L2 & L3 & L4). set (r0 := base + Z.of_nat (length es)). assert (UO : under (s_open s) r0) by (apply (pend_under _ _ _ _ _ U P)). set (n := length (s_funs s)).
    set (s1 := add_log (add_fun (set_stk (op_defer s r0) r0 (VFun n)) (sz, f)) (Reg n)). assert (O1 : s_open s1 = UpV r0 true 0 :: s_open s) by (cbn [s1 add_log add_fun set_stk s_open]; unfold op_defer; cbn [set_stk set_open s_open]; rewrite find_head by exact UO; reflexivity).
    assert (S1 : forall j, j < r0 -> s_stk s1 j = s_stk s j) by (intros j LJ; cbn [s1 add_log add_fun s_stk]; rewrite stk_ne by lia; unfold op_defer; rewrite stk_ne by lia; reflexivity).
    assert (GD : good s1 n (D f [])).
    { exists sz, f. split; [cbn [s1 add_log add_fun s_funs]; unfold op_defer; cbn [set_stk set_open s_funs]; rewrite nth_error_app2 by (unfold n; lia); unfold n; rewrite Nat.sub_diag; reflexivity|]. split; [exact L2|]. split; [reflexivity|]. intros s' b' r' E' U' T'. apply (IHf [] sz s' b' r'); [exact L3|exact E'|exact U'|exact T'|cbn; lia]. }
    assert (P1 : pend s1 base (EDef n (D f []) :: es) (s_open s1) rest).
    { cbn [pend]. fold r0. split; [cbn [s1 add_log add_fun s_stk]; apply stk_eq|]. split; [exact GD|]. exists (s_open s). split; [exact O1|]. apply (pend_frame s); [intros j LJ _; apply S1; exact LJ|exists [(sz, f)]; reflexivity|exact P]. }
    pose proof (IHk (EDef n (D f []) :: es) size s1 base rest L4 P1 U T ltac:(cbn [length]; lia)) as Q. assert (LF : length (s_funs s1) = S n) by (cbn [s1 add_log add_fun s_funs]; unfold op_defer; cbn [set_stk set_open s_funs]; rewrite app_length; cbn [length]; unfold n; lia). rewrite LF in Q.
    eapply post_ext; [intros fuel; cbn [Defer_model.exec]; reflexivity|].
    assert (FI : fin s s1 r0 (s_open s1) [Reg n] (S n)) by (split; [exact S1|]; split; [reflexivity|]; split; [reflexivity|]; split; [exists [(sz, f)]; reflexivity|exact LF]).
    pose proof (post_step s s1 base r0 (s_open s1) rest [Reg n] _ _ _ FI ltac:(unfold r0; lia) Q) as X. destruct (D k (EDef n (D f []) :: es) (S n)) as [[t n'] r]. exact X.
  - (* DeferErr *) destruct L as (L & L'). set (r0 := base + Z.of_nat (length es)). assert (UO : under (s_open s) r0) by (apply (pend_under _ _ _ _ _ U P)). set (s0 := op_defer s r0). destruct (raise_ok s0 st v L) as (R1 & R2 & R3 & R4 & R5). set (s1 := raise s0 st v) in *.
    assert (O1 : s_open s1 = UpV r0 true 0 :: s_open s) by (rewrite R2; unfold s0, op_defer; cbn [set_stk set_open s_open]; rewrite find_head by exact UO; reflexivity). assert (T0 : s_top s0 = base + size) by exact T.
    assert (S1 : forall j, j < r0 -> s_stk s1 j = s_stk s j) by (intros j LJ; rewrite R5 by (rewrite T0; unfold r0 in *; lia); unfold s0, op_defer; rewrite stk_ne by lia; reflexivity). assert (S2 : s_stk s1 r0 = VNil) by (rewrite R5 by (rewrite T0; unfold r0; lia); unfold s0, op_defer; apply stk_eq).
    set (s2 := set_open s1 (s_open s)). assert (P1 : pend s2 base es (s_open s2) rest) by (apply (pend_frame s); [intros j LJ _; apply S1; exact LJ|exists []; rewrite app_nil_r; exact R3|exact P]).
    assert (H : forall off, off <= base -> let '(t, n') := close_err es (message st v) (length (s_funs s)) in exists s'', reach s'' s2 off st /\ fin s2 s'' base rest t n' /\ errobj s'' st (message st v)) by (intros off LO; pose proof (close_err_ok es s2 base rest st (message st v) off P1 U L R1 LO) as C; change (s_funs s2) with (s_funs s1) in C; rewrite R3 in C; exact C).
    destruct (close_err es (message st v) (length (s_funs s))) as [t n']. eapply post_ext; [intros fuel; cbn [Defer_model.exec]; reflexivity|]. exists st, s1. split; [apply ev_ok|]. split; [exact L|]. intros off LO. destruct (H off LO) as (s'' & R & (X1 & X2 & X3 & X4 & X5) & EO). exists s''. split.
    + intros x HX. apply (close_skip s1 (UpV r0 true 0) (s_open s)); [exact O1|cbn [u_idx]; unfold r0; lia|cbn [u_idx u_ref u_flags]; rewrite S2; apply andb_false_r|]. apply R. exact HX.
    + split; [|exact EO]. split; [intros j LJ; rewrite X1 by exact LJ; apply S1; unfold r0; lia|]. split; [exact X2|]. split; [rewrite X3; change (s_log s2) with (s_log s1); rewrite R4; reflexivity|]. split; [change (s_funs s2) with (s_funs s1) in X4; rewrite R3 in X4; exact X4|exact X5].
  - (* Leave *) destruct L as (LL & NC & L). rewrite <- (map_length kof) in LL. rewrite map_length in LL. destruct (split_es es lev LL) as (ES & LB). rewrite firstn_map in NC. rewrite skipn_map in L. fold (above es lev) in NC. fold (below es lev) in L.
    eapply post_ext; [intros fuel; cbn [Defer_model.exec]; reflexivity|]. rewrite ES in P. destruct cl.
    + pose proof (close_ok_ok (above es lev) (below es lev) s base rest P U ltac:(rewrite <- ES; lia)) as C. rewrite LB in C. destruct (close_ok (above es lev) (length (s_funs s))) as [[t n'] o]. destruct o as [v|].
      * destruct C as (st & s' & E & IE & H). destruct (close_err (below es lev) v n') as [t2 n2]. eapply post_bindc; [exact E|]. cbv beta iota. exists st, s'. split; [apply ev_ok|]. split; [exact IE|exact H].
      * destruct C as (s' & E & F & TT & PP). eapply post_bindc; [exact E|]. cbv beta iota. pose proof (IH (below es lev) size s' base rest L PP U ltac:(lia) ltac:(lia)) as Q. rewrite LB, <- (fin_funs _ _ _ _ _ _ F) in Q. apply (post_step s s' base (s_top s) (s_open s') rest t n' (D k (below es lev) n')); [exact F|lia|exact Q].
    + specialize (NC eq_refl). rewrite (close_ok_none _ _ NC). pose proof (pend_drop _ _ _ _ _ _ P NC) as PD. pose proof (IH (below es lev) size s base rest L PD U T ltac:(lia)) as Q. rewrite LB in Q. destruct (D k (below es lev) (length (s_funs s))) as [[t n'] r]. exact Q.
  - (* Call *) destruct L as (LD & LS & L1 & L2). set (r0 := base + Z.of_nat (length es)). set (func := r0 + d - 1).
    assert (TF : triple0 sz f) by (intros s' b' r' E' U' T'; apply (IHf [] sz s' b' r'); [exact L1|exact E'|exact U'|exact T'|cbn; lia]).
    assert (LF : r0 <= func + 1) by (unfold func; lia). pose proof (docall_ok s func sz f TF (under_le _ r0 (func + 1) LF (pend_under _ _ _ _ _ U P))) as C. unfold post in C. eapply post_ext; [intros fuel; cbn [Defer_model.exec]; reflexivity|]. cbv zeta. fold r0. fold func. destruct (D f [] (length (s_funs s))) as [[t n'] r]. destruct r as [vs|v].
    + destruct C as (s' & E & F). eapply post_bind; [exact E|]. cbv beta iota. pose proof F as (A1 & A2 & A3 & A4 & A5). set (s1 := set_top s' (base + size)).
      assert (P1 : pend s1 base es (s_open s1) rest) by (cbn [s1 set_top s_open]; rewrite A2; apply (pend_frame s); [intros j LJ _; apply A1; unfold func, r0; lia|exact A4|exact P]).
      pose proof (IHk vs es size s1 base rest (L2 vs) P1 U eq_refl LE) as Q. change (s_funs s1) with (s_funs s') in Q. rewrite A5 in Q.
      apply (post_step s s1 base (func + 1) (s_open s) rest t n' (D (k vs) es n')); [exact F|unfold func, r0; lia|exact Q].
    + destruct C as (st & s' & E & IE & H). destruct (close_err es v n') as [t2 n2] eqn:CE. eapply post_bind; [exact E|]. cbv beta iota. exists st, s'. split; [apply ev_ok|]. split; [exact IE|]. intros off LO. destruct (H off ltac:(unfold func, r0; lia)) as (s1 & R & F & EO). pose proof F as (A1 & A2 & A3 & A4 & A5).
      assert (P1 : pend s1 base es (s_open s1) rest) by (rewrite A2; apply (pend_frame s); [intros j LJ _; apply A1; unfold func, r0; lia|exact A4|exact P]).
      pose proof (close_err_ok es s1 base rest st v off P1 U IE EO LO) as C. rewrite A5, CE in C. destruct C as (s'' & R' & F2 & E2). exists s''. split; [apply (reach_trans s'' s1 s'); assumption|]. split; [|exact E2]. apply (fin_trans s s1 s'' (func + 1) base base (s_open s) rest t t2 n' n2); [exact F|exact F2|unfold func, r0; lia|lia].
  - (* PCall *) destruct L as (LS & L1 & L2). set (r0 := base + Z.of_nat (length es)).
    assert (TF : triple0 sz f) by (intros s' b' r' E' U' T'; apply (IHf [] sz s' b' r'); [exact L1|exact E'|exact U'|exact T'|cbn; lia]). set (s0 := set_stk s (r0 + 1) (VData 1)).
    pose proof (pcall_ok s0 (r0 + 2) sz f (r0 + 2) TF (under_le _ r0 (r0 + 2) ltac:(lia) (pend_under _ _ _ _ _ U P)) ltac:(lia)) as C. change (s_funs s0) with (s_funs s) in C. eapply post_ext; [intros fuel; cbn [Defer_model.exec]; reflexivity|]. cbv zeta. fold r0. fold s0. destruct (D f [] (length (s_funs s))) as [[t n'] r]. destruct C as (x & s' & E & F & H). eapply post_bind; [exact E|]. cbv beta iota.
    assert (EX : (match x with RRet vs => inl vs | RErr _ => inr (s_stk s' (s_top s' - 1)) end) = (match r with DRet vs => inl vs | DErr v => inr v end : list value + value)).
    { destruct r as [vs|v]; [destruct H as (-> & _); reflexivity|]. destruct H as (st & -> & _ & V & TT). rewrite TT. replace (r0 + 2 + 1 - 1) with (r0 + 2) by lia. rewrite V. reflexivity. }
    rewrite EX. set (y := match r with DRet vs => inl vs | DErr v => inr v end). pose proof F as (A1 & A2 & A3 & A4 & A5). set (s1 := set_top s' (base + size)).
    assert (P1 : pend s1 base es (s_open s1) rest) by (cbn [s1 set_top s_open]; rewrite A2; apply (pend_frame s); [intros j LJ _; cbn [s1 set_top s_stk]; rewrite A1 by (unfold r0; lia); apply stk_ne; unfold r0; lia|exact A4|exact P]).
    pose proof (IHk y es size s1 base rest (L2 y) P1 U eq_refl LE) as Q. change (s_funs s1) with (s_funs s') in Q. rewrite A5 in Q.
    assert (FI : fin s s1 r0 (s_open s) t n') by (split; [intros j LJ; cbn [s1 set_top s_stk]; rewrite A1 by lia; apply stk_ne; lia|]; split; [exact A2|]; split; [exact A3|]; split; [exact A4|exact A5]).
    apply (post_step s s1 base r0 (s_open s) rest t n' (D (k y) es n')); [exact FI|unfold r0; lia|exact Q].
  - (* Tail *) destruct L as (LD & LS & ND & L). eapply post_ext; [intros fuel; cbn [Defer_model.exec]; reflexivity|]. cbv zeta. set (s1 := may_move (set_top s (base + Z.of_nat (length es) + d))).
    assert (P1 : pend s1 base es (s_open s1) rest) by (apply (pend_frame s); [reflexivity|exists []; rewrite app_nil_r; reflexivity|exact P]). eapply post_bindc; [apply (close_none es s1 base rest P1 U ND)|]. cbv beta iota. set (s2 := set_top (set_open s1 rest) (base + sz)).
    pose proof (IHf [] sz s2 base rest L eq_refl U eq_refl LS) as Q. change (s_funs s2) with (s_funs s) in Q. pose proof (post_step s s2 base base rest rest [] _ _ _ (fin_clk s s2 base rest eq_refl eq_refl eq_refl eq_refl) (Z.le_refl _) Q) as X. cbn [length] in X. destruct (D f [] (length (s_funs s))) as [[t n'] r]. exact X.
Qed.
(* ---- lua_resetthread ---- *)
Lemma legal_triple : forall sz c, 0 <= sz -> legal [] sz c -> triple0 sz c.
Proof. intros sz c SZ L s base rest E U T. apply (exec_ok c [] sz s base rest L E U T). cbn. lia. Qed.
Lemma stopped_pend : forall es s base O rest, stopped s base es O rest -> pend s base es O rest.
Proof.
  induction es as [|[v [|]|k f] es IH]; intros s base O rest H; cbn [stopped pend] in *; [exact H| | |].
  - destruct H as (E & r & O' & EO & R & H). split; [exact E|]. exists r, O'. auto.
  - destruct H as (E & H). auto.
  - destruct H as (E & (sz & c & N & SZ & L & F) & O' & EO & H). split; [exact E|]. split; [exists sz, c; auto using legal_triple|]. exists O'. auto.
Qed.
Lemma calldef_protect : forall s uv k f, s_stk s uv = VFun k -> good s k f -> under (s_open s) (uv + 1) ->
  let '(t, n', r) := f (length (s_funs s)) in
  exists st s', ev (fun fuel => calldeferredfunction fuel s uv CLOSEPROTECT) (CDone st, s') /\ fin s s' (uv + 1) (s_open s) (Run k VNil :: t) n' /\
  match r with DRet _ => st = CLOSEPROTECT | DErr v => is_error st /\ errobj s' st v end.
Proof.
  intros s uv k f EK (sz & c & N & SZ & -> & T) U. set (s1 := set_top (set_stk s (uv + 1) VNil) (uv + 1 + 1)). set (s2 := set_top (set_stk (set_stk s1 (uv + 2) (VFun k)) (uv + 2 + 1) VNil) (uv + 2 + 2)). set (s3 := add_log s2 (Run k VNil)).
  assert (O3 : s_open s3 = s_open s) by reflexivity. assert (F3 : s_funs s3 = s_funs s) by reflexivity.
  pose proof (docall_ok s3 (uv + 2) sz c T) as P. rewrite O3, F3 in P. assert (U2 : under (s_open s) (uv + 2 + 1)) by (apply (under_le _ (uv + 1)); [lia|exact U]). specialize (P U2).
  assert (S3 : forall i, i < uv + 1 -> s_stk s3 i = s_stk s i) by (intros i L; cbn [s3 add_log s2 set_top s_stk]; rewrite !stk_ne by lia; cbn [s1 set_top s_stk]; rewrite stk_ne by lia; reflexivity).
  assert (FF : forall s' b t n, uv + 1 <= b -> fin s3 s' b (s_open s) t n -> fin s s' (uv + 1) (s_open s) (Run k VNil :: t) n).
  { intros s' b t n LB (A1 & A2 & A3 & A4 & A5). split; [intros i L; rewrite A1 by lia; apply S3; exact L|]. split; [exact A2|]. split; [rewrite A3; cbn [s3 add_log s_log]; rewrite <- app_assoc; reflexivity|]. split; [exact A4|exact A5]. }
  assert (STEP : forall x, ev (fun fuel => bind (luaD_pcall fuel s3 (uv + 2) sz c (uv + 2)) (fun '(r, s) => match r with RErr ns => Ok (CDone ns, s) | RRet _ => Ok (CDone CLOSEPROTECT, set_top s (uv + 2)) end)) x -> ev (fun fuel => calldeferredfunction fuel s uv CLOSEPROTECT) x).
  { intros x H. eapply ev_S; [intros fuel; cbn [Defer_model.exec Defer_model.docall Defer_model.luaF_close Defer_model.calldeferredfunction Defer_model.luaD_pcall]; reflexivity|]; cbv beta. change (CLOSEPROTECT =? LUA_OK) with false. cbv iota zeta. unfold luaD_seterrorobj, wr, restorestack. cbn [fst snd]. rewrite Z.eqb_refl. change (CLOSEPROTECT =? LUA_ERRMEM) with false. change (CLOSEPROTECT =? LUA_ERRERR) with false. change (CLOSEPROTECT =? CLOSEPROTECT) with true. cbv iota. cbn [bind]. fold s1. replace (s_top s1) with (uv + 2) by (cbn; lia).
    replace (s_stk s1 uv) with (VFun k) by (cbn [s1 set_top s_stk]; rewrite stk_ne by lia; auto). replace (s_stk s1 (uv + 1)) with VNil by (cbn [s1 set_top s_stk]; rewrite stk_eq; reflexivity). fold s2.
    unfold calldeferred. replace (s_stk s2 (uv + 2)) with (VFun k) by (cbn [s2 set_top s_stk]; rewrite stk_ne by lia; rewrite stk_eq; reflexivity). change (s_funs s2) with (s_funs s). rewrite N. replace (s_stk s2 (uv + 2 + 1)) with VNil by (cbn [s2 set_top s_stk]; rewrite stk_eq; reflexivity). fold s3. cbn [bind]. replace (uv + 1 + 1) with (uv + 2) by lia. exact H. }
  pose proof (pcall_ok s3 (uv + 2) sz c (uv + 2) T) as Q. rewrite O3, F3 in Q. assert (U3 : under (s_open s) (uv + 2)) by (apply (under_le _ (uv + 1)); [lia|exact U]). specialize (Q U3 ltac:(lia)). destruct (D c [] (length (s_funs s))) as [[t n'] r]. destruct Q as (x & s' & E & F & H). destruct r as [vs|v].
  - destruct H as (-> & TT). exists CLOSEPROTECT, (set_top s' (uv + 2)). split; [apply STEP; eapply ev_bind; [exact E|]; cbv beta iota; apply ev_ok|]. split; [apply (FF (set_top s' (uv + 2)) (uv + 2)); [lia|exact F]|reflexivity].
  - destruct H as (st & -> & IE & V & TT). exists st, s'. split; [apply STEP; eapply ev_bind; [exact E|]; cbv beta iota; apply ev_ok|]. split; [apply (FF s' (uv + 2)); [lia|exact F]|]. split; [exact IE|]. unfold errobj. rewrite TT. replace (uv + 2 + 1 - 1) with (uv + 2) by lia. rewrite V.
    (* the message at old_top was set by luaD_seterrorobj *) clear -P IE V E F U3. unfold post in P. destruct P as (st' & s1' & E' & IE' & H). destruct (H (uv + 2) ltac:(lia)) as (s'' & R & FX & EO).
    assert (X : ev (fun fuel => luaD_pcall fuel s3 (uv + 2) sz c (uv + 2)) (RErr st', may_move (set_top (set_stk s'' (uv + 2) v) (uv + 2 + 1)))).
    { eapply ev_S; [intros fuel; cbn [Defer_model.exec Defer_model.docall Defer_model.luaF_close Defer_model.calldeferredfunction Defer_model.luaD_pcall]; reflexivity|]; cbv beta. eapply ev_bind; [exact E'|]. cbv beta iota zeta. eapply ev_bind; [apply R; apply close_nil; destruct FX as (_ & FO & _); destruct F as (_ & F0 & _); rewrite FO; exact U3|]. cbv beta iota zeta. rewrite (seterr_ok s'' st' (uv + 2) v IE' EO). cbn [bind]. apply ev_ok. }
    destruct E as (N1 & E). destruct X as (N2 & X). specialize (E (N1 + N2)%nat ltac:(lia)). specialize (X (N1 + N2)%nat ltac:(lia)). rewrite E in X. injection X as -> _. apply (errobj_msg s'' st' v EO).
Qed.
Lemma close_protect : forall es s base off, pend s base es (s_open s) [] -> off <= base ->
  let '(t, n', o) := close_ok es (length (s_funs s)) in
  exists st s', ev (fun fuel => luaF_close fuel s (restorestack s off) CLOSEPROTECT) (CDone st, s') /\ fin s s' base [] t n' /\
  match o with None => st = CLOSEPROTECT | Some v => is_error st /\ errobj s' st v end.
Proof.
  assert (UN : forall b, under [] b) by (intros b u []).
  induction es as [|[w cap|k f] es IH]; intros s base off P L; cbn [pend close_ok] in *.
  - exists CLOSEPROTECT, s. split; [apply close_nil; rewrite P; apply UN|]. split; [apply fin_refl; exact P|reflexivity].
  - destruct P as (_ & P). destruct cap; [|apply IH; assumption]. destruct P as (r & O' & E & R & P). specialize (IH (set_open s O') base off (pend_open _ _ _ _ _ O' P) L). change (s_funs (set_open s O')) with (s_funs s) in IH. destruct (close_ok es (length (s_funs s))) as [[t n'] o]. destruct IH as (st & s' & E' & X). exists st, s'. split; [|exact X].
    apply (close_skip s (UpV (base + Z.of_nat (length es)) false r) O'); [exact E|cbn; lia|cbn; destruct (Z.eqb_spec r 0); [lia|reflexivity]|exact E'].
  - destruct P as (EK & G & O' & E & P). set (i := base + Z.of_nat (length es)) in *. pose proof (pend_under _ _ _ _ _ (UN base) P) as UO. fold i in UO.
    pose proof (calldef_protect (set_open s O') i k f EK G (under_le O' i (i + 1) ltac:(lia) UO)) as C. change (s_funs (set_open s O')) with (s_funs s) in C. destruct (f (length (s_funs s))) as [[t1 n1] r1]. destruct C as (st1 & s1 & EC & F1 & X1). pose proof F1 as (A1 & A2 & A3 & A4 & A5). cbn [set_open s_open] in A2.
    assert (P1 : pend s1 base es (s_open s1) []) by (rewrite A2; apply (pend_frame (set_open s O')); [intros j LJ _; apply A1; unfold i; lia|exact A4|apply pend_open; exact P]).
    assert (SK : forall x, ev (fun fuel => luaF_close fuel s1 (restorestack s1 off) st1) x -> ev (fun fuel => luaF_close fuel s (restorestack s off) CLOSEPROTECT) x) by (intros x H; apply (close_call s i O' off CLOSEPROTECT s1 st1); [exact E|unfold i; lia|unfold CLOSEPROTECT, NOCLOSINGMETH; lia|rewrite EK; reflexivity|exact EC|exact H]).
    assert (FT : forall s' t2 n2, fin s1 s' base [] t2 n2 -> fin s s' base [] (Run k VNil :: t1 ++ t2) n2) by (intros s' t2 n2 F2; change (Run k VNil :: t1 ++ t2) with ((Run k VNil :: t1) ++ t2); apply (fin_trans s s1 s' (i + 1) base base (s_open (set_open s O')) [] (Run k VNil :: t1) t2 n1 n2); [exact F1|exact F2|unfold i; lia|lia]).
    destruct r1 as [vs|v].
    + subst st1. specialize (IH s1 base off P1 L). rewrite A5 in IH. destruct (close_ok es n1) as [[t2 n2] o]. destruct IH as (st & s' & E' & F2 & X). exists st, s'. split; [apply SK; exact E'|]. split; [apply FT; exact F2|exact X].
    + destruct X1 as (IE & EO). pose proof (close_err_ok es s1 base [] st1 v off P1 (UN base) IE EO L) as C. rewrite A5 in C. destruct (close_err es v n1) as [t2 n2]. destruct C as (s'' & R & F2 & EO2). exists st1, s''. split; [apply SK; apply R; apply close_nil; destruct F2 as (_ & -> & _); apply UN|]. split; [apply FT; exact F2|split; assumption].
Qed.
End PROOF.

(* ---- the theorems ---- *)
Lemma refines : forall moves sz c s func old, 0 <= sz -> legal [] sz c -> (forall u, In u (s_open s) -> u_idx u < old) -> old <= func + 1 ->
  let '(t, n', r) := D c [] (length (s_funs s)) in
  exists x s', (exists N, forall fuel, (N <= fuel)%nat -> luaD_pcall moves fuel s func sz c old = Ok (x, s')) /\
  s_log s' = s_log s ++ t /\ s_open s' = s_open s /\ (forall i, i < old -> s_stk s' i = s_stk s i) /\ length (s_funs s') = n' /\
  match r with DRet vs => x = RRet vs | DErr v => exists status, x = RErr status /\ is_error status /\ s_stk s' old = v /\ s_top s' = old + 1 end.
Proof.
  intros moves sz c s func old SZ L U LO. pose proof (pcall_ok moves s func sz c old (legal_triple moves sz c SZ L) U LO) as P. destruct (D c [] (length (s_funs s))) as [[t n'] r]. destruct P as (x & s' & E & (F1 & F2 & F3 & F4 & F5) & H). exists x, s'. repeat (split; [assumption|]). destruct r; [apply H|exact H].
Qed.
Lemma reset_ok : forall moves es s, stopped s 1 es (s_open s) [] ->
  let '(t, n', o) := close_ok es (length (s_funs s)) in
  exists status s', (exists N, forall fuel, (N <= fuel)%nat -> lua_resetthread moves fuel s = Ok (status, s')) /\ s_log s' = s_log s ++ t /\ s_open s' = [] /\ s_stk s' 0 = VNil /\
  match o with None => status = LUA_OK /\ s_top s' = 1 | Some v => is_error status /\ s_stk s' 1 = v /\ s_top s' = 2 end.
Proof.
  intros moves es s H. apply (stopped_pend moves) in H. set (s0 := set_stk s 0 VNil). assert (P : pend moves s0 1 es (s_open s0) []) by (apply (pend_frame moves s); [intros i _ L; apply stk_ne; lia|exists []; rewrite app_nil_r; reflexivity|exact H]).
  pose proof (close_protect moves es s0 1 0 P ltac:(lia)) as C. change (s_funs s0) with (s_funs s) in C. destruct (close_ok es (length (s_funs s))) as [[t n'] o]. destruct C as (st & s' & (N & E) & (F1 & F2 & F3 & F4 & F5) & X). assert (Z0 : s_stk s' 0 = VNil) by (rewrite F1 by lia; apply stk_eq). destruct o as [v|].
  - destruct X as (IE & EO). exists st, (set_top (set_stk s' 1 v) (1 + 1)). split; [|split; [exact F3|split; [exact F2|split; [cbn [set_top s_stk]; rewrite stk_ne by lia; exact Z0|split; [exact IE|split; [cbn [set_top s_stk]; apply stk_eq|reflexivity]]]]]].
    exists N. intros fuel LF. unfold lua_resetthread. fold s0. cbv zeta. rewrite (E fuel LF). cbn [bind]. destruct (Z.eqb_spec st CLOSEPROTECT) as [EQ|]; [unfold is_error, CLOSEPROTECT in *; lia|]. cbn [negb]. rewrite (seterr_ok s' st 1 v IE EO). reflexivity.
  - subst st. exists LUA_OK, (set_top s' 1). split; [|split; [exact F3|split; [exact F2|split; [exact Z0|split; reflexivity]]]]. exists N. intros fuel LF. unfold lua_resetthread. fold s0. cbv zeta. rewrite (E fuel LF). reflexivity.
Qed.
Lemma recover_ok : forall moves es s base rest status v, stopped s base es (s_open s) rest -> (forall u, In u rest -> u_idx u < base) -> is_error status -> message status (s_stk s (s_top s - 1)) = v ->
  let '(t, n') := close_err es v (length (s_funs s)) in
  exists s1, (exists N, forall fuel, (N <= fuel)%nat -> luaF_close moves fuel s (restorestack s base) status = Ok (CDone status, s1)) /\
  (s_gen s1 <> s_gen s -> exists N, forall fuel, (N <= fuel)%nat -> recover moves fuel s status base = UB) /\
  (s_gen s1 = s_gen s -> exists s', (exists N, forall fuel, (N <= fuel)%nat -> recover moves fuel s status base = Ok s') /\
    s_log s' = s_log s ++ t /\ s_open s' = rest /\ (forall i, i < base -> s_stk s' i = s_stk s i) /\ s_stk s' base = v /\ s_top s' = base + 1).
Proof.
  intros moves es s base rest status v H U IE EO. apply (stopped_pend moves) in H. pose proof (close_err_ok moves es s base rest status v base H U IE EO (Z.le_refl _)) as C. destruct (close_err es v (length (s_funs s))) as [t n']. destruct C as (s1 & R & (F1 & F2 & F3 & F4 & F5) & EO1).
  assert (CL : ev (fun fuel => luaF_close moves fuel s (restorestack s base) status) (CDone status, s1)) by (apply R; apply close_nil; rewrite F2; exact U). destruct CL as (N & E). exists s1. split; [exists N; exact E|]. split.
  - intros NG. exists N. intros fuel LF. unfold recover. cbv zeta. rewrite (E fuel LF). cbn [bind]. unfold luaD_seterrorobj, wr, restorestack. cbn [fst]. destruct (Z.eqb_spec (s_gen s) (s_gen s1)); [congruence|reflexivity].
  - intros EG. exists (may_move moves (set_top (set_stk s1 base v) (base + 1))). split; [exists N; intros fuel LF; unfold recover; cbv zeta; rewrite (E fuel LF); cbn [bind]; replace (restorestack s base) with (restorestack s1 base) by (unfold restorestack; rewrite EG; reflexivity); rewrite (seterr_ok s1 status base v IE EO1); reflexivity|].
    split; [exact F3|]. split; [exact F2|]. split; [intros i LI; cbn [may_move set_top s_stk]; rewrite stk_ne by lia; apply F1; lia|]. split; [cbn [may_move set_top s_stk]; apply stk_eq|reflexivity].
Qed.

Lemma check_app : forall t1 t2 p, check p (t1 ++ t2) = match check p t1 with Some q => check q t2 | None => None end.
Proof. induction t1 as [|[k|k a|z] t1 IH]; intros t2 p; cbn [app check]; [reflexivity|apply IH| |apply IH]. destruct p as [|k' p]; [reflexivity|]. destruct (Nat.eqb k k'); [apply IH|reflexivity]. Qed.
Lemma registered_app : forall a b, registered (a ++ b) = registered a ++ registered b. Proof. intros. apply flat_map_app. Qed.
Lemma seq_join : forall a b c, (a <= b)%nat -> (b <= c)%nat -> seq a (b - a) ++ seq b (c - b) = seq a (c - a).
Proof. intros a b c L1 L2. replace (c - a)%nat with ((b - a) + (c - b))%nat by lia. rewrite seq_app. replace (a + (b - a))%nat with b by lia. reflexivity. Qed.
Definition wf (n : nat) (t : list event) (n' : nat) : Prop := registered t = seq n (n' - n) /\ (n <= n')%nat.
Definition bal (f : den) : Prop := forall n, let '(t, n', _) := f n in (forall p, check p t = Some p) /\ wf n t n'.
Definition balE (e : entry) : Prop := match e with EVal _ _ => True | EDef _ f => bal f end.
Lemma wf_app : forall n t n' t' n'', wf n t n' -> wf n' t' n'' -> wf n (t ++ t') n''.
Proof. intros n t n' t' n'' (A & L) (B & M). split; [|lia]. rewrite registered_app, A, B. apply seq_join; lia. Qed.
Lemma wf_nil : forall n, wf n [] n. Proof. intros. split; [rewrite Nat.sub_diag; reflexivity|lia]. Qed.
Lemma wf_reg : forall n t n', wf (S n) t n' -> wf n (Reg n :: t) n'.
Proof. intros n t n' (A & L). split; [|lia]. change (registered (Reg n :: t)) with (n :: registered t). rewrite A. replace (n' - n)%nat with (S (n' - S n)) by lia. reflexivity. Qed.
Lemma close_err_bal : forall es v n, Forall balE es -> let '(t, n') := close_err es v n in (forall p, check (ids es ++ p) t = Some p) /\ wf n t n'.
Proof.
  induction es as [|[w cap|k f] es IH]; intros v n B; cbn [close_err].
  - split; [reflexivity|apply wf_nil].
  - inversion B; subst. apply IH. assumption.
  - inversion B as [|? ? BF B']; subst. specialize (BF n). destruct (f n) as [[t1 n1] r1]. destruct BF as (C1 & W1). specialize (IH v n1 B'). destruct (close_err es v n1) as [t2 n2]. destruct IH as (C2 & W2). split; [|apply (wf_app n t1 n1); assumption]. intros p. cbn [ids flat_map app check]. rewrite Nat.eqb_refl. rewrite check_app, C1. apply C2.
Qed.
Lemma close_ok_bal : forall es n, Forall balE es -> let '(t, n', _) := close_ok es n in (forall p, check (ids es ++ p) t = Some p) /\ wf n t n'.
Proof.
  induction es as [|[w cap|k f] es IH]; intros n B; cbn [close_ok].
  - split; [reflexivity|apply wf_nil].
  - inversion B; subst. apply IH. assumption.
  - inversion B as [|? ? BF B']; subst. specialize (BF n). destruct (f n) as [[t1 n1] r1]. destruct BF as (C1 & W1). destruct r1 as [vs|v].
    + specialize (IH n1 B'). destruct (close_ok es n1) as [[t2 n2] o]. destruct IH as (C2 & W2). split; [|apply (wf_app n t1 n1); assumption]. intros p. cbn [ids flat_map app check]. rewrite Nat.eqb_refl. rewrite check_app, C1. apply C2.
    + pose proof (close_err_bal es v n1 B') as H. destruct (close_err es v n1) as [t2 n2]. destruct H as (C2 & W2). split; [|apply (wf_app n t1 n1); assumption]. intros p. cbn [ids flat_map app check]. rewrite Nat.eqb_refl. rewrite check_app, C1. apply C2.
Qed.
Lemma ids_app : forall a b, ids (a ++ b) = ids a ++ ids b. Proof. intros. apply flat_map_app. Qed.
Lemma set_at_bal : forall es i v c w d, at_ es i = Some (EVal w d) -> Forall balE es -> ids (set_at es i (EVal v c)) = ids es /\ Forall balE (set_at es i (EVal v c)).
Proof.
  induction es as [|e es IH]; intros i v c w d A B; [discriminate|]. cbn [at_ set_at] in *. inversion B as [|? ? B1 B2]; subst. destruct (Nat.eqb i (length es)).
  - injection A as ->. split; [reflexivity|constructor; [exact I|exact B2]].
  - destruct (IH i v c w d A B2) as (E & F). split; [|constructor; assumption]. destruct e; cbn [ids flat_map]; unfold ids in E; rewrite E; reflexivity.
Qed.
Lemma no_def : forall es, Forall (fun e => e <> KDef) (map kof es) -> ids es = [].
Proof. induction es as [|[w cap|k f] es IH]; intros F; cbn [map] in F; inversion F as [|? ? H F']; subst; [reflexivity|apply IH; exact F'|]. exfalso. apply H. reflexivity. Qed.
Lemma D_bal : forall c es size n, legal (map kof es) size c -> Forall balE es -> let '(t, n', _) := D c es n in (forall p, check (ids es ++ p) t = Some p) /\ wf n t n'.
Proof.
  induction c as [vs multi|st v|z k IH|v k IH|i v k IH|i k IH|i k IH|sz f IHf k IHk|st v|cl lev k IH|d sz f IHf k IHk|sz f IHf k IHk|d sz f IHf]; intros es size n L B; cbn [legal] in L; rewrite ?map_length in L; cbn [D].
  - pose proof (close_ok_bal es n B) as H. destruct (close_ok es n) as [[t n'] o]. exact H.
  - pose proof (close_err_bal es (message st v) n B) as H. destruct (close_err es (message st v) n) as [t n']. exact H.
  - pose proof (IH es size n L B) as H. destruct (D k es n) as [[t n'] r]. exact H.
  - destruct L as (_ & L). pose proof (IH (EVal v false :: es) size n L (Forall_cons (EVal v false) I B)) as H. destruct (D k (EVal v false :: es) n) as [[t n'] r]. exact H.
  - destruct L as ((c & K) & L). destruct (kat_at _ _ _ K) as (w & A & _). unfold cap_at. rewrite A. destruct (set_at_bal es i v c w c A B) as (E & B'). assert (L' : legal (map kof (set_at es i (EVal v c))) size k) by (rewrite kof_set; cbn [kof]; rewrite kset_same by exact K; exact L). pose proof (IH _ size n L' B') as H. rewrite E in H. destruct (D k (set_at es i (EVal v c)) n) as [[t n'] r]. exact H.
  - destruct L as (_ & L). apply (IH _ es size n (L _) B).
  - destruct L as ((c & K) & L). destruct (kat_at _ _ _ K) as (w & A & _). unfold val_at. rewrite A. destruct (set_at_bal es i w true w c A B) as (E & B'). assert (L' : legal (map kof (set_at es i (EVal w true))) size k) by (rewrite kof_set; exact L). pose proof (IH _ size n L' B') as H. rewrite E in H. destruct (D k (set_at es i (EVal w true)) n) as [[t n'] r]. exact H.
  - destruct L as (_ & _ & L1 & L2). assert (BF : bal (D f [])) by (intros m; pose proof (IHf [] sz m L1 (Forall_nil _)) as H; destruct (D f [] m) as [[t n'] r]; exact H). pose proof (IHk (EDef n (D f []) :: es) size (S n) L2 (Forall_cons (EDef n (D f [])) BF B)) as H. destruct (D k (EDef n (D f []) :: es) (S n)) as [[t n'] r]. destruct H as (C & W). split; [exact C|apply wf_reg; exact W].
  - pose proof (close_err_bal es (message st v) n B) as H. destruct (close_err es (message st v) n) as [t n']. exact H.
  - destruct L as (LL & _ & L). destruct (split_es es lev LL) as (ES & _). rewrite skipn_map in L. fold (below es lev) in L. assert (BA : Forall balE (above es lev) /\ Forall balE (below es lev)) by (apply Forall_app; rewrite <- ES; exact B). destruct BA as (BA & BB). pose proof (close_ok_bal (above es lev) n BA) as H. assert (EI : ids es = ids (above es lev) ++ ids (below es lev)) by (rewrite <- ids_app, <- ES; reflexivity). rewrite EI. destruct (close_ok (above es lev) n) as [[t n1] o]. destruct H as (C1 & W1). destruct o as [v|].
    + pose proof (close_err_bal (below es lev) v n1 BB) as H. destruct (close_err (below es lev) v n1) as [t2 n2]. destruct H as (C2 & W2). split; [|apply (wf_app n t n1); assumption]. intros p. rewrite check_app, <- app_assoc, C1. apply C2.
    + pose proof (IH (below es lev) size n1 L BB) as H. destruct (D k (below es lev) n1) as [[t2 n2] r]. destruct H as (C2 & W2). split; [|apply (wf_app n t n1); assumption]. intros p. rewrite check_app, <- app_assoc, C1. apply C2.
  - destruct L as (_ & _ & L1 & L2). pose proof (IHf [] sz n L1 (Forall_nil _)) as H. destruct (D f [] n) as [[t n1] r]. destruct H as (C1 & W1). destruct r as [vs|v].
    + pose proof (IHk vs es size n1 (L2 vs) B) as H. destruct (D (k vs) es n1) as [[t2 n2] r2]. destruct H as (C2 & W2). split; [|apply (wf_app n t n1); assumption]. intros p. rewrite check_app. pose proof (C1 (ids es ++ p)) as X. cbn [ids flat_map app] in X. rewrite X. apply C2.
    + pose proof (close_err_bal es v n1 B) as H. destruct (close_err es v n1) as [t2 n2]. destruct H as (C2 & W2). split; [|apply (wf_app n t n1); assumption]. intros p. rewrite check_app. pose proof (C1 (ids es ++ p)) as X. cbn [ids flat_map app] in X. rewrite X. apply C2.
  - destruct L as (_ & L1 & L2). pose proof (IHf [] sz n L1 (Forall_nil _)) as H. destruct (D f [] n) as [[t n1] r]. destruct H as (C1 & W1). set (y := match r with DRet vs => inl vs | DErr v => inr v end). pose proof (IHk y es size n1 (L2 y) B) as H. destruct (D (k y) es n1) as [[t2 n2] r2]. destruct H as (C2 & W2). split; [|apply (wf_app n t n1); assumption]. intros p. rewrite check_app. pose proof (C1 (ids es ++ p)) as X. cbn [ids flat_map app] in X. rewrite X. apply C2.
  - destruct L as (_ & _ & ND & L). pose proof (IHf [] sz n L (Forall_nil _)) as H. destruct (D f [] n) as [[t n1] r]. rewrite (no_def es ND). exact H.
Qed.
Lemma check_perm : forall t p q, check p t = Some q -> Permutation (registered t ++ p) (ran t ++ q).
Proof.
  induction t as [|[k|k a|z] t IH]; intros p q C; cbn [check] in C.
  - injection C as <-. apply Permutation_refl.
  - change (registered (Reg k :: t)) with (k :: registered t). change (ran (Reg k :: t)) with (ran t). rewrite <- (IH _ _ C). apply Permutation_middle.
  - destruct p as [|k' p]; [discriminate|]. destruct (Nat.eqb_spec k k') as [<-|]; [|discriminate]. change (registered (Run k a :: t)) with (registered t). change (ran (Run k a :: t)) with (k :: ran t). rewrite <- (Permutation_middle (registered t) p k). cbn [app]. constructor. apply IH. exact C.
  - apply IH. exact C.
Qed.
Lemma balanced : forall c size n, legal [] size c -> let '(t, n', _) := D c [] n in
  check [] t = Some [] /\ (n <= n')%nat /\ registered t = seq n (n' - n) /\ Permutation.Permutation (ran t) (seq n (n' - n)) /\ NoDup (ran t).
Proof.
  intros c size n L. pose proof (D_bal c [] size n L (Forall_nil _)) as H. destruct (D c [] n) as [[t n'] r]. destruct H as (C & W1 & W2). specialize (C []). cbn [ids flat_map app] in C. pose proof (check_perm _ _ _ C) as P. rewrite !app_nil_r, W1 in P. repeat split; [exact C|exact W2|exact W1|apply Permutation_sym; exact P|]. apply (Permutation_NoDup P). apply seq_NoDup.
Qed.
Lemma stopped_bal : forall es s base O rest, stopped s base es O rest -> Forall balE es.
Proof.
  induction es as [|[v [|]|k f] es IH]; intros s base O rest H; cbn [stopped] in H; constructor; try exact I.
  - destruct H as (_ & r & O' & _ & _ & H). apply (IH _ _ _ _ H).
  - destruct H as (_ & H). apply (IH _ _ _ _ H).
  - destruct H as (_ & (sz & c & _ & _ & L & ->) & _). intros n. pose proof (D_bal c [] sz n L (Forall_nil _)) as H. destruct (D c [] n) as [[t n'] r]. exact H.
  - destruct H as (_ & _ & O' & _ & H). apply (IH _ _ _ _ H).
Qed.
Lemma reset_all : forall moves es s, stopped s 1 es (s_open s) [] ->
  exists status s' t, (exists N, forall fuel, (N <= fuel)%nat -> lua_resetthread moves fuel s = Ok (status, s')) /\ s_log s' = s_log s ++ t /\ check (ids es) t = Some [].
Proof.
  intros moves es s H. pose proof (reset_ok moves es s H) as R. pose proof (close_ok_bal es (length (s_funs s)) (stopped_bal _ _ _ _ _ H)) as B. destruct (close_ok es (length (s_funs s))) as [[t n'] o]. destruct R as (status & s' & E & F & _). destruct B as (C & _). exists status, s', t. split; [exact E|]. split; [exact F|]. specialize (C []). rewrite app_nil_r in C. exact C.
Qed.
Definition coro : code := Defer 1 (Print 7 (Ret [] false)) (Throw 2 (VData 5)).
Definition fresh_thread : st := St (fun _ => VNil) [] 2 0 0 [] [].
Lemma coroutine : ~ (forall moves size c s x s' s'' fuel, 0 <= size -> legal [] size c -> s_open s = [] -> s_log s = [] -> resume moves fuel s size c = Ok (x, s') -> luaE_freethread moves fuel s' = Ok s'' -> check [] (s_log s'') = Some []).
Proof.
  intros H. specialize (H (fun _ => false) 2 coro fresh_thread). eassert (E : resume (fun _ => false) 20 fresh_thread 2 coro = Ok (_, _)) by reflexivity. assert (L : legal [] 2 coro) by (cbn; unfold is_error; repeat split; lia).
  specialize (H _ _ _ 20%nat ltac:(lia) L eq_refl eq_refl E eq_refl). discriminate.
Qed.
Definition halted : st := St (fun i => if i =? 5 then VFun 0 else if i =? 9 then VData 33 else VNil) [UpV 5 true 0; UpV 2 false 1] 10 0 0 [(1, Print 7 (Ret [] false))] [Reg 0].
Lemma halted_ok : stopped halted 4 [EVal VNil false; EDef 0 (D (Print 7 (Ret [] false)) []); EVal VNil false] (s_open halted) [UpV 2 false 1].
Proof. cbn. split; [reflexivity|]. split; [reflexivity|]. split; [exists 1, (Print 7 (Ret [] false)); cbn; repeat split; lia|]. exists [UpV 2 false 1]. repeat split. Qed.
Lemma recover_moves : ~ (forall moves es s base rest status v, stopped s base es (s_open s) rest -> (forall u, In u rest -> u_idx u < base) -> is_error status -> message status (s_stk s (s_top s - 1)) = v ->
  exists s' N, forall fuel, (N <= fuel)%nat -> recover moves fuel s status base = Ok s').
Proof.
  intros H. destruct (H (fun _ => true) _ halted 4 [UpV 2 false 1] 2 (VData 33) halted_ok) as (s' & N & E); [intros u [<-|[]]; cbn; lia|unfold is_error; lia|reflexivity|]. specialize (E (20 + N)%nat ltac:(lia)). cbn in E. discriminate.
Qed.
