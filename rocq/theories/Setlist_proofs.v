Require Import ZArith List Bool Lia.
From Verif Require Import Base Base_facts Opcode_model Setlist_model Setlist_spec.
Import ListNotations.
Open Scope Z_scope.

Section S.
Variable V O : Type.
Variable flush : (Z -> V) -> Z -> Z -> O -> outcome O.
Notation exec := (exec V O flush).

(* the flushes an execution makes, for the values L, from value number "from" on; items is the
   number of list expressions *)
Inductive flushes (L : list V) (items : Z) : Z -> O -> outcome O -> Prop :=
| fl_end : forall from o, from = Z.of_nat (length L) -> flushes L items from o (Ok o)
| fl_step : forall from n regs o r, 0 <= n -> from mod 50 = 0 -> from + n <= Z.of_nat (length L) ->
    (from + n = Z.of_nat (length L) \/ from + n < items) ->
    (forall k, 0 <= k < n -> nth_error L (Z.to_nat (from + k)) = Some (regs (k + 1))) ->
    (forall o1, flush regs n (from + n) o = Ok o1 -> flushes L items (from + n) o1 r) ->
    (forall e, flush regs n (from + n) o = Err e -> r = Err e) -> (flush regs n (from + n) o = UB -> r = UB) -> (flush regs n (from + n) o = OutOfFuel -> r = OutOfFuel) ->
    flushes L items from o r.

(* the values D have been met, of which tostore are not yet stored *)
Record inv (D : list V) (cc : cons V) (regs : Z -> V) : Prop := {
  i_na : na V cc = Z.of_nat (length D);
  i_store : 0 <= tostore V cc <= na V cc;
  i_mul : (na V cc - tostore V cc) mod 50 = 0;
  i_50 : tostore V cc <= 50 /\ (pending V cc = None -> tostore V cc < 50);
  i_free : free V cc = tostore V cc + (match pending V cc with None => 1 | Some _ => 0 end);
  i_pos : pending V cc <> None -> 1 <= tostore V cc;
  i_regs : forall k, 1 <= k < free V cc -> nth_error D (Z.to_nat (na V cc - tostore V cc + k - 1)) = Some (regs k);
  i_pend : forall v g, pending V cc = Some (v, g) -> nth_error D (length D - 1) = Some v }.

Lemma exec_setlist : forall regs top o k nelems ts code n from, luaK_setlist V nelems ts = Ok code -> 1 <= nelems -> n = (match ts with Some b => b | None => top - 1 end) -> (ts = Some 0 -> False) -> 0 <= n ->
  from = (nelems - 1) / 50 * 50 -> from + n < two31 ->
  exec (code ++ k) regs top o = bind (flush regs n (from + n) o) (fun o => exec k regs top o).
Proof.
  intros regs top o k nelems ts code n from E N1 EN TS N0 EF B. unfold luaK_setlist in E. change LFIELDS_PER_FLUSH with 50 in E. set (c := (nelems - 1) / 50 + 1) in *.
  assert (C1 : 1 <= c) by (unfold c; pose proof (Z.div_pos (nelems - 1) 50 ltac:(lia) ltac:(lia)); lia).
  assert (X : forall b, b = match ts with Some b => b | None => 0 end -> (if b =? 0 then top - 1 else b) = n).
  { intros b ->. destruct ts as [m|]; [|subst n; reflexivity]. destruct (Z.eqb_spec m 0); [exfalso; apply TS; congruence|congruence]. }
  assert (Y : u32 ((c - 1) * 50 + n) = from + n). { unfold u32. rewrite Z.mod_small; unfold c; [lia|]. pose proof (Z.div_pos (nelems - 1) 50 ltac:(lia) ltac:(lia)). unfold_consts. unfold two31 in B. lia. }
  destruct (c <=? MAXARG_C).
  - injection E as <-. cbn [app Setlist_model.exec]. rewrite (X _ eq_refl). destruct (Z.eqb_spec c 0); [lia|]. change LFIELDS_PER_FLUSH with 50. rewrite Y. reflexivity.
  - destruct (c <=? MAXARG_Ax); [|discriminate]. injection E as <-. cbn [app Setlist_model.exec]. rewrite (X _ eq_refl). change (0 =? 0) with true. cbv iota. change LFIELDS_PER_FLUSH with 50. rewrite Y. reflexivity.
Qed.
Lemma exec_bind : forall r (o : outcome O) f L items from regs n ob, 0 <= n -> from mod 50 = 0 -> from + n <= Z.of_nat (length L) -> (from + n = Z.of_nat (length L) \/ from + n < items) ->
  (forall k, 0 <= k < n -> nth_error L (Z.to_nat (from + k)) = Some (regs (k + 1))) -> o = flush regs n (from + n) ob -> r = bind o f ->
  (forall o1, o = Ok o1 -> flushes L items (from + n) o1 (f o1)) -> flushes L items from ob r.
Proof.
  intros r o f L items from regs n ob N0 M B W K -> -> F. eapply fl_step; try eassumption.
  - intros o1 E. rewrite E. cbn [bind]. apply F. assumption.
  - intros e E. rewrite E. reflexivity.
  - intros E. rewrite E. reflexivity.
  - intros E. rewrite E. reflexivity.
Qed.
Lemma load_lt : forall regs r vs g x, x < r -> load V regs r vs g x = regs x.
Proof. intros. unfold load. destruct (Z.ltb_spec x r); [reflexivity|lia]. Qed.
Lemma load_at : forall regs r v g, load V regs r [v] g r = v.
Proof. intros. unfold load. rewrite Z.ltb_irrefl, Z.sub_diag. reflexivity. Qed.
Lemma div50 : forall a b, 0 <= b < 50 -> a mod 50 = 0 -> (a + b) / 50 * 50 = a.
Proof. intros a b B M. rewrite Z.add_comm. pose proof (Z.div_mod a 50 ltac:(lia)). rewrite M in H. replace a with (a / 50 * 50) at 1 by lia. rewrite Z.div_add by lia. rewrite Z.div_small by lia. lia. Qed.

(* after closelistfield *)
Lemma close_ok : forall D cc regs cc1 code rest top o L items, inv D cc regs -> closelistfield V cc = Ok (cc1, code) -> Z.of_nat (length L) < two31 ->
  (exists T, L = D ++ T) -> (na V cc = Z.of_nat (length L) \/ na V cc < items) ->
  (forall regs1 o1, inv D cc1 regs1 -> pending V cc1 = None -> na V cc1 = na V cc -> flushes L items (na V cc1 - tostore V cc1) o1 (exec rest regs1 top o1)) ->
  flushes L items (na V cc - tostore V cc) o (exec (code ++ rest) regs top o).
Proof.
  intros D cc regs cc1 code rest top o L items I E LB (T & EL) W K. unfold closelistfield in E. destruct (pending V cc) as [[v g]|] eqn:EP.
  2:{ injection E as <- <-. cbn [app]. apply K; auto. }
  destruct I as [Ina Ist Imul I50 Ifree Ipos Iregs Ipend]. rewrite EP in *. specialize (Ipos ltac:(discriminate)). specialize (Ipend v g eq_refl).
  assert (RL : forall k, 1 <= k <= free V cc -> nth_error D (Z.to_nat (na V cc - tostore V cc + k - 1)) = Some (load V regs (free V cc) [v] g k)).
  { intros k R. destruct (Z.eq_dec k (free V cc)) as [->|NE].
    - rewrite load_at. rewrite <- Ipend. f_equal. lia.
    - rewrite load_lt by lia. apply Iregs. lia. }
  destruct (Z.eqb_spec (tostore V cc) LFIELDS_PER_FLUSH) as [E50|N50]; change LFIELDS_PER_FLUSH with 50 in *.
  - destruct (luaK_setlist V (na V cc) (Some (tostore V cc))) as [cs| | |] eqn:EC; try discriminate. cbn [bind] in E. injection E as <- <-. cbn [app Setlist_model.exec].
    eapply exec_bind with (n := tostore V cc) (regs := load V regs (free V cc) [v] g); [lia|assumption| | | |reflexivity| |].
    + rewrite EL, app_length. lia.
    + replace (na V cc - tostore V cc + tostore V cc) with (na V cc) by lia. assumption.
    + intros k R. rewrite EL. rewrite nth_error_app1 by lia. rewrite <- (RL (k + 1) ltac:(lia)). f_equal. lia.
    + apply (exec_setlist _ top o rest (na V cc) (Some (tostore V cc)) cs (tostore V cc) (na V cc - tostore V cc) EC); try lia.
      * intros X. injection X as X. lia.
      * replace (na V cc - 1) with (na V cc - tostore V cc + (tostore V cc - 1)) by lia. symmetry. apply div50; [lia|assumption].
      * assert (na V cc <= Z.of_nat (length L)) by (rewrite EL, app_length; lia). lia.
    + intros o1 _. replace (na V cc - tostore V cc + tostore V cc) with (na V (mkCons V None (na V cc) 0 1) - tostore V (mkCons V None (na V cc) 0 1)) by (cbn; lia). apply K; [|reflexivity|reflexivity]. constructor; cbn; try lia; try discriminate; try congruence.
      rewrite Z.sub_0_r. replace (na V cc) with (na V cc - tostore V cc + tostore V cc) by lia. rewrite E50. rewrite Z.add_mod by lia. rewrite E50 in Imul. rewrite Imul. reflexivity.
  - injection E as <- <-. cbn [app Setlist_model.exec]. replace (na V cc - tostore V cc) with (na V (mkCons V None (na V cc) (tostore V cc) (free V cc + 1)) - tostore V (mkCons V None (na V cc) (tostore V cc) (free V cc + 1))) by reflexivity.
    apply K; [|reflexivity|reflexivity]. constructor; cbn; try lia; try discriminate; try congruence. intros k R. apply RL. lia.
Qed.
Lemma inv_scratch : forall D cc regs vs g, inv D cc regs -> inv D cc (load V regs (free V cc) vs g).
Proof. intros D cc regs vs g [A B C E F G H I]. constructor; auto. intros k K. rewrite load_lt by lia. apply H. assumption. Qed.
Lemma inv_next : forall D cc regs v g, inv D cc regs -> pending V cc = None -> inv (D ++ [v]) (mkCons V (Some (v, g)) (na V cc + 1) (tostore V cc + 1) (free V cc)) regs.
Proof.
  intros D cc regs v g [A B C E F G H I] P. rewrite P in *. destruct E as [E1 E2]. specialize (E2 eq_refl). constructor; cbn.
  - rewrite app_length. cbn. lia.
  - lia.
  - replace (na V cc + 1 - (tostore V cc + 1)) with (na V cc - tostore V cc) by lia. assumption.
  - split; [lia|discriminate].
  - lia.
  - lia.
  - intros k K. replace (na V cc + 1 - (tostore V cc + 1) + k - 1) with (na V cc - tostore V cc + k - 1) by lia. rewrite nth_error_app1 by lia. apply H. lia.
  - intros w h X. injection X as <- _. rewrite app_length. cbn [length]. replace (length D + 1 - 1)%nat with (length D) by lia. rewrite nth_error_app2 by lia. rewrite Nat.sub_diag. reflexivity.
Qed.
Lemma constructor_ok : forall l e cc D regs top o code, inv D cc regs -> constructor V cc l e = Ok code ->
  Z.of_nat (length (D ++ all_values l e)) < two31 ->
  flushes (D ++ all_values l e) (Z.of_nat (length D) + count l e) (na V cc - tostore V cc) o (exec code regs top o).
Proof.
  induction l as [|[v g|g] l IH]; intros e cc D regs top o code I E B.
  - destruct e as [|vs g]; cbn [constructor] in E.
    + unfold lastlistfield in E. unfold all_values, count in *. cbn [values length app] in *. rewrite app_nil_r in *. destruct (Z.eqb_spec (tostore V cc) 0) as [E0|N0].
      * injection E as <-. cbn. apply fl_end. destruct I. lia.
      * destruct (luaK_setlist V (na V cc) (Some (tostore V cc))) as [cs| | |] eqn:EC; try discriminate. cbn [bind] in E. injection E as <-.
        destruct I as [Ina Ist Imul I50 Ifree Ipos Iregs Ipend].
        set (regs' := match pending V cc with Some (v, g) => load V regs (free V cc) [v] g | None => regs end).
        assert (EX : exec (match pending V cc with Some (v, g) => [LOAD V (free V cc) v g] | None => [] end ++ cs) regs top o = exec (cs ++ []) regs' top o).
        { rewrite app_nil_r. unfold regs'. destruct (pending V cc) as [[v g]|]; reflexivity. }
        rewrite EX. eapply exec_bind with (n := tostore V cc) (regs := regs'); [lia|assumption|lia|left; lia| |reflexivity| |].
        -- intros k R. unfold regs'. destruct (pending V cc) as [[v g]|] eqn:EP.
           ++ destruct (Z.eq_dec (k + 1) (free V cc)) as [EQ|NE].
              ** rewrite EQ, load_at. rewrite <- (Ipend v g eq_refl). f_equal. lia.
              ** rewrite load_lt by lia. rewrite <- (Iregs (k + 1) ltac:(lia)). f_equal. lia.
           ++ rewrite <- (Iregs (k + 1) ltac:(lia)). f_equal. lia.
        -- apply (exec_setlist regs' top o [] (na V cc) (Some (tostore V cc)) cs (tostore V cc) (na V cc - tostore V cc) EC); try lia; [intros X; injection X as X; lia|].
           replace (na V cc - 1) with (na V cc - tostore V cc + (tostore V cc - 1)) by lia. symmetry. apply div50; [lia|assumption].
        -- intros o1 _. cbn [bind Setlist_model.exec]. apply fl_end. lia.
    + destruct (closelistfield V cc) as [[cc1 c1]| | |] eqn:E1; try discriminate. cbn [bind] in E. destruct (Z.leb_spec (two31 - 1) (na V cc1)); [discriminate|].
      destruct (luaK_setlist V (na V cc1 + 1) None) as [cs| | |] eqn:EC; try discriminate. cbn [bind] in E. injection E as <-.
      unfold all_values, count in *. cbn [values length app] in *.
      eapply close_ok; [exact I|exact E1|exact B|exists vs; reflexivity|right; destruct I; lia|]. intros regs1 o1 I1 P1 NA. cbn [Setlist_model.exec].
      destruct I1 as [Ina Ist Imul I50 Ifree Ipos Iregs Ipend]. rewrite P1 in *. destruct I50 as [_ I50]. specialize (I50 eq_refl). set (regs' := load V regs1 (free V cc1) vs g).
      replace cs with (cs ++ []) by apply app_nil_r. rewrite app_length in *.
      eapply exec_bind with (n := tostore V cc1 + Z.of_nat (length vs)) (regs := regs'); [lia|assumption|rewrite app_length; lia|left; rewrite app_length; lia| |reflexivity| |].
      * intros k R. destruct (Z_lt_le_dec k (tostore V cc1)) as [L|G].
        -- unfold regs'. rewrite load_lt by lia. rewrite nth_error_app1 by lia. rewrite <- (Iregs (k + 1) ltac:(lia)). f_equal. lia.
        -- rewrite nth_error_app2 by lia. unfold regs', load. destruct (Z.ltb_spec (k + 1) (free V cc1)); [lia|].
           replace (Z.to_nat (na V cc1 - tostore V cc1 + k) - length D)%nat with (Z.to_nat (k + 1 - free V cc1)) by lia.
           destruct (nth_error vs (Z.to_nat (k + 1 - free V cc1))) eqn:EN; [reflexivity|]. exfalso. apply nth_error_None in EN. lia.
      * apply (exec_setlist regs' _ o1 [] (na V cc1 + 1) None cs (tostore V cc1 + Z.of_nat (length vs)) (na V cc1 - tostore V cc1) EC); try lia; [discriminate|].
        replace (na V cc1 + 1 - 1) with (na V cc1 - tostore V cc1 + tostore V cc1) by lia. symmetry. apply div50; [lia|assumption].
      * intros o2 _. cbn [bind Setlist_model.exec]. apply fl_end. rewrite app_length. lia.
  - cbn [constructor] in E. destruct (closelistfield V cc) as [[cc1 c1]| | |] eqn:E1; try discriminate. cbn [bind] in E. destruct (Z.leb_spec (two31 - 1) (na V cc1)); [discriminate|].
    destruct (constructor V _ l e) as [cs| | |] eqn:EC; try discriminate. cbn [bind] in E. injection E as <-.
    assert (EL : D ++ all_values (Exp V v g :: l) e = (D ++ [v]) ++ all_values l e) by (rewrite <- app_assoc; reflexivity).
    assert (EN : Z.of_nat (length D) + count (Exp V v g :: l) e = Z.of_nat (length (D ++ [v])) + count l e) by (unfold count; cbn [values length]; rewrite app_length; cbn [length]; lia).
    eapply close_ok; [exact I|exact E1|exact B|eexists; reflexivity| |].
    { right. destruct I as [A _ _ _ _ _ _ _]. rewrite A. unfold count. cbn [values length]. destruct e; lia. }
    intros regs1 o1 I1 P1 NA. rewrite EL, EN in *. pose proof (inv_next D cc1 regs1 v g I1 P1) as I2.
    pose proof (IH e _ (D ++ [v]) regs1 top o1 cs I2 EC B) as X. cbn [na tostore] in X. replace (na V cc1 + 1 - (tostore V cc1 + 1)) with (na V cc1 - tostore V cc1) in X by lia. exact X.
  - cbn [constructor] in E. destruct (closelistfield V cc) as [[cc1 c1]| | |] eqn:E1; try discriminate. cbn [bind] in E.
    destruct (constructor V cc1 l e) as [cs| | |] eqn:EC; try discriminate. cbn [bind] in E. injection E as <-.
    assert (EL : all_values (Rec V g :: l) e = all_values l e) by reflexivity. assert (EN : count (Rec V g :: l) e = count l e) by reflexivity. rewrite EL, EN in *.
    eapply close_ok; [exact I|exact E1|exact B|eexists; reflexivity| |].
    { destruct I as [A _ _ _ _ _ _ _]. rewrite A. unfold all_values, count. destruct e as [|vs h]; [|right; lia]. rewrite app_nil_r, app_length. lia. }
    intros regs1 o1 I1 P1 NA. cbn [Setlist_model.exec]. apply IH; [|assumption|assumption]. apply inv_scratch. assumption.
Qed.
Lemma start_inv : forall regs, inv [] (start V) regs.
Proof. intros regs. constructor; cbn; try lia; try discriminate; try congruence. Qed.
End S.

(* when a constructor is not too long it compiles *)
Lemma setlist_compiles : forall V n ts, (n - 1) / 50 + 1 <= 16777215 -> exists code, luaK_setlist V n ts = Ok code.
Proof.
  intros V n ts B. unfold luaK_setlist. change LFIELDS_PER_FLUSH with 50. change MAXARG_Ax with 16777215. destruct (_ <=? MAXARG_C); [eexists; reflexivity|]. destruct (Z.leb_spec ((n - 1) / 50 + 1) 16777215); [eexists; reflexivity|lia].
Qed.
Lemma close_compiles : forall V cc, na V cc <= 50 * 16777215 -> exists cc1 code, closelistfield V cc = Ok (cc1, code) /\ na V cc1 = na V cc.
Proof.
  intros V cc B. unfold closelistfield. destruct (pending V cc) as [[v g]|]; [|do 2 eexists; split; reflexivity]. destruct (_ =? _); [|do 2 eexists; split; reflexivity].
  destruct (setlist_compiles V (na V cc) (Some (tostore V cc))) as (code & ->); [pose proof (Z.div_lt_upper_bound (na V cc - 1) 50 16777215 ltac:(lia) ltac:(lia)); lia|]. do 2 eexists. split; reflexivity.
Qed.
Lemma constructor_compiles : forall V l e cc, na V cc + count l e <= 50 * 16777215 -> exists code, constructor V cc l e = Ok code.
Proof.
  intros V. induction l as [|[v g|g] l IH]; intros e cc B; cbn [constructor].
  - unfold count in B. cbn [values length] in B. destruct e as [|vs g].
    + unfold lastlistfield. destruct (_ =? 0); [eexists; reflexivity|]. destruct (setlist_compiles V (na V cc) (Some (tostore V cc))) as (code & ->); [pose proof (Z.div_lt_upper_bound (na V cc - 1) 50 16777215 ltac:(lia) ltac:(lia)); lia|]. eexists. reflexivity.
    + destruct (close_compiles V cc ltac:(lia)) as (cc1 & c1 & -> & N1). cbn [bind]. destruct (Z.leb_spec (two31 - 1) (na V cc1)) as [X|X]; [unfold two31 in X; lia|].
      destruct (setlist_compiles V (na V cc1 + 1) None) as (code & ->); [pose proof (Z.div_lt_upper_bound (na V cc1 + 1 - 1) 50 16777215 ltac:(lia) ltac:(lia)); lia|]. eexists. reflexivity.
  - unfold count in B. cbn [values length] in B. destruct (close_compiles V cc ltac:(destruct e; lia)) as (cc1 & c1 & -> & N1). cbn [bind]. destruct (Z.leb_spec (two31 - 1) (na V cc1)) as [X|X]; [unfold two31 in X; destruct e; lia|].
    destruct (IH e (mkCons V (Some (v, g)) (na V cc1 + 1) (tostore V cc1 + 1) (free V cc1))) as (code & ->); [unfold count; cbn [na]; destruct e; lia|]. eexists. reflexivity.
  - unfold count in *. cbn [values length] in B. destruct (close_compiles V cc ltac:(destruct e; lia)) as (cc1 & c1 & -> & N1). cbn [bind].
    destruct (IH e cc1) as (code & ->); [unfold count; destruct e; lia|]. eexists. reflexivity.
Qed.

Lemma flush_table_ok : forall V n regs last (t : Z -> V) x, flush_table V n regs last t x = if (last - Z.of_nat n <? x) && (x <=? last) then regs (x - (last - Z.of_nat n)) else t x.
Proof.
  intros V. induction n as [|n IH]; intros regs last t x.
  - cbn [flush_table]. destruct (Z.ltb_spec (last - Z.of_nat 0) x); destruct (Z.leb_spec x last); cbn [andb]; try reflexivity. lia.
  - cbn [flush_table]. rewrite IH. destruct (Z.eqb_spec x last) as [->|NE].
    + destruct (Z.leb_spec last (last - 1)); [lia|]. rewrite andb_false_r. destruct (Z.ltb_spec (last - Z.of_nat (S n)) last); [|lia]. rewrite Z.leb_refl. cbn [andb]. f_equal. lia.
    + replace (last - 1 - Z.of_nat n) with (last - Z.of_nat (S n)) by lia. destruct (Z.leb_spec x (last - 1)); destruct (Z.leb_spec x last); try lia; reflexivity.
Qed.
Lemma flushes_table : forall V L items from (t : Z -> V) r, flushes V (Z -> V) (table_flush V) L items from t r -> 0 <= from ->
  exists t', r = Ok t' /\ (forall i v, from <= Z.of_nat i -> nth_error L i = Some v -> t' (Z.of_nat i + 1) = v) /\ (forall x, ~ from < x <= Z.of_nat (length L) -> t' x = t x).
Proof.
  intros V L items from t r H. induction H as [from t EF|from n regs t r N0 M B W K NX IH EE EU EO]; intros F0.
  - exists t. split; [reflexivity|]. split; [|reflexivity]. intros i v I E. exfalso. assert (i < length L)%nat by (apply nth_error_Some; congruence). lia.
  - specialize (IH _ eq_refl ltac:(lia)). destruct IH as (t' & -> & A & C). exists t'. split; [reflexivity|]. split.
    + intros i v I E. assert (IL : (i < length L)%nat) by (apply nth_error_Some; congruence). destruct (Z_lt_le_dec (Z.of_nat i) (from + n)) as [L1|G]; [|apply A; assumption].
      rewrite C by lia. rewrite flush_table_ok. destruct (Z.ltb_spec (from + n - Z.of_nat (Z.to_nat n)) (Z.of_nat i + 1)); [|lia]. destruct (Z.leb_spec (Z.of_nat i + 1) (from + n)); [|lia]. cbn [andb].
      specialize (K (Z.of_nat i - from) ltac:(lia)). replace (Z.to_nat (from + (Z.of_nat i - from))) with i in K by lia. rewrite E in K. injection K as ->. f_equal. lia.
    + intros x X. rewrite C by lia. rewrite flush_table_ok. destruct (Z.ltb_spec (from + n - Z.of_nat (Z.to_nat n)) x); destruct (Z.leb_spec x (from + n)); cbn [andb]; try reflexivity. lia.
Qed.
(* C13 *)
Lemma table_constructor : forall V l e regs (t : Z -> V), Z.of_nat (length (all_values l e)) < two31 -> count l e <= 50 * 16777215 ->
  exists t', make_table V l e regs t = Ok t' /\ (forall i v, nth_error (all_values l e) i = Some v -> t' (Z.of_nat i + 1) = v) /\
  (forall x, ~ 1 <= x <= Z.of_nat (length (all_values l e)) -> t' x = t x).
Proof.
  intros V l e regs t B C. unfold make_table. destruct (constructor_compiles V l e (start V) ltac:(cbn; lia)) as (code & E). rewrite E. cbn [bind].
  pose proof (constructor_ok V (Z -> V) (table_flush V) l e (start V) [] regs 0 t code (start_inv V regs) E B) as F. cbn [app] in F. cbn [start na tostore] in F. rewrite Z.sub_0_r in F.
  destruct (flushes_table V _ _ 0 t _ F ltac:(lia)) as (t' & E' & A & D). exists t'. split; [assumption|]. split; [intros i v X; apply A; [lia|assumption]|]. intros x X. apply D. lia.
Qed.
Lemma flush_array_ok : forall V E conv k regs i (a : list E), i = Z.of_nat (length a) + 1 ->
  match flush_array V E conv k regs i a with
  | Ok a' => exists xs, map conv (map regs (map (fun j => i + Z.of_nat j) (seq 0 k))) = map Some xs /\ a' = a ++ xs
  | Err e => e = EType /\ exists j, (j < k)%nat /\ conv (regs (i + Z.of_nat j)) = None
  | _ => False
  end.
Proof.
  intros V E conv. induction k as [|k IH]; intros regs i a I; cbn [flush_array].
  - exists []. rewrite app_nil_r. split; reflexivity.
  - cbn [seq map]. rewrite Z.add_0_r. destruct (conv (regs i)) as [x|] eqn:EC.
    + unfold arr_set. replace ((1 <=? i) && (i <=? Z.of_nat (length a))) with false by (symmetry; apply andb_false_iff; right; apply Z.leb_gt; lia). destruct (Z.eqb_spec i (Z.of_nat (length a) + 1)); [|lia]. cbn [bind].
      specialize (IH regs (i + 1) (a ++ [x]) ltac:(rewrite app_length; cbn [length]; lia)). destruct (flush_array V E conv k regs (i + 1) (a ++ [x])) as [a'|er| |]; try contradiction.
      * destruct IH as (xs & M & ->). exists (x :: xs). split; [|rewrite <- app_assoc; reflexivity]. cbn [map]. f_equal. rewrite <- M. rewrite <- seq_shift, !map_map. apply map_ext. intros j. do 2 f_equal. lia.
      * destruct IH as (-> & j & J & EJ). split; [reflexivity|]. exists (S j). split; [lia|]. replace (i + Z.of_nat (S j)) with (i + 1 + Z.of_nat j) by lia. assumption.
    + split; [reflexivity|]. exists O. split; [lia|]. rewrite Z.add_0_r. assumption.
Qed.
Lemma flushes_full : forall V O flush L items from (o : O) r, flushes V O flush L items from o r -> from = Z.of_nat (length L) -> (forall regs last o, flush regs 0 last o = Ok o) -> r = Ok o.
Proof.
  intros V O flush L items from o r H. induction H as [from o EL|from n regs' o r N0 M BB W K NX IH EE EU EO]; intros EF FZ; [reflexivity|].
  assert (n = 0) by lia. subst n. apply (IH o); [apply FZ|lia|assumption].
Qed.
Lemma nth_error_ext : forall A (l l' : list A), (forall i, nth_error l i = nth_error l' i) -> l = l'.
Proof.
  intros A. induction l as [|x l IH]; intros [|y l'] H; try reflexivity; try (specialize (H O); discriminate).
  f_equal; [specialize (H O); injection H; auto|]. apply IH. intros i. apply (H (S i)).
Qed.
Lemma nth_error_firstn_lt : forall A (s : list A) n k, (k < n)%nat -> nth_error (firstn n s) k = nth_error s k.
Proof. intros A. induction s as [|x s IH]; intros [|n] [|k] L; try lia; try reflexivity. cbn. apply IH. lia. Qed.
Lemma regs_slice : forall V (L : list V) regs m, (forall k, (k < m)%nat -> nth_error L k = Some (regs (1 + Z.of_nat k))) -> map regs (map (fun j => 1 + Z.of_nat j) (seq 0 m)) = firstn m L.
Proof.
  intros V L regs m K. apply nth_error_ext. intros i. destruct (Nat.lt_ge_cases i m) as [LT|GE].
  - rewrite nth_error_firstn_lt by assumption. rewrite K by assumption. rewrite map_map. rewrite nth_error_map. rewrite (nth_error_nth' _ O) by (rewrite seq_length; assumption). rewrite seq_nth by assumption. reflexivity.
  - rewrite !(proj2 (nth_error_None _ _)); [reflexivity| |rewrite !map_length, seq_length; assumption]. rewrite firstn_length. lia.
Qed.
Lemma array_constructor : forall V E conv l e regs, Z.of_nat (length (all_values l e)) < two31 -> count l e <= 50 ->
  match make_array V E conv l e regs [] with
  | Ok a => map conv (all_values l e) = map Some a
  | Err x => x = EType /\ exists v, In v (all_values l e) /\ conv v = None
  | _ => False
  end.
Proof.
  intros V E conv l e regs B C. unfold make_array. destruct (constructor_compiles V l e (start V) ltac:(cbn; lia)) as (code & EC). rewrite EC. cbn [bind].
  pose proof (constructor_ok V (list E) (array_flush V E conv) l e (start V) [] regs 0 [] code (start_inv V regs) EC B) as F. cbn [app] in F. cbn [start na tostore length] in F. rewrite Z.sub_0_r in F. cbn [Z.of_nat Z.add] in F.
  set (L := all_values l e) in *. set (r := exec _ _ _ _ _ _ _) in *. clearbody r.
  remember 0 as from eqn:EF in F. remember (@nil E) as a eqn:EA in F. revert EF EA. induction F as [from o EL|from n regs' o r N0 M BB W K NX IH EE EU EO]; intros -> ->.
  - destruct L; [reflexivity|cbn [length] in EL; lia].
  - pose proof (flush_array_ok V E conv (Z.to_nat n) regs' 1 [] eq_refl) as H. assert (AF : array_flush V E conv regs' n (0 + n) [] = flush_array V E conv (Z.to_nat n) regs' 1 []) by (unfold array_flush; f_equal; lia). rewrite <- AF in H.
    rewrite (regs_slice V L regs' (Z.to_nat n)) in H by (intros k R; specialize (K (Z.of_nat k) ltac:(lia)); replace (Z.to_nat (0 + Z.of_nat k)) with k in K by lia; rewrite K; do 2 f_equal; lia).
    destruct (array_flush V E conv regs' n (0 + n) []) as [a1|x| |] eqn:EA; try contradiction.
    + destruct H as (xs & MX & ->). cbn [app] in *. pose proof (NX xs eq_refl) as NX1.
      destruct (Z.eq_dec n 0) as [->|NN]; [cbn in MX; destruct xs; [|discriminate]; apply (IH [] eq_refl); reflexivity|].
      assert (FL : 0 + n = Z.of_nat (length L)).
      { destruct W as [W|W]; [assumption|]. inversion NX1 as [? ? EL|? ? ? ? ? ? M']; subst; [assumption|rewrite Z.mod_small in M' by lia; lia]. }
      rewrite FL in NX1. rewrite (flushes_full V (list E) (array_flush V E conv) L (count l e) _ _ _ NX1) by (intros; reflexivity). rewrite firstn_all2 in MX by lia. assumption.
    + rewrite (EE x eq_refl). destruct H as (-> & j & J & EJ). split; [reflexivity|]. exists (regs' (1 + Z.of_nat j)). split; [|assumption]. specialize (K (Z.of_nat j) ltac:(lia)). apply nth_error_In with (n := Z.to_nat (0 + Z.of_nat j)). rewrite K. do 2 f_equal. lia.
Qed.
(* 51 list items, all but the last loaded from constants: what ends up at index 51 is the contents of
   a register which has nothing to do with the constructor. *)
Lemma array_constructor_long : forall junk, exists l, all_values l (Single Z) = map Z.of_nat (seq 1 51) /\
  exists a, make_array Z Z Some l (Single Z) (fun _ => 0) [] = Ok a /\ length a = 51%nat /\ nth_error a 50 = Some junk.
Proof.
  intros junk. exists (map (fun i => Exp Z (Z.of_nat i) (fun _ => junk)) (seq 1 51)). split; [reflexivity|].
  eexists. split; [vm_compute; reflexivity|]. split; reflexivity.
Qed.
