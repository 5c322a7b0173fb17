(* Facts for C60: the parser's tables represent the open scopes. *)
Require Import ZArith List Bool Arith Lia Permutation.
From Verif Require Import Base Names_model Names_spec.
Import ListNotations.
Local Open Scope nat_scope.

Definition nt (d : decl) : name * typ := (dname d, dtype d).
Definition actives (f : sfun) : list decl := rev (visible f).
Definition avf (f : sfun) : list (name * typ) := map nt (actives f ++ pend f).
Fixpoint avof (sf : list sfun) : list (name * typ) := match sf with [] => [] | f :: r => avof r ++ avf f end.
Definition ids (f : sfun) : list nat := map did (visible f) ++ map did (pend f).
Definition allids (sf : list sfun) : list nat := flat_map ids sf.

Lemma frame_actives f : frame f = map did (actives f).
Proof. unfold frame, actives. now rewrite map_rev. Qed.

Inductive blkrel (c : list nat) : list blk -> list sblock -> Prop :=
| br_nil : blkrel c [] []
| br_cons b bs sb sbs : bnact b = length (flat_map decls sbs) ->
    (bupval b = true <-> deferred sb = true \/ exists d, In d (decls sb) /\ In (did d) c) ->
    blkrel c bs sbs -> blkrel c (b :: bs) (sb :: sbs).

Record funok (c : list nat) (r : list sfun) (sf : sfun) (f : func) : Prop := {
  fo_first : firstlocal f = length (avof r);
  fo_nact : nactvar f = length (visible sf);
  fo_vars : length (visible sf) + length (pend sf) <= 125;
  fo_ups : length (ups f) <= 125;
  fo_blk : blkrel c (blks f) (blocks sf);
  fo_ne : blocks sf <> [];
  fo_pend : forall d, In d (pend sf) -> ~ In (did d) c }.

Lemma nodup_app {A} (a b : list A) : NoDup (a ++ b) -> NoDup a /\ NoDup b /\ forall x, In x a -> ~ In x b.
Proof.
  induction a as [|y a IH]; cbn [app]; intros D.
  - split; [constructor|]. split; [exact D|]. intros x [].
  - inversion D as [|? ? N D']; subst. destruct (IH D') as (A1 & B1 & C1). split.
    + constructor; auto. intros I. apply N. apply in_or_app. now left.
    + split; auto. intros x [<-|I]; [|now apply C1]. intros I. apply N. apply in_or_app. now right.
Qed.

Section env.
Variable envn : name.
Definition upsok (c : list nat) (sf : sfun) (r : list sfun) (us : list upvd) (uss : list (list upvd)) : Prop :=
  forall i u, nth_error us i = Some u ->
    upval_target (sf :: r) (us :: uss) i = Some (fst (stands_for r (uname u))) /\ utype u = snd (stands_for r (uname u)) /\
    (lookup r (uname u) = None -> uname u = envn) /\ (forall k d, lookup r (uname u) = Some (k, d) -> In (did d) c).

Inductive rel (c : list nat) : list sfun -> list func -> Prop :=
| rel_main sf f : funok c [] sf f -> ups f = [mkU envn true 0 T_ANY] -> rel c [sf] [f]
| rel_cons sf f g r fr : funok c (g :: r) sf f -> upsok c sf (g :: r) (ups f) (map ups fr) -> rel c (g :: r) fr -> rel c (sf :: g :: r) (f :: fr).

Lemma blkrel_fresh c x bs sbs : blkrel c bs sbs -> ~ In x (map did (flat_map decls sbs)) -> blkrel (x :: c) bs sbs.
Proof.
  induction 1 as [|b bs sb sbs N U B IH]; intros F; constructor; auto.
  - rewrite U. split; intros [D|(d & Id & Ic)]; auto; right; exists d; split; auto.
    + now right.
    + destruct Ic as [->|Ic]; auto. exfalso. apply F. cbn [flat_map]. rewrite map_app. apply in_or_app. left. now apply in_map.
  - apply IH. intros I. apply F. cbn [flat_map]. rewrite map_app. apply in_or_app. now right.
Qed.
Lemma funok_fresh c x r sf f : funok c r sf f -> ~ In x (ids sf) -> funok (x :: c) r sf f.
Proof.
  intros [A B C D E F G] N. constructor; auto.
  - apply blkrel_fresh; auto. intros I. apply N. unfold ids. apply in_or_app. now left.
  - intros d Id [->|I]; [|now apply (G d)]. apply N. unfold ids. apply in_or_app. right. now apply in_map.
Qed.
Lemma upsok_more c c' sf r us uss : (forall x, In x c -> In x c') -> upsok c sf r us uss -> upsok c' sf r us uss.
Proof. intros S U i u N. destruct (U i u N) as (A & B & C & D). repeat split; auto. intros k d L. apply S. eauto. Qed.
Lemma rel_fresh c x sf fs : rel c sf fs -> ~ In x (allids sf) -> rel (x :: c) sf fs.
Proof.
  induction 1 as [sf f O U|sf f g r fr O U R IH]; intros N.
  - apply rel_main; auto. apply funok_fresh; auto. intros I. apply N. unfold allids. cbn. now rewrite app_nil_r.
  - apply rel_cons.
    + apply funok_fresh; auto. intros I. apply N. unfold allids. cbn [flat_map]. apply in_or_app. now left.
    + eapply upsok_more; [|exact U]. intros y Y. now right.
    + apply IH. intros I. apply N. unfold allids. cbn [flat_map]. apply in_or_app. now right.
Qed.
Lemma blkrel_ext c c' bs sbs : (forall x, In x c <-> In x c') -> blkrel c bs sbs -> blkrel c' bs sbs.
Proof.
  intros S. induction 1 as [|b bs sb sbs N U B IH]; constructor; auto. rewrite U. split; intros [D|(d & Id & Ic)]; auto; right; exists d; split; auto; now apply S.
Qed.
Lemma rel_ext c c' sf fs : (forall x, In x c <-> In x c') -> rel c sf fs -> rel c' sf fs.
Proof.
  intros S. induction 1 as [sf f O U|sf f g r fr O U R IH]; [apply rel_main|apply rel_cons]; auto.
  1,2: destruct O as [A B C D E F G]; constructor; auto; [eapply blkrel_ext; eauto|intros d Id I; apply (G d Id); now apply S].
  eapply upsok_more; [|exact U]. intros y Y. now apply S.
Qed.

(* the search among the local variables *)
Lemma searchvar_spec av f n (vis : list decl) :
  (forall j, j < length vis -> getlocvar av f j = option_map nt (nth_error (rev vis) j)) ->
  match find_name n vis with
  | None => searchvar_from av f n (length vis) = None
  | Some d => exists v, searchvar_from av f n (length vis) = Some v /\ nth_error (rev vis) v = Some d /\ v < length vis
  end.
Proof.
  induction vis as [|d vis IH]; intros G; [reflexivity|]. cbn [length searchvar_from find_name find rev].
  assert (E : getlocvar av f (length vis) = Some (nt d)).
  { rewrite G by (cbn; lia). cbn [rev]. rewrite nth_error_app2 by (rewrite rev_length; lia). rewrite rev_length, Nat.sub_diag. reflexivity. }
  rewrite E. cbn [nt]. rewrite (Z.eqb_sym n). destruct (Z.eqb (dname d) n) eqn:Q.
  - exists (length vis). split; [reflexivity|]. split; [|lia]. rewrite nth_error_app2 by (rewrite rev_length; lia). rewrite rev_length, Nat.sub_diag. reflexivity.
  - assert (H : match find_name n vis with None => searchvar_from av f n (length vis) = None
                | Some d => exists v, searchvar_from av f n (length vis) = Some v /\ nth_error (rev vis) v = Some d /\ v < length vis end).
    { apply IH. intros j L. rewrite G by (cbn; lia). cbn [rev]. now rewrite nth_error_app1 by (rewrite rev_length; lia). }
    unfold find_name in H. destruct (find (fun d0 => Z.eqb (dname d0) n) vis) as [d'|]; [|exact H].
    destruct H as (v & A & B & L). exists v. split; [exact A|]. split; [|lia]. rewrite nth_error_app1; [exact B|]. rewrite rev_length. lia.
Qed.
Lemma getlocvar_at c r sf f rest j : funok c r sf f -> j < length (visible sf) -> getlocvar (avof (sf :: r) ++ rest) f j = option_map nt (nth_error (actives sf) j).
Proof.
  intros O L. unfold getlocvar. rewrite (fo_first _ _ _ _ O). cbn [avof]. rewrite <- app_assoc.
  rewrite nth_error_app2 by lia. replace (length (avof r) + j - length (avof r)) with j by lia.
  unfold avf. rewrite map_app, <- app_assoc. rewrite nth_error_app1 by (rewrite map_length; unfold actives; rewrite rev_length; lia).
  now rewrite nth_error_map.
Qed.
Lemma typeinfo_at c r sf f rest v d : funok c r sf f -> nth_error (actives sf) v = Some d -> get_register_typeinfo (avof (sf :: r) ++ rest) f v = dtype d.
Proof.
  intros O N. assert (L : v < length (visible sf)). { assert (Q : nth_error (actives sf) v <> None) by congruence. apply nth_error_Some in Q. unfold actives in Q. now rewrite rev_length in Q. }
  unfold get_register_typeinfo. rewrite (fo_nact _ _ _ _ O). destruct (Nat.leb_spec (length (visible sf)) v); [lia|].
  rewrite (getlocvar_at c r sf f rest v O L), N. cbn [option_map nt].
  rewrite (fo_first _ _ _ _ O). cbn [avof]. rewrite !app_length. unfold avf. rewrite map_length, app_length. unfold actives. rewrite rev_length.
  match goal with |- context [if ?b then _ else _] => destruct b eqn:Q end; [|reflexivity]. apply Nat.leb_le in Q. lia.
Qed.
(* the search among the upvalues *)
Lemma searchupvalue_spec us n : forall k, match searchupvalue_from us n k with
  | Some i => exists j u, i = k + j /\ nth_error us j = Some u /\ uname u = n
  | None => forall u, In u us -> uname u <> n end.
Proof.
  induction us as [|u us IH]; intros k; cbn [searchupvalue_from]; [intros u []|].
  destruct (Z.eqb_spec (uname u) n) as [Q|Q].
  - exists 0, u. split; [lia|]. split; [reflexivity|exact Q].
  - specialize (IH (S k)). destruct (searchupvalue_from us n (S k)).
    + destruct IH as (j & u' & A & B & C). exists (S j), u'. split; [lia|]. split; auto.
    + intros u' [<-|I]; auto.
Qed.
(* the block of a variable is marked *)
Lemma markblk_spec c bs sbs d : blkrel c bs sbs -> forall v, nth_error (rev (flat_map decls sbs)) v = Some d -> NoDup (map did (flat_map decls sbs)) ->
  exists bs', markblk bs v = Ok bs' /\ blkrel (did d :: c) bs' sbs.
Proof.
  induction 1 as [|b bs sb sbs N U B IH]; intros v V D; [destruct v; discriminate V|].
  cbn [flat_map] in V, D. rewrite rev_app_distr in V. rewrite map_app in D.
  destruct (nodup_app _ _ D) as (_ & Dr & Dx).
  cbn [markblk]. rewrite N. destruct (Nat.ltb_spec v (length (flat_map decls sbs))) as [L|L].
  - rewrite nth_error_app1 in V by (rewrite rev_length; lia). destruct (IH v V Dr) as (bs' & M & R). rewrite M. cbn [bind].
    eexists. split; [reflexivity|]. constructor; auto. rewrite U. split; intros [Q|(d' & Id & Ic)]; auto; right; exists d'; split; auto; [now right|].
    destruct Ic as [Q|Ic]; auto. exfalso. apply (Dx (did d')); [now apply in_map|]. rewrite <- Q. apply in_map.
    apply nth_error_In in V. now apply in_rev.
  - rewrite nth_error_app2 in V by (rewrite rev_length; lia). apply nth_error_In in V. apply in_rev in V.
    eexists. split; [reflexivity|]. constructor.
    + reflexivity.
    + cbn [bupval]. split; [intros _|reflexivity]. right. exists d. split; auto. now left.
    + apply blkrel_fresh; auto. apply Dx. now apply in_map.
Qed.

(* more upvalues do not change what the others denote *)
Definition ext (us us' : list (list upvd)) : Prop := Forall2 (fun u u' => exists x, u' = u ++ x) us us'.
Lemma ext_refl us : ext us us.
Proof. induction us; constructor; auto. exists []. now rewrite app_nil_r. Qed.
Lemma ext_trans a b c : ext a b -> ext b c -> ext a c.
Proof.
  intros H. revert c. induction H as [|x y a b (p & ->) F IH]; intros c G; inversion G as [|? z ? c' (q & ->) G']; subst; constructor.
  - exists (p ++ q). now rewrite app_assoc.
  - apply IH. exact G'.
Qed.
Lemma upval_target_ext : forall sf us us' i t, ext us us' -> upval_target sf us i = Some t -> upval_target sf us' i = Some t.
Proof.
  induction sf as [|f sf IH]; intros us us' i t E T; [discriminate T|].
  destruct E as [|u u' us us' (x & ->) E]; [destruct sf; discriminate T|].
  destruct sf as [|g sf].
  - cbn in *. destruct E; [exact T|discriminate T].
  - cbn [upval_target] in *. destruct (nth_error u i) as [v|] eqn:N; [|discriminate T].
    assert (N' : nth_error (u ++ x) i = Some v). { rewrite nth_error_app1; auto. apply nth_error_Some. congruence. }
    rewrite N'. destruct (uinstack v); auto. apply (IH us us'); auto.
Qed.
Lemma upsok_ext c sf r us uss uss' : ext uss uss' -> upsok c sf r us uss -> upsok c sf r us uss'.
Proof.
  intros E U i u N. destruct (U i u N) as (A & B & C). split; auto. eapply upval_target_ext; [|exact A]. constructor; auto. exists []. now rewrite app_nil_r.
Qed.
End env.
