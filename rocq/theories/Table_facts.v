(* Facts about node lists, chains and searching them. *)
Require Import ZArith List Bool Lia Permutation.
From Coq Require Import Floats.SpecFloat.
From Verif Require Import Base Base_facts Float_model Float_spec Float_facts Float_proofs Table_model.
Import ListNotations.
Open Scope Z_scope.

(* keys as they occur in nodes *)
Definition good (k : key) : Prop :=
  match k with
  | KI i => is_s64 i
  | KF f => valid f /\ flttointeger f F2Ieq = Ok None /\ f <> S754_nan
  | _ => True
  end.

Lemma good_flt_nz : forall f, good (KF f) -> forall s, f <> S754_zero s.
Proof. intros f (V & F & N) s ->. destruct s; vm_compute in F; discriminate. Qed.

Lemma key_eqb_eq : forall a b, good a -> good b -> (key_eqb a b = true <-> a = b).
Proof.
  intros a b A B. destruct a as [i|f|i|i]; destruct b as [j|g|j|j]; cbn [key_eqb]; try (split; [discriminate|congruence]).
  1, 3, 4: rewrite Z.eqb_eq; split; congruence.
  split.
  - intros E. f_equal. unfold flt_eq, SFeqb in E. pose proof (good_flt_nz f A) as ZF. pose proof (good_flt_nz g B) as ZG.
    destruct f as [s|s| |s m e]; destruct g as [s'|s'| |s' m' e']; try (exfalso; eapply ZF; reflexivity); try (exfalso; eapply ZG; reflexivity);
      cbn [SFcompare] in E; try (destruct s); try (destruct s'); try discriminate; try reflexivity.
    + destruct (Z.compare_spec e e'); try discriminate. subst. change (Pos.compare_cont Eq m m') with (Pos.compare m m') in E.
      destruct (Pos.compare_spec m m'); try discriminate. subst. reflexivity.
    + destruct (Z.compare_spec e e'); try discriminate. subst. change (Pos.compare_cont Eq m m') with (Pos.compare m m') in E.
      destruct (Pos.compare_spec m m'); try discriminate. subst. reflexivity.
  - intros E. injection E as ->. destruct A as (_ & _ & N). pose proof (good_flt_nz g B) as ZG. unfold flt_eq, SFeqb.
    destruct g as [s|s| |s m e]; try congruence; cbn [SFcompare]; destruct s; try reflexivity.
    + rewrite Z.compare_refl. change (Pos.compare_cont Eq m m) with (Pos.compare m m). rewrite Pos.compare_refl. reflexivity.
    + rewrite Z.compare_refl. change (Pos.compare_cont Eq m m) with (Pos.compare m m). rewrite Pos.compare_refl. reflexivity.
Qed.
Lemma key_eqb_refl : forall a, good a -> key_eqb a a = true.
Proof. intros a A. apply key_eqb_eq; auto. Qed.
Lemma key_eqb_neq : forall a b, good a -> good b -> a <> b -> key_eqb a b = false.
Proof. intros a b A B N. destruct (key_eqb a b) eqn:E; [|reflexivity]. apply key_eqb_eq in E; congruence. Qed.

(* NoDup lists of numbers below N *)
Lemma nodup_range : forall (l : list Z) N, 0 <= N -> NoDup l -> (forall i, In i l -> 0 <= i < N) -> Z.of_nat (length l) <= N.
Proof.
  intros l N HN ND R.
  assert (H : (length l <= length (map Z.of_nat (seq 0 (Z.to_nat N))))%nat).
  { apply NoDup_incl_length; [assumption|]. intros i I. apply in_map_iff. exists (Z.to_nat i). specialize (R i I). rewrite in_seq. lia. }
  rewrite map_length, seq_length in H. lia.
Qed.

Lemma nodup_app_l : forall A (a b : list A), NoDup (a ++ b) -> NoDup a.
Proof. induction a; intros b H; [constructor|]. cbn in H. inversion H; subst. constructor; [rewrite in_app_iff in *; tauto|eapply IHa; eassumption]. Qed.
Lemma nodup_app_r : forall A (a b : list A), NoDup (a ++ b) -> NoDup b.
Proof. induction a; intros b H; [exact H|]. cbn in H. inversion H; subst. auto. Qed.
Lemma concat_map_map : forall A B (f : A -> B) cs, concat (map (map f) cs) = map f (concat cs).
Proof. induction cs; cbn; [reflexivity|]. rewrite IHcs, map_app. reflexivity. Qed.
Lemma concat_map_flat : forall A B (f : A -> list B) cs, concat (map (flat_map f) cs) = flat_map f (concat cs).
Proof. induction cs; cbn; [reflexivity|]. rewrite IHcs, flat_map_app. reflexivity. Qed.
Lemma nodup_map_inj : forall A B (f : A -> B) l, NoDup l -> (forall x y, In x l -> In y l -> f x = f y -> x = y) -> NoDup (map f l).
Proof.
  induction l; intros ND I; cbn; [constructor|]. inversion ND; subst. constructor.
  - intros H. apply in_map_iff in H. destruct H as (y & E & Y). assert (y = a) by (apply I; cbn; auto). subst. contradiction.
  - apply IHl; [assumption|]. intros x y X Y. apply I; cbn; auto.
Qed.

Section T.
Variable V : Type.
Notation node := (node V).

Definition nodeat (ns : list node) (i : Z) : node := nth (Z.to_nat i) ns (blank V).
Definition keyat (ns : list node) (i : Z) : nodekey := nkey V (nodeat ns i).
Definition inr (ns : list node) (i : Z) : Prop := 0 <= i < Z.of_nat (length ns).
Definition anext (ns : list node) (i : Z) : option Z :=
  let n := nodeat ns i in if nnext V n =? 0 then None else Some (i + nnext V n).

Lemma getnode_ok : forall ns i, inr ns i -> getnode V ns i = Ok (nodeat ns i).
Proof.
  intros ns i [A B]. unfold getnode, nodeat. destruct (Z.ltb_spec i 0); [lia|].
  rewrite (nth_error_nth' ns (blank V)) by lia. reflexivity.
Qed.
Lemma getnode_inv : forall ns i n, getnode V ns i = Ok n -> inr ns i /\ n = nodeat ns i.
Proof.
  intros ns i n H. unfold getnode in H. destruct (Z.ltb_spec i 0); [discriminate|]. destruct (nth_error ns (Z.to_nat i)) eqn:E; [|discriminate].
  injection H as ->. assert (Z.to_nat i < length ns)%nat by (apply nth_error_Some; congruence). split; [unfold inr; lia|].
  unfold nodeat. symmetry. apply nth_error_nth. assumption.
Qed.
Lemma nodeat_same : forall ns i n, inr ns i -> nodeat (setnode V ns i n) i = n.
Proof. intros. unfold nodeat, setnode. apply upd_nth_same. unfold inr in *. lia. Qed.
Lemma nodeat_other : forall ns i j n, 0 <= i -> 0 <= j -> i <> j -> nodeat (setnode V ns i n) j = nodeat ns j.
Proof. intros. unfold nodeat, setnode. apply upd_nth_other. lia. Qed.
Lemma setnode_length : forall ns i n, length (setnode V ns i n) = length ns.
Proof. intros. apply upd_length. Qed.
Lemma inr_set : forall ns i n j, inr (setnode V ns i n) j <-> inr ns j.
Proof. intros. unfold inr. rewrite setnode_length. tauto. Qed.

(* chains *)
Fixpoint seg (ns : list node) (c : list Z) (e : option Z) : Prop :=
  match c with
  | [] => True
  | x :: r => anext ns x = match r with [] => e | y :: _ => Some y end /\ seg ns r e
  end.
Definition hdo (c : list Z) (e : option Z) : option Z := match c with [] => e | y :: _ => Some y end.
Lemma seg_app : forall ns p q e, seg ns (p ++ q) e <-> seg ns p (hdo q e) /\ seg ns q e.
Proof.
  induction p as [|x p IH]; intros q e; cbn [app seg].
  - tauto.
  - rewrite IH. destruct p as [|y p]; cbn [app hdo]; destruct q; cbn [hdo]; tauto.
Qed.
Lemma seg_ext : forall ns ns' c e, (forall x, In x c -> anext ns' x = anext ns x) -> seg ns c e -> seg ns' c e.
Proof.
  induction c as [|x c IH]; intros e H S; cbn [seg] in *; [exact I|]. destruct S as [S1 S2]. split.
  - rewrite H by (left; reflexivity). assumption.
  - apply IH; [|assumption]. intros y Y. apply H. right. assumption.
Qed.

Lemma anext_step : forall ns i j, anext ns i = Some j -> nnext V (nodeat ns i) <> 0 /\ i + nnext V (nodeat ns i) = j.
Proof. intros ns i j H. unfold anext in H. destruct (Z.eqb_spec (nnext V (nodeat ns i)) 0); [discriminate|]. injection H as <-. auto. Qed.
Lemma anext_none : forall ns i, anext ns i = None -> nnext V (nodeat ns i) = 0.
Proof. intros ns i H. unfold anext in H. destruct (Z.eqb_spec (nnext V (nodeat ns i)) 0); [assumption|discriminate]. Qed.

Lemma search_seg : forall p ns c i fuel, seg ns (i :: c) None -> (forall j, In j (i :: c) -> inr ns j) -> (length (i :: c) <= fuel)%nat ->
  search V fuel p ns i = Ok (find (fun j => p (keyat ns j)) (i :: c)).
Proof.
  induction c as [|y c IH]; intros i fuel S R F; (destruct fuel as [|fuel]; [cbn in F; lia|]); cbn [search]; rewrite getnode_ok by (apply R; left; reflexivity); cbn [bind find].
  - fold (keyat ns i). destruct (p (keyat ns i)); [reflexivity|]. cbn [seg] in S. destruct S as [S _]. rewrite (anext_none _ _ S). reflexivity.
  - fold (keyat ns i). destruct (p (keyat ns i)); [reflexivity|]. cbn [seg] in S. destruct S as [S1 S2].
    destruct (anext_step _ _ _ S1) as [NZ E]. apply Z.eqb_neq in NZ. rewrite NZ, E.
    apply IH; [exact S2| |cbn in F; cbn; lia]. intros j J. apply R. right. assumption.
Qed.
Lemma find_app_none : forall A (p : A -> bool) q r, (forall j, In j q -> p j = false) -> find p (q ++ r) = find p r.
Proof. induction q; intros r H; cbn; [reflexivity|]. rewrite (H a) by (left; reflexivity). apply IHq. intros j J. apply H. right. assumption. Qed.

Lemma findprev_ok : forall ns q o m r fuel, seg ns (o :: q ++ m :: r) None -> (forall j, In j (o :: q) -> inr ns j) -> (length (o :: q) <= fuel)%nat ->
  exists prev, findprev V fuel ns o m = Ok prev /\ In prev (o :: q) /\ anext ns prev = Some m.
Proof.
  induction q as [|y q IH]; intros o m r fuel S R F; (destruct fuel as [|fuel]; [cbn in F; lia|]); cbn [findprev]; rewrite getnode_ok by (apply R; left; reflexivity); cbn [bind].
  - cbn [app seg] in S. destruct S as [S _]. destruct (anext_step _ _ _ S) as [NZ E]. rewrite E, Z.eqb_refl.
    exists o. split; [reflexivity|]. split; [left; reflexivity|assumption].
  - cbn [app seg] in S. destruct S as [S1 S2]. destruct (anext_step _ _ _ S1) as [NZ E]. rewrite E. destruct (Z.eqb_spec y m) as [->|N].
    + exists o. split; [reflexivity|]. split; [left; reflexivity|assumption].
    + destruct (IH y m r fuel S2) as (prev & P & I & A).
      * intros j J. apply R. right. assumption.
      * cbn in F. cbn. lia.
      * exists prev. split; [assumption|]. split; [right; assumption|assumption].
Qed.

(* predecessors are unique *)
Lemma seg_in_next : forall ns c x, seg ns c None -> In x c -> forall z, anext ns x = Some z -> exists a b, c = a ++ x :: z :: b.
Proof.
  intros ns c x S I z E. apply in_split in I. destruct I as (a & b & ->). apply seg_app in S. destruct S as [_ S]. cbn [seg] in S. destruct S as [S _].
  rewrite E in S. destruct b as [|y b]; [discriminate|]. injection S as ->. exists a, b. reflexivity.
Qed.
Lemma nodup_concat_unique : forall (cs : list (list Z)) c d x, NoDup (concat cs) -> In c cs -> In d cs -> In x c -> In x d -> c = d.
Proof.
  induction cs as [|a cs IH]; intros c d x ND C D XC XD; [destruct C|]. cbn [concat] in ND.
  assert (NX : forall e, In e cs -> In x e -> In x a -> False).
  { intros e E XE XA. apply in_split in XA. destruct XA as (u & w & ->). rewrite <- app_assoc in ND. cbn [app] in ND. apply NoDup_remove_2 in ND. apply ND.
    apply in_app_iff. right. apply in_app_iff. right. apply in_concat. exists e. auto. }
  destruct C as [<-|C]; destruct D as [<-|D].
  - reflexivity.
  - exfalso. apply (NX d); assumption.
  - exfalso. apply (NX c); assumption.
  - eapply IH; try eassumption. apply nodup_app_r in ND. assumption.
Qed.
Lemma nodup_concat_in : forall (cs : list (list Z)) c, NoDup (concat cs) -> In c cs -> NoDup c.
Proof.
  induction cs as [|a cs IH]; intros c ND I; [destruct I|]. cbn [concat] in ND. destruct I as [<-|I].
  - apply nodup_app_l in ND. assumption.
  - apply IH; [|assumption]. apply nodup_app_r in ND. assumption.
Qed.
Lemma split_unique : forall (c : list Z) a b a' b' x, NoDup c -> c = a ++ x :: b -> c = a' ++ x :: b' -> a = a' /\ b = b'.
Proof.
  intros c a. revert c. induction a as [|y a IH]; intros c b a' b' x ND E E'; subst c.
  - destruct a' as [|z a']; cbn [app] in *; [injection E' as ->; auto|]. injection E' as -> E'. subst b. inversion ND; subst. exfalso. apply H1. apply in_app_iff. right. left. reflexivity.
  - destruct a' as [|z a']; cbn [app] in *.
    + injection E' as -> E'. subst b'. inversion ND; subst. exfalso. apply H1. apply in_app_iff. right. left. reflexivity.
    + injection E' as -> E'. inversion ND; subst. destruct (IH _ b a' b' x H2 eq_refl E') as [-> ->]. auto.
Qed.
Lemma pred_unique : forall ns cs x y z, NoDup (concat cs) -> (forall c, In c cs -> seg ns c None) ->
  In x (concat cs) -> In y (concat cs) -> anext ns x = Some z -> anext ns y = Some z -> x = y.
Proof.
  intros ns cs x y z ND S X Y EX EY. apply in_concat in X. destruct X as (c & C & X). apply in_concat in Y. destruct Y as (d & D & Y).
  destruct (seg_in_next ns c x (S c C) X z EX) as (a & b & E1). destruct (seg_in_next ns d y (S d D) Y z EY) as (a' & b' & E2).
  assert (c = d).
  { apply (nodup_concat_unique cs c d z ND C D); [rewrite E1|rewrite E2]; apply in_app_iff; right; right; left; reflexivity. }
  subst d. pose proof (nodup_concat_in cs c ND C) as NC.
  assert (F1 : c = (a ++ [x]) ++ z :: b) by (rewrite <- app_assoc; assumption).
  assert (F2 : c = (a' ++ [y]) ++ z :: b') by (rewrite <- app_assoc; assumption).
  destruct (split_unique c _ _ _ _ z NC F1 F2) as [Q _]. apply app_inj_tail in Q. apply Q.
Qed.
Lemma anext_in : forall ns cs x z, (forall c, In c cs -> seg ns c None) -> In x (concat cs) -> anext ns x = Some z -> In z (concat cs).
Proof.
  intros ns cs x z S X E. apply in_concat in X. destruct X as (c & C & X). destruct (seg_in_next ns c x (S c C) X z E) as (a & b & E1).
  apply in_concat. exists c. split; [assumption|]. rewrite E1. apply in_app_iff. right. right. left. reflexivity.
Qed.
Lemma anext_irr : forall ns cs x, NoDup (concat cs) -> (forall c, In c cs -> seg ns c None) -> In x (concat cs) -> anext ns x <> Some x.
Proof.
  intros ns cs x ND S X E. apply in_concat in X. destruct X as (c & C & X). destruct (seg_in_next ns c x (S c C) X x E) as (a & b & E1).
  pose proof (nodup_concat_in cs c ND C) as NC. rewrite E1 in NC. apply NoDup_remove_2 in NC. apply NC. apply in_app_iff. right. left. reflexivity.
Qed.
End T.
