Require Import ZArith List Bool Lia.
From Verif Require Import Base Base_facts Ref_model.
Import ListNotations.
Open Scope Z_scope.

Section Proofs.
Variable V : Type.
Notation val := (val V).
Notation table := (table V).

(* what lua_rawlen may return (property C09) *)
Definition is_border (t : table) (n : Z) : Prop :=
  0 <= n /\ (n = 0 \/ t n <> VNil) /\ t (n + 1) = VNil.

(* Histories: [live] lists the references held with their values, [used] every reference
   ever returned.  Foreign code may use any key of the table which is not 0 and was never
   returned by luaL_ref. *)
Inductive history : table -> list (Z * val) -> list Z -> Prop :=
| h_init t : t 0 = VNil -> history t [] []
| h_ref t live used v n t' r : history t live used -> v <> VNil -> is_border t n -> n + 1 < two31 ->
    luaL_ref V n t v = (t', r) -> history t' ((r, v) :: live) (r :: used)
| h_unref t l1 r v l2 used : history t (l1 ++ (r, v) :: l2) used -> history (luaL_unref V t r) (l1 ++ l2) used
| h_noref t live used r : history t live used -> r < 0 -> history (luaL_unref V t r) live used
| h_foreign t live used k v : history t live used -> k <> 0 -> ~ In k used -> history (tset V t k v) live used.

Fixpoint chain (t : table) (hd : val) (fl : list Z) : Prop :=
  match fl with
  | [] => hd = VNil
  | r :: rest => hd = VInt r /\ 0 < r < two31 /\ chain t (t r) rest
  end.

Record inv (t : table) (live : list (Z * val)) (used : list Z) (fl : list Z) : Prop := {
  i_chain : chain t (t 0) fl;
  i_nd : NoDup (fl ++ map fst live);
  i_fl : forall r, In r fl -> In r used /\ 0 < r < two31;
  i_live : forall r v, In (r, v) live -> t r = v /\ v <> VNil /\ 0 < r < two31 /\ In r used }.

Lemma tset_same : forall t k v, tset V t k v k = v.
Proof. intros. unfold tset. rewrite Z.eqb_refl. reflexivity. Qed.
Lemma tset_other : forall t k v x, x <> k -> tset V t k v x = t x.
Proof. intros. unfold tset. destruct (Z.eqb_spec x k); congruence. Qed.

Lemma chain_ext : forall fl t t' hd, (forall r, In r fl -> t' r = t r) -> chain t hd fl -> chain t' hd fl.
Proof.
  induction fl as [|r fl IH]; intros t t' hd E C; cbn [chain] in *; [assumption|].
  destruct C as (C1 & C2 & C3). split; [assumption|]. split; [assumption|].
  rewrite E by (left; reflexivity). apply IH with (t := t); [|assumption]. intros. apply E. right. assumption.
Qed.

Lemma live_in : forall (live : list (Z * val)) r v, In (r, v) live -> In r (map fst live).
Proof. intros. change r with (fst (r, v)). apply in_map. assumption. Qed.

(* one call of luaL_ref *)
Lemma ref_step : forall t live used fl v n, inv t live used fl -> v <> VNil -> is_border t n -> n + 1 < two31 ->
  exists t' r, luaL_ref V n t v = (t', r) /\ 0 < r < two31 /\ ~ In r (map fst live) /\ t' r = v /\
   (forall k, k <> r -> k <> 0 -> t' k = t k) /\
   (match fl with [] => r = n + 1 | x :: _ => r = x end) /\
   inv t' ((r, v) :: live) (r :: used) (match fl with [] => [] | _ :: f => f end).
Proof.
  intros t live used fl v n [Ic In' If Il] Hv Hb Hn.
  assert (E0 : luaL_ref V n t v = let ref := s32 (tointeger V (t freelist)) in
    if negb (ref =? 0) then (tset V (tset V t freelist (t ref)) ref v, ref)
    else (tset V t (s32 (s32 n + 1)) v, s32 (s32 n + 1))) by (destruct v; [congruence|reflexivity|reflexivity]).
  rewrite E0. clear E0. unfold freelist. destruct fl as [|x fl]; cbn [chain] in Ic.
  - rewrite Ic. cbn [tointeger]. change (s32 0) with 0. cbn [Z.eqb negb].
    destruct Hb as (Hb1 & Hb2 & Hb3). rewrite (s32_id n), (s32_id (n + 1)) by (unfold_consts; lia).
    assert (NL : ~ In (n + 1) (map fst live)).
    { intros I. apply in_map_iff in I. destruct I as ((r & w) & E1 & I). cbn [fst] in E1. subst r.
      destruct (Il _ _ I) as (A & B & _). congruence. }
    eexists _, (n + 1). split; [reflexivity|]. split; [lia|]. split; [assumption|].
    split; [apply tset_same|]. split; [intros; apply tset_other; assumption|]. split; [reflexivity|].
    constructor.
    + cbn [chain]. rewrite tset_other by lia. assumption.
    + cbn [app map fst]. constructor; [exact NL|]. exact In'.
    + intros r [].
    + intros r w [E|I].
      * inversion E; subst. rewrite tset_same. split; [reflexivity|]. split; [assumption|]. split; [lia|]. left; reflexivity.
      * destruct (Il _ _ I) as (A & B & C & D). rewrite tset_other.
        -- split; [assumption|]. split; [assumption|]. split; [assumption|]. right; assumption.
        -- intros ->. apply NL. eapply live_in; eauto.
  - destruct Ic as (C1 & C2 & C3). rewrite C1. cbn [tointeger]. rewrite (s32_id x) by (unfold_consts; lia).
    destruct (Z.eqb_spec x 0); [lia|]. cbn [negb].
    cbn [app] in In'. inversion In' as [|? ? NI ND]; subst.
    assert (NL : ~ In x (map fst live)) by (intros I; apply NI, in_or_app; right; exact I).
    assert (NF : ~ In x fl) by (intros I; apply NI, in_or_app; left; exact I).
    eexists _, x. split; [reflexivity|]. split; [assumption|]. split; [assumption|].
    split; [apply tset_same|]. split; [intros; rewrite !tset_other by assumption; reflexivity|]. split; [reflexivity|].
    constructor.
    + rewrite tset_other, tset_same by lia. eapply chain_ext; [|exact C3].
      intros r I. rewrite !tset_other; [reflexivity| |].
      * destruct (If r (or_intror I)). lia.
      * intros ->. contradiction.
    + cbn [map fst].
      apply NoDup_Add with (a := x) (l := fl ++ map fst live); [apply Add_app|]. split; assumption.
    + intros r I. destruct (If r (or_intror I)). split; [right; assumption|assumption].
    + intros r w [E|I].
      * inversion E; subst. rewrite tset_same. split; [reflexivity|]. split; [assumption|]. split; [lia|]. left; reflexivity.
      * destruct (Il _ _ I) as (A & B & C & D). rewrite !tset_other.
        -- split; [assumption|]. split; [assumption|]. split; [assumption|]. right; assumption.
        -- lia.
        -- intros ->. apply NL. eapply live_in; eauto.
Qed.

Lemma history_inv : forall t live used, history t live used -> exists fl, inv t live used fl.
Proof.
  induction 1 as [t E|t live used v n t' r H IH Hv Hb Hn E|t l1 r v l2 used H IH|t live used r H IH Hr|t live used k v H IH Hk Hu].
  - exists []. constructor; cbn [chain app map]; try constructor; auto; intros; contradiction.
  - destruct IH as [fl I]. destruct (ref_step _ _ _ _ _ _ I Hv Hb Hn) as (t2 & r2 & E2 & _ & _ & _ & _ & _ & I2).
    rewrite E in E2. inversion E2; subst. eauto.
  - destruct IH as [fl [Ic In' If Il]]. exists (r :: fl).
    destruct (Il r v) as (A & B & C & D); [apply in_or_app; right; left; reflexivity|].
    assert (NN : NoDup (r :: fl ++ map fst (l1 ++ l2)) ).
    { rewrite map_app in *. cbn [map fst] in In'. rewrite !app_assoc in In'.
      apply NoDup_remove in In'. destruct In' as [N1 N2]. rewrite app_assoc. constructor; assumption. }
    inversion NN as [|? ? NI ND]; subst.
    unfold luaL_unref, freelist. destruct (Z.leb_spec 0 r); [|lia].
    constructor.
    + cbn [chain]. rewrite tset_same. split; [reflexivity|]. split; [assumption|].
      rewrite tset_other, tset_same by lia. eapply chain_ext; [|exact Ic].
      intros x I. rewrite !tset_other; [reflexivity| |].
      * intros ->. apply NI, in_or_app; left; assumption.
      * destruct (If x I). lia.
    + assumption.
    + intros x [->|I]; [split; assumption|]. apply If; assumption.
    + intros x w I. destruct (Il x w) as (A' & B' & C' & D').
      { apply in_app_or in I. apply in_or_app. destruct I; [left|right; right]; assumption. }
      rewrite !tset_other; [auto| |lia].
      intros ->. apply NI, in_or_app; right. eapply live_in; eauto.
  - unfold luaL_unref. destruct (Z.leb_spec 0 r); [lia|]. assumption.
  - destruct IH as [fl [Ic In' If Il]]. exists fl. constructor; auto.
    + rewrite tset_other by lia. eapply chain_ext; [|exact Ic]. intros r I. apply tset_other.
      intros ->. apply Hu. apply If. assumption.
    + intros r w I. destruct (Il _ _ I) as (A & B & C & D). rewrite tset_other; [auto|].
      intros ->. contradiction.
Qed.

Theorem ref_fresh : forall t live used v n, history t live used -> v <> VNil -> is_border t n -> n + 1 < two31 ->
  exists t' r, luaL_ref V n t v = (t', r) /\ 0 < r /\ ~ In r (map fst live) /\ t' r = v /\
   forall k, k <> r -> k <> 0 -> t' k = t k.
Proof.
  intros t live used v n H Hv Hb Hn. destruct (history_inv _ _ _ H) as [fl I].
  destruct (ref_step _ _ _ _ _ _ I Hv Hb Hn) as (t' & r & E & R & NL & S & O & _).
  exists t', r. repeat split; auto; lia.
Qed.

Theorem ref_lookup : forall t live used, history t live used ->
  NoDup (map fst live) /\ forall r v, In (r, v) live -> t r = v.
Proof.
  intros t live used H. destruct (history_inv _ _ _ H) as [fl [Ic In' If Il]]. split.
  - clear - In'. induction fl; cbn [app] in *; [assumption|]. inversion In'; auto.
  - intros r v I. apply (Il _ _ I).
Qed.

Theorem unref_others : forall t r k, k <> r -> k <> 0 -> luaL_unref V t r k = t k.
Proof.
  intros. unfold luaL_unref, freelist. destruct (0 <=? r); [|reflexivity]. rewrite !tset_other by assumption. reflexivity.
Qed.

(* a released reference is the next one given out *)
Theorem ref_reuse : forall t l1 r v l2 used w n, history t (l1 ++ (r, v) :: l2) used -> w <> VNil ->
  is_border (luaL_unref V t r) n -> n + 1 < two31 -> snd (luaL_ref V n (luaL_unref V t r) w) = r.
Proof.
  intros t l1 r v l2 used w n H Hw Hb Hn.
  destruct (history_inv _ _ _ H) as [fl [Ic In' If Il]].
  destruct (Il r v) as (A & B & C & D); [apply in_or_app; right; left; reflexivity|].
  assert (E : luaL_unref V t r 0 = VInt r).
  { unfold luaL_unref, freelist. destruct (Z.leb_spec 0 r); [|lia]. apply tset_same. }
  unfold luaL_ref. unfold freelist. rewrite E. cbn [tointeger]. rewrite (s32_id r) by (unfold_consts; lia).
  destruct (Z.eqb_spec r 0); [lia|]. destruct w; [congruence|reflexivity|reflexivity].
Qed.
End Proofs.
