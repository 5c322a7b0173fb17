Require Import ZArith List Bool Lia Permutation.
From Verif Require Import Base Base_facts Sort_model Sort_spec.
Import ListNotations.
Open Scope Z_scope.

Section SWAPS.
Variable V : Type.
Definition swap (i j : Z) (a b : Z -> V) : Prop := forall x, b x = if x =? i then a j else if x =? j then a i else a x.
Inductive swaps (lo up : Z) : (Z -> V) -> (Z -> V) -> Prop :=
| sw_refl : forall a b, (forall x, b x = a x) -> swaps lo up a b
| sw_step : forall i j a b c, lo <= i <= up -> lo <= j <= up -> swap i j a b -> swaps lo up b c -> swaps lo up a c.
Lemma swaps_ext : forall lo up a b c, (forall x, b x = a x) -> swaps lo up b c -> swaps lo up a c.
Proof.
  intros lo up a b c E H. destruct H as [b c F|i j b d c I J S H].
  - apply sw_refl. intros x. rewrite F. apply E.
  - apply (sw_step lo up i j a d c I J); [|assumption]. intros x. rewrite S. rewrite !E. reflexivity.
Qed.
Lemma swaps_trans : forall lo up a b c, swaps lo up a b -> swaps lo up b c -> swaps lo up a c.
Proof.
  intros lo up a b c H. revert c. induction H as [a b E|i j a b c I J S H IH]; intros d D.
  - apply (swaps_ext lo up a b d E D).
  - apply (sw_step lo up i j a b d I J S). apply IH. assumption.
Qed.
Lemma swaps_mono : forall lo up lo' up' a b, lo' <= lo -> up <= up' -> swaps lo up a b -> swaps lo' up' a b.
Proof.
  intros lo up lo' up' a b L U H. induction H as [a b E|i j a b c I J S H IH]; [apply sw_refl; assumption|].
  apply (sw_step lo' up' i j a b c); auto; lia.
Qed.
Lemma swaps_one : forall lo up i j a b, lo <= i <= up -> lo <= j <= up -> swap i j a b -> swaps lo up a b.
Proof. intros. apply (sw_step lo up i j a b b); auto. apply sw_refl. reflexivity. Qed.
Lemma swaps_out : forall lo up a b x, swaps lo up a b -> ~ lo <= x <= up -> b x = a x.
Proof.
  intros lo up a b x H O. induction H as [a b E|i j a b c I J S H IH]; [apply E|].
  rewrite IH, S. destruct (Z.eqb_spec x i); [lia|]. destruct (Z.eqb_spec x j); [lia|]. reflexivity.
Qed.
Lemma swaps_all : forall lo up lo' up' (Q : V -> Prop) a b, swaps lo up a b -> lo' <= lo -> up <= up' -> (forall x, lo' <= x <= up' -> Q (a x)) -> forall x, lo' <= x <= up' -> Q (b x).
Proof.
  intros lo up lo' up' Q a b H L U. induction H as [a b E|i j a b c I J S H IH]; intros A x X; [rewrite E; auto|].
  apply IH; [|assumption]. intros y Y. rewrite S. destruct (Z.eqb_spec y i); [apply A; lia|]. destruct (Z.eqb_spec y j); apply A; lia.
Qed.
Lemma in_zseq : forall k lo x, In x (zseq lo k) <-> lo <= x < lo + Z.of_nat k.
Proof.
  induction k as [|k IH]; intros lo x; cbn [zseq In]; [lia|]. rewrite IH. lia.
Qed.
Lemma nodup_zseq : forall k lo, NoDup (zseq lo k).
Proof. induction k as [|k IH]; intros lo; cbn [zseq]; constructor; [rewrite in_zseq; lia|apply IH]. Qed.
Lemma swaps_perm : forall n a b, 0 <= n -> swaps 1 n a b -> rearranged n a b.
Proof.
  intros n a b N H. split; [|intros i I; apply (swaps_out 1 n a b i H I)]. unfold contents.
  induction H as [a b E|i j a b c I J S H IH].
  - rewrite (map_ext b a E). apply Permutation_refl.
  - eapply Permutation_trans; [|exact IH]. clear IH. set (l := zseq 1 (Z.to_nat n)).
    set (s := fun x => if x =? i then j else if x =? j then i else x).
    assert (E : map b l = map a (map s l)).
    { rewrite map_map. apply map_ext. intros x. rewrite S. unfold s. destruct (x =? i); [reflexivity|]. destruct (x =? j); reflexivity. }
    rewrite E. apply Permutation_map. apply NoDup_Permutation.
    + apply nodup_zseq.
    + assert (INJ : forall x y, s x = s y -> x = y).
      { intros x y. unfold s. destruct (Z.eqb_spec x i), (Z.eqb_spec y i), (Z.eqb_spec x j), (Z.eqb_spec y j); lia. }
      apply FinFun.Injective_map_NoDup; [exact INJ|apply nodup_zseq].
    + intros x. rewrite in_map_iff. unfold l. split.
      * intros X. exists (s x). rewrite in_zseq in *. unfold s. split.
        -- destruct (Z.eqb_spec x i); [|destruct (Z.eqb_spec x j)].
           ++ destruct (Z.eqb_spec j i); [lia|]. rewrite Z.eqb_refl. lia.
           ++ rewrite Z.eqb_refl. lia.
           ++ destruct (Z.eqb_spec x i); [lia|]. destruct (Z.eqb_spec x j); lia.
        -- destruct (Z.eqb_spec x i); [lia|]. destruct (Z.eqb_spec x j); lia.
      * intros (y & <- & Y). rewrite in_zseq in *. unfold s. destruct (Z.eqb_spec y i); [lia|]. destruct (Z.eqb_spec y j); lia.
Qed.
End SWAPS.

Section SORT.
Variables V St : Type.
Variable cmp : St -> V -> V -> option (bool * St).
Variable rand : St -> Z * St.
Variable n : Z.
Variable lt : V -> V -> bool.
Hypothesis N : 0 <= n < two31.
Notation res := (res V St). Notation array := (array V). Notation geti := (geti V St n). Notation seti := (seti V St n).
Notation set2 := (set2 V St n). Notation comp := (comp V St cmp). Notation scan_up := (scan_up V St cmp n). Notation scan_down := (scan_down V St cmp n).
Notation part_loop := (part_loop V St cmp n). Notation partition := (partition V St cmp n). Notation auxsort := (auxsort V St cmp rand n).
Notation swaps := (swaps V). Notation M := (M V St). Notation mbind := (mbind V St).

Definition C : Prop := answers cmp lt /\ strict_weak_order lt.
Lemma C_irr : C -> forall x, lt x x = false. Proof. intros (_ & H & _). exact H. Qed.
Lemma C_asym : C -> forall x y, lt x y = true -> lt y x = false.
Proof. intros (_ & I & T & _) x y L. destruct (lt y x) eqn:E; [|reflexivity]. rewrite <- (I x). symmetry. eapply T; eassumption. Qed.
Lemma C_trans : C -> forall x y z, lt y x = false -> lt z y = false -> lt z x = false.
Proof. intros (_ & I & T & NT) x y z A B. destruct (lt z x) eqn:E; [|reflexivity]. destruct (NT z y x E); congruence. Qed.

Definition post {A} (Q : A -> array -> Prop) (E : error -> array -> Prop) (r : res A) : Prop :=
  match r with ROk x a _ => Q x a | RErr e a => E e a | _ => False end.
Lemma post_bind : forall A B (m : M A) (f : A -> M B) a s Q E R, post R E (m a s) -> (forall x a' s', R x a' -> post Q E (f x a' s')) -> post Q E (mbind m f a s).
Proof. intros A B m f a s Q E R H F. unfold Sort_model.mbind. destruct (m a s); cbn in *; auto. Qed.
Lemma post_weak : forall A (r : res A) (Q Q' : A -> array -> Prop) (E E' : error -> array -> Prop), post Q E r -> (forall x a, Q x a -> Q' x a) -> (forall e a, E e a -> E' e a) -> post Q' E' r.
Proof. intros A r Q Q' E E' H F G. destruct r; cbn in *; auto. Qed.
Lemma post_geti : forall A i (f : V -> M A) a s Q E, 1 <= i <= n -> post Q E (f (a i) a s) -> post Q E (mbind (geti i) f a s).
Proof. intros A i f a s Q E I H. unfold Sort_model.mbind, Sort_model.geti. destruct (Z.leb_spec 1 i); [|lia]. destruct (Z.leb_spec i n); [|lia]. exact H. Qed.
(* swapping through the stack *)
Lemma set2_swap : forall i j a s, 1 <= i <= n -> 1 <= j <= n -> exists a' s', set2 i j (a j) (a i) a s = ROk tt a' s' /\ swap V i j a a'.
Proof.
  intros i j a s I J. unfold Sort_model.set2, Sort_model.mbind, Sort_model.seti. destruct (Z.leb_spec 1 i); [|lia]. destruct (Z.leb_spec i n); [|lia]. cbn [andb].
  destruct (Z.leb_spec 1 j); [|lia]. destruct (Z.leb_spec j n); [|lia]. cbn [andb]. do 2 eexists. split; [reflexivity|]. intros x. cbn.
  destruct (Z.eqb_spec x j); destruct (Z.eqb_spec x i); subst; reflexivity.
Qed.
Lemma post_set2 : forall A i j (f : unit -> M A) a s Q E v w, 1 <= i <= n -> 1 <= j <= n -> v = a j -> w = a i ->
  (forall a' s', swap V i j a a' -> post Q E (f tt a' s')) -> post Q E (mbind (set2 i j v w) f a s).
Proof.
  intros A i j f a s Q E v w I J -> -> F. destruct (set2_swap i j a s I J) as (a' & s' & EQ & S). unfold Sort_model.mbind at 1. rewrite EQ. apply F. assumption.
Qed.
Lemma post_comp : forall A x y (f : bool -> M A) a s Q (E : error -> array -> Prop), (~ C -> E EUser a) ->
  (forall b s', (C -> b = lt x y) -> post Q E (f b a s')) -> post Q E (mbind (comp x y) f a s).
Proof.
  intros A x y f a s Q E HE F. unfold Sort_model.mbind, Sort_model.comp. destruct (cmp s x y) as [[b s']|] eqn:EC.
  - apply F. intros (CA & _). destruct (CA s x y) as (s2 & E2). congruence.
  - cbn. apply HE. intros (CA & _). destruct (CA s x y) as (s2 & E2). congruence.
Qed.

Definition err (lo up : Z) (a : array) (e : error) (a' : array) : Prop := (e = EOrder \/ e = EUser) /\ swaps lo up a a' /\ ~ C.

Lemma scan_up_ok : forall fuel up P i a s lo, Z.of_nat fuel >= up - i -> 0 <= i -> i < up - 1 -> up <= n -> a (up - 1) = P ->
  post (fun r a' => a' = a /\ let '(i', x) := r in i < i' <= up - 1 /\ x = a i' /\ (C -> lt x P = false /\ forall k, i < k < i' -> lt (a k) P = true))
       (err lo up a) (scan_up fuel up P i a s).
Proof.
  induction fuel as [|f IH]; intros up P i a s lo F I0 I U AP; [lia|]. cbn [Sort_model.scan_up].
  assert (X : u32 (i + 1) = i + 1) by (unfold u32; rewrite Z.mod_small; unfold_consts; unfold two31 in N; lia). rewrite X.
  assert (X2 : u32 (up - 1) = up - 1) by (unfold u32; rewrite Z.mod_small; unfold_consts; unfold two31 in N; lia). rewrite X2.
  apply post_geti; [lia|]. apply post_comp.
  - intros NC. split; [right; reflexivity|]. split; [apply sw_refl; reflexivity|assumption].
  - intros b s' CB. destruct b.
    + destruct (Z.eqb_spec (i + 1) (up - 1)) as [EQ|NE].
      * cbn. split; [left; reflexivity|]. split; [apply sw_refl; reflexivity|]. intros CC. pose proof (CB CC) as L. rewrite EQ, AP in L. rewrite (C_irr CC) in L. discriminate.
      * eapply post_weak; [apply (IH up P (i + 1) a s' lo); try lia; assumption| |auto].
        intros [i' x] a' (-> & R & EX & H). split; [reflexivity|]. split; [lia|]. split; [assumption|]. intros CC. destruct (H CC) as [H1 H2]. split; [assumption|].
        intros k K. destruct (Z.eq_dec k (i + 1)) as [->|]; [symmetry; apply CB; assumption|apply H2; lia].
    + cbn. split; [reflexivity|]. split; [lia|]. split; [reflexivity|]. intros CC. split; [symmetry; apply CB; assumption|]. intros k K. lia.
Qed.
Lemma scan_down_ok : forall fuel i P j a s lo up, Z.of_nat fuel >= 1 -> Z.of_nat fuel >= j - i + 1 -> 1 <= lo -> lo < i -> lo < j -> j <= n ->
  (C -> forall k, lo <= k < i -> lt P (a k) = false) ->
  post (fun r a' => a' = a /\ let '(j', y) := r in lo <= j' < j /\ y = a j' /\ (C -> lt P y = false /\ forall k, j' < k < j -> lt P (a k) = true))
       (err lo up a) (scan_down fuel i P j a s).
Proof.
  induction fuel as [|f IH]; intros i P j a s lo up F1 F L0 LI LJ JN HL; [lia|]. cbn [Sort_model.scan_down].
  assert (X : u32 (j - 1) = j - 1) by (unfold u32; rewrite Z.mod_small; unfold_consts; unfold two31 in N; lia). rewrite X.
  apply post_geti; [lia|]. apply post_comp.
  - intros NC. split; [right; reflexivity|]. split; [apply sw_refl; reflexivity|assumption].
  - intros b s' CB. destruct b.
    + destruct (Z.ltb_spec (j - 1) i) as [LT|GE].
      * cbn. split; [left; reflexivity|]. split; [apply sw_refl; reflexivity|]. intros CC. pose proof (CB CC) as L. rewrite HL in L; [discriminate|assumption|lia].
      * eapply post_weak; [apply (IH i P (j - 1) a s' lo up); try lia; assumption| |auto].
        intros [j' y] a' (-> & R & EX & H). split; [reflexivity|]. split; [lia|]. split; [assumption|]. intros CC. destruct (H CC) as [H1 H2]. split; [assumption|].
        intros k K. destruct (Z.eq_dec k (j - 1)) as [->|]; [symmetry; apply CB; assumption|apply H2; lia].
    + cbn. split; [reflexivity|]. split; [lia|]. split; [reflexivity|]. intros CC. split; [symmetry; apply CB; assumption|]. intros k K. lia.
Qed.
Lemma err_weak : forall lo up a b e c, swaps lo up a b -> err lo up b e c -> err lo up a e c.
Proof. intros lo up a b e c S (E & S' & NC). split; [assumption|]. split; [eapply swaps_trans; eassumption|assumption]. Qed.
Lemma part_loop_ok : forall fuel lo up P i j a s, Z.of_nat fuel >= up - i + 1 -> 1 <= lo -> up <= n -> lo <= i -> i <= j -> i < up - 1 -> j <= up - 1 -> lo < j -> a (up - 1) = P ->
  (C -> forall k, lo <= k <= i -> lt P (a k) = false) -> (C -> forall k, j <= k <= up -> lt (a k) P = false) ->
  post (fun p a' => lo < p < up /\ swaps lo up a a' /\ (C -> a' p = P /\ (forall k, lo <= k < p -> lt P (a' k) = false) /\ (forall k, p < k <= up -> lt (a' k) P = false)))
       (err lo up a) (part_loop fuel up P i j a s).
Proof.
  induction fuel as [|f IH]; intros lo up P i j a s F L0 U LI IJ IU JU LJ AP HL HU; [lia|]. cbn [Sort_model.part_loop].
  eapply post_bind; [apply (scan_up_ok (S f) up P i a s lo); try lia; assumption|]. intros [i' x] a' s1 (-> & RI & EX & HI). clear s.
  assert (HL' : C -> forall k, lo <= k < i' -> lt P (a k) = false).
  { intros CC k K. destruct (Z_le_gt_dec k i); [apply HL; [assumption|lia]|]. apply C_asym; [assumption|]. apply (HI CC). lia. }
  eapply post_bind; [apply (scan_down_ok (S f) i' P j a s1 lo up); try lia; assumption|]. intros [j' y] a' s2 (-> & RJ & EY & HJ). clear s1.
  assert (HU' : C -> forall k, j' < k <= up -> lt (a k) P = false).
  { intros CC k K. destruct (Z_lt_le_dec k j); [|apply HU; [assumption|lia]]. apply C_asym; [assumption|]. apply (HJ CC). lia. }
  assert (X2 : u32 (up - 1) = up - 1) by (unfold u32; rewrite Z.mod_small; unfold_consts; unfold two31 in N; lia).
  destruct (Z.ltb_spec j' i') as [LT|GE].
  - rewrite X2. subst x. apply post_set2; try lia; [reflexivity|congruence|]. intros b s' SW. cbn. split; [lia|]. split; [apply (swaps_one V lo up (up - 1) i'); auto; lia|].
    intros CC. rewrite !SW. split; [|split].
    + destruct (Z.eqb_spec i' (up - 1)); [congruence|]. rewrite Z.eqb_refl. assumption.
    + intros k K. rewrite SW. destruct (Z.eqb_spec k (up - 1)); [lia|]. destruct (Z.eqb_spec k i'); [lia|]. apply HL'; [assumption|lia].
    + intros k K. rewrite SW. destruct (Z.eqb_spec k (up - 1)); [apply (HI CC)|]. destruct (Z.eqb_spec k i'); [lia|]. apply HU'; [assumption|lia].
  - subst x y. apply post_set2; try lia; try reflexivity. intros b s' SW.
    assert (SS : swaps lo up a b) by (apply (swaps_one V lo up i' j'); auto; lia).
    eapply post_weak; [apply (IH lo up P i' j' b s'); try lia| |].
    + rewrite SW. destruct (Z.eqb_spec (up - 1) i'); [lia|]. destruct (Z.eqb_spec (up - 1) j'); [lia|]. assumption.
    + intros CC k K. rewrite SW. destruct (Z.eqb_spec k i'); [apply (HJ CC)|]. destruct (Z.eqb_spec k j'); [lia|]. apply HL'; [assumption|lia].
    + intros CC k K. rewrite SW. destruct (Z.eqb_spec k i') as [->|].
      * assert (i' = j') by lia. subst j'. apply (HI CC).
      * destruct (Z.eqb_spec k j'); [apply (HI CC)|]. apply HU'; [assumption|lia].
    + intros p a' (R & S & H). split; [assumption|]. split; [eapply swaps_trans; eassumption|assumption].
    + intros e a' H. eapply err_weak; eassumption.
Qed.

Definition lsorted (lo up : Z) (a : array) : Prop := sorted lt lo up a.
Lemma auxsort_ok : forall fuel lo up rnd a s, Z.of_nat fuel > up - lo + 1 -> (1 <= lo /\ lo <= up + 1) -> up <= n ->
  post (fun _ a' => swaps lo up a a' /\ (C -> lsorted lo up a')) (err lo up a) (auxsort fuel lo up rnd a s).
Proof.
  induction fuel as [|f IH]; intros lo up rnd a s F (L0 & LU) U; [lia|]. cbn [Sort_model.auxsort].
  destruct (Z.ltb_spec lo up) as [LT|GE].
  2:{ cbn. split; [apply sw_refl; reflexivity|]. intros _ i j I IJ J. lia. }
  assert (UU : forall x, 0 <= x <= 2 * n -> u32 x = x) by (intros x X; unfold u32; rewrite Z.mod_small; unfold_consts; unfold two31 in N; lia).
  rewrite (UU (up - lo)) by lia.
  apply post_geti; [lia|]. apply post_geti; [lia|]. apply post_comp.
  { intros NC. split; [right; reflexivity|]. split; [apply sw_refl; reflexivity|assumption]. }
  intros b s1 CB.
  apply (post_bind _ _ _ _ _ _ _ _ (fun _ a1 => swaps lo up a a1 /\ (C -> lt (a1 up) (a1 lo) = false))).
  { destruct b.
    - destruct (set2_swap lo up a s1 ltac:(lia) ltac:(lia)) as (a1 & s2 & E & SW). rewrite E. cbn. split; [apply (swaps_one V lo up lo up); auto; lia|].
      intros CC. rewrite !SW. rewrite Z.eqb_refl. destruct (Z.eqb_spec up lo); [lia|]. rewrite Z.eqb_refl. apply C_asym; [assumption|]. symmetry. apply CB. assumption.
    - cbn. split; [apply sw_refl; reflexivity|]. intros CC. symmetry. apply CB. assumption. }
  intros _ a1 s2 (S1 & H1). clear b CB s1 s. destruct (Z.eqb_spec (up - lo) 1) as [E1|N1].
  { cbn. split; [assumption|]. intros CC i j I IJ J. replace j with up by lia. replace i with lo by lia. apply H1. assumption. }
  apply (post_bind _ _ _ _ _ _ _ _ (fun p a' => a' = a1 /\ lo < p < up)).
  { destruct ((up - lo <? RANLIMIT) || (rnd =? 0)) eqn:B; cbn.
    - rewrite (UU (lo + up)) by lia. split; [reflexivity|]. pose proof (Z.div_mod (lo + up) 2 ltac:(lia)). pose proof (Z.mod_pos_bound (lo + up) 2 ltac:(lia)). lia.
    - apply orb_false_elim in B. destruct B as [B _]. apply Z.ltb_ge in B. unfold RANLIMIT in B. unfold choosePivot. rewrite (UU (up - lo)) by lia.
      pose proof (Z.div_mod (up - lo) 4 ltac:(lia)). pose proof (Z.mod_pos_bound (up - lo) 4 ltac:(lia)). set (r4 := (up - lo) / 4) in *.
      rewrite (UU (r4 * 2)) by lia. destruct (Z.eqb_spec (r4 * 2) 0); [lia|]. rewrite (UU (lo + r4)) by lia. pose proof (Z.mod_pos_bound rnd (r4 * 2) ltac:(lia)).
      rewrite UU by lia. cbn. split; [reflexivity|lia]. }
  intros p a' s1 (-> & RP). clear s2. apply post_geti; [lia|]. apply post_geti; [lia|]. apply post_comp.
  { intros NC. split; [right; reflexivity|]. split; assumption. }
  intros b s CB.
  apply (post_bind _ _ _ _ _ _ _ _ (fun _ a2 => swaps lo up a a2 /\ (C -> lt (a2 p) (a2 lo) = false /\ lt (a2 up) (a2 p) = false))).
  { destruct b.
    - destruct (set2_swap p lo a1 s ltac:(lia) ltac:(lia)) as (a2 & s2 & E & SW). rewrite E. cbn. split; [eapply swaps_trans; [exact S1|apply (swaps_one V lo up p lo); auto; lia]|].
      intros CC. rewrite !SW. rewrite !Z.eqb_refl. destruct (Z.eqb_spec lo p); [lia|]. destruct (Z.eqb_spec up p); [lia|]. destruct (Z.eqb_spec up lo); [lia|]. split.
      + apply C_asym; [assumption|]. symmetry. apply CB. assumption.
      + apply H1. assumption.
    - apply post_geti; [lia|]. apply post_comp.
      { intros NC. split; [right; reflexivity|]. split; assumption. }
      intros b s' CB2. destruct b.
      + destruct (set2_swap p up a1 s' ltac:(lia) ltac:(lia)) as (a2 & s2 & E & SW). rewrite E. cbn. split; [eapply swaps_trans; [exact S1|apply (swaps_one V lo up p up); auto; lia]|].
        intros CC. rewrite !SW. rewrite !Z.eqb_refl. destruct (Z.eqb_spec lo p); [lia|]. destruct (Z.eqb_spec up p); [lia|]. destruct (Z.eqb_spec lo up); [lia|]. split.
        * apply H1. assumption.
        * apply C_asym; [assumption|]. symmetry. apply CB2. assumption.
      + cbn. split; [assumption|]. intros CC. split; symmetry; [apply CB|apply CB2]; assumption. }
  intros _ a2 s2 (S2 & H2). clear CB b s s1 H1 S1 a1. destruct (Z.eqb_spec (up - lo) 2) as [E2|N2].
  { cbn. split; [assumption|]. intros CC i j I IJ J. destruct (H2 CC) as [HA HB]. assert (CS : i = lo /\ j = p \/ i = lo /\ j = up \/ i = p /\ j = up) by lia.
    destruct CS as [[-> ->]|[[-> ->]|[-> ->]]]; auto. apply (C_trans CC _ (a2 p)); assumption. }
  rewrite (UU (up - 1)) by lia. apply post_geti; [lia|]. apply post_geti; [lia|]. apply post_set2; try lia; try reflexivity. intros a3 s3 SW. clear s2.
  assert (S3 : swaps lo up a a3) by (eapply swaps_trans; [exact S2|apply (swaps_one V lo up p (up - 1)); auto; lia]).
  assert (A3 : a3 (up - 1) = a2 p).
  { rewrite SW. destruct (Z.eqb_spec (up - 1) p); [congruence|]. rewrite Z.eqb_refl. reflexivity. }
  assert (A3L : a3 lo = a2 lo) by (rewrite SW; destruct (Z.eqb_spec lo p); [lia|]; destruct (Z.eqb_spec lo (up - 1)); [lia|reflexivity]).
  assert (A3U : a3 up = a2 up) by (rewrite SW; destruct (Z.eqb_spec up p); [lia|]; destruct (Z.eqb_spec up (up - 1)); [lia|reflexivity]).
  set (P := a2 p) in *. unfold Sort_model.partition. rewrite (UU (up - 1)) by lia.
  eapply post_bind.
  { eapply post_weak; [apply (part_loop_ok (Z.to_nat (up - lo + 1)) lo up P lo (up - 1) a3 s3); try lia; try assumption| |].
    - intros CC k K. replace k with lo by lia. rewrite A3L. apply (H2 CC).
    - intros CC k K. destruct (Z.eq_dec k up) as [->|]; [rewrite A3U; apply (H2 CC)|]. replace k with (up - 1) by lia. rewrite A3. apply C_irr. assumption.
    - intros x a' X. exact X.
    - intros e a' X. eapply err_weak; eassumption. }
  intros q a4 s4 (RQ & S4 & H4). clear RP SW A3 A3L A3U H2 s3. clearbody P. clear p. assert (S14 : swaps lo up a a4) by (eapply swaps_trans; eassumption). clear S2 S3 S4 a2 a3.
  rewrite (UU (q - lo)), (UU (up - q)), (UU (q - 1)), (UU (q + 1)) by lia.
  (* the recursive call *)
  set (A := fun (lo1 up1 lo2 up2 : Z) (lo3 up3 : Z) (a5 : array) => swaps lo1 up1 a4 a5 /\ (C -> lsorted lo1 up1 a5)).
  assert (EC : forall lo1 up1 b0 e c, lo <= lo1 -> up1 <= up -> swaps lo up a b0 -> err lo1 up1 b0 e c -> err lo up a e c).
  { intros lo1 up1 b0 e c X Y Z0 (E & S & NC). split; [assumption|]. split; [|assumption]. eapply swaps_trans; [exact Z0|]. apply (swaps_mono V lo1 up1); auto. }
  (* both halves sorted, in either order *)
  assert (FIN : forall a5 a6, C -> swaps lo (q - 1) a4 a5 /\ swaps (q + 1) up a5 a6 /\ lsorted lo (q - 1) a5 /\ lsorted (q + 1) up a6 \/
                              swaps (q + 1) up a4 a5 /\ swaps lo (q - 1) a5 a6 /\ lsorted (q + 1) up a5 /\ lsorted lo (q - 1) a6 -> lsorted lo up a6).
  { intros a5 a6 CC D. destruct (H4 CC) as (HP & HLo & HUp).
    assert (X : a6 q = P /\ (forall k, lo <= k < q -> lt P (a6 k) = false) /\ (forall k, q < k <= up -> lt (a6 k) P = false) /\ lsorted lo (q - 1) a6 /\ lsorted (q + 1) up a6).
    { destruct D as [(SA & SB & XA & XB)|(SA & SB & XA & XB)].
      - split; [rewrite (swaps_out _ _ _ _ _ q SB), (swaps_out _ _ _ _ _ q SA) by lia; assumption|].
        split; [intros k K; rewrite (swaps_out _ _ _ _ _ k SB) by lia; apply (swaps_all V lo (q - 1) lo (q - 1) (fun v => lt P v = false) a4 a5 SA); [lia|lia| |lia]; intros z Z0; apply HLo; lia|].
        split; [intros k K; apply (swaps_all V (q + 1) up (q + 1) up (fun v => lt v P = false) a5 a6 SB); [lia|lia| |lia]; intros z Z0; rewrite (swaps_out _ _ _ _ _ z SA) by lia; apply HUp; lia|].
        split; [|assumption]. intros i j I IJ J. rewrite (swaps_out _ _ _ _ _ i SB), (swaps_out _ _ _ _ _ j SB) by lia. apply XA; lia.
      - split; [rewrite (swaps_out _ _ _ _ _ q SB), (swaps_out _ _ _ _ _ q SA) by lia; assumption|].
        split; [intros k K; apply (swaps_all V lo (q - 1) lo (q - 1) (fun v => lt P v = false) a5 a6 SB); [lia|lia| |lia]; intros z Z0; rewrite (swaps_out _ _ _ _ _ z SA) by lia; apply HLo; lia|].
        split; [intros k K; rewrite (swaps_out _ _ _ _ _ k SB) by lia; apply (swaps_all V (q + 1) up (q + 1) up (fun v => lt v P = false) a4 a5 SA); [lia|lia| |lia]; intros z Z0; apply HUp; lia|].
        split; [assumption|]. intros i j I IJ J. rewrite (swaps_out _ _ _ _ _ i SB), (swaps_out _ _ _ _ _ j SB) by lia. apply XA; lia. }
    destruct X as (XP & XL & XU & YL & YU). intros i j I IJ J.
    destruct (Z.lt_trichotomy j q) as [B|[->|B]]; [apply YL; lia|rewrite XP; apply XL; lia|].
    destruct (Z.lt_trichotomy i q) as [B'|[->|B']]; [|rewrite XP; apply XU; lia|apply YU; lia].
    apply (C_trans CC _ P); [apply XL; lia|apply XU; lia]. }
  assert (GO : forall lo1 up1 lo2 up2 k a5 s5, (lo1 = lo /\ up1 = q - 1 /\ lo2 = q + 1 /\ up2 = up \/ lo1 = q + 1 /\ up1 = up /\ lo2 = lo /\ up2 = q - 1) ->
    swaps lo1 up1 a4 a5 /\ (C -> lsorted lo1 up1 a5) ->
    post (fun (_ : unit) a' => swaps lo up a a' /\ (C -> lsorted lo up a')) (err lo up a)
      ((mbind (if k <? u32 (up2 - lo2) / 128 then randomize V St rand else ret V St rnd) (fun rnd => auxsort f lo2 up2 rnd)) a5 s5)).
  { intros lo1 up1 lo2 up2 k a5 s5 W (S5 & H5). assert (RG : lo <= lo1 /\ up1 <= up /\ lo <= lo2 /\ up2 <= up /\ 1 <= lo2 /\ lo2 <= up2 + 1 /\ up2 - lo2 < up - lo) by lia. destruct RG as (R1 & R2 & R3 & R4 & R5 & R6 & R7).
    assert (S15 : swaps lo up a a5) by (eapply swaps_trans; [exact S14|apply (swaps_mono V lo1 up1); auto]).
    apply (post_bind _ _ _ _ _ _ _ _ (fun _ a' => a' = a5)).
    { destruct (k <? _); cbn; [|reflexivity]. unfold randomize. destruct (rand s5). reflexivity. }
    intros rnd' a' s6 ->. eapply post_weak; [apply (IH lo2 up2 rnd' a5 s6); lia| |].
    - intros _ a6 (S6 & H6). split; [eapply swaps_trans; [exact S15|apply (swaps_mono V lo2 up2); auto]|]. intros CC. apply (FIN a5 a6 CC).
      destruct W as [(-> & -> & -> & ->)|(-> & -> & -> & ->)]; [left|right]; auto.
    - intros e c X. apply (EC lo2 up2 a5 e c); auto. }
  destruct (q - lo <? up - q).
  - unfold Sort_model.mbind at 1. unfold Sort_model.mbind at 1. pose proof (IH lo (q - 1) rnd a4 s4 ltac:(lia) ltac:(lia) ltac:(lia)) as X. destruct (auxsort f lo (q - 1) rnd a4 s4) as [x a5 s5|e a5| |]; cbn in X; try contradiction.
    + cbn [ret]. unfold ret. apply (GO lo (q - 1) (q + 1) up); [left; auto|assumption].
    + cbn. apply (EC lo (q - 1) a4 e a5); auto; lia.
  - unfold Sort_model.mbind at 1. unfold Sort_model.mbind at 1. pose proof (IH (q + 1) up rnd a4 s4 ltac:(lia) ltac:(lia) ltac:(lia)) as X. destruct (auxsort f (q + 1) up rnd a4 s4) as [x a5 s5|e a5| |]; cbn in X; try contradiction.
    + unfold ret. apply (GO (q + 1) up lo (q - 1)); [right; auto|assumption].
    + cbn. apply (EC (q + 1) up a4 e a5); auto; lia.
Qed.
End SORT.

Lemma sort_any : forall V St cmp rand n a s, 0 <= n -> match sort V St cmp rand n a s with
  | ROk _ a' _ => rearranged n a a'
  | RErr e a' => rearranged n a a' /\ (e = EArg /\ INT_MAX <= n \/ (e = EOrder \/ e = EUser) /\ 1 < n < INT_MAX)
  | _ => False
  end.
Proof.
  intros V St cmp rand n a s N. unfold sort. destruct (Z.ltb_spec 1 n).
  2:{ cbn. apply swaps_perm; [assumption|]. apply sw_refl. reflexivity. }
  destruct (Z.ltb_spec n INT_MAX) as [L|L].
  2:{ cbn. split; [|left; auto]. apply swaps_perm; [assumption|]. apply sw_refl. reflexivity. }
  pose proof (auxsort_ok V St cmp rand n (fun _ _ => false) ltac:(unfold INT_MAX in L; lia) (S (Z.to_nat n)) 1 n 0 a s ltac:(lia) ltac:(lia) ltac:(lia)) as H1.
  destruct (auxsort _ _ _ _ _ _ _ _ _ _) as [x a' s'|e a'| |]; cbn in H1; try contradiction.
  - apply swaps_perm; [assumption|]. apply H1.
  - destruct H1 as (E & S & _). split; [apply swaps_perm; assumption|]. right. auto.
Qed.
Lemma sort_sorts : forall V St cmp rand n lt a s, 0 <= n < INT_MAX -> answers cmp lt -> strict_weak_order lt ->
  exists a' s', sort V St cmp rand n a s = ROk tt a' s' /\ rearranged n a a' /\ sorted lt 1 n a'.
Proof.
  intros V St cmp rand n lt a s N A W. unfold sort. destruct (Z.ltb_spec 1 n).
  2:{ exists a, s. split; [reflexivity|]. split; [apply swaps_perm; [lia|]; apply sw_refl; reflexivity|]. intros i j I IJ J. lia. }
  destruct (Z.ltb_spec n INT_MAX) as [L|L]; [|lia].
  pose proof (auxsort_ok V St cmp rand n lt ltac:(unfold INT_MAX in L; lia) (S (Z.to_nat n)) 1 n 0 a s ltac:(lia) ltac:(lia) ltac:(lia)) as H1.
  destruct (auxsort _ _ _ _ _ _ _ _ _ _) as [x a' s'|e a'| |]; cbn in H1; try contradiction.
  - destruct H1 as [S H1]. exists a', s'. destruct x. split; [reflexivity|]. split; [apply swaps_perm; [lia|assumption]|]. apply H1. split; assumption.
  - destruct H1 as (_ & _ & NC). exfalso. apply NC. split; assumption.
Qed.
