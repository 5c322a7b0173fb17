Require Import ZArith List Bool Lia.
From Verif Require Import Base Base_facts Str Str_facts Bits_facts Intern_model Intern_spec.
Import ListNotations.
Open Scope Z_scope.

(* ---- vectors ---- *)
Definition lset {A} (l : list A) (i : nat) (x : A) : list A := firstn i l ++ x :: skipn (S i) l.
Lemma lset_len : forall A (l : list A) i x, (i < length l)%nat -> length (lset l i x) = length l.
Proof. intros A l i x I. unfold lset. rewrite app_length. cbn [length]. rewrite firstn_length, skipn_length. lia. Qed.
Lemma lset_nth : forall A (l : list A) i x j d, (i < length l)%nat -> nth j (lset l i x) d = if Nat.eqb j i then x else nth j l d.
Proof.
  intros A. unfold lset. induction l as [|y l IH]; intros i x j d I; [cbn in I; lia|]. destruct i as [|i].
  - cbn [firstn app skipn]. destruct j; reflexivity.
  - cbn [firstn app]. destruct j as [|j]; [reflexivity|]. cbn [nth Nat.eqb]. change (skipn (S (S i)) (y :: l)) with (skipn (S i) l). apply IH. cbn in I. lia.
Qed.
Lemma vget_ok : forall v i, (i < length v)%nat -> vget v (Z.of_nat i) = Ok (nth i v 0).
Proof. intros v i I. unfold vget. destruct (Z.leb_spec 0 (Z.of_nat i)); [|lia]. destruct (Z.ltb_spec (Z.of_nat i) (Z.of_nat (length v))); [|lia]. cbn [andb]. rewrite Nat2Z.id. reflexivity. Qed.
Lemma vset_ok : forall v i x, (i < length v)%nat -> vset v (Z.of_nat i) x = Ok (lset v i x).
Proof. intros v i x I. unfold vset. destruct (Z.leb_spec 0 (Z.of_nat i)); [|lia]. destruct (Z.ltb_spec (Z.of_nat i) (Z.of_nat (length v))); [|lia]. cbn [andb]. rewrite Nat2Z.id. reflexivity. Qed.
Definition total (L : list (list Z)) : nat := list_sum (map (@length Z) L).
Lemma total_lset : forall L i l, (i < length L)%nat -> (total (lset L i l) + length (nth i L []) = total L + length l)%nat.
Proof.
  unfold total, lset. induction L as [|y L IH]; intros i l I; [cbn in I; lia|]. destruct i as [|i].
  - cbn [firstn app skipn map list_sum fold_right nth]. lia.
  - cbn [firstn app]. change (skipn (S (S i)) (y :: L)) with (skipn (S i) L). cbn [map list_sum fold_right nth]. cbn in I. specialize (IH i l ltac:(lia)). unfold list_sum in IH. lia.
Qed.
Lemma total_nth : forall L i, (length (nth i L []) <= total L)%nat.
Proof. unfold total. induction L as [|y L IH]; intros [|i]; cbn [nth map list_sum fold_right length]; try lia. specialize (IH i). unfold list_sum in IH. lia. Qed.

(* ---- sizes ---- *)
Definition pow2 (n : Z) : Prop := exists k, 0 <= k /\ n = 2 ^ k.
Lemma lmod_range : forall h n, pow2 n -> 0 <= lmod h n < n.
Proof. intros h n (k & K & ->). unfold lmod. replace (2 ^ k - 1) with (Z.ones k) by (rewrite Z.ones_equiv; lia). rewrite Z.land_ones by exact K. apply Z.mod_pos_bound. apply Z.pow_pos_nonneg; lia. Qed.
Lemma pow2_pos : forall n, pow2 n -> 1 <= n.
Proof. intros n (k & K & ->). pose proof (Z.pow_pos_nonneg 2 k). lia. Qed.
Lemma pow2_double : forall n, pow2 n -> pow2 (n * 2).
Proof. intros n (k & K & ->). exists (k + 1). split; [lia|]. rewrite Z.pow_add_r by lia. lia. Qed.
Lemma pow2_half : forall n, pow2 n -> 2 <= n -> pow2 (n / 2).
Proof. intros n (k & K & ->) N. assert (k <> 0) by (intros ->; lia). exists (k - 1). split; [lia|]. replace k with (k - 1 + 1) at 1 by lia. rewrite Z.pow_add_r by lia. apply Z.div_mul. lia. Qed.

(* ---- chains ---- *)
Fixpoint linked (h : heap) (p : Z) (l : list Z) : Prop :=
  match l with [] => p = 0 | x :: l => p = x /\ x <> 0 /\ match h x with Some o => linked h (t_next o) l | None => False end end.
Lemma linked_frame : forall h h' l p, (forall x, In x l -> option_map t_next (h' x) = option_map t_next (h x)) -> linked h p l -> linked h' p l.
Proof.
  intros h h'. induction l as [|x l IH]; intros p F H; [exact H|]. cbn [linked] in *. destruct H as (-> & NZ & H). split; [reflexivity|]. split; [exact NZ|].
  pose proof (F x (or_introl eq_refl)) as FX. destruct (h x) as [o|]; [|contradiction]. destruct (h' x) as [o'|]; [|discriminate]. cbn in FX. injection FX as FX. rewrite FX. apply IH; [intros y IN; apply F; right; exact IN|exact H].
Qed.
Lemma linked_in : forall h l p x, linked h p l -> In x l -> x <> 0 /\ exists o, h x = Some o.
Proof.
  intros h. induction l as [|y l IH]; intros p x H IN; [destruct IN|]. cbn [linked] in H. destruct H as (-> & NZ & H). destruct (h y) as [o|] eqn:E; [|contradiction]. destruct IN as [->|IN]; [split; [exact NZ|exists o; exact E]|]. apply (IH (t_next o) x H IN).
Qed.
Definition chains (h : heap) (v : list Z) (L : list (list Z)) : Prop := length L = length v /\ forall i, (i < length v)%nat -> linked h (nth i v 0) (nth i L []).
Definition good (L : list (list Z)) : Prop := (forall i, NoDup (nth i L [])) /\ forall i j a, In a (nth i L []) -> In a (nth j L []) -> i = j.
(* objects as they are, up to the links *)
Definition same (h h' : heap) : Prop := forall a, option_map (set_next 0) (h a) = option_map (set_next 0) (h' a).
Lemma same_refl : forall h, same h h. Proof. intros h a. reflexivity. Qed.
Lemma same_trans : forall h h' h'', same h h' -> same h' h'' -> same h h''. Proof. intros h h' h'' A B a. rewrite A. apply B. Qed.
Lemma same_sym : forall h h', same h h' -> same h' h. Proof. intros h h' A a. symmetry. apply A. Qed.
Lemma same_some : forall h h' a o, same h h' -> h a = Some o -> exists n, h' a = Some (set_next n o).
Proof.
  intros h h' a o S E. specialize (S a). rewrite E in S. cbn in S. destruct (h' a) as [o'|]; [|discriminate]. cbn in S. injection S as S1 S2 S3 S4. exists (t_next o'). destruct o, o'; cbn in *; subst. reflexivity.
Qed.
Lemma put_eq : forall h a o, put h a o a = o. Proof. intros h a o. unfold put. rewrite Z.eqb_refl. reflexivity. Qed.
Lemma put_ne : forall h a o x, x <> a -> put h a o x = h x. Proof. intros h a o x N. unfold put. destruct (Z.eqb_spec x a); [congruence|reflexivity]. Qed.
Lemma same_link : forall h a o n, h a = Some o -> same h (put h a (Some (set_next n o))).
Proof. intros h a o n E x. unfold put. destruct (Z.eqb_spec x a) as [->|]; [rewrite E; destruct o; reflexivity|reflexivity]. Qed.

Lemma rehash_chain_ok : forall R fuel h v L p newsize, pow2 newsize -> newsize <= Z.of_nat (length v) -> chains h v L -> good L -> linked h p R -> NoDup R ->
  (forall i a, In a R -> ~ In a (nth i L [])) -> (length R <= fuel)%nat ->
  exists h' v' L', rehash_chain fuel h v p newsize = Ok (h', v') /\ chains h' v' L' /\ good L' /\ length v' = length v /\ total L' = (total L + length R)%nat /\ same h h' /\
   forall i a, In a (nth i L' []) <-> In a (nth i L []) \/ (In a R /\ exists o, h a = Some o /\ lmod (t_hash o) newsize = Z.of_nat i).
Proof.
  induction R as [|x R IH]; intros fuel h v L p newsize PW NS C G LK ND DJ F.
  - cbn [linked] in LK. subst p. exists h, v, L. split; [destruct fuel; reflexivity|]. split; [exact C|]. split; [exact G|]. split; [reflexivity|]. split; [cbn [length]; lia|]. split; [apply same_refl|]. intros i a. split; [intros H; left; exact H|intros [H|[[] _]]; exact H].
  - cbn [linked] in LK. destruct LK as (-> & NZ & LK). destruct (h x) as [o|] eqn:EX; [|contradiction]. cbn [length] in F. destruct fuel as [|fuel]; [lia|]. cbn [rehash_chain]. destruct (Z.eqb_spec x 0); [contradiction|]. unfold deref at 1. rewrite EX. cbn [bind].
    pose proof (lmod_range (t_hash o) newsize PW) as HR. assert (KX : exists k, lmod (t_hash o) newsize = Z.of_nat k) by (exists (Z.to_nat (lmod (t_hash o) newsize)); lia). destruct KX as (k & KE). rewrite KE. assert (KL : (k < length v)%nat) by lia. destruct C as [CL C].
    rewrite (vget_ok v k KL). cbn [bind]. unfold update, deref. rewrite EX. cbn [bind]. rewrite (vset_ok v k x KL). cbn [bind].
    set (h1 := put h x (Some (set_next (nth k v 0) o))). set (v1 := lset v k x). set (L1 := lset L k (x :: nth k L [])).
    inversion ND as [|? ? NX ND']; subst.
    assert (XL : forall i, ~ In x (nth i L [])) by (intros i; apply DJ; left; reflexivity).
    assert (FR : forall l, ~ In x l -> forall y, In y l -> option_map t_next (h1 y) = option_map t_next (h y)) by (intros l NI y IN; unfold h1; rewrite put_ne; [reflexivity|intros ->; contradiction]).
    assert (N1 : forall i, nth i L1 [] = if Nat.eqb i k then x :: nth k L [] else nth i L []) by (intros i; unfold L1; apply lset_nth; lia).
    destruct (IH fuel h1 v1 L1 (t_next o) newsize) as (h' & v' & L' & E & C' & G' & LV & T & SM & M); try assumption.
    + unfold v1. rewrite lset_len by exact KL. exact NS.
    + split; [unfold L1, v1; rewrite !lset_len by lia; exact CL|]. intros i I. unfold v1 in I. rewrite lset_len in I by exact KL. unfold v1. rewrite lset_nth by exact KL. rewrite N1. destruct (Nat.eqb_spec i k) as [->|NE].
      * cbn [linked]. split; [reflexivity|]. split; [exact NZ|]. unfold h1 at 1. rewrite put_eq. cbn [set_next t_next]. apply (linked_frame h); [apply FR; apply XL|apply C; exact KL].
      * apply (linked_frame h); [apply FR; apply XL|apply C; exact I].
    + destruct G as [G1 G2]. split.
      * intros i. rewrite N1. destruct (Nat.eqb i k); [constructor; [apply XL|apply G1]|apply G1].
      * intros i j a IA JA. rewrite N1 in IA, JA. destruct (Nat.eqb_spec i k) as [->|NI], (Nat.eqb_spec j k) as [->|NJ]; try reflexivity.
        -- destruct IA as [<-|IA]; [exfalso; apply (XL j JA)|apply (G2 k j a IA JA)].
        -- destruct JA as [<-|JA]; [exfalso; apply (XL i IA)|apply (G2 i k a IA JA)].
        -- apply (G2 i j a IA JA).
    + apply (linked_frame h); [apply FR; exact NX|exact LK].
    + intros i a IA. rewrite N1. destruct (Nat.eqb i k).
      * intros [<-|IN]; [apply NX; exact IA|apply (DJ k a); [right; exact IA|exact IN]].
      * apply DJ. right. exact IA.
    + lia.
    + exists h', v', L'. split; [exact E|]. split; [exact C'|]. split; [exact G'|]. split; [unfold v1 in LV; rewrite lset_len in LV by exact KL; exact LV|]. split.
      { rewrite T. unfold L1. pose proof (total_lset L k (x :: nth k L []) ltac:(lia)) as TL. cbn [length] in *. lia. }
      split; [apply (same_trans h h1); [apply same_link; exact EX|exact SM]|].
      intros i a. rewrite M, N1. destruct (Z.eq_dec a x) as [->|NE].
      * split.
        -- intros [H|[H _]]; [|contradiction]. revert H. destruct (Nat.eqb_spec i k) as [EI|NI]; intros H; [right; split; [left; reflexivity|exists o; split; [exact EX|rewrite EI; exact KE]]|exfalso; apply (XL i H)].
        -- intros [H|[_ (o' & EO & EL)]]; [exfalso; apply (XL i H)|]. left. rewrite EX in EO. injection EO as <-. assert (i = k) as -> by lia. rewrite Nat.eqb_refl. left. reflexivity.
      * assert (HA : h1 a = h a) by (unfold h1; apply put_ne; exact NE). rewrite HA. split.
        -- intros [H|[H1 H2]]; [|right; split; [right; exact H1|exact H2]]. revert H. destruct (Nat.eqb_spec i k) as [->|NE']; intros H; [destruct H as [H|H]; [congruence|left; exact H]|left; exact H].
        -- intros [H|[H1 H2]]; [left; destruct (Nat.eqb_spec i k) as [->|]; [right; exact H|exact H]|]. destruct H1 as [H1|H1]; [congruence|]. right. split; assumption.
Qed.
Definition placed (h : heap) (L : list (list Z)) (n : Z) (i : nat) : Prop := forall a o, In a (nth i L []) -> h a = Some o -> lmod (t_hash o) n = Z.of_nat i.
Lemma placed_same : forall h h' L n i, same h h' -> placed h L n i -> placed h' L n i.
Proof. intros h h' L n i S P a o IN E. destruct (same_some h' h a o (same_sym _ _ S) E) as (x & E'). specialize (P a _ IN E'). exact P. Qed.
Lemma nth_default : forall A (l : list A) i d, (length l <= i)%nat -> nth i l d = d. Proof. intros. apply nth_overflow. assumption. Qed.
Lemma rehash_ok : forall k i fuel h v L newsize, pow2 newsize -> newsize <= Z.of_nat (length v) -> chains h v L -> good L -> (i + k <= length v)%nat -> (total L <= fuel)%nat ->
  (forall j, (j < i \/ i + k <= j)%nat -> placed h L newsize j) ->
  exists h' v' L', rehash k fuel h v (Z.of_nat i) newsize = Ok (h', v') /\ chains h' v' L' /\ good L' /\ length v' = length v /\ total L' = total L /\ same h h' /\
   (forall j, placed h' L' newsize j) /\ forall a, (exists j, In a (nth j L' [])) <-> exists j, In a (nth j L []).
Proof.
  induction k as [|k IH]; intros i fuel h v L newsize PW NS C G IK F P.
  - exists h, v, L. split; [reflexivity|]. split; [exact C|]. split; [exact G|]. split; [reflexivity|]. split; [reflexivity|]. split; [apply same_refl|]. split; [intros j; apply P; lia|]. intros a. reflexivity.
  - cbn [rehash]. assert (IL : (i < length v)%nat) by lia. rewrite (vget_ok v i IL). cbn [bind]. rewrite (vset_ok v i 0 IL). cbn [bind]. destruct C as [CL C]. set (L1 := lset L i []).
    assert (N1 : forall j, nth j L1 [] = if Nat.eqb j i then [] else nth j L []) by (intros j; unfold L1; apply lset_nth; lia).
    destruct G as [G1 G2].
    destruct (rehash_chain_ok (nth i L []) fuel h (lset v i 0) L1 (nth i v 0) newsize) as (h1 & v1 & L2 & E & C2 & GG2 & LV & T & SM & M); try assumption.
    + rewrite lset_len by exact IL. exact NS.
    + split; [unfold L1; rewrite !lset_len by lia; exact CL|]. intros j J. rewrite lset_len in J by exact IL. rewrite lset_nth by exact IL. rewrite N1. destruct (Nat.eqb j i); [reflexivity|apply C; exact J].
    + split; [intros j; rewrite N1; destruct (Nat.eqb j i); [constructor|apply G1]|]. intros j j' a A B. rewrite N1 in A, B. destruct (Nat.eqb j i); [destruct A|]. destruct (Nat.eqb j' i); [destruct B|]. apply (G2 j j' a A B).
    + apply C. exact IL.
    + apply G1.
    + intros j a IA. rewrite N1. destruct (Nat.eqb_spec j i) as [->|NE]; [intros []|]. intros IN. apply NE. apply (G2 j i a IN IA).
    + pose proof (total_nth L i). lia.
    + rewrite E. cbn [bind]. rewrite lset_len in LV by exact IL. pose proof (total_lset L i [] ltac:(lia)) as TL. fold L1 in TL. cbn [length] in TL.
      replace (Z.of_nat i + 1) with (Z.of_nat (S i)) by lia.
      destruct (IH (S i) fuel h1 v1 L2 newsize) as (h' & v' & L' & E' & C' & G' & LV' & T' & SM' & P' & M'); try assumption.
      * lia. * lia. * lia.
      * intros j J a o IN EA. destruct (same_some h1 h a o (same_sym _ _ SM) EA) as (x & EH). apply M in IN. rewrite N1 in IN. destruct IN as [IN|[_ (o' & EO & EL)]].
        -- destruct (Nat.eqb_spec j i) as [->|NE]; [destruct IN|]. apply (P j ltac:(lia) a _ IN EH).
        -- rewrite EH in EO. injection EO as <-. exact EL.
      * exists h', v', L'. split; [exact E'|]. split; [exact C'|]. split; [exact G'|]. split; [lia|]. split; [lia|]. split; [apply (same_trans h h1); assumption|]. split; [exact P'|].
        intros a. rewrite M'. split.
        -- intros (j & IN). apply M in IN. rewrite N1 in IN. destruct IN as [IN|[IN _]]; [destruct (Nat.eqb j i); [destruct IN|exists j; exact IN]|exists i; exact IN].
        -- intros (j & IN). destruct (Nat.eq_dec j i) as [->|NE].
           ++ destruct (linked_in h _ _ a (C i IL) IN) as (_ & o & EO). pose proof (lmod_range (t_hash o) newsize PW). exists (Z.to_nat (lmod (t_hash o) newsize)). apply M. right. split; [exact IN|]. exists o. split; [exact EO|lia].
           ++ exists j. apply M. left. rewrite N1. destruct (Nat.eqb_spec j i); [contradiction|exact IN].
Qed.

(* ---- marks ---- *)
Definition mark_ok (m : Z) : Prop := 0 <= m < 256 /\ Z.land m 24 <> 24 /\ Z.land m 7 <= 6.
Definition mark_okb (m : Z) : bool := (0 <=? m) && (m <? 256) && negb (Z.land m 24 =? 24) && (Z.land m 7 <=? 6).
Lemma mark_okb_ok : forall m, mark_okb m = true <-> mark_ok m.
Proof.
  intros m. unfold mark_okb, mark_ok. rewrite !andb_true_iff, negb_true_iff, Z.leb_le, Z.ltb_lt, Z.eqb_neq, Z.leb_le. tauto.
Qed.
Definition marks : list Z := map Z.of_nat (seq 0 256).
Lemma marks_in : forall m, mark_ok m -> In m marks.
Proof. intros m [M _]. unfold marks. apply in_map_iff. exists (Z.to_nat m). split; [lia|]. apply in_seq. lia. Qed.
Definition whites := [8; 16].
Lemma marks_table : forallb (fun w => forallb (fun m => if mark_okb m then
    (if isdead w m then mark_okb (changewhite m) && negb (isdead w (changewhite m)) && is_white m else true) &&
    mark_okb (set2gray m) && negb (is_white (set2gray m)) && mark_okb (set2black m) && negb (is_white (set2black m)) &&
    mark_okb (Z.lor (without m maskgcbits) (luaC_white w)) && negb (isdead w (Z.lor (without m maskgcbits) (luaC_white w))) &&
    (if is_white m then true else
      mark_okb (if getage m =? 0 then Z.lor (Z.lor (without m maskgcbits) 1) (luaC_white w) else setage m (nextage (getage m))) &&
      negb (isdead w (if getage m =? 0 then Z.lor (Z.lor (without m maskgcbits) 1) (luaC_white w) else setage m (nextage (getage m)))) && negb (isdead w m)) &&
    mark_okb (setage (set2gray m) G_OLD) && negb (is_white (setage (set2gray m) G_OLD))
  else true) marks) whites = true.
Proof. vm_compute. reflexivity. Qed.
Definition white_ok (w : Z) : Prop := w = 8 \/ w = 16.
Lemma marks_facts : forall w m, white_ok w -> mark_ok m ->
  (isdead w m = true -> mark_ok (changewhite m) /\ isdead w (changewhite m) = false /\ is_white m = true) /\
  (mark_ok (set2gray m) /\ is_white (set2gray m) = false /\ mark_ok (set2black m) /\ is_white (set2black m) = false) /\
  (mark_ok (Z.lor (without m maskgcbits) (luaC_white w)) /\ isdead w (Z.lor (without m maskgcbits) (luaC_white w)) = false) /\
  (is_white m = false -> let m' := if getage m =? 0 then Z.lor (Z.lor (without m maskgcbits) 1) (luaC_white w) else setage m (nextage (getage m)) in
     mark_ok m' /\ isdead w m' = false /\ isdead w m = false) /\
  (mark_ok (setage (set2gray m) G_OLD) /\ is_white (setage (set2gray m) G_OLD) = false).
Proof.
  intros w m W M. pose proof marks_table as T. rewrite forallb_forall in T. specialize (T w ltac:(unfold whites; destruct W as [-> | ->]; cbn; auto)). rewrite forallb_forall in T. specialize (T m (marks_in m M)). apply mark_okb_ok in M. rewrite M in T.
  rewrite !andb_true_iff, ?negb_true_iff, !mark_okb_ok in T. destruct T as (((((((((T1 & T2) & T3) & T4) & T5) & T6) & T7) & T8) & T9) & T10).
  split; [intros D; rewrite D, !andb_true_iff, negb_true_iff, mark_okb_ok in T1; tauto|].
  split; [auto|]. split; [auto|]. split; [|auto].
  intros IW. rewrite IW, !andb_true_iff, !negb_true_iff, mark_okb_ok in T8. cbv zeta. tauto.
Qed.
Lemma nonwhite_alive : forall w m, white_ok w -> mark_ok m -> is_white m = false -> isdead w m = false.
Proof. intros w m W M I. apply (marks_facts w m W M). exact I. Qed.
Lemma new_mark : forall w, white_ok w -> mark_ok (luaC_white w) /\ isdead w (luaC_white w) = false.
Proof. intros w [-> | ->]; (split; [apply mark_okb_ok; reflexivity|reflexivity]). Qed.
Lemma other_ok : forall w, white_ok w -> white_ok (otherwhite w).
Proof. intros w [-> | ->]; [right|left]; reflexivity. Qed.

(* ---- hashes ---- *)
Lemma hash_loop_ok : forall fuel s l step h, 1 <= step -> l <= slen s -> l < Z.of_nat fuel -> 0 <= l -> exists r, hash_loop fuel s l step h = Ok r.
Proof.
  induction fuel as [|fuel IH]; intros s l step h ST L F L0; [lia|]. cbn [hash_loop]. destruct (Z.ltb_spec l step); [eexists; reflexivity|]. rewrite sbyte_in by lia. cbn [bind]. apply IH; lia.
Qed.
Lemma hash_ok : forall s seed, exists h, luaS_hash s seed = Ok h.
Proof. intros s seed. unfold luaS_hash. apply hash_loop_ok; [pose proof (Z.shiftr_nonneg (slen s) 5); pose proof (slen_nonneg s); lia|lia|unfold slen; lia|apply slen_nonneg]. Qed.

(* ---- the invariant ---- *)
Section SEED.
Variable seed : Z.
Definition obj_ok (a : Z) (o : tstr) : Prop :=
  a <> 0 /\ mark_ok (t_marked o) /\ if t_lng o then 40 < slen (t_str o) else slen (t_str o) <= 40 /\ luaS_hash (t_str o) seed = Ok (t_hash o).
Definition size (s : st) : Z := Z.of_nat (length (s_hash s)).
Definition cached (s : st) (p : Z) : Prop := exists o, s_heap s p = Some o /\ isdead (s_white s) (t_marked o) = false /\ cstr (t_str o) = t_str o.
Record inv (s : st) (L : list (list Z)) : Prop := Inv {
  i_pow : pow2 (size s);
  i_chains : chains (s_heap s) (s_hash s) L;
  i_good : good L;
  i_nuse : s_nuse s = Z.of_nat (total L);
  i_placed : forall j, placed (s_heap s) L (size s) j;
  i_mem : forall a, (exists j, In a (nth j L [])) <-> exists o, s_heap s a = Some o /\ t_lng o = false;
  i_obj : forall a o, s_heap s a = Some o -> obj_ok a o;
  i_uniq : forall a b o q, s_heap s a = Some o -> s_heap s b = Some q -> t_lng o = false -> t_lng q = false -> t_str o = t_str q -> a = b;
  i_white : white_ok (s_white s);
  i_rows : length (s_cache s) = Z.to_nat STRCACHE_N /\ Forall (fun r => length r = STRCACHE_M) (s_cache s);
  i_cache : forall r p, In r (s_cache s) -> In p r -> cached s p;
  i_memerr : exists o, s_heap s (s_memerr s) = Some o /\ is_white (t_marked o) = false /\ cstr (t_str o) = t_str o
}.
Lemma same_obj : forall h h' a o, same h h' -> h' a = Some o -> exists q, h a = Some q /\ t_str q = t_str o /\ t_hash q = t_hash o /\ t_marked q = t_marked o /\ t_lng q = t_lng o.
Proof. intros h h' a o S E. destruct (same_some h' h a o (same_sym _ _ S) E) as (n & E'). exists (set_next n o). split; [exact E'|]. destruct o; cbn; auto. Qed.
(* a heap that differs in links, with its chains *)
Lemma inv_links : forall s L h v L', inv s L -> same (s_heap s) h -> pow2 (Z.of_nat (length v)) -> chains h v L' -> good L' -> total L' = total L -> (forall j, placed h L' (Z.of_nat (length v)) j) ->
  (forall a, (exists j, In a (nth j L' [])) <-> exists j, In a (nth j L [])) -> inv (St h v (s_nuse s) (s_white s) (s_cache s) (s_memerr s)) L'.
Proof.
  intros s L h v L' I S PW C G T P M. destruct I as [I1 I2 I3 I4 I5 I6 I7 I8 I9 I10 I11 I12]. constructor; cbn [s_heap s_hash s_nuse s_white s_cache s_memerr]; try assumption.
  - rewrite I4, T. reflexivity.
  - intros a. rewrite M, I6. split; intros (o & E & X); [destruct (same_obj h (s_heap s) a o (same_sym _ _ S) E) as (q & Q & _ & _ & _ & QL)|destruct (same_obj (s_heap s) h a o S E) as (q & Q & _ & _ & _ & QL)]; exists q; split; congruence.
  - intros a o E. destruct (same_obj (s_heap s) h a o S E) as (q & Q & Q1 & Q2 & Q3 & Q4). specialize (I7 a q Q). unfold obj_ok in *. rewrite Q1, Q2, Q3, Q4 in I7. exact I7.
  - intros a b o q E1 E2 X1 X2 X3. destruct (same_obj (s_heap s) h a o S E1) as (o' & O & O1 & _ & _ & O4). destruct (same_obj (s_heap s) h b q S E2) as (q' & Q & Q1 & _ & _ & Q4). apply (I8 a b o' q' O Q); congruence.
  - intros r p R IN. destruct (I11 r p R IN) as (o & E & D & CS). destruct (same_obj h (s_heap s) p o (same_sym _ _ S) E) as (q & Q & Q1 & Q2 & Q3 & Q4). exists q. cbn [s_heap s_white]. rewrite Q1, Q3. auto.
  - destruct I12 as (o & E & D & CS). destruct (same_obj h (s_heap s) _ o (same_sym _ _ S) E) as (q & Q & Q1 & Q2 & Q3 & Q4). exists q. rewrite Q1, Q3. auto.
Qed.
Lemma nth_repeat_nil : forall n i, nth i (repeat (@nil Z) n) [] = []. Proof. induction n as [|n IH]; intros [|i]; cbn; auto. Qed.
Lemma nth_repeat_0 : forall n i, nth i (repeat 0 n) 0 = 0. Proof. induction n as [|n IH]; intros [|i]; cbn; auto. Qed.
Lemma total_app : forall A B, total (A ++ B) = (total A + total B)%nat. Proof. intros A B. unfold total. rewrite map_app, list_sum_app. reflexivity. Qed.
Lemma total_nil : forall L, (forall i, nth i L [] = []) -> total L = 0%nat.
Proof. induction L as [|l L IH]; intros H; [reflexivity|]. unfold total. cbn [map list_sum fold_right]. pose proof (H 0%nat) as H0. cbn in H0. subst l. cbn [length]. fold (list_sum (map (@length Z) L)). apply (IH (fun i => H (S i))). Qed.
Lemma nth_app_nil : forall L n i, nth i (L ++ repeat (@nil Z) n) [] = nth i L [].
Proof. intros L n i. destruct (Nat.lt_ge_cases i (length L)); [apply app_nth1; assumption|]. rewrite app_nth2 by lia. rewrite nth_repeat_nil. symmetry. apply nth_overflow. lia. Qed.
Lemma nth_skipn_Z' : forall A n (l : list A) i d, nth i (skipn n l) d = nth (n + i) l d.
Proof. induction n as [|n IH]; intros [|x l] i d; cbn; try reflexivity; [destruct i; reflexivity|apply IH]. Qed.
Lemma nth_firstn_lt : forall A n (l : list A) i d, (i < n)%nat -> nth i (firstn n l) d = nth i l d.
Proof. induction n as [|n IH]; intros [|x l] [|i] d I; try reflexivity; try lia. cbn. apply IH. lia. Qed.
Lemma resize_ok : forall s L newsize, inv s L -> pow2 newsize -> exists s' L', luaS_resize s newsize = Ok s' /\ inv s' L' /\ same (s_heap s) (s_heap s') /\ size s' = newsize /\ s_nuse s' = s_nuse s /\ s_white s' = s_white s /\ s_cache s' = s_cache s /\ s_memerr s' = s_memerr s.
Proof.
  intros s L n I PW. pose proof (pow2_pos n PW) as NP. pose proof I as [I1 I2 I3 I4 I5 I6 I7 I8 I9 I10 I11 I12]. unfold luaS_resize. fold (size s).
  set (v := if size s <? n then s_hash s ++ repeat 0 (Z.to_nat (n - size s)) else s_hash s). set (L0 := if size s <? n then L ++ repeat [] (Z.to_nat (n - size s)) else L).
  assert (LV : (length v = Z.to_nat (Z.max n (size s)))%nat) by (unfold v, size in *; destruct (Z.ltb_spec (Z.of_nat (length (s_hash s))) n); rewrite ?app_length, ?repeat_length; lia).
  assert (N0 : forall i, nth i L0 [] = nth i L []) by (intros i; unfold L0; destruct (size s <? n); [apply nth_app_nil|reflexivity]).
  destruct I2 as [CL C].
  assert (T0 : total L0 = total L) by (unfold L0; destruct (size s <? n); [rewrite total_app, (total_nil (repeat [] _)) by (intros i; apply nth_repeat_nil); lia|reflexivity]).
  assert (OV : forall j, (length L <= j)%nat -> nth j L [] = []) by (intros j J; apply nth_overflow; exact J).
  destruct (rehash_ok (Z.to_nat (size s)) 0 (Z.to_nat (s_nuse s)) (s_heap s) v L0 n) as (h' & v' & L' & E & C' & G' & LV' & T' & SM & P' & M').
  - exact PW.
  - lia.
  - split; [unfold L0, v; destruct (size s <? n); rewrite ?app_length, ?repeat_length, CL; reflexivity|]. intros i II. rewrite N0. unfold v. destruct (Nat.lt_ge_cases i (length (s_hash s))) as [LT|GE].
    + destruct (size s <? n); [rewrite app_nth1 by exact LT|]; apply C; exact LT.
    + rewrite OV by lia. cbn [linked]. destruct (size s <? n); [rewrite app_nth2 by lia; apply nth_repeat_0|apply nth_overflow; lia].
  - destruct I3 as [G1 G2]. split; [intros i; rewrite N0; apply G1|intros i j a A B; rewrite N0 in A, B; apply (G2 i j a A B)].
  - unfold size in *. lia.
  - lia.
  - intros j J a o IN. rewrite N0, OV in IN; [destruct IN|]. unfold size in J. lia.
  - change (Z.of_nat 0) with 0 in E. rewrite E. cbn [bind]. set (v'' := if n <? size s then firstn (Z.to_nat n) v' else v'). set (L'' := if n <? size s then firstn (Z.to_nat n) L' else L').
    assert (LN : length v'' = Z.to_nat n) by (unfold v''; destruct (Z.ltb_spec n (size s)); [rewrite firstn_length|]; lia).
    destruct C' as [CL' C'].
    assert (EMP : forall j, (Z.to_nat n <= j)%nat -> nth j L' [] = []).
    { intros j J. destruct (nth j L' []) as [|a l] eqn:EA; [reflexivity|]. exfalso. destruct (Nat.lt_ge_cases j (length v')) as [LT|GE]; [|rewrite nth_overflow in EA by lia; discriminate].
      destruct (linked_in h' _ _ a (C' j LT)) as (_ & o & EO); [rewrite EA; left; reflexivity|]. assert (X := P' j a o). rewrite EA in X. specialize (X (or_introl eq_refl) EO). pose proof (lmod_range (t_hash o) n PW). lia. }
    assert (N2 : forall i, nth i L'' [] = nth i L' []).
    { intros i. unfold L''. destruct (Z.ltb_spec n (size s)); [|reflexivity]. destruct (Nat.lt_ge_cases i (Z.to_nat n)); [apply nth_firstn_lt; assumption|]. rewrite EMP by assumption. apply nth_overflow. rewrite firstn_length. lia. }
    exists (St h' v'' (s_nuse s) (s_white s) (s_cache s) (s_memerr s)), L''. split; [reflexivity|]. split; [|cbn; unfold size; cbn [s_hash]; rewrite LN; repeat split; try lia; exact SM].
    apply (inv_links s L h' v'' L'' I SM).
    + rewrite LN, Z2Nat.id by lia. exact PW.
    + split; [unfold L'', v''; destruct (n <? size s); rewrite ?firstn_length; lia|]. intros i II. rewrite N2. unfold v''. destruct (Z.ltb_spec n (size s)); [rewrite nth_firstn_lt by lia|]; apply C'; lia.
    + destruct G' as [G1 G2]. split; [intros i; rewrite N2; apply G1|intros i j a A B; rewrite N2 in A, B; apply (G2 i j a A B)].
    + unfold L''. destruct (Z.ltb_spec n (size s)); [|lia]. rewrite <- (firstn_skipn (Z.to_nat n) L') in T' at 1. rewrite total_app in T'. rewrite (total_nil (skipn (Z.to_nat n) L')) in T'; [lia|]. intros i. rewrite nth_skipn_Z'. apply EMP. lia.
    + intros j a o IN EO. rewrite N2 in IN. rewrite LN, Z2Nat.id by lia. apply (P' j a o IN EO).
    + intros a. rewrite <- T0 in *. split.
      * intros (j & IN). rewrite N2 in IN. destruct (proj1 (M' a) (ex_intro _ j IN)) as (k & K). exists k. rewrite N0 in K. exact K.
      * intros (j & IN). rewrite <- N0 in IN. destruct (proj2 (M' a) (ex_intro _ j IN)) as (k & K). exists k. rewrite N2. exact K.
Qed.

Lemma eq_str_ok : forall a b, eq_str a b = true <-> a = b.
Proof. intros a b. unfold eq_str. destruct (list_eq_dec Z.eq_dec a b); split; congruence. Qed.
Lemma search_ok : forall l fuel h str p, linked h p l -> (length l <= fuel)%nat ->
  (exists q o, search_chain fuel h str p = Ok q /\ q <> 0 /\ In q l /\ h q = Some o /\ t_str o = str) \/
  (search_chain fuel h str p = Ok 0 /\ forall q o, In q l -> h q = Some o -> t_str o <> str).
Proof.
  induction l as [|x l IH]; intros fuel h str p LK F; cbn [linked length] in *.
  - subst p. right. split; [destruct fuel; reflexivity|intros q o []].
  - destruct LK as (-> & NZ & LK). destruct (h x) as [o|] eqn:E; [|contradiction]. destruct fuel as [|fuel]; [lia|]. cbn [search_chain]. destruct (Z.eqb_spec x 0); [contradiction|]. unfold deref. rewrite E. cbn [bind].
    destruct ((slen str =? slen (t_str o)) && eq_str str (t_str o)) eqn:B.
    + left. apply andb_true_iff in B. destruct B as [_ B]. apply eq_str_ok in B. exists x, o. repeat split; auto. left. reflexivity.
    + assert (NE : t_str o <> str) by (intros <-; rewrite Z.eqb_refl in B; cbn [andb] in B; destruct (eq_str (t_str o) (t_str o)) eqn:B'; [discriminate|]; assert (eq_str (t_str o) (t_str o) = true) by (apply eq_str_ok; reflexivity); congruence).
      destruct (IH fuel h str (t_next o) LK ltac:(lia)) as [(q & oq & S1 & S2 & S3 & S4 & S5)|(S1 & S2)].
      * left. exists q, oq. repeat split; auto. right. exact S3.
      * right. split; [exact S1|]. intros q oq [<-|IN] EQ; [rewrite E in EQ; injection EQ as <-; exact NE|apply (S2 q oq IN EQ)].
Qed.
Lemma inv_remark : forall s L a o m, inv s L -> s_heap s a = Some o -> mark_ok m -> isdead (s_white s) m = false -> (a = s_memerr s -> is_white m = false) ->
  inv (St (put (s_heap s) a (Some (set_marked m o))) (s_hash s) (s_nuse s) (s_white s) (s_cache s) (s_memerr s)) L.
Proof.
  intros s L a o m I E MO D ME. destruct I as [I1 I2 I3 I4 I5 I6 I7 I8 I9 I10 I11 I12].
  assert (B : forall x q', put (s_heap s) a (Some (set_marked m o)) x = Some q' -> exists q, s_heap s x = Some q /\ t_str q' = t_str q /\ t_hash q' = t_hash q /\ t_lng q' = t_lng q /\ (x <> a -> q' = q) /\ (x = a -> t_marked q' = m)).
  { intros x q' X. unfold put in X. destruct (Z.eqb_spec x a) as [->|N]; [injection X as <-; exists o; cbn; repeat split; congruence|exists q'; repeat split; congruence]. }
  assert (Fw : forall x q, s_heap s x = Some q -> exists q', put (s_heap s) a (Some (set_marked m o)) x = Some q' /\ t_str q' = t_str q /\ t_hash q' = t_hash q /\ t_lng q' = t_lng q /\ (x <> a -> q' = q) /\ (x = a -> t_marked q' = m)).
  { intros x q X. unfold put. destruct (Z.eqb_spec x a) as [->|N]; [exists (set_marked m o); rewrite E in X; injection X as ->; cbn; repeat split; congruence|exists q; repeat split; congruence]. }
  constructor; cbn [s_heap s_hash s_nuse s_white s_cache s_memerr]; unfold size in *; cbn [s_hash]; try assumption.
  - destruct I2 as [CL C]. split; [exact CL|]. intros i II. apply (linked_frame (s_heap s)); [|apply C; exact II]. intros x _. unfold put. destruct (Z.eqb_spec x a) as [->|]; [rewrite E|]; reflexivity.
  - intros j x q IN X. destruct (B x q X) as (q0 & Q & _ & QH & _). rewrite QH. apply (I5 j x q0 IN Q).
  - intros x. rewrite I6. split; intros (q & Q & QL); [destruct (Fw x q Q) as (q' & X & _ & _ & XL & _)|destruct (B x q Q) as (q' & X & _ & _ & XL & _)]; exists q'; split; congruence.
  - intros x q X. destruct (B x q X) as (q0 & Q & Q1 & Q2 & Q3 & Q4 & Q5). specialize (I7 x q0 Q). unfold obj_ok in *. rewrite Q1, Q2, Q3. destruct I7 as (A1 & A2 & A3). split; [exact A1|]. split; [|exact A3]. destruct (Z.eq_dec x a) as [XA|XA]; [rewrite (Q5 XA); exact MO|rewrite (Q4 XA); exact A2].
  - intros x y q r X Y. destruct (B x q X) as (q0 & Q & Q1 & _ & Q3 & _), (B y r Y) as (r0 & R & R1 & _ & R3 & _). rewrite Q1, Q3, R1, R3. apply (I8 x y q0 r0 Q R).
  - intros r p R IN. destruct (I11 r p R IN) as (q & Q & QD & QC). destruct (Fw p q Q) as (q' & X & X1 & _ & _ & X4 & X5). exists q'. cbn [s_heap s_white]. split; [exact X|]. split; [destruct (Z.eq_dec p a) as [PA|PA]; [rewrite (X5 PA); exact D|rewrite (X4 PA); exact QD]|rewrite X1; exact QC].
  - destruct I12 as (q & Q & QD & QC). destruct (Fw _ q Q) as (q' & X & X1 & _ & _ & X4 & X5). exists q'. split; [exact X|]. split; [destruct (Z.eq_dec (s_memerr s) a) as [PA|PA]; [rewrite (X5 PA); apply ME; auto|rewrite (X4 PA); exact QD]|rewrite X1; exact QC].
Qed.
Lemma inv_add : forall s L a str h i, inv s L -> s_heap s a = None -> a <> 0 -> slen str <= 40 -> luaS_hash str seed = Ok h -> (forall q o, s_heap s q = Some o -> t_lng o = false -> t_str o <> str) -> lmod h (size s) = Z.of_nat i ->
  inv (St (put (s_heap s) a (Some (TStr str h (luaC_white (s_white s)) (nth i (s_hash s) 0) false))) (lset (s_hash s) i a) (s_nuse s + 1) (s_white s) (s_cache s) (s_memerr s)) (lset L i (a :: nth i L [])).
Proof.
  intros s L a str h i I E NZ SL HH NEW LM. destruct I as [I1 I2 I3 I4 I5 I6 I7 I8 I9 I10 I11 I12].
  destruct I2 as [CL C]. pose proof (lmod_range h (size s) I1) as LR. assert (IL : (i < length (s_hash s))%nat) by (unfold size in LR, LM; lia).
  set (ob := TStr str h (luaC_white (s_white s)) (nth i (s_hash s) 0) false).
  assert (NIN : forall j, ~ In a (nth j L [])) by (intros j IN; destruct (proj1 (I6 a) (ex_intro _ j IN)) as (o & X & _); congruence).
  assert (N1 : forall j, nth j (lset L i (a :: nth i L [])) [] = if Nat.eqb j i then a :: nth i L [] else nth j L []) by (intros j; apply lset_nth; lia).
  assert (NA : forall x q, s_heap s x = Some q -> put (s_heap s) a (Some ob) x = Some q) by (intros x q X; rewrite put_ne; [exact X|congruence]).
  assert (BA : forall x q, put (s_heap s) a (Some ob) x = Some q -> (x = a /\ q = ob) \/ (x <> a /\ s_heap s x = Some q)) by (intros x q X; unfold put in X; destruct (Z.eqb_spec x a); [left; split; congruence|right; auto]).
  constructor; unfold size in *; cbn [s_heap s_hash s_nuse s_white s_cache s_memerr]; rewrite ?lset_len by exact IL; try assumption.
  - split; [rewrite !lset_len by lia; exact CL|]. intros j J. rewrite lset_len in J by exact IL. rewrite N1, lset_nth by exact IL. destruct (Nat.eqb_spec j i) as [->|NE].
    + cbn [linked]. split; [reflexivity|]. split; [exact NZ|]. rewrite put_eq. cbn [t_next ob]. apply (linked_frame (s_heap s)); [|apply C; exact IL]. intros x IN. rewrite put_ne; [reflexivity|intros ->; apply (NIN i IN)].
    + apply (linked_frame (s_heap s)); [|apply C; exact J]. intros x IN. rewrite put_ne; [reflexivity|intros ->; apply (NIN j IN)].
  - destruct I3 as [G1 G2]. split.
    + intros j. rewrite N1. destruct (Nat.eqb j i); [constructor; [apply NIN|]|]; apply G1.
    + intros j k x A B. rewrite N1 in A, B. destruct (Nat.eqb_spec j i) as [->|NJ], (Nat.eqb_spec k i) as [->|NK]; try reflexivity.
      * destruct A as [<-|A]; [exfalso; apply (NIN k B)|apply (G2 i k x A B)].
      * destruct B as [<-|B]; [exfalso; apply (NIN j A)|apply (G2 j i x A B)].
      * apply (G2 j k x A B).
  - pose proof (total_lset L i (a :: nth i L []) ltac:(lia)) as TL. cbn [length] in TL. lia.
  - intros j x q IN X. rewrite N1 in IN. destruct (BA x q X) as [[-> ->]|[XA Q]].
    + destruct (Nat.eqb_spec j i) as [->|]; [exact LM|exfalso; apply (NIN j IN)].
    + apply (I5 j x q); [|exact Q]. revert IN. destruct (Nat.eqb_spec j i) as [->|]; intros IN; [destruct IN; [congruence|assumption]|exact IN].
  - intros x. split.
    + intros (j & IN). rewrite N1 in IN. destruct (Z.eq_dec x a) as [->|XA]; [exists ob; rewrite put_eq; split; reflexivity|]. assert (IN' : In x (nth j L [])) by (revert IN; destruct (Nat.eqb_spec j i) as [->|]; intros IN; [destruct IN; [congruence|assumption]|exact IN]). destruct (proj1 (I6 x) (ex_intro _ j IN')) as (q & Q & QL). exists q. split; [apply NA; exact Q|exact QL].
    + intros (q & Q & QL). destruct (BA x q Q) as [[-> ->]|[XA Q']]; [exists i; rewrite N1, Nat.eqb_refl; left; reflexivity|]. destruct (proj2 (I6 x) (ex_intro _ q (conj Q' QL))) as (j & IN). exists j. rewrite N1. destruct (Nat.eqb_spec j i) as [->|]; [right|]; exact IN.
  - intros x q X. destruct (BA x q X) as [[-> ->]|[XA Q']]; [|apply I7; exact Q']. unfold obj_ok, ob. cbn [t_marked t_lng t_str t_hash]. split; [exact NZ|]. split; [apply new_mark; exact I9|auto].
  - intros x y q r X Y LX LY EQ. destruct (BA x q X) as [[-> ->]|[XA X']], (BA y r Y) as [[-> ->]|[YA Y']]; try reflexivity.
    + exfalso. apply (NEW y r Y' LY). symmetry. exact EQ.
    + exfalso. apply (NEW x q X' LX). exact EQ.
    + apply (I8 x y q r X' Y' LX LY EQ).
  - intros r p R IN. destruct (I11 r p R IN) as (q & Q & QD & QC). exists q. cbn [s_heap s_white]. split; [apply NA; exact Q|auto].
  - destruct I12 as (q & Q & QD & QC). exists q. split; [apply NA; exact Q|auto].
Qed.
Definition others (p : Z) (h h' : heap) : Prop := forall x, x <> p -> option_map (set_next 0) (h x) = option_map (set_next 0) (h' x).
Definition rest (s s' : st) : Prop := s_white s' = s_white s /\ s_cache s' = s_cache s /\ s_memerr s' = s_memerr s.
(* what interning gives *)
Definition interned (s s' : st) (str : list Z) (a p : Z) : Prop :=
  (exists o, s_heap s' p = Some o /\ t_str o = str /\ isdead (s_white s') (t_marked o) = false) /\ others p (s_heap s) (s_heap s') /\ rest s s' /\
  ((p = a /\ s_heap s a = None /\ (slen str <= 40 -> forall q o, s_heap s q = Some o -> t_str o <> str)) \/ (slen str <= 40 /\ exists o, s_heap s p = Some o /\ t_str o = str)).
Lemma intern_ok : forall s L str a, inv s L -> s_heap s a = None -> a <> 0 -> slen str <= 40 -> exists p s' L', internshrstr seed s str a = Ok (p, s') /\ inv s' L' /\ interned s s' str a p.
Proof.
  intros s L str a I EA NZ SL. pose proof I as [I1 I2 I3 I4 I5 I6 I7 I8 I9 I10 I11 I12]. destruct (hash_ok str seed) as (h & HH). unfold internshrstr. rewrite HH. cbn [bind]. fold (size s).
  pose proof (lmod_range h (size s) I1) as LR. assert (KX : exists k, lmod h (size s) = Z.of_nat k) by (exists (Z.to_nat (lmod h (size s))); lia). destruct KX as (k & KE). rewrite KE. assert (KL : (k < length (s_hash s))%nat) by (unfold size in *; lia).
  rewrite (vget_ok _ k KL). cbn [bind]. destruct I2 as [CL C].
  destruct (search_ok (nth k L []) (Z.to_nat (s_nuse s)) (s_heap s) str (nth k (s_hash s) 0) (C k KL)) as [(q & o & S1 & S2 & S3 & S4 & S5)|(S1 & S2)]; [pose proof (total_nth L k); lia| |]; rewrite S1; cbn [bind].
  - destruct (Z.eqb_spec q 0); [contradiction|]. cbn [negb]. unfold deref. rewrite S4. cbn [bind]. destruct (I7 q o S4) as (Q1 & Q2 & Q3). destruct (marks_facts (s_white s) (t_marked o) I9 Q2) as (F1 & _).
    destruct (isdead (s_white s) (t_marked o)) eqn:D.
    + destruct (F1 eq_refl) as (F2 & F3 & F4). eexists q, _, L. split; [reflexivity|]. split.
      * apply inv_remark; try assumption. intros ->. destruct I12 as (om & M1 & M2 & _). rewrite M1 in S4. injection S4 as ->. congruence.
      * unfold interned. cbn [s_heap s_white]. split; [exists (set_marked (changewhite (t_marked o)) o); rewrite put_eq; cbn; auto|]. split; [intros x X; rewrite put_ne by exact X; reflexivity|]. split; [repeat split|]. right. split; [exact SL|]. exists o. auto.
    + exists q, s, L. split; [reflexivity|]. split; [exact I|]. split; [exists o; auto|]. split; [intros x X; reflexivity|]. split; [repeat split|]. right. split; [exact SL|]. exists o. auto.
  - cbn [Z.eqb negb].
    assert (NEW : forall q o, s_heap s q = Some o -> t_lng o = false -> t_str o <> str).
    { intros q o Q QL ES. destruct (proj2 (I6 q) (ex_intro _ o (conj Q QL))) as (j & IN). pose proof (I5 j q o IN Q) as P. destruct (I7 q o Q) as (_ & _ & X). rewrite QL in X. destruct X as [_ X]. rewrite ES, HH in X. injection X as X. rewrite <- X, KE in P. assert (j = k) by lia. subst j. apply (S2 q o IN Q ES). }
    assert (NEW' : forall q o, s_heap s q = Some o -> t_str o <> str).
    { intros q o Q ES. destruct (t_lng o) eqn:QL; [|apply (NEW q o Q QL ES)]. destruct (I7 q o Q) as (_ & _ & X). rewrite QL, ES in X. lia. }
    assert (R : exists s1 L1, (if (size s <=? s_nuse s) && (size s <=? MAX_INT / 2) then luaS_resize s (size s * 2) else Ok s) = Ok s1 /\ inv s1 L1 /\ same (s_heap s) (s_heap s1) /\ rest s s1).
    { destruct ((size s <=? s_nuse s) && (size s <=? MAX_INT / 2)).
      - destruct (resize_ok s L (size s * 2) I (pow2_double _ I1)) as (s1 & L1 & R1 & R2 & R3 & _ & _ & R4 & R5 & R6). exists s1, L1. split; [exact R1|]. split; [exact R2|]. split; [exact R3|]. repeat split; assumption.
      - exists s, L. split; [reflexivity|]. split; [exact I|]. split; [apply same_refl|repeat split]. }
    destruct R as (s1 & L1 & R1 & R2 & R3 & R4). rewrite R1. cbn [bind]. fold (size s1). pose proof (lmod_range h (size s1) (i_pow s1 L1 R2)) as LR1. assert (KX : exists k1, lmod h (size s1) = Z.of_nat k1) by (exists (Z.to_nat (lmod h (size s1))); lia). destruct KX as (k1 & KE1). rewrite KE1. assert (KL1 : (k1 < length (s_hash s1))%nat) by (unfold size in *; lia).
    rewrite (vget_ok _ k1 KL1). cbn [bind]. unfold createstrobj. cbn [s_hash s_heap s_nuse s_white s_cache s_memerr]. rewrite (vset_ok _ k1 a KL1). cbn [bind].
    assert (E1 : s_heap s1 a = None) by (specialize (R3 a); rewrite EA in R3; cbn in R3; destruct (s_heap s1 a); [discriminate|reflexivity]).
    assert (NEW1 : forall q o, s_heap s1 q = Some o -> t_lng o = false -> t_str o <> str).
    { intros q o Q QL. destruct (same_obj (s_heap s) (s_heap s1) q o R3 Q) as (q' & Q' & QA & _ & _ & QB). rewrite <- QA. apply (NEW q q' Q'). congruence. }
    eexists a, _, _. split; [reflexivity|]. split; [apply (inv_add s1 L1 a str h k1 R2 E1 NZ SL HH NEW1 KE1)|].
    destruct R4 as (W1 & W2 & W3). unfold interned. cbn [s_heap s_white]. split; [eexists; rewrite put_eq; split; [reflexivity|]; cbn [t_str t_marked]; split; [reflexivity|apply new_mark; rewrite W1; exact I9]|]. split; [intros x X; rewrite put_ne by exact X; apply R3|]. split; [repeat split; assumption|]. left. auto.
Qed.

Lemma inv_long : forall s L a str, inv s L -> s_heap s a = None -> a <> 0 -> 40 < slen str -> inv (createstrobj s a str true seed 0) L.
Proof.
  intros s L a str I E NZ SL. destruct I as [I1 I2 I3 I4 I5 I6 I7 I8 I9 I10 I11 I12]. unfold createstrobj. set (ob := TStr str seed (luaC_white (s_white s)) 0 true).
  assert (NA : forall x q, s_heap s x = Some q -> put (s_heap s) a (Some ob) x = Some q) by (intros x q X; rewrite put_ne; [exact X|congruence]).
  assert (BA : forall x q, put (s_heap s) a (Some ob) x = Some q -> (x = a /\ q = ob) \/ (x <> a /\ s_heap s x = Some q)) by (intros x q X; unfold put in X; destruct (Z.eqb_spec x a); [left; split; congruence|right; auto]).
  assert (NIN : forall j, ~ In a (nth j L [])) by (intros j IN; destruct (proj1 (I6 a) (ex_intro _ j IN)) as (o & X & _); congruence).
  constructor; unfold size in *; cbn [s_heap s_hash s_nuse s_white s_cache s_memerr]; try assumption.
  - destruct I2 as [CL C]. split; [exact CL|]. intros j J. apply (linked_frame (s_heap s)); [|apply C; exact J]. intros x IN. rewrite put_ne; [reflexivity|intros ->; apply (NIN j IN)].
  - intros j x q IN X. destruct (BA x q X) as [[-> ->]|[XA Q]]; [exfalso; apply (NIN j IN)|apply (I5 j x q IN Q)].
  - intros x. rewrite I6. split; intros (q & Q & QL); [exists q; split; [apply NA; exact Q|exact QL]|]. destruct (BA x q Q) as [[-> ->]|[XA Q']]; [discriminate|exists q; auto].
  - intros x q X. destruct (BA x q X) as [[-> ->]|[XA Q']]; [|apply I7; exact Q']. unfold obj_ok, ob. cbn [t_marked t_lng t_str t_hash]. split; [exact NZ|]. split; [apply new_mark; exact I9|auto].
  - intros x y q r X Y LX LY EQ. destruct (BA x q X) as [[-> ->]|[XA X']]; [discriminate|]. destruct (BA y r Y) as [[-> ->]|[YA Y']]; [discriminate|]. apply (I8 x y q r X' Y' LX LY EQ).
  - intros r p R IN. destruct (I11 r p R IN) as (q & Q & QD & QC). exists q. cbn [s_heap s_white]. split; [apply NA; exact Q|auto].
  - destruct I12 as (q & Q & QD & QC). exists q. split; [apply NA; exact Q|auto].
Qed.
Lemma newlstr_ok : forall s L str a, inv s L -> s_heap s a = None -> a <> 0 -> exists p s' L', luaS_newlstr seed s str a = Ok (p, s') /\ inv s' L' /\ interned s s' str a p.
Proof.
  intros s L str a I E NZ. unfold luaS_newlstr, LUAI_MAXSHORTLEN. destruct (Z.leb_spec (slen str) 40); [apply (intern_ok s L str a I E NZ); assumption|].
  exists a, (createstrobj s a str true seed 0), L. split; [reflexivity|]. split; [apply inv_long; assumption|]. unfold interned, createstrobj. cbn [s_heap s_white]. split; [eexists; rewrite put_eq; split; [reflexivity|]; cbn [t_str t_marked]; split; [reflexivity|apply new_mark; apply (i_white s L I)]|].
  split; [intros x X; rewrite put_ne by exact X; reflexivity|]. split; [repeat split|]. left. repeat split; try assumption. lia.
Qed.
(* ---- freeing ---- *)
Lemma remove_loop_ok : forall l1 fuel h prev p ts l2, linked h p (l1 ++ ts :: l2) -> ~ In ts l1 -> (length l1 <= fuel)%nat -> remove_loop fuel h prev p ts = Ok (last l1 prev).
Proof.
  induction l1 as [|x l1 IH]; intros fuel h prev p ts l2 LK NI F; cbn [app linked] in LK.
  - destruct LK as (-> & _). destruct fuel; cbn [remove_loop]; rewrite Z.eqb_refl; reflexivity.
  - destruct LK as (-> & NZ & LK). destruct (h x) as [o|] eqn:E; [|contradiction]. cbn [length] in F. destruct fuel as [|fuel]; [lia|]. cbn [remove_loop]. destruct (Z.eqb_spec x ts) as [->|]; [exfalso; apply NI; left; reflexivity|]. unfold deref. rewrite E. cbn [bind].
    rewrite (IH fuel h x (t_next o) ts l2 LK ltac:(intros IN; apply NI; right; exact IN) ltac:(lia)). destruct l1 as [|y l1]; [reflexivity|]. cbn [last]. f_equal. clear. revert y. induction l1 as [|z l1 IH]; intros y; [reflexivity|]. cbn [last]. apply IH.
Qed.
Lemma linked_app : forall l1 h p l2, linked h p (l1 ++ l2) -> l1 <> [] -> exists o, h (last l1 0) = Some o /\ linked h (t_next o) l2.
Proof.
  induction l1 as [|x l1 IH]; intros h p l2 LK NE; [contradiction|]. cbn [app linked] in LK. destruct LK as (-> & NZ & LK). destruct (h x) as [o|] eqn:E; [|contradiction]. destruct l1 as [|y l1]; [exists o; cbn; auto|]. apply (IH h (t_next o) l2 LK). discriminate.
Qed.
Lemma linked_cut : forall l1 h p l2 o n l3, NoDup l1 -> (forall x, In x l3 -> ~ In x l1) -> linked h p (l1 ++ l2) -> l1 <> [] -> h (last l1 0) = Some o -> linked h n l3 -> linked (put h (last l1 0) (Some (set_next n o))) p (l1 ++ l3).
Proof.
  induction l1 as [|x l1 IH]; intros h p l2 o n l3 ND DJ LK NE EO LN; [contradiction|]. cbn [app linked] in *. destruct LK as (-> & NZ & LK). split; [reflexivity|]. split; [exact NZ|]. destruct (h x) as [ox|] eqn:EX; [|contradiction]. inversion ND as [|? ? NX ND']; subst. destruct l1 as [|y l1].
  - cbn [last]. rewrite put_eq. cbn [set_next t_next app]. apply (linked_frame h); [|exact LN]. intros z IN. rewrite put_ne; [reflexivity|]. intros ->. apply (DJ x IN). left. reflexivity.
  - change (last (x :: y :: l1) 0) with (last (y :: l1) 0) in *. rewrite put_ne. 2:{ intros ->. apply NX. clear. revert y. induction l1 as [|z l1 IH]; intros y; [left; reflexivity|]. right. apply IH. }
    rewrite EX. apply (IH h (t_next ox) l2 o n l3 ND'); try assumption; [|discriminate]. intros z IN IZ. apply (DJ z IN). right. exact IZ.
Qed.
Lemma inv_free : forall s L a o h' v' L' n', inv s L -> s_heap s a = Some o -> a <> s_memerr s -> (forall r p, In r (s_cache s) -> In p r -> p <> a) ->
  chains h' v' L' -> length v' = length (s_hash s) -> h' a = None -> others a (s_heap s) h' -> (forall j, NoDup (nth j L' [])) -> (forall j x, In x (nth j L' []) <-> In x (nth j L []) /\ x <> a) -> n' = Z.of_nat (total L') ->
  inv (St h' v' n' (s_white s) (s_cache s) (s_memerr s)) L'.
Proof.
  intros s L a o h' v' L' n' I E NM NC CH LV HA OT ND MM NU. destruct I as [I1 I2 I3 I4 I5 I6 I7 I8 I9 I10 I11 I12].
  assert (BA : forall x q, h' x = Some q -> x <> a /\ exists q', s_heap s x = Some q' /\ t_str q' = t_str q /\ t_hash q' = t_hash q /\ t_marked q' = t_marked q /\ t_lng q' = t_lng q).
  { intros x q X. assert (XA : x <> a) by congruence. split; [exact XA|]. specialize (OT x XA). rewrite X in OT. destruct (s_heap s x) as [q'|]; [|discriminate]. cbn in OT. injection OT as O1 O2 O3 O4. exists q'. auto. }
  assert (NA : forall x q, x <> a -> s_heap s x = Some q -> exists q', h' x = Some q' /\ t_str q' = t_str q /\ t_hash q' = t_hash q /\ t_marked q' = t_marked q /\ t_lng q' = t_lng q).
  { intros x q XA X. specialize (OT x XA). rewrite X in OT. destruct (h' x) as [q'|]; [|discriminate]. cbn in OT. injection OT as O1 O2 O3 O4. exists q'. auto. }
  constructor; unfold size in *; cbn [s_heap s_hash s_nuse s_white s_cache s_memerr]; rewrite ?LV; try assumption.
  - destruct I3 as [G1 G2]. split; [exact ND|]. intros i j x A B. apply MM in A. apply MM in B. apply (G2 i j x (proj1 A) (proj1 B)).
  - intros j x q IN X. apply MM in IN. destruct (BA x q X) as (_ & q' & Q & _ & QH & _). rewrite <- QH. apply (I5 j x q' (proj1 IN) Q).
  - intros x. split.
    + intros (j & IN). apply MM in IN. destruct IN as [IN XA]. destruct (proj1 (I6 x) (ex_intro _ j IN)) as (q & Q & QL). destruct (NA x q XA Q) as (q' & Q' & _ & _ & _ & Q4). exists q'. split; congruence.
    + intros (q & Q & QL). destruct (BA x q Q) as (XA & q' & Q' & _ & _ & _ & Q4). assert (QL' : t_lng q' = false) by congruence. destruct (proj2 (I6 x) (ex_intro _ q' (conj Q' QL'))) as (j & IN). exists j. apply MM. auto.
  - intros x q X. destruct (BA x q X) as (XA & q' & Q' & Q1 & Q2 & Q3 & Q4). specialize (I7 x q' Q'). unfold obj_ok in *. rewrite Q1, Q2, Q3, Q4 in I7. exact I7.
  - intros x y q r X Y LX LY EQ. destruct (BA x q X) as (XA & q' & Q' & Q1 & _ & _ & Q4), (BA y r Y) as (YA & r' & R' & R1 & _ & _ & R4). apply (I8 x y q' r' Q' R'); congruence.
  - intros r p R IN. destruct (I11 r p R IN) as (q & Q & QD & QC). destruct (NA p q (NC r p R IN) Q) as (q' & Q' & Q1 & Q2 & Q3 & Q4). exists q'. cbn [s_heap s_white]. rewrite Q1, Q3. auto.
  - destruct I12 as (q & Q & QD & QC). destruct (NA (s_memerr s) q (fun e => NM (eq_sym e)) Q) as (q' & Q' & Q1 & Q2 & Q3 & Q4). exists q'. rewrite Q1, Q3. auto.
Qed.
Lemma freeobj_ok : forall s L a o, inv s L -> s_heap s a = Some o -> a <> s_memerr s -> isdead (s_white s) (t_marked o) = true -> exists s' L', freeobj s a = Ok s' /\ inv s' L' /\ s_heap s' a = None /\ others a (s_heap s) (s_heap s') /\ rest s s'.
Proof.
  intros s L a o I E NM D. pose proof I as [I1 I2 I3 I4 I5 I6 I7 I8 I9 I10 I11 I12].
  assert (NC : forall r p, In r (s_cache s) -> In p r -> p <> a) by (intros r p R IN ->; destruct (I11 r a R IN) as (q & Q & QD & _); congruence).
  unfold freeobj, deref. rewrite E. cbn [bind]. destruct (t_lng o) eqn:LG.
  - cbn [bind]. assert (NIN : forall j, ~ In a (nth j L [])) by (intros j IN; destruct (proj1 (I6 a) (ex_intro _ j IN)) as (q & Q & QL); congruence).
    eexists _, L. split; [reflexivity|]. cbn [s_heap]. split; [|split; [apply put_eq|split; [intros x X; rewrite put_ne by exact X; reflexivity|repeat split]]].
    apply (inv_free s L a o _ _ L _ I E NM NC); try assumption.
    + destruct I2 as [CL C]. split; [exact CL|]. intros j J. apply (linked_frame (s_heap s)); [|apply C; exact J]. intros x IN. rewrite put_ne; [reflexivity|intros ->; apply (NIN j IN)].
    + reflexivity.
    + apply put_eq.
    + intros x X. rewrite put_ne by exact X. reflexivity.
    + apply I3.
    + intros j x. split; [intros IN; split; [exact IN|intros ->; apply (NIN j IN)]|tauto].
  - unfold luaS_remove, deref. rewrite E. cbn [bind]. fold (size s). destruct (proj2 (I6 a) (ex_intro _ o (conj E LG))) as (k & IN). pose proof (I5 k a o IN E) as KE. rewrite KE. pose proof (lmod_range (t_hash o) (size s) I1) as LR. assert (KL : (k < length (s_hash s))%nat) by (unfold size in *; lia). rewrite (vget_ok _ k KL). cbn [bind].
    destruct I2 as [CL C]. destruct (in_split a (nth k L []) IN) as (l1 & l2 & EL). pose proof (C k KL) as LK. rewrite EL in LK. destruct I3 as [G1 G2]. pose proof (G1 k) as ND. rewrite EL in ND. pose proof (NoDup_remove_1 _ _ _ ND) as ND1. pose proof (NoDup_remove_2 _ _ _ ND) as ND2. rewrite in_app_iff in ND2.
    rewrite (remove_loop_ok l1 _ (s_heap s) 0 _ a l2 LK); [|tauto|pose proof (total_nth L k) as TN; rewrite EL, app_length in TN; lia]. cbn [bind].
    assert (N1 : forall j, nth j (lset L k (l1 ++ l2)) [] = if Nat.eqb j k then l1 ++ l2 else nth j L []) by (intros j; apply lset_nth; lia).
    assert (MM : forall j x, In x (nth j (lset L k (l1 ++ l2)) []) <-> In x (nth j L []) /\ x <> a).
    { intros j x. rewrite N1. destruct (Nat.eqb_spec j k) as [->|NE].
      - rewrite EL, !in_app_iff. cbn [In]. split; [intros [X|X]; (split; [auto|intros ->; tauto])|intros [[X|[X|X]] Y]; auto; congruence].
      - split; [intros X; split; [exact X|intros ->; apply NE; apply (G2 j k a X IN)]|tauto]. }
    assert (NDD : forall j, NoDup (nth j (lset L k (l1 ++ l2)) [])) by (intros j; rewrite N1; destruct (Nat.eqb j k); [exact ND1|apply G1]).
    assert (TT : s_nuse s - 1 = Z.of_nat (total (lset L k (l1 ++ l2)))) by (pose proof (total_lset L k (l1 ++ l2) ltac:(lia)) as TL; rewrite EL, !app_length in TL; cbn [length] in TL; lia).
    assert (LKA : linked (s_heap s) (t_next o) l2).
    { clear - LK E. revert LK. generalize (nth k (s_hash s) 0). induction l1 as [|x l1 IH]; intros p LK; cbn [app linked] in LK; destruct LK as (-> & NZ & LK); [rewrite E in LK; exact LK|]. destruct (s_heap s x) as [ox|]; [|contradiction]. apply (IH (t_next ox) LK). }
    destruct l1 as [|y l1]; [cbn [last Z.eqb]|].
    + rewrite (vset_ok _ k (t_next o) KL). cbn [bind s_heap s_hash s_nuse s_white s_cache s_memerr]. eexists _, (lset L k ([] ++ l2)). split; [reflexivity|]. cbn [s_heap]. split; [|split; [apply put_eq|split; [intros x X; rewrite put_ne by exact X; reflexivity|repeat split]]].
      apply (inv_free s L a o _ _ _ _ I E NM NC); try assumption.
      * split; [rewrite !lset_len by lia; exact CL|]. intros j J. rewrite lset_len in J by exact KL. rewrite lset_nth by exact KL. apply (linked_frame (s_heap s)); [intros x X; apply MM in X; rewrite put_ne by tauto; reflexivity|]. rewrite N1. destruct (Nat.eqb_spec j k) as [->|NE]; [exact LKA|apply C; exact J].
      * apply lset_len; exact KL.
      * apply put_eq.
      * intros x X. rewrite put_ne by exact X. reflexivity.
    + set (z := last (y :: l1) 0). destruct (linked_app (y :: l1) (s_heap s) _ (a :: l2) LK ltac:(discriminate)) as (oz & EZ & _). fold z in EZ.
      assert (IZ : In z (y :: l1)) by (unfold z; clear; revert y; induction l1 as [|x l1 IH]; intros y; [left; reflexivity|]; right; apply IH).
      assert (ZA : z <> a) by (intros EQ; rewrite EQ in IZ; tauto).
      destruct (Z.eqb_spec z 0) as [Z0|_]; [exfalso; destruct (I7 z oz EZ) as [X _]; contradiction|]. unfold update, deref. rewrite EZ. cbn [bind s_heap s_hash s_nuse s_white s_cache s_memerr]. eexists _, (lset L k ((y :: l1) ++ l2)). split; [reflexivity|]. cbn [s_heap].
      assert (OT : others a (s_heap s) (put (put (s_heap s) z (Some (set_next (t_next o) oz))) a None)).
      { intros x X. rewrite put_ne by exact X. unfold put. destruct (Z.eqb_spec x z) as [->|]; [rewrite EZ; destruct oz; reflexivity|reflexivity]. }
      split; [|split; [apply put_eq|split; [exact OT|repeat split]]].
      apply (inv_free s L a o _ _ _ _ I E NM NC); try assumption.
      * split; [rewrite lset_len by lia; exact CL|]. intros j J. apply (linked_frame (put (s_heap s) z (Some (set_next (t_next o) oz)))); [intros x X; apply MM in X; rewrite put_ne by tauto; reflexivity|]. rewrite N1. destruct (Nat.eqb_spec j k) as [->|NE].
        -- apply (linked_cut (y :: l1) (s_heap s) _ (a :: l2) oz); try assumption; [clear - ND1| |discriminate].
           ++ revert ND1. generalize (y :: l1). intros l ND. induction l as [|x l IH]; [constructor|]. inversion ND; subst. constructor; [rewrite in_app_iff in *; tauto|auto].
           ++ intros x X1 X2. clear - ND1 X1 X2. revert ND1 X2. generalize (y :: l1). intros l ND X2. induction l as [|w l IH]; [destruct X2|]. inversion ND; subst. destruct X2 as [<-|X2]; [rewrite in_app_iff in *; tauto|auto].
        -- apply (linked_frame (s_heap s)); [|apply C; exact J]. intros x X. rewrite put_ne; [reflexivity|]. intros ->. apply NE. apply (G2 j k z X). rewrite EL, in_app_iff. left. exact IZ.
      * reflexivity.
      * apply put_eq.
Qed.

(* ---- the cache ---- *)
Lemma cstr_idem : forall s, cstr (cstr s) = cstr s.
Proof. induction s as [|c s IH]; [reflexivity|]. cbn [cstr]. destruct (c =? 0) eqn:E; [reflexivity|]. cbn [cstr]. rewrite E, IH. reflexivity. Qed.
Lemma cache_hit_ok : forall s str row, (forall p, In p row -> cached s p) -> exists o, cache_hit (s_heap s) str row = Ok o /\
  match o with Some p => In p row /\ exists q, s_heap s p = Some q /\ isdead (s_white s) (t_marked q) = false /\ t_str q = cstr str | None => True end.
Proof.
  intros s str. induction row as [|p row IH]; intros H; cbn [cache_hit]; [exists None; auto|]. destruct (H p (or_introl eq_refl)) as (q & Q & QD & QC). unfold deref. rewrite Q. cbn [bind]. destruct (eq_str (cstr str) (cstr (t_str q))) eqn:B.
  - apply eq_str_ok in B. exists (Some p). split; [reflexivity|]. split; [left; reflexivity|]. exists q. repeat split; try assumption. congruence.
  - destruct IH as (o & E & X); [intros p' IN; apply H; right; exact IN|]. exists o. split; [exact E|]. destruct o; [|exact I]. destruct X as [X1 X2]. split; [right; exact X1|exact X2].
Qed.
Lemma inv_cache : forall s L c, inv s L -> length c = Z.to_nat STRCACHE_N -> Forall (fun r => length r = STRCACHE_M) c -> (forall r p, In r c -> In p r -> cached s p) -> inv (St (s_heap s) (s_hash s) (s_nuse s) (s_white s) c (s_memerr s)) L.
Proof. intros s L c I C1 C2 C3. destruct I as [I1 I2 I3 I4 I5 I6 I7 I8 I9 I10 I11 I12]. constructor; cbn [s_heap s_hash s_nuse s_white s_cache s_memerr]; try assumption. split; assumption. Qed.
Lemma in_removelast : forall A (l : list A) x, In x (removelast l) -> In x l.
Proof. induction l as [|y l IH]; intros x IN; [destruct IN|]. cbn [removelast] in IN. destruct l as [|z l]; [destruct IN|]. destruct IN as [<-|IN]; [left; reflexivity|right; apply IH; exact IN]. Qed.
Lemma in_lset : forall A (l : list A) i x y, In y (lset l i x) -> y = x \/ In y l.
Proof. intros A l i x y IN. unfold lset in IN. apply in_app_iff in IN. destruct IN as [IN|[IN|IN]]; [right; rewrite <- (firstn_skipn i l); apply in_app_iff; left; exact IN|left; auto|right; rewrite <- (firstn_skipn (S i) l); apply in_app_iff; right; exact IN]. Qed.
Definition givenc (s s' : st) (str : list Z) (a p : Z) : Prop :=
  (exists o, s_heap s' p = Some o /\ t_str o = cstr str /\ isdead (s_white s') (t_marked o) = false) /\ others p (s_heap s) (s_heap s') /\ s_white s' = s_white s /\ s_memerr s' = s_memerr s /\
  (p = a /\ s_heap s a = None \/ exists o, s_heap s p = Some o /\ t_str o = cstr str).
Lemma new_ok : forall s L str ptr a, inv s L -> s_heap s a = None -> a <> 0 -> exists p s' L', luaS_new seed s str ptr a = Ok (p, s') /\ inv s' L' /\ givenc s s' str a p.
Proof.
  intros s L str ptr a I E NZ. unfold luaS_new. destruct (i_rows s L I) as [RL RF]. pose proof (Z.mod_pos_bound ptr STRCACHE_N ltac:(unfold STRCACHE_N; lia)) as MB. set (k := Z.to_nat (ptr mod STRCACHE_N)) in *. assert (KL : (k < length (s_cache s))%nat) by (unfold k; rewrite RL; unfold STRCACHE_N in *; lia).
  pose proof (nth_In (s_cache s) [] KL) as RI. destruct (cache_hit_ok s str (nth k (s_cache s) [])) as (o & HO & X); [intros p IN; apply (i_cache s L I _ p RI IN)|]. rewrite HO. cbn [bind]. destruct o as [p|].
  - destruct X as [X1 (q & Q1 & Q2 & Q3)]. exists p, s, L. split; [reflexivity|]. split; [exact I|]. split; [exists q; auto|]. split; [intros x _; reflexivity|]. repeat split. right. exists q. auto.
  - destruct (newlstr_ok s L (cstr str) a I E NZ) as (p & s' & L' & N1 & N2 & (o & O1 & O2 & O3) & N4 & (R1 & R2 & R3) & N5). rewrite N1. cbn [bind]. eexists p, _, L'. split; [reflexivity|]. split.
    + change (set_row (s_cache s') (ptr mod STRCACHE_N) (p :: removelast (nth k (s_cache s) []))) with (lset (s_cache s') k (p :: removelast (nth k (s_cache s) []))). rewrite R2. apply inv_cache; [exact N2| | |].
      * rewrite lset_len by exact KL. exact RL.
      * rewrite Forall_forall in *. intros r IN. apply in_lset in IN. destruct IN as [->|IN]; [|apply RF; exact IN]. pose proof (RF _ RI) as RX. destruct (nth k (s_cache s) []) as [|x [|y [|z l]]]; try discriminate. reflexivity.
      * intros r q IR IQ. apply in_lset in IR. destruct IR as [->|IR]; [|apply (i_cache s' L' N2 r q); [rewrite R2; exact IR|exact IQ]]. destruct IQ as [<-|IQ]; [exists o; rewrite O2, cstr_idem; auto|]. apply in_removelast in IQ. apply (i_cache s' L' N2 (nth k (s_cache s) []) q); [rewrite R2; exact RI|exact IQ].
    + unfold givenc. cbn [s_heap s_white s_memerr]. split; [exists o; auto|]. split; [exact N4|]. split; [exact R1|]. split; [exact R3|]. destruct N5 as [(-> & N5 & _)|[_ N5]]; [left; auto|right; exact N5].
Qed.
(* ---- the collector ---- *)
Lemma recolour_ok : forall s L a o f, inv s L -> s_heap s a = Some o -> mark_ok (f (t_marked o)) -> isdead (s_white s) (f (t_marked o)) = false -> (a = s_memerr s -> is_white (f (t_marked o)) = false) ->
  exists s', recolour s a f = Ok s' /\ inv s' L /\ s_heap s' = put (s_heap s) a (Some (set_marked (f (t_marked o)) o)) /\ rest s s'.
Proof.
  intros s L a o f I E M D ME. unfold recolour, update, deref. rewrite E. cbn [bind]. eexists. split; [reflexivity|]. split; [apply inv_remark; assumption|]. split; [reflexivity|repeat split].
Qed.
Lemma clear_row_ok : forall s L row, inv s L -> (forall p, In p row -> cached s p) -> exists r, clear_row (s_heap s) (s_memerr s) row = Ok r /\ length r = length row /\ forall p, In p r -> exists o, s_heap s p = Some o /\ is_white (t_marked o) = false /\ cstr (t_str o) = t_str o.
Proof.
  intros s L row I. induction row as [|p row IH]; intros H; cbn [clear_row]; [exists []; repeat split; intros p []|]. destruct (H p (or_introl eq_refl)) as (q & Q & QD & QC). unfold deref. rewrite Q. cbn [bind]. destruct IH as (r & R1 & R2 & R3); [intros p' IN; apply H; right; exact IN|]. rewrite R1. cbn [bind]. eexists. split; [reflexivity|]. split; [cbn [length]; lia|]. intros p' [<-|IN]; [|apply R3; exact IN]. destruct (is_white (t_marked q)) eqn:W; [apply (i_memerr s L I)|exists q; auto].
Qed.
Lemma clear_rows_ok : forall s L c, inv s L -> (forall r p, In r c -> In p r -> cached s p) -> exists c', clear_rows (s_heap s) (s_memerr s) c = Ok c' /\ map (@length Z) c' = map (@length Z) c /\ forall r p, In r c' -> In p r -> exists o, s_heap s p = Some o /\ is_white (t_marked o) = false /\ cstr (t_str o) = t_str o.
Proof.
  intros s L c I. induction c as [|row c IH]; intros H; cbn [clear_rows]; [exists []; repeat split; intros r p []|]. destruct (clear_row_ok s L row I) as (r & R1 & R2 & R3); [intros p IN; apply (H row p (or_introl eq_refl) IN)|]. rewrite R1. cbn [bind]. destruct IH as (c' & C1 & C2 & C3); [intros r' p IR IP; apply (H r' p (or_intror IR) IP)|]. rewrite C1. cbn [bind]. eexists. split; [reflexivity|]. split; [cbn [map]; congruence|]. intros r' p [<-|IR] IP; [apply R3; exact IP|apply (C3 r' p IR IP)].
Qed.
Lemma end_atomic_ok : forall s L, inv s L -> exists s', end_atomic s = Ok s' /\ inv s' L /\ s_heap s' = s_heap s /\ s_memerr s' = s_memerr s /\ s_white s' = otherwhite (s_white s).
Proof.
  intros s L I. unfold end_atomic. destruct (clear_rows_ok s L (s_cache s) I (i_cache s L I)) as (c' & C1 & C2 & C3). rewrite C1. cbn [bind]. eexists. split; [reflexivity|]. split; [|repeat split]. destruct I as [I1 I2 I3 I4 I5 I6 I7 I8 I9 I10 I11 I12]. constructor; cbn [s_heap s_hash s_nuse s_white s_cache s_memerr]; try assumption.
  - apply other_ok. exact I9.
  - destruct I10 as [L1 L2]. split; [rewrite <- L1, <- (map_length (@length Z) c'), C2, map_length; reflexivity|]. rewrite Forall_forall in *. intros r IN. apply (in_map (@length Z)) in IN. rewrite C2 in IN. apply in_map_iff in IN. destruct IN as (r' & <- & IN). apply L2. exact IN.
  - intros r p IR IP. destruct (C3 r p IR IP) as (o & O1 & O2 & O3). exists o. cbn [s_heap s_white]. split; [exact O1|]. split; [|exact O3]. apply nonwhite_alive; [apply other_ok; exact I9|apply (I7 p o O1)|exact O2].
Qed.
Lemma others_keeps : forall s s' o p, others p (s_heap s) (s_heap s') -> (forall str, holds s p str -> holds s' p str \/ ((o = Sweep p \/ o = SweepGen p) /\ dead s p)) -> keeps s o s'.
Proof.
  intros s s' o p OT H a str HA. destruct (Z.eq_dec a p) as [->|NE]; [apply H; exact HA|]. left. destruct HA as (q & Q & QS). specialize (OT a NE). rewrite Q in OT. destruct (s_heap s' a) as [q'|] eqn:Q'; [|discriminate]. cbn in OT. injection OT as O1 O2 O3 O4. exists q'. split; [exact Q'|congruence].
Qed.
Lemma remark_keeps : forall s s' o a t m, s_heap s a = Some t -> s_heap s' = put (s_heap s) a (Some (set_marked m t)) -> keeps s o s'.
Proof. intros s s' o a t m E EH. apply (others_keeps s s' o a); [intros x X; rewrite EH, put_ne by exact X; reflexivity|]. intros str (q & Q & QS). left. rewrite E in Q. injection Q as <-. exists (set_marked m t). rewrite EH, put_eq. auto. Qed.
Lemma same_keeps : forall s s' o, same (s_heap s) (s_heap s') -> keeps s o s'.
Proof. intros s s' o S a str (q & Q & QS). left. destruct (same_some _ _ a q S Q) as (n & Q'). exists (set_next n q). auto. Qed.
Lemma nuse_pos : forall s L, inv s L -> t_lng (match s_heap s (s_memerr s) with Some o => o | None => TStr [] 0 0 0 true end) = false -> 1 <= s_nuse s.
Proof.
  intros s L I H. destruct I as [I1 I2 I3 I4 I5 I6 I7 I8 I9 I10 I11 I12]. destruct I12 as (o & E & _). rewrite E in H. destruct (proj2 (I6 _) (ex_intro _ o (conj E H))) as (j & IN). pose proof (total_nth L j) as T. destruct (nth j L []); [destruct IN|]. cbn [length] in T. lia.
Qed.
Lemma checkSizes_ok : forall s L, inv s L -> exists s' L', checkSizes s = Ok s' /\ inv s' L' /\ same (s_heap s) (s_heap s') /\ rest s s'.
Proof.
  intros s L I. unfold checkSizes. fold (size s). destruct (Z.ltb_spec (s_nuse s) (size s / 4)) as [LT|].
  - assert (4 <= size s) by (pose proof (i_nuse s L I); pose proof (Z.div_small (size s) 4); destruct (Z.lt_ge_cases (size s) 4); [|assumption]; unfold size in *; lia).
    destruct (resize_ok s L (size s / 2) I) as (s1 & L1 & R1 & R2 & R3 & _ & _ & R4 & R5 & R6); [apply pow2_half; [apply (i_pow s L I)|lia]|]. exists s1, L1. split; [exact R1|]. split; [exact R2|]. split; [exact R3|]. repeat split; assumption.
  - exists s, L. split; [reflexivity|]. split; [exact I|]. split; [apply same_refl|repeat split].
Qed.
Lemma step_ok : forall s L o, inv s L -> legal s o -> exists s' L', step seed s o = Ok s' /\ inv s' L' /\ keeps s o s'.
Proof.
  intros s L o I LG. pose proof (i_white s L I) as WO. destruct o as [str a|str ptr a|a|a|a|a| |]; cbn [step legal] in *.
  - destruct LG as (_ & _ & NZ & E). destruct (newlstr_ok s L str a I E NZ) as (p & s' & L' & N1 & N2 & (o & O1 & O2 & O3) & N4 & _ & N5). rewrite N1. cbn [bind]. exists s', L'. split; [reflexivity|]. split; [exact N2|]. apply (others_keeps s s' _ p N4). intros st (q & Q & QS). left. exists o. split; [exact O1|]. destruct N5 as [(-> & N5 & _)|(_ & q' & Q' & Q2)]; congruence.
  - destruct LG as (_ & _ & NZ & E). destruct (new_ok s L str ptr a I E NZ) as (p & s' & L' & N1 & N2 & (o & O1 & O2 & O3) & N4 & _ & _ & N5). rewrite N1. cbn [bind]. exists s', L'. split; [reflexivity|]. split; [exact N2|]. apply (others_keeps s s' _ p N4). intros st (q & Q & QS). left. exists o. split; [exact O1|]. destruct N5 as [(-> & N5)|(q' & Q' & Q2)]; congruence.
  - destruct (s_heap s a) as [t|] eqn:E; [|contradiction]. destruct (i_obj s L I a t E) as (_ & MO & _). destruct (marks_facts _ _ WO MO) as (_ & (M1 & M2 & M3 & M4) & _). destruct (recolour_ok s L a t set2gray I E M1 (nonwhite_alive _ _ WO M1 M2) (fun _ => M2)) as (s' & R1 & R2 & R3 & _). exists s', L. split; [exact R1|]. split; [exact R2|]. apply (remark_keeps s s' _ a t _ E R3).
  - destruct (s_heap s a) as [t|] eqn:E; [|contradiction]. destruct (i_obj s L I a t E) as (_ & MO & _). destruct (marks_facts _ _ WO MO) as (_ & (M1 & M2 & M3 & M4) & _). destruct (recolour_ok s L a t set2black I E M3 (nonwhite_alive _ _ WO M3 M4) (fun _ => M4)) as (s' & R1 & R2 & R3 & _). exists s', L. split; [exact R1|]. split; [exact R2|]. apply (remark_keeps s s' _ a t _ E R3).
  - destruct LG as [LG NM]. destruct (s_heap s a) as [t|] eqn:E; [|contradiction]. destruct (i_obj s L I a t E) as (_ & MO & _). destruct (marks_facts _ _ WO MO) as (_ & _ & (M1 & M2) & _). unfold sweep1, deref. rewrite E. cbn [bind]. destruct (isdead (s_white s) (t_marked t)) eqn:D.
    + destruct (freeobj_ok s L a t I E NM D) as (s' & L' & F1 & F2 & F3 & F4 & _). exists s', L'. split; [exact F1|]. split; [exact F2|]. apply (others_keeps s s' _ a F4). intros str _. right. split; [left; reflexivity|]. exists t. auto.
    + destruct (recolour_ok s L a t (fun m => Z.lor (without m maskgcbits) (luaC_white (s_white s))) I E M1 M2) as (s' & R1 & R2 & R3 & _); [intros X; contradiction|]. exists s', L. split; [exact R1|]. split; [exact R2|]. apply (remark_keeps s s' _ a t _ E R3).
  - destruct LG as (NM & t & E & DW). destruct (i_obj s L I a t E) as (_ & MO & _). destruct (marks_facts _ _ WO MO) as (_ & _ & _ & M & _). unfold sweepgen1, deref. rewrite E. cbn [bind]. destruct (is_white (t_marked t)) eqn:W.
    + destruct (DW eq_refl) as (t' & E' & D). rewrite E in E'. injection E' as <-. destruct (freeobj_ok s L a t I E NM D) as (s' & L' & F1 & F2 & F3 & F4 & _). exists s', L'. split; [exact F1|]. split; [exact F2|]. apply (others_keeps s s' _ a F4). intros str _. right. split; [right; reflexivity|]. exists t. auto.
    + destruct (Z.leb_spec 7 (getage (t_marked t))) as [AG|_]; [exfalso; destruct MO as (_ & _ & MO); unfold getage, AGEBITS in AG; lia|]. destruct (M eq_refl) as (M1 & M2 & _).
      destruct (recolour_ok s L a t (fun m => if getage m =? 0 then Z.lor (Z.lor (without m maskgcbits) 1) (luaC_white (s_white s)) else setage m (nextage (getage m))) I E M1 M2) as (s' & R1 & R2 & R3 & _); [intros X; contradiction|]. exists s', L. split; [exact R1|]. split; [exact R2|]. apply (remark_keeps s s' _ a t _ E R3).
  - destruct (end_atomic_ok s L I) as (s' & R1 & R2 & R3 & _). exists s', L. split; [exact R1|]. split; [exact R2|]. apply same_keeps. rewrite R3. apply same_refl.
  - destruct (checkSizes_ok s L I) as (s' & L' & R1 & R2 & R3 & _). exists s', L'. split; [exact R1|]. split; [exact R2|]. apply same_keeps. exact R3.
Qed.
(* ---- the start ---- *)
Lemma init_ok : forall a, a <> 0 -> exists s L, luaS_init seed a = Ok s /\ inv s L.
Proof.
  intros a NZ. unfold luaS_init, luaS_resize. cbn [s_hash s_heap s_nuse s_white s_cache s_memerr length Z.of_nat]. unfold MINSTRTABSIZE. change (0 <? 128) with true. change (128 <? 0) with false. change (Z.to_nat 0) with 0%nat. cbn [rehash bind]. change (Z.to_nat (128 - 0)) with 128%nat. cbn [app].
  unfold luaS_newlstr. change (slen MEMERRMSG <=? LUAI_MAXSHORTLEN) with true. cbv beta iota. unfold internshrstr. destruct (hash_ok MEMERRMSG seed) as (h & HH). rewrite HH. cbn [bind]. cbn [s_hash s_heap s_nuse s_white s_cache s_memerr]. rewrite repeat_length. change (Z.of_nat 128) with 128.
  assert (P : pow2 128) by (exists 7; split; [lia|reflexivity]). pose proof (lmod_range h 128 P) as LR. assert (KX : exists k, lmod h 128 = Z.of_nat k) by (exists (Z.to_nat (lmod h 128)); lia). destruct KX as (k & KE). rewrite KE. assert (KL : (k < length (repeat 0%Z 128))%nat) by (rewrite repeat_length; lia).
  rewrite (vget_ok _ k KL), nth_repeat_0. cbn [bind search_chain Z.to_nat Z.eqb negb andb Z.leb Z.compare s_hash]. rewrite repeat_length. change (Z.of_nat 128) with 128. rewrite KE. rewrite (vget_ok _ k KL), nth_repeat_0. cbn [bind createstrobj s_hash s_heap s_nuse s_white s_cache s_memerr]. rewrite (vset_ok _ k a KL). cbn [bind].
  unfold recolour, update, deref. cbn [s_hash s_heap s_nuse s_white s_cache s_memerr]. rewrite put_eq. cbn [bind s_hash s_heap s_nuse s_white s_cache s_memerr set_marked t_str t_hash t_next t_lng t_marked].
  set (ob := TStr MEMERRMSG h (setage (set2gray (luaC_white 8)) G_OLD) 0 false). set (hp := put (put (fun _ : Z => None) a (Some (TStr MEMERRMSG h (luaC_white 8) 0 false))) a (Some ob)).
  assert (HE : forall x q, hp x = Some q -> x = a /\ q = ob) by (intros x q X; unfold hp, put in X; destruct (Z.eqb_spec x a); [injection X as <-; auto|discriminate]). assert (HA : hp a = Some ob) by (unfold hp; apply put_eq).
  eexists (St hp (lset (repeat 0 128) k a) 1 8 _ a), (lset (repeat [] 128) k [a]). split; [reflexivity|].
  assert (KL' : (k < length (repeat (@nil Z) 128))%nat) by (rewrite repeat_length in *; exact KL).
  assert (N1 : forall j, nth j (lset (repeat [] 128) k [a]) [] = if Nat.eqb j k then [a] else []) by (intros j; rewrite lset_nth by exact KL'; rewrite nth_repeat_nil; reflexivity).
  assert (SZ : length (lset (repeat 0%Z 128) k a) = 128%nat) by (rewrite lset_len by exact KL; apply repeat_length).
  constructor; unfold size; cbn [s_hash s_heap s_nuse s_white s_cache s_memerr]; rewrite ?SZ.
  - exact P.
  - split; [rewrite lset_len by exact KL'; rewrite SZ; apply repeat_length|]. intros i _. rewrite N1, lset_nth by exact KL. rewrite nth_repeat_0. destruct (Nat.eqb i k); [|reflexivity]. cbn [linked]. rewrite HA. auto.
  - split; [intros i; rewrite N1; destruct (Nat.eqb i k); [constructor; [intros []|constructor]|constructor]|]. intros i j x A B. rewrite N1 in A, B. destruct (Nat.eqb_spec i k); [|destruct A]. destruct (Nat.eqb_spec j k); [|destruct B]. congruence.
  - pose proof (total_lset (repeat [] 128) k [a] KL') as T. rewrite nth_repeat_nil in T. rewrite (total_nil (repeat [] 128)) in T by (intros i; apply nth_repeat_nil). cbn [length] in T. lia.
  - intros j x q IN X. rewrite N1 in IN. destruct (Nat.eqb_spec j k) as [->|]; [|destruct IN]. destruct (HE x q X) as [_ ->]. exact KE.
  - intros x. split; [intros (j & IN); rewrite N1 in IN; destruct (Nat.eqb j k); [|destruct IN]; destruct IN as [<-|[]]; exists ob; auto|]. intros (q & Q & _). destruct (HE x q Q) as [-> _]. exists k. rewrite N1, Nat.eqb_refl. left. reflexivity.
  - intros x q Q. destruct (HE x q Q) as [-> ->]. unfold obj_ok, ob. cbn [t_marked t_lng t_str t_hash]. split; [exact NZ|]. split; [apply mark_okb_ok; reflexivity|]. split; [vm_compute; discriminate|exact HH].
  - intros x y q r X Y _ _ _. destruct (HE x q X), (HE y r Y). congruence.
  - left. reflexivity.
  - split; [reflexivity|]. repeat constructor.
  - intros r p IR IP. apply repeat_spec in IR. subst r. apply repeat_spec in IP. subst p. exists ob. cbn [s_heap s_white]. split; [exact HA|]. split; reflexivity.
  - exists ob. split; [exact HA|]. split; reflexivity.
Qed.
Lemma reachable_inv : forall s, reachable seed s -> exists L, inv s L.
Proof.
  intros s R. induction R as [a s NZ E|s o s' R (L & I) LG E].
  - destruct (init_ok a NZ) as (s' & L & E' & I). rewrite E' in E. injection E as <-. exists L. exact I.
  - destruct (step_ok s L o I LG) as (s1 & L1 & E1 & I1 & _). rewrite E1 in E. injection E as <-. exists L1. exact I1.
Qed.
End SEED.

Lemma intern_total_ok : forall seed a, a <> 0 -> exists s, luaS_init seed a = Ok s.
Proof. intros seed a NZ. destruct (init_ok seed a NZ) as (s & L & E & _). exists s. exact E. Qed.
Lemma intern_step_ok : forall seed s o, reachable seed s -> legal s o -> exists s', step seed s o = Ok s' /\ keeps s o s'.
Proof. intros seed s o R LG. destruct (reachable_inv seed s R) as (L & I). destruct (step_ok seed s L o I LG) as (s' & L' & E & _ & K). exists s'. auto. Qed.
Lemma intern_unique_ok : forall seed s a b str, reachable seed s -> slen str <= 40 -> holds s a str -> holds s b str -> a = b.
Proof.
  intros seed s a b str R SL (o & E & ES) (q & F & FS). destruct (reachable_inv seed s R) as (L & I). pose proof (i_obj seed s L I a o E) as (_ & _ & X). pose proof (i_obj seed s L I b q F) as (_ & _ & Y).
  apply (i_uniq seed s L I a b o q E F); [destruct (t_lng o); [rewrite ES in X; lia|reflexivity]|destruct (t_lng q); [rewrite FS in Y; lia|reflexivity]|congruence].
Qed.
Lemma intern_equality_ok : forall seed s a b o q, reachable seed s -> s_heap s a = Some o -> s_heap s b = Some q -> (equalobj a o b q = true <-> t_str o = t_str q).
Proof.
  intros seed s a b o q R E F. destruct (reachable_inv seed s R) as (L & I). pose proof (i_obj seed s L I a o E) as (_ & _ & X). pose proof (i_obj seed s L I b q F) as (_ & _ & Y). unfold equalobj, eqlngstr. destruct (t_lng o) eqn:LO, (t_lng q) eqn:LQ; cbn [Bool.eqb negb].
  - rewrite orb_true_iff, andb_true_iff, Z.eqb_eq, Z.eqb_eq, eq_str_ok. split; [intros [<-|[_ H]]; [congruence|exact H]|intros ->; auto].
  - split; [discriminate|]. intros EQ. rewrite EQ in X. lia.
  - split; [discriminate|]. intros EQ. rewrite EQ in X. lia.
  - rewrite Z.eqb_eq. split; [intros <-; congruence|]. intros EQ. apply (i_uniq seed s L I a b o q E F LO LQ EQ).
Qed.
Lemma intern_new_ok : forall seed s str a, reachable seed s -> free_at s a -> exists p s', luaS_newlstr seed s str a = Ok (p, s') /\ holds s' p str /\ ~ dead s' p /\
  (forall q, slen str <= 40 -> holds s q str -> p = q) /\ ((forall q, holds s q str -> 40 < slen str) -> p = a).
Proof.
  intros seed s str a R (NZ & E). destruct (reachable_inv seed s R) as (L & I). destruct (newlstr_ok seed s L str a I E NZ) as (p & s' & L' & N1 & N2 & (o & O1 & O2 & O3) & N4 & _ & N5). exists p, s'. split; [exact N1|]. split; [exists o; auto|]. split; [intros (o' & E' & D); congruence|]. split.
  - intros q SL (oq & Q & QS). destruct N5 as [(_ & _ & N5)|(_ & op & P & PS)]; [exfalso; apply (N5 SL q oq Q QS)|]. apply (intern_unique_ok seed s p q str R SL); [exists op|exists oq]; auto.
  - intros H. destruct N5 as [(-> & _)|(SL & op & P & PS)]; [reflexivity|]. specialize (H p (ex_intro _ op (conj P PS))). lia.
Qed.
Lemma intern_newc_ok : forall seed s str ptr a, reachable seed s -> free_at s a -> exists p s', luaS_new seed s str ptr a = Ok (p, s') /\ holds s' p (cstr str) /\ ~ dead s' p /\ (p = a \/ holds s p (cstr str)).
Proof.
  intros seed s str ptr a R (NZ & E). destruct (reachable_inv seed s R) as (L & I). destruct (new_ok seed s L str ptr a I E NZ) as (p & s' & L' & N1 & N2 & (o & O1 & O2 & O3) & N4 & _ & _ & N5). exists p, s'. split; [exact N1|]. split; [exists o; auto|]. split; [intros (o' & E' & D); congruence|]. destruct N5 as [(-> & _)|(op & P & PS)]; [left; reflexivity|right; exists op; auto].
Qed.
Lemma intern_memerr_ok : forall seed s, reachable seed s -> exists str, holds s (s_memerr s) str /\ ~ dead s (s_memerr s).
Proof.
  intros seed s R. destruct (reachable_inv seed s R) as (L & I). destruct (i_memerr seed s L I) as (o & E & W & _). exists (t_str o). split; [exists o; auto|]. intros (o' & E' & D). rewrite E in E'. injection E' as <-. rewrite (nonwhite_alive _ _ (i_white seed s L I) (proj1 (proj2 (i_obj seed s L I _ o E))) W) in D. discriminate.
Qed.
