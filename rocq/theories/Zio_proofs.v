Require Import ZArith List Bool Lia.
From Verif Require Import Base Base_facts Zio_model Zio_spec.
Import ListNotations.
Open Scope Z_scope.

Definition bytes_ok (l : list Z) : Prop := Forall (fun b => 0 <= b < 256) l /\ Z.of_nat (length l) < two64.
Definition good (z : zio) : Prop := zn z = Z.of_nat (length (zp z)) /\ Forall bytes_ok (zrest z) /\ bytes_ok (zp z).
Definition left (z : zio) : list Z := zp z ++ contents (zrest z).

Lemma bytes_ok_tl : forall c l, bytes_ok (c :: l) -> bytes_ok l /\ 0 <= c < 256.
Proof. intros c l [F L]. cbn [length] in L. split; [split|]; [exact (Forall_inv_tail F)|lia|exact (Forall_inv F)]. Qed.

Lemma getc_ok : forall z, good z ->
  match left z with
  | [] => exists z', zgetc z = Ok (z', EOZ)
  | x :: r => exists z', zgetc z = Ok (z', x) /\ good z' /\ left z' = r /\ x <> EOZ
  end.
Proof.
  intros [n p rest] (G1 & G2 & G3). cbn [zn zp zrest] in *. unfold left, zgetc. cbn [zn zp zrest].
  destruct p as [|c p].
  - cbn [length] in G1. subst n. cbn [Z.of_nat Z.ltb Z.compare]. unfold luaZ_fill. cbn [zn zp zrest].
    destruct rest as [|b rest]; cbn [reader app contents].
    + eauto.
    + destruct b as [|c b]; [eauto|]. cbn [app].
      pose proof (Forall_inv G2) as B. destruct (bytes_ok_tl _ _ B) as [B1 B2].
      eexists. split; [reflexivity|]. split.
      * split; [reflexivity|]. split; [exact (Forall_inv_tail G2)|exact B1].
      * split; [reflexivity|]. unfold EOZ. lia.
  - destruct (bytes_ok_tl _ _ G3) as [B1 B2]. destruct G3 as [_ L3]. cbn [length] in *. subst n.
    destruct (Z.ltb_spec 0 (Z.of_nat (S (length p)))); [|lia]. cbn [app].
    eexists. split; [reflexivity|]. split; [|split; [reflexivity|unfold EOZ; lia]].
    split; [|split; assumption]. cbn [zn zp]. rewrite u64_id by (unfold_consts; lia). lia.
Qed.

Lemma firstn_app_le : forall A (l r : list A) n, (n <= length l)%nat -> firstn n (l ++ r) = firstn n l.
Proof. intros. rewrite firstn_app. replace (n - length l)%nat with O by lia. cbn [firstn]. apply app_nil_r. Qed.
Lemma skipn_app_le : forall A (l r : list A) n, (n <= length l)%nat -> skipn n (l ++ r) = skipn n l ++ r.
Proof. intros. rewrite skipn_app. replace (n - length l)%nat with O by lia. reflexivity. Qed.

Lemma bytes_ok_skip : forall l k, bytes_ok l -> bytes_ok (skipn k l).
Proof.
  intros l k [F L]. split.
  - apply Forall_forall. intros x I. rewrite Forall_forall in F. apply F.
    rewrite <- (firstn_skipn k l). apply in_or_app. right. assumption.
  - rewrite skipn_length. lia.
Qed.

Lemma read_ok : forall fuel z n b, good z -> 0 <= n -> (Z.to_nat n < fuel)%nat ->
  exists z' missing, 
   luaZ_read fuel z n b = Ok (z', b ++ firstn (Z.to_nat n) (left z), missing) /\
   (missing = 0 <-> n <= Z.of_nat (length (left z))) /\
   (missing = 0 -> good z' /\ left z' = skipn (Z.to_nat n) (left z)).
Proof.
  induction fuel as [|fuel IH]; intros z n b G Hn F; [lia|]. cbn [luaZ_read].
  destruct (Z.eqb_spec n 0).
  - subst n. exists z, 0. cbn [Z.to_nat firstn]. rewrite app_nil_r. split; [reflexivity|]. split; [lia|]. auto.
  - set (cont := fun z : zio => let m := if n <=? zn z then n else zn z in
      if Z.of_nat (length (zp z)) <? m then UB
      else luaZ_read fuel (mkZ (zn z - m) (skipn (Z.to_nat m) (zp z)) (zrest z)) (n - m)
                     (b ++ firstn (Z.to_nat m) (zp z))).
    assert (C : forall z, good z -> zp z <> [] -> exists z' missing,
      cont z = Ok (z', b ++ firstn (Z.to_nat n) (left z), missing) /\
      (missing = 0 <-> n <= Z.of_nat (length (left z))) /\
      (missing = 0 -> good z' /\ left z' = skipn (Z.to_nat n) (left z))).
    { clear z G. intros z (G1 & G2 & G3) NE. unfold cont. destruct (Z.leb_spec n (zn z)).
      - destruct (Z.ltb_spec (Z.of_nat (length (zp z))) n); [lia|].
        replace (n - n) with 0 by lia. unfold left.
        destruct fuel; [lia|]. cbn [luaZ_read Z.eqb]. eexists _, 0.
        rewrite firstn_app_le, skipn_app_le by lia. split; [reflexivity|].
        split; [rewrite app_length; lia|]. intros _. split; [|reflexivity].
        split; [cbn [zn zp]; rewrite skipn_length; lia|]. split; [assumption|]. apply bytes_ok_skip. assumption.
      - rewrite G1. rewrite Z.ltb_irrefl. rewrite Nat2Z.id, skipn_all, firstn_all, Z.sub_diag.
        assert (zp z <> [] -> (0 < length (zp z))%nat) by (destruct (zp z); [congruence|simpl; lia]).
        specialize (H0 NE).
        destruct (IH (mkZ 0 [] (zrest z)) (n - Z.of_nat (length (zp z))) (b ++ zp z)) as (z' & ms & E & M & K); try lia.
        { split; [reflexivity|]. split; [assumption|]. split; [constructor|reflexivity]. }
        exists z', ms. unfold left in *. cbn [zp zrest app] in *.
        assert (L1 : firstn (Z.to_nat n) (zp z ++ contents (zrest z)) = zp z ++ firstn (Z.to_nat (n - Z.of_nat (length (zp z)))) (contents (zrest z))).
        { rewrite firstn_app. rewrite firstn_all2 by lia. do 2 f_equal. lia. }
        rewrite L1, app_assoc. split; [exact E|]. split.
        + rewrite M, app_length. lia.
        + intros H'. destruct (K H') as [K1 K2]. split; [assumption|]. rewrite K2.
          rewrite skipn_app. rewrite (skipn_all2 (zp z)) by lia. cbn [app]. f_equal. lia. }
    destruct (Z.eqb_spec (zn z) 0).
    + destruct G as (G1 & G2 & G3). assert (zp z = []) by (destruct (zp z); [reflexivity|cbn [length] in G1; lia]).
      destruct z as [zn0 zp0 rest]. cbn [zn zp zrest] in *. subst zp0 zn0.
      unfold luaZ_fill. cbn [zrest zn zp]. destruct rest as [|[|c p] rest]; cbn [reader].
      * rewrite Z.eqb_refl. eexists _, n. unfold left. cbn [zp zrest app contents]. rewrite firstn_nil, app_nil_r.
        split; [reflexivity|]. cbn [length]. split; [lia|]. intros; lia.
      * rewrite Z.eqb_refl. eexists _, n. unfold left. cbn [zp zrest app contents]. rewrite firstn_nil, app_nil_r.
        split; [reflexivity|]. cbn [length]. split; [lia|]. intros; lia.
      * pose proof (Forall_inv G2) as B. destruct (bytes_ok_tl _ _ B) as [B1 B2].
        destruct (Z.eqb_spec c EOZ); [unfold EOZ in *; lia|]. cbn [zn zp zrest].
        apply (C (mkZ (Z.of_nat (length p) + 1) (c :: p) rest)); [|discriminate].
        split; [cbn [zn zp length]; lia|]. split; [exact (Forall_inv_tail G2)|assumption].
    + apply C; [assumption|]. destruct G as (G1 & _). destruct (zp z); [cbn [length] in G1; lia|discriminate].
Qed.

Lemma consume_ok : forall R (c : consumer R) z, good z -> reads_ok c -> consume c z = Ok (eats c (left z)).
Proof.
  intros R c. induction c as [r|k IH eof|n k IH eof]; intros z G RO; cbn [consume eats].
  - reflexivity.
  - pose proof (getc_ok z G) as K. destruct (left z) as [|x s].
    + destruct K as [z' E]. rewrite E. cbn [bind]. rewrite Z.eqb_refl. reflexivity.
    + destruct K as (z' & E & G' & L' & NE). rewrite E. cbn [bind]. destruct (Z.eqb_spec x EOZ); [contradiction|].
      rewrite IH by (auto; apply RO). rewrite L'. reflexivity.
  - destruct RO as [Hn RO]. destruct (read_ok (S (Z.to_nat n)) z n [] G Hn ltac:(lia)) as (z' & ms & E & M & K).
    rewrite E. cbn [bind app]. destruct (Z.eqb_spec ms 0).
    + destruct (K e) as [G' L']. destruct (Z.leb_spec n (Z.of_nat (length (left z)))); [|lia].
      rewrite IH by auto. rewrite L'. reflexivity.
    + destruct (Z.leb_spec n (Z.of_nat (length (left z)))); [lia|]. rewrite firstn_all2 by lia. reflexivity.
Qed.

Theorem chunks_ok : forall R (c : consumer R) pieces, Forall bytes_ok pieces -> reads_ok c ->
  consume c (luaZ_init pieces) = Ok (eats c (contents pieces)).
Proof.
  intros. rewrite consume_ok; auto. split; [reflexivity|]. split; [assumption|]. split; [constructor|reflexivity].
Qed.

Lemma contents_nonempty : forall pieces, ~ In [] pieces -> contents pieces = concat pieces.
Proof.
  induction pieces as [|[|x p] r IH]; intros H; cbn [contents concat]; auto.
  - exfalso. apply H. left. reflexivity.
  - rewrite IH; auto. intros I. apply H. right. assumption.
Qed.

Theorem split_irrelevant : forall R (c : consumer R) p1 p2, Forall bytes_ok p1 -> Forall bytes_ok p2 -> reads_ok c ->
  ~ In [] p1 -> ~ In [] p2 -> concat p1 = concat p2 -> consume c (luaZ_init p1) = consume c (luaZ_init p2).
Proof.
  intros. rewrite !chunks_ok by assumption. rewrite !contents_nonempty by assumption. congruence.
Qed.
