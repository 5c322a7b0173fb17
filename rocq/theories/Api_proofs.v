Require Import ZArith List Bool Lia.
From Verif Require Import Base Base_facts Api_model.
Import ListNotations.
Open Scope Z_scope.

Section Proofs.
Variable V : Type.
Variable nil_v : V.
Notation top := (top V).

(* an index, positive or negative, which denotes position p of the frame *)
Definition denotes (st : list V) (idx p : Z) : Prop :=
  0 <= p < Z.of_nat (length st) /\ (idx = p + 1 \/ (idx = p - Z.of_nat (length st) /\ Z.of_nat (length st) <= LUAI_MAXSTACK)).

Lemma index_ok : forall st idx p, denotes st idx p -> index2addr V st idx = Ok (Some p).
Proof.
  intros st idx p [Hp [-> | [-> Hl]]]; unfold index2addr, ispseudo, LUA_REGISTRYINDEX, top.
  - destruct (Z.ltb_spec 0 (p + 1)); [|lia]. destruct (Z.ltb_spec (Z.of_nat (length st)) (p + 1)); [lia|]. do 2 f_equal. lia.
  - destruct (Z.ltb_spec 0 (p - Z.of_nat (length st))); [lia|].
    destruct (Z.leb_spec (p - Z.of_nat (length st)) (- LUAI_MAXSTACK - 1000)); [lia|].
    destruct (Z.eqb_spec (p - Z.of_nat (length st)) 0); [lia|].
    destruct (Z.ltb_spec (Z.of_nat (length st)) (- (p - Z.of_nat (length st)))); [lia|]. cbn [orb]. do 2 f_equal. lia.
Qed.

Lemma rd_mid : forall pre x post, rd V (pre ++ x :: post) (Z.of_nat (length pre)) = Ok x.
Proof.
  intros. unfold rd. destruct (Z.ltb_spec (Z.of_nat (length pre)) 0); [lia|].
  rewrite Nat2Z.id, nth_error_app2, Nat.sub_diag by lia. reflexivity.
Qed.

Lemma wr_mid : forall pre x post y, wr V (pre ++ x :: post) (Z.of_nat (length pre)) y = Ok (pre ++ y :: post).
Proof.
  intros. unfold wr, top. rewrite app_length. cbn [length].
  destruct (Z.ltb_spec (Z.of_nat (length pre)) 0); [lia|].
  destruct (Z.leb_spec (Z.of_nat (length pre + S (length post))) (Z.of_nat (length pre))); [lia|]. cbn [orb].
  rewrite Nat2Z.id. f_equal. apply upd_app_mid.
Qed.

Lemma split_ends : forall (A : list V), (2 <= length A)%nat -> exists x B y, A = x :: B ++ [y].
Proof.
  intros [|x A] H; [simpl in H; lia|]. destruct A as [|a A]; [simpl in H; lia|].
  destruct (exists_last (l := a :: A)) as (B & y & E); [discriminate|]. exists x, B, y. congruence.
Qed.

Lemma reverse_ok : forall n fuel pre A post, length A = n -> (n <= fuel)%nat ->
  reverse V fuel (pre ++ A ++ post) (Z.of_nat (length pre)) (Z.of_nat (length pre) + Z.of_nat n - 1) =
  Ok (pre ++ rev A ++ post).
Proof.
  induction n as [n IH] using (well_founded_induction lt_wf). intros fuel pre A post L F.
  destruct (Nat.le_gt_cases n 1).
  - assert (E : rev A = A). { destruct A as [|x [|]]; [reflexivity|reflexivity|simpl in L; lia]. }
    rewrite E. destruct fuel; cbn [reverse];
      destruct (Z.ltb_spec (Z.of_nat (length pre)) (Z.of_nat (length pre) + Z.of_nat n - 1)); cbn [negb]; auto; lia.
  - destruct (split_ends A ltac:(lia)) as (x & B & y & ->).
    assert (LB : length B = (n - 2)%nat). { cbn [length] in L. rewrite app_length in L. cbn [length] in L. lia. }
    destruct fuel as [|fuel]; [lia|]. cbn [reverse].
    destruct (Z.ltb_spec (Z.of_nat (length pre)) (Z.of_nat (length pre) + Z.of_nat n - 1)); [|lia]. cbn [negb].
    set (p := Z.of_nat (length pre)).
    assert (E1 : pre ++ (x :: B ++ [y]) ++ post = pre ++ x :: (B ++ y :: post))
      by (cbn [app]; rewrite <- app_assoc; reflexivity).
    rewrite E1. unfold p at 1. rewrite rd_mid. cbn [bind].
    assert (E2 : forall z, pre ++ z :: B ++ y :: post = (pre ++ z :: B) ++ y :: post)
      by (intros; rewrite <- app_assoc; reflexivity).
    assert (P2 : forall z, p + Z.of_nat n - 1 = Z.of_nat (length (pre ++ z :: B)))
      by (intros; rewrite app_length; cbn [length]; unfold p; lia).
    rewrite (E2 x), (P2 x), rd_mid, <- E2. cbn [bind]. unfold p at 1. rewrite wr_mid. cbn [bind].
    rewrite (E2 y). rewrite <- (P2 x), (P2 y), wr_mid. cbn [bind].
    rewrite <- app_assoc. cbn [app].
    replace (pre ++ y :: B ++ x :: post) with ((pre ++ [y]) ++ B ++ (x :: post)) by (rewrite <- app_assoc; reflexivity).
    replace (p + 1) with (Z.of_nat (length (pre ++ [y]))) by (rewrite app_length; cbn [length]; unfold p; lia).
    rewrite <- (P2 y).
    replace (p + Z.of_nat n - 1 - 1) with (Z.of_nat (length (pre ++ [y])) + Z.of_nat (n - 2) - 1)
      by (rewrite app_length; cbn [length]; unfold p; lia).
    rewrite IH by lia. cbn [rev]. rewrite rev_app_distr. cbn [rev app]. rewrite <- !app_assoc. reflexivity.
Qed.

Theorem rotate_pos : forall pre A B idx, denotes (pre ++ A ++ B) idx (Z.of_nat (length pre)) ->
  lua_rotate V (pre ++ A ++ B) idx (Z.of_nat (length B)) = Ok (pre ++ B ++ A).
Proof.
  intros pre A B idx D. unfold lua_rotate. rewrite (index_ok _ _ _ D). cbn [bind].
  assert (TT : top (pre ++ A ++ B) = Z.of_nat (length pre) + Z.of_nat (length A) + Z.of_nat (length B))
    by (unfold top; rewrite !app_length; lia).
  rewrite TT. destruct (Z.ltb_spec (Z.of_nat (length pre) + Z.of_nat (length A) + Z.of_nat (length B) - 1 - Z.of_nat (length pre) + 1) (Z.abs (Z.of_nat (length B)))); [lia|].
  destruct (Z.leb_spec 0 (Z.of_nat (length B))); [|lia].
  replace (Z.of_nat (length pre) + Z.of_nat (length A) + Z.of_nat (length B) - 1 - Z.of_nat (length B))
    with (Z.of_nat (length pre) + Z.of_nat (length A) - 1) by lia.
  rewrite reverse_ok by (rewrite ?app_length; lia). cbn [bind].
  replace (pre ++ rev A ++ B) with ((pre ++ rev A) ++ B ++ []) by (rewrite app_nil_r, <- app_assoc; reflexivity).
  replace (Z.of_nat (length pre) + Z.of_nat (length A) - 1 + 1) with (Z.of_nat (length (pre ++ rev A)))
    by (rewrite app_length, rev_length; lia).
  replace (Z.of_nat (length pre) + Z.of_nat (length A) + Z.of_nat (length B) - 1)
    with (Z.of_nat (length (pre ++ rev A)) + Z.of_nat (length B) - 1) at 1 by (rewrite app_length, rev_length; lia).
  rewrite reverse_ok by (rewrite ?app_length; lia). cbn [bind].
  replace ((pre ++ rev A) ++ rev B ++ []) with (pre ++ (rev A ++ rev B) ++ []) by (rewrite !app_nil_r, <- app_assoc; reflexivity).
  replace (Z.of_nat (length pre) + Z.of_nat (length A) + Z.of_nat (length B) - 1)
    with (Z.of_nat (length pre) + Z.of_nat (length (rev A ++ rev B)) - 1) by (rewrite app_length, !rev_length; lia).
  rewrite reverse_ok by (rewrite ?app_length, ?rev_length; lia).
  rewrite rev_app_distr, !rev_involutive, app_nil_r. reflexivity.
Qed.

Theorem rotate_neg : forall pre A B idx, denotes (pre ++ A ++ B) idx (Z.of_nat (length pre)) ->
  lua_rotate V (pre ++ A ++ B) idx (- Z.of_nat (length A)) = Ok (pre ++ B ++ A).
Proof.
  intros pre A B idx D. destruct (Nat.eq_dec (length A) 0) as [Z0|NZ].
  - (* n = 0: the full rotation by |B| = |segment| is also the identity *)
    destruct A; [|discriminate]. cbn [length app]. rewrite app_nil_r.
    assert (D' : denotes (pre ++ B ++ []) idx (Z.of_nat (length pre))) by (rewrite app_nil_r; exact D).
    pose proof (rotate_pos pre B [] idx D') as K. rewrite !app_nil_r in K. exact K.
  - unfold lua_rotate. rewrite (index_ok _ _ _ D). cbn [bind].
    assert (TT : top (pre ++ A ++ B) = Z.of_nat (length pre) + Z.of_nat (length A) + Z.of_nat (length B))
      by (unfold top; rewrite !app_length; lia).
    rewrite TT. destruct (Z.ltb_spec (Z.of_nat (length pre) + Z.of_nat (length A) + Z.of_nat (length B) - 1 - Z.of_nat (length pre) + 1) (Z.abs (- Z.of_nat (length A)))); [lia|].
    destruct (Z.leb_spec 0 (- Z.of_nat (length A))); [lia|].
    pose proof (rotate_pos pre A B idx D) as K. unfold lua_rotate in K. rewrite (index_ok _ _ _ D) in K. cbn [bind] in K.
    rewrite TT in K. destruct (Z.ltb_spec (Z.of_nat (length pre) + Z.of_nat (length A) + Z.of_nat (length B) - 1 - Z.of_nat (length pre) + 1) (Z.abs (Z.of_nat (length B)))); [lia|].
    destruct (Z.leb_spec 0 (Z.of_nat (length B))); [|lia].
    replace (Z.of_nat (length pre) - - Z.of_nat (length A) - 1) with (Z.of_nat (length pre) + Z.of_nat (length A) + Z.of_nat (length B) - 1 - Z.of_nat (length B)) by lia.
    exact K.
Qed.

Lemma settop_neg : forall A B, lua_settop V nil_v (A ++ B) (- Z.of_nat (length B) - 1) = Ok A.
Proof.
  intros. unfold lua_settop, top. rewrite app_length.
  destruct (Z.leb_spec 0 (- Z.of_nat (length B) - 1)); [lia|].
  destruct (Z.ltb_spec (Z.of_nat (length A + length B)) (- (- Z.of_nat (length B) - 1 + 1))); [lia|].
  replace (Z.to_nat (Z.of_nat (length A + length B) + (- Z.of_nat (length B) - 1 + 1))) with (length A + 0)%nat by lia.
  rewrite firstn_app_2. cbn [firstn]. rewrite app_nil_r. reflexivity.
Qed.

Theorem settop_grow : forall st n, lua_settop V nil_v st (Z.of_nat (length st + n)) = Ok (st ++ repeat nil_v n).
Proof.
  intros. unfold lua_settop, top. destruct (Z.leb_spec 0 (Z.of_nat (length st + n))); [|lia].
  rewrite Nat2Z.id, firstn_all2 by lia. do 3 f_equal. lia.
Qed.

Theorem settop_shrink : forall A B, lua_settop V nil_v (A ++ B) (Z.of_nat (length A)) = Ok A.
Proof.
  intros. unfold lua_settop, top. destruct (Z.leb_spec 0 (Z.of_nat (length A))); [|lia].
  rewrite Nat2Z.id, firstn_app, Nat.sub_diag, firstn_all. cbn [firstn]. rewrite app_nil_r.
  rewrite app_length. replace (Z.to_nat (Z.of_nat (length A) - Z.of_nat (length A + length B))) with O by lia.
  cbn [repeat]. rewrite app_nil_r. reflexivity.
Qed.

Theorem insert_ok : forall pre A x idx, denotes (pre ++ A ++ [x]) idx (Z.of_nat (length pre)) ->
  lua_insert V (pre ++ A ++ [x]) idx = Ok (pre ++ x :: A).
Proof. intros. unfold lua_insert. exact (rotate_pos pre A [x] idx H). Qed.

Theorem remove_ok : forall pre x B idx, denotes (pre ++ x :: B) idx (Z.of_nat (length pre)) ->
  lua_remove V nil_v (pre ++ x :: B) idx = Ok (pre ++ B).
Proof.
  intros pre x B idx D. unfold lua_remove. pose proof (rotate_neg pre [x] B idx D) as K.
  cbn [length app] in K. change (- Z.of_nat 1) with (-1) in K. rewrite K. cbn [bind]. unfold lua_pop.
  rewrite app_assoc. exact (settop_neg (pre ++ B) [x]).
Qed.

Lemma copy_ok : forall st fi ti fp tp v, denotes st fi fp -> denotes st ti tp -> nth_error st (Z.to_nat fp) = Some v ->
  lua_copy V nil_v st fi ti = Ok (upd st (Z.to_nat tp) v).
Proof.
  intros st fi ti fp tp v F T E. unfold lua_copy. rewrite (index_ok _ _ _ F), (index_ok _ _ _ T). cbn [bind].
  destruct F as [F _]. destruct T as [T _]. unfold rd. destruct (Z.ltb_spec fp 0); [lia|]. rewrite E. cbn [bind].
  unfold wr, top. destruct (Z.ltb_spec tp 0); [lia|]. destruct (Z.leb_spec (Z.of_nat (length st)) tp); [lia|]. reflexivity.
Qed.

Theorem replace_ok : forall pre y B x idx, denotes (pre ++ y :: B ++ [x]) idx (Z.of_nat (length pre)) ->
  Z.of_nat (length (pre ++ y :: B ++ [x])) <= LUAI_MAXSTACK ->
  lua_replace V nil_v (pre ++ y :: B ++ [x]) idx = Ok (pre ++ x :: B).
Proof.
  intros pre y B x idx D L. unfold lua_replace.
  assert (LE : length (pre ++ y :: B ++ [x]) = (length (pre ++ y :: B) + 1)%nat)
    by (rewrite !app_length; cbn [length]; rewrite app_length; cbn [length]; lia).
  rewrite (copy_ok _ (-1) idx (Z.of_nat (length (pre ++ y :: B))) (Z.of_nat (length pre)) x).
  - cbn [bind]. rewrite Nat2Z.id, upd_app_mid. unfold lua_pop.
    replace (pre ++ x :: B ++ [x]) with ((pre ++ x :: B) ++ [x]) by (rewrite <- app_assoc; reflexivity).
    exact (settop_neg (pre ++ x :: B) [x]).
  - split; [lia|]. right. lia.
  - exact D.
  - rewrite Nat2Z.id. replace (pre ++ y :: B ++ [x]) with ((pre ++ y :: B) ++ [x]) by (rewrite <- app_assoc; reflexivity).
    rewrite nth_error_app2, Nat.sub_diag by lia. reflexivity.
Qed.

Theorem absindex_ok : forall st idx p, denotes st idx p -> lua_absindex V st idx = p + 1.
Proof.
  intros st idx p [Hp [-> | [-> Hl]]]; unfold lua_absindex, ispseudo, LUA_REGISTRYINDEX, top.
  - destruct (Z.ltb_spec 0 (p + 1)); [|lia]. reflexivity.
  - destruct (Z.ltb_spec 0 (p - Z.of_nat (length st))); [lia|].
    destruct (Z.leb_spec (p - Z.of_nat (length st)) (- LUAI_MAXSTACK - 1000)); [lia|]. cbn [orb]. lia.
Qed.

Theorem pushvalue_ok : forall st idx p v, denotes st idx p -> nth_error st (Z.to_nat p) = Some v ->
  lua_pushvalue V nil_v st idx = Ok (st ++ [v]).
Proof.
  intros st idx p v D E. unfold lua_pushvalue. rewrite (index_ok _ _ _ D). cbn [bind]. destruct D as [D _].
  unfold rd. destruct (Z.ltb_spec p 0); [lia|]. rewrite E. reflexivity.
Qed.

Lemma xmove_loop_ok : forall B A to, xmove_loop V (A ++ B) (Z.of_nat (length A)) (length B) to = Ok (to ++ B).
Proof.
  induction B as [|b B IH]; intros A to; cbn [xmove_loop length].
  - rewrite app_nil_r. reflexivity.
  - rewrite rd_mid. cbn [bind].
    replace (A ++ b :: B) with ((A ++ [b]) ++ B) by (rewrite <- app_assoc; reflexivity).
    replace (Z.of_nat (length A) + 1) with (Z.of_nat (length (A ++ [b]))) by (rewrite app_length; cbn [length]; lia).
    rewrite IH, <- app_assoc. reflexivity.
Qed.

Theorem xmove_ok : forall A B to, lua_xmove V (A ++ B) to (Z.of_nat (length B)) = Ok (A, to ++ B).
Proof.
  intros. unfold lua_xmove, top. rewrite app_length.
  destruct (Z.ltb_spec (Z.of_nat (length B)) 0); [lia|].
  destruct (Z.ltb_spec (Z.of_nat (length A + length B)) (Z.of_nat (length B))); [lia|]. cbn [orb].
  replace (Z.of_nat (length A + length B) - Z.of_nat (length B)) with (Z.of_nat (length A)) by lia.
  rewrite !Nat2Z.id, xmove_loop_ok. cbn [bind]. rewrite firstn_app, Nat.sub_diag, firstn_all. cbn [firstn].
  rewrite app_nil_r. reflexivity.
Qed.
End Proofs.
