(* Property C41: stack rotation and the functions built on it. *)
Require Import ZArith List Bool Lia.
From Verif Require Import Base Base_facts Api_model Api_proofs.
Import ListNotations.
Open Scope Z_scope.

(* [denotes st idx p]: the index idx, counted from the bottom or from the top, is position p.
   A segment A ++ B is rotated by |B| towards the top, or by |A| towards the bottom. *)
Theorem C41_rotate_up : forall V pre A B idx, denotes V (pre ++ A ++ B) idx (Z.of_nat (length pre)) ->
  lua_rotate V (pre ++ A ++ B) idx (Z.of_nat (length B)) = Ok (pre ++ B ++ A).
Proof. exact rotate_pos. Qed.
Print Assumptions C41_rotate_up.

Theorem C41_rotate_down : forall V pre A B idx, denotes V (pre ++ A ++ B) idx (Z.of_nat (length pre)) ->
  lua_rotate V (pre ++ A ++ B) idx (- Z.of_nat (length A)) = Ok (pre ++ B ++ A).
Proof. exact rotate_neg. Qed.
Print Assumptions C41_rotate_down.

Theorem C41_insert : forall V pre A x idx, denotes V (pre ++ A ++ [x]) idx (Z.of_nat (length pre)) ->
  lua_insert V (pre ++ A ++ [x]) idx = Ok (pre ++ x :: A).
Proof. exact insert_ok. Qed.
Print Assumptions C41_insert.

Theorem C41_remove : forall V nil_v pre x B idx, denotes V (pre ++ x :: B) idx (Z.of_nat (length pre)) ->
  lua_remove V nil_v (pre ++ x :: B) idx = Ok (pre ++ B).
Proof. exact remove_ok. Qed.
Print Assumptions C41_remove.

Theorem C41_replace : forall V nil_v pre y B x idx, denotes V (pre ++ y :: B ++ [x]) idx (Z.of_nat (length pre)) ->
  Z.of_nat (length (pre ++ y :: B ++ [x])) <= LUAI_MAXSTACK ->
  lua_replace V nil_v (pre ++ y :: B ++ [x]) idx = Ok (pre ++ x :: B).
Proof. exact replace_ok. Qed.
Print Assumptions C41_replace.

Theorem C41_settop_grow : forall V (nil_v : V) st n, lua_settop V nil_v st (Z.of_nat (length st + n)) = Ok (st ++ repeat nil_v n).
Proof. exact settop_grow. Qed.
Print Assumptions C41_settop_grow.

Theorem C41_settop_shrink : forall V (nil_v : V) A B, lua_settop V nil_v (A ++ B) (Z.of_nat (length A)) = Ok A /\
  lua_settop V nil_v (A ++ B) (- Z.of_nat (length B) - 1) = Ok A.
Proof. intros. split; [apply settop_shrink|apply settop_neg]. Qed.
Print Assumptions C41_settop_shrink.

Theorem C41_copy : forall V nil_v st fi ti fp tp v, denotes V st fi fp -> denotes V st ti tp ->
  nth_error st (Z.to_nat fp) = Some v -> lua_copy V nil_v st fi ti = Ok (upd st (Z.to_nat tp) v).
Proof. exact copy_ok. Qed.
Print Assumptions C41_copy.

Theorem C41_pushvalue : forall V nil_v st idx p v, denotes V st idx p -> nth_error st (Z.to_nat p) = Some v ->
  lua_pushvalue V nil_v st idx = Ok (st ++ [v]).
Proof. exact pushvalue_ok. Qed.
Print Assumptions C41_pushvalue.

Theorem C41_absindex : forall V st idx p, denotes V st idx p -> lua_absindex V st idx = p + 1.
Proof. exact absindex_ok. Qed.
Print Assumptions C41_absindex.

Theorem C41_xmove : forall V (A B to : list V), lua_xmove V (A ++ B) to (Z.of_nat (length B)) = Ok (A, to ++ B).
Proof. exact xmove_ok. Qed.
Print Assumptions C41_xmove.

Example C41_witness : denotes Z [1;2;3;4;5] (-4) 1 /\
  lua_rotate Z [1;2;3;4;5] (-4) 1 = Ok [1;5;2;3;4] /\ lua_rotate Z [1;2;3;4;5] 2 (-3) = Ok [1;5;2;3;4] /\
  lua_remove Z 0 [1;2;3;4;5] 2 = Ok [1;3;4;5] /\ lua_replace Z 0 [1;2;3;4;5] (-4) = Ok [1;5;3;4].
Proof. split; [unfold denotes, LUAI_MAXSTACK; cbn [length]; lia|]. repeat split; reflexivity. Qed.
