(* C47: bit sets. *)
Require Import ZArith List Bool Lia.
From Verif Require Import Base Bitset_model Bitset_spec Bitset_proofs.
Import ListNotations.
Open Scope Z_scope.

(* any history of any number of sets in which clear, copy and the word-wise operations only replace a set by a superset: every answer is the one for sets of naturals; without the restriction the claim is false, see below *)
Theorem C47_history_partial : forall l, Forall nats l -> all_grow (fun _ => none) l -> exists r, run initial l = Ok r /\ answers (fun _ => none) l r.
Proof. exact history. Qed.
Print Assumptions C47_history_partial.

(* in every reachable state, restricted or not, the queries answer correctly for the contents as seen through bit_p, and clear, copy, and, or ... leave exactly the contents they should, also when the destination is a source *)
Theorem C47_overwrite : forall st o, reachable st -> nats o -> whole_op o || query_op o = true ->
  exists st' a, step st o = Ok (st', a) /\ (forall x n, 0 <= n -> contents st' x n = effect (contents st) o x n) /\ (query_op o = true -> answer (contents st) o a).
Proof. exact whole_any. Qed.
Print Assumptions C47_overwrite.

(* no history reads or writes outside the arrays or loops forever *)
Theorem C47_safe : forall l, Forall nats l -> exists r, run initial l = Ok r /\ length r = length l.
Proof. exact history_safe. Qed.
Print Assumptions C47_safe.

(* clear leaves the words in place: old elements come back, and set_bit reports a cleared bit as already set; raviX_solve_dataflow uses clear and set_bit in this way to collect the blocks of the next round, so it can stop before the solution is reached *)
Theorem C47_clear_refuted : run initial [OSet 0 5; OClear 0; OEmpty 0; OSet 0 5; OSet 0 6; OClear 0; OSet 0 7; OBit 0 6] =
  Ok [ABool true; ANone; ABool true; ABool false; ABool true; ANone; ABool true; ABool true] /\
  ~ answers (fun _ => none) [OSet 0 5; OClear 0; OEmpty 0; OSet 0 5] [ABool true; ANone; ABool true; ABool false].
Proof. exact clear_stale. Qed.
Print Assumptions C47_clear_refuted.

(* copying a shorter set keeps the old upper words, whose elements come back when the set grows *)
Theorem C47_copy_refuted : run initial [OSet 0 100; OSet 1 3; OCopy 0 1; OBit 0 100; OSet 0 70; OBit 0 100] =
  Ok [ABool true; ABool true; ANone; ABool false; ABool true; ABool true].
Proof. exact copy_stale. Qed.
Print Assumptions C47_copy_refuted.

(* a word-wise operation whose sources are shorter than the destination removes elements but reports no change *)
Theorem C47_change_refuted : run initial [OSet 0 100; OAnd 0 1 1; OBit 0 100] = Ok [ABool true; ABool false; ABool false] /\
  ~ answers (fun _ => none) [OSet 0 100; OAnd 0 1 1] [ABool true; ABool false].
Proof. exact op_change. Qed.
Print Assumptions C47_change_refuted.

Example C47_witness :
  let l := [OSet 0 3; OSet 0 3; OSet 0 64; OSet 1 200; ORange 1 60 10 true; OIor 2 0 1; OCount 2; OForeach 0; OClr 2 200; OBit 2 200; OBit 2 69;
            OEqual 0 1; OIntersect 0 1; OIor 2 2 1; OBit 2 200; OCopy 3 0; OEqual 3 0; ORange 2 62 4 false; OForeach 2] in
  Forall nats l /\ all_grow (fun _ => none) l /\
  run initial l = Ok [ABool true; ABool false; ABool true; ABool true; ABool true; ABool true; ANum 12; AList [3; 64]; ABool true; ABool false; ABool true;
            ABool false; ABool true; ABool true; ABool true; ANone; ABool true; ABool true; AList [3; 60; 61; 66; 67; 68; 69; 200]].
Proof.
  cbv zeta. split; [repeat (apply Forall_cons; [cbn; first [exact I | lia]|]); apply Forall_nil|]. split; [|vm_compute; reflexivity].
  unfold all_grow, grows, subset, effect, put_set, none. cbn [Z.eqb Pos.eqb]. repeat split; intros n N H; try discriminate; rewrite ?orb_true_iff, ?andb_true_iff in *; rewrite ?orb_false_r in *; auto.
Qed.
