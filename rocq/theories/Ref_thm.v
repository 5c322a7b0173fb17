(* Property C42: registry references. *)
Require Import ZArith List Bool Lia.
From Verif Require Import Base Base_facts Ref_model Ref_proofs.
Import ListNotations.
Open Scope Z_scope.

(* After every history of luaL_ref, luaL_unref and foreign assignments, a new reference
   differs from all those held, maps to its value, and no other key of the table (except
   the list header 0) is changed.  The number of references stays below 2^31. *)
Theorem C42_fresh : forall V t live used v n, history V t live used -> v <> VNil -> is_border V t n -> n + 1 < two31 ->
  exists t' r, luaL_ref V n t v = (t', r) /\ 0 < r /\ ~ In r (map fst live) /\ t' r = v /\
   forall k, k <> r -> k <> 0 -> t' k = t k.
Proof. exact ref_fresh. Qed.
Print Assumptions C42_fresh.

Theorem C42_lookup : forall V t live used, history V t live used ->
  NoDup (map fst live) /\ forall r v, In (r, v) live -> t r = v.
Proof. exact ref_lookup. Qed.
Print Assumptions C42_lookup.

Theorem C42_unref_others : forall V t r k, k <> r -> k <> 0 -> luaL_unref V t r k = t k.
Proof. exact unref_others. Qed.
Print Assumptions C42_unref_others.

Theorem C42_reuse : forall V t l1 r v l2 used w n, history V t (l1 ++ (r, v) :: l2) used -> w <> VNil ->
  is_border V (luaL_unref V t r) n -> n + 1 < two31 -> snd (luaL_ref V n (luaL_unref V t r) w) = r.
Proof. exact ref_reuse. Qed.
Print Assumptions C42_reuse.

(* a registry with two foreign entries, three references, two of them released *)
Example C42_witness : let t0 := tset Z (tset Z (fun _ => VNil) 1 (VOther 1)) 2 (VOther 2) in
  exists t used, history Z t [(4, VOther 20)] used /\ is_border Z t0 2 /\
    map t [0; 1; 2; 3; 4; 5] = [VInt 3; VOther 1; VOther 2; VInt 5; VOther 20; VNil].
Proof.
  intros t0.
  pose proof (h_init Z (fun _ => VNil) eq_refl) as H.
  pose proof (h_foreign _ _ _ _ 1 (VOther 1) H ltac:(lia) ltac:(easy)) as H1.
  pose proof (h_foreign _ _ _ _ 2 (VOther 2) H1 ltac:(lia) ltac:(easy)) as H2.
  pose proof (h_ref _ _ _ _ (VOther 10) 2 _ 3 H2 ltac:(easy) ltac:(split; [lia|split; [right; easy|reflexivity]]) ltac:(reflexivity) eq_refl) as H3.
  pose proof (h_ref _ _ _ _ (VOther 20) 3 _ 4 H3 ltac:(easy) ltac:(split; [lia|split; [right; easy|reflexivity]]) ltac:(reflexivity) eq_refl) as H4.
  pose proof (h_ref _ _ _ _ (VOther 30) 4 _ 5 H4 ltac:(easy) ltac:(split; [lia|split; [right; easy|reflexivity]]) ltac:(reflexivity) eq_refl) as H5.
  pose proof (h_unref _ _ [] 5 (VOther 30) _ _ H5) as H6.
  pose proof (h_unref _ _ [(4, VOther 20)] 3 (VOther 10) [] _ H6) as H7.
  eexists _, _. split; [exact H7|]. split; [split; [lia|split; [right; easy|reflexivity]]|reflexivity].
Qed.
