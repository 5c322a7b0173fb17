(* C48: hash tables and hash sets. *)
Require Import ZArith List Bool Lia.
From Verif Require Import Base Base_facts Hset_model Hset_spec Hset_proofs.
Import ListNotations.
Open Scope Z_scope.

(* every history of insertions, removals, searches, listings and counts with at most 2^30 insertions, for every key equality and every hash function compatible with it, gives the answers of a finite map; no insertion is refused and every probe ends. For sets take D := unit. Left open: tables of more than 2^30 entries, whose last table size (2362232233) lets the uint32_t sum hash_address + double_hash wrap *)
Theorem C48_history_partial : forall (K D : Type) (key_equals : K -> K -> bool) (hash_function : K -> Z) (l : list (hop K D)),
  keys_ok K key_equals hash_function ->
  Z.of_nat (length (filter (fun o => match o with HInsert _ _ _ _ => true | _ => false end) l)) <= 2 ^ 30 ->
  exists r, hrun K D key_equals hash_function (create K D) l = Ok r /\ manswers K D key_equals (mempty K D) l r.
Proof. exact hset_history. Qed.
Print Assumptions C48_history_partial.

(* equal keys: equal remainders by 100; every key hashes to 0 or 1, so probes collide; the table grows
   four times and is cleaned of deleted entries *)
Example C48_witness :
  let eq := fun a b => (a mod 100 =? b mod 100) in let h := fun a => a mod 100 mod 2 in
  let ins := map (fun i => HInsert Z Z (Z.of_nat i) (Z.of_nat i * 10)) (seq 0 10) in
  let rem := map (fun i => HRemove Z Z (Z.of_nat i)) (seq 0 8) in
  let l := ins ++ rem ++ ins ++ rem ++ [HInsert Z Z 108 5; HSearch Z Z 8; HSearch Z Z 3; HInsert Z Z 3 1; HRemove Z Z 9; HCount Z Z; HList Z Z] in
  keys_ok Z eq h /\
  (exists r, hrun Z Z eq h (create Z Z) l = Ok r /\
     skipn 37 r = [HFound Z Z (Some (108, 5)); HFound Z Z None; HNone Z Z; HNone Z Z; HNum Z Z 2; HEntries Z Z [(3, 1); (108, 5)]]).
Proof.
  cbv zeta. split.
  - unfold keys_ok. repeat split; intros; rewrite ?Z.eqb_eq in *; try congruence. all: pose proof (Z.mod_pos_bound (x mod 100) 2 ltac:(lia)); unfold is_u32; unfold_consts; lia.
  - eexists. split; [vm_compute; reflexivity|reflexivity].
Qed.
