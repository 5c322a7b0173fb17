(* C46: metamethod chains. *)
Require Import ZArith List Bool Lia.
From Verif Require Import Base Base_facts Meta_model Meta_spec Meta_proofs.
Import ListNotations.
Open Scope Z_scope.

(* in every heap that programs can build, an access, an assignment, a raw store, a change of metatable or a test for a cached event gives what the manual says, as if there were no cache: the first table with the key or the first function, nil or an error at the end of the chain, an error when more than 2000 metamethods would be looked up. Missing: chains that lead to an array, see below *)
Theorem C46_refines_partial : forall h o, runs h -> wellformed o -> ~ meets_array (abs h) o -> exists h' r, step h o = Ok (h', r) /\ astep (abs h) o (abs h') r.
Proof. exact refines. Qed.
Print Assumptions C46_refines_partial.

(* what the manual says is unique *)
Theorem C46_unique : forall A o B r B' r', astep A o B r -> astep A o B' r' -> same B B' /\ r = r'.
Proof. exact unique. Qed.
Print Assumptions C46_unique.

(* a metamethod is reported absent exactly when the metatable has no value for it *)
Theorem C46_cache : forall h r e, runs h -> 0 <= e <= 5 -> snd (fasttm h (t_meta (h_tab h r)) e) = match event (abs h) (VTab r) e with VNil => None | v => Some v end.
Proof. exact cache. Qed.
Print Assumptions C46_cache.

(* luaV_fastget asks ttistable, which is true of integer[] and number[] arrays, and then takes the array for a Table: setmetatable({}, {__index = table.intarray(3)})[1], lua_getfield of an array, a:m() with a long name *)

(*  *)
Theorem C46_array_refuted : ~ (forall h o, runs h -> wellformed o -> exists h' r, step h o = Ok (h', r)).
Proof. exact array_refuted. Qed.
Print Assumptions C46_array_refuted.

(* exactly when this happens *)
Theorem C46_array_partial : forall h o, runs h -> wellformed o -> meets_array (abs h) o -> step h o = UB.
Proof. exact array_ub. Qed.
Print Assumptions C46_array_partial.

(* tables 1..4; 2 inherits from 1 through metatable 10, 3 from 2 through 11; 4 has an __index of its own: a loop *)
Definition setup : list op :=
  [ONew 1; ONew 2; ONew 3; ONew 4; ONew 10; ONew 11; ONew 12;
   OSet (VTab 1) (K 50) (VOther 1 7); OSetMeta (VTab 2) (Some 10%nat); OGet (VTab 2) (K 50);   (* no __index yet: nil, and cached *)
   OSet (VTab 10) (K 0) (VTab 1); OGet (VTab 2) (K 50);                                         (* the cache was dropped *)
   OSetMeta (VTab 3) (Some 11%nat); OSet (VTab 11) (K 0) (VTab 2); OGet (VTab 3) (K 50); OGet (VTab 3) (K 51);
   OSetMeta (VTab 4) (Some 12%nat); ORawSet 12 (K 0) (VTab 4); OGet (VTab 4) (K 50); OGet (VTab 4) KNil;
   OSet (VTab 11) (K 1) (VFun 9); OSet (VTab 3) (K 60) (VOther 1 1); OSet (VTab 11) (K 1) (VTab 2); OSet (VTab 3) (K 60) (VOther 1 2); OGet (VTab 2) (K 60);
   OSet (VTab 3) KNaN (VOther 1 2); OGet (VUser 5) (K 50); OSetMeta (VUser 5) (Some 11%nat); OGetField (VUser 5) (K 50); OGet (VOther 3 0) (K 1); OGet (VArr 7) (K 50)].
Example C46_witness : exists h, steps empty setup = Ok (h,
  [RVal (VTab 1); RVal (VTab 2); RVal (VTab 3); RVal (VTab 4); RVal (VTab 10); RVal (VTab 11); RVal (VTab 12); RDone; RDone; RVal VNil; RDone; RVal (VOther 1 7); RDone; RDone; RVal (VOther 1 7); RVal VNil;
   RDone; RDone; RErr ELoop; RErr ELoop; RDone; RCall 9 [VTab 3; VOther 1 1] (K 60); RDone; RDone; RVal (VOther 1 2); RErr EIndexNaN; RErr EType; RDone; RVal (VOther 1 7); RErr EType; RArr 7 (K 50)]) /\ runs h.
Proof. assert (E : exists h, steps empty setup = Ok (h, [RVal (VTab 1); RVal (VTab 2); RVal (VTab 3); RVal (VTab 4); RVal (VTab 10); RVal (VTab 11); RVal (VTab 12); RDone; RDone; RVal VNil; RDone; RVal (VOther 1 7); RDone; RDone; RVal (VOther 1 7); RVal VNil;
   RDone; RDone; RErr ELoop; RErr ELoop; RDone; RCall 9 [VTab 3; VOther 1 1] (K 60); RDone; RDone; RVal (VOther 1 2); RErr EIndexNaN; RErr EType; RDone; RVal (VOther 1 7); RErr EType; RArr 7 (K 50)])) by (eexists; vm_compute; reflexivity).
  destruct E as (h & E). exists h. split; [exact E|]. eapply steps_runs; [exact R_empty| |exact E]; repeat constructor.
Qed.
