(* C38: the collector and what the program can reach. *)
Require Import ZArith List Bool Lia.
From Verif Require Import Base Gc_model Gc_spec Gc_proofs.
Import ListNotations.
Open Scope Z_scope.

(* after any interleaving of steps of the collector with allocations, stores, changes of metatables, upvalues and coroutines, whatever the program can reach, even through a weak reference, is still there. Missing: the two stores that no barrier covers, excluded by covered and refuted below; generational mode; emergency collections inside an allocation *)
Theorem C38_reachable_kept_partial : forall st, exec covered init_state st -> forall o, reach st o -> heap st o <> None.
Proof. exact reach_kept. Qed.
Print Assumptions C38_reachable_kept_partial.

(* no step that the program or the collector may take next frees anything reachable after it. Missing: as above *)
Theorem C38_next_partial : forall st e, exec covered init_state st -> legal st e -> covered st e ->
  forall o, reach (step st e) o -> heap (step st e) o <> None.
Proof. exact reach_kept_step. Qed.
Print Assumptions C38_next_partial.

(* an object is in exactly one of the lists allgc, finobj, tobefnz and fixedgc, once, and no freed object is in any: the sweep can neither free twice nor forget an object. Missing: as above *)
Theorem C38_lists_partial : forall st, exec covered init_state st ->
  NoDup (allgc st ++ finobj st ++ tobefnz st ++ fixedgc st) /\
  (forall o, heap st o <> None <-> In o (allgc st ++ finobj st ++ tobefnz st ++ fixedgc st)).
Proof. exact one_list. Qed.
Print Assumptions C38_lists_partial.

(* an upvalue of a closure that has not been freed exists, and when open its thread exists and lists it: it never points into a freed stack. Missing: as above *)
Theorem C38_upvalue_partial : forall st, exec covered init_state st ->
  (forall cl ob u, heap st cl = Some ob -> In u (o_upv ob) -> uvs st u <> None) /\
  (forall u th i t, uvs st u = Some (UOpen th i t) -> exists tb, heap st th = Some tb /\ In u (o_open tb)).
Proof. exact open_upvalue. Qed.
Print Assumptions C38_upvalue_partial.

(* the list twups holds only threads that have not been freed. Missing: as above *)
Theorem C38_twups_partial : forall st, exec covered init_state st -> forall th, In th (twups st) -> heap st th <> None.
Proof. exact twups_kept. Qed.
Print Assumptions C38_twups_partial.

(* a table whose values and keys are weak waits in allweak, gray, when it is visited by propagatemark (lgc.c:515-532); atomic does not visit it again, and luaC_objbarrier of lua_setmetatable does nothing for an object that is not black: the new metatable is freed while the table, on the stack, refers to it *)

(*  *)
Theorem C38_allweak_metatable_refuted : exists st t ob m, exec any init_state st /\ reach st t /\ heap st t = Some ob /\ o_meta ob = Some m /\ heap st m = None.
Proof. exact allweak_meta. Qed.
Print Assumptions C38_allweak_metatable_refuted.

(* LoadConstants, LoadUpvalues, LoadProtos and LoadDebug (lundump.c:111-207) store into the prototype without a barrier; the reader, called in between, may let the collector run: a prototype, on the stack, refers to a freed object *)

(*  *)
Theorem C38_undump_refuted : exists st p ob x, exec any init_state st /\ reach st p /\ heap st p = Some ob /\ In (VObj x) (o_vals ob) /\ heap st x = None.
Proof. exact undump_free. Qed.
Print Assumptions C38_undump_refuted.

(* a garbage cycle of two tables is freed; table 6, stored into the black table 5 and dropped from the stack, is kept *)
Local Open Scope nat_scope.
Example C38_witness : exec covered init_state (run init_state cycle_trace) /\
  map (heap (run init_state cycle_trace)) [3; 4] = [None; None] /\
  reach (run init_state cycle_trace) 5 /\ reach (run init_state cycle_trace) 6 /\
  isblack (run init_state (firstn 12 cycle_trace)) 5 = true /\ iswhite (run init_state (firstn 13 cycle_trace)) 6 = true.
Proof.
  split; [exact cycle_run|]. split; [vm_compute; reflexivity|].
  assert (R : reach (run init_state cycle_trace) 5) by stacked.
  split; [exact R|]. split; [|split; vm_compute; reflexivity].
  eapply reach_edge; [exact R|]. eapply e_val; [vm_compute; reflexivity | vm_compute; tauto].
Qed.
