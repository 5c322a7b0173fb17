(* C39: garbage is reclaimed. *)
Require Import ZArith List Bool Lia.
From Verif Require Import Base Gc_model Gc_spec Gc_proofs Gc_free_spec Gc_free_proofs Gc_free_wit.
Import ListNotations.
Open Scope nat_scope.

(* whatever the program and the collector do in between, an object that nothing holds when a cycle starts is gone when the sweep of allgc is over, and stays away. Missing for the full claim: objects held only by a touched upvalue of a dead thread (C39_touched_refuted); objects waiting for a finaliser, which must survive *)
Theorem C39_cycle_frees_partial : forall st0 em st1 ok st2 o,
  exec covered init_state st0 -> gcs st0 = GCSpause -> heap st0 o <> None -> ~ held st0 o ->
  exec (away o) (step st0 (GStep em)) st1 -> swept_out (gcs st1) ->
  exec ok st1 st2 -> heap st2 o = None.
Proof. exact cycle_frees. Qed.
Print Assumptions C39_cycle_frees_partial.

(* when only the collector runs, it comes to the end of its cycle after finitely many steps; C39_full_cycle_partial says what it has freed then *)
Theorem C39_cycle_ends_partial : forall st, exec covered init_state st -> gcs st = GCSpause ->
  exists n, gcs (gsteps (S n) st) = GCSpause /\ forall k, 0 < k <= n -> gcs (gsteps k st) <> GCSpause.
Proof. exact cycle_ends. Qed.
Print Assumptions C39_cycle_ends_partial.

(* running the collector from one pause to the next frees every object that nothing held. Missing: as above *)
Theorem C39_full_cycle_partial : forall st n, exec covered init_state st -> gcs st = GCSpause -> gcs (gsteps (S n) st) = GCSpause ->
  forall o, ~ held st o -> heap (gsteps (S n) st) o = None.
Proof. exact full_cycle. Qed.
Print Assumptions C39_full_cycle_partial.

(* a coroutine with a local variable captured by a closure is dropped together with the closure: remarkupvals (lgc.c:453-476) marks the value of an open upvalue whose touched flag is set although its thread is dead; luaF_findupval (lfunc.c:64-97) sets the flag. The value, which nothing can reach, survives a complete cycle *)
Theorem C39_touched_refuted : exists st o n, exec covered init_state st /\ gcs st = GCSpause /\ ~ reach st o /\ finobj st = [] /\
  (forall k, 0 < k <= n -> gcs (gsteps k st) <> GCSpause) /\ gcs (gsteps (S n) st) = GCSpause /\ heap (gsteps (S n) st) o <> None.
Proof. exact touched_survives. Qed.
Print Assumptions C39_touched_refuted.

(* tables 3 and 4 refer to each other and thread 5 to table 3; nothing holds them. Table 6 is on the stack *)
Local Open Scope nat_scope.
Example C39_witness : let st := run init_state garbage_trace in
  exec covered init_state st /\ gcs st = GCSpause /\ map (fun o => match heap st o with None => false | Some _ => true end) [3; 4; 5; 6] = [true; true; true; true] /\
  ~ held st 3 /\ ~ held st 4 /\ ~ held st 5 /\ edge st 3 4 /\ edge st 4 3 /\ edge st 5 3 /\ reach st 6 /\
  map (fun o => match heap (gsteps 14 st) o with None => false | Some _ => true end) [3; 4; 5; 6] = [false; false; false; true] /\ gcs (gsteps 14 st) = GCSpause.
Proof.
  intros st. assert (H : forall o, held st o -> In o [0; 1; 2; 6]) by (apply held_in; [exact garbage_run | vm_compute; reflexivity | vm_compute; reflexivity]).
  split; [exact garbage_run|]. split; [reflexivity|]. split; [vm_compute; reflexivity|].
  split; [intros X; apply H in X; cbn in X; lia|]. split; [intros X; apply H in X; cbn in X; lia|]. split; [intros X; apply H in X; cbn in X; lia|].
  split; [eapply e_val; [vm_compute; reflexivity | vm_compute; tauto]|]. split; [eapply e_val; [vm_compute; reflexivity | vm_compute; tauto]|].
  split; [eapply e_val; [vm_compute; reflexivity | vm_compute; tauto]|]. split; [unfold st; stacked|]. split; vm_compute; reflexivity.
Qed.
