(* C40: weak tables lose exactly the entries with dead references. *)
Require Import ZArith List Bool Lia.
From Verif Require Import Base Gc_model Gc_spec Gc_proofs Gc_free_spec Gc_free_proofs Gc_free_wit Gc_weak_spec Gc_weak_proofs Gc_keep2 Gc_weak_wit.
Import ListNotations.
Open Scope nat_scope.

(* at every moment of every execution, whatever the collector is doing: no table the program can reach has an entry or a slot for an object that has been freed *)
Theorem C40_no_dangling : forall st t ob, exec covered init_state st -> reach st t -> heap st t = Some ob ->
  (forall x v, In (KyObj x, v) (o_hash ob) -> heap st x <> None) /\ (forall x k, In (k, VObj x) (o_hash ob) -> heap st x <> None) /\
  (forall x, In (VObj x) (o_vals ob) -> heap st x <> None).
Proof. exact no_dangling. Qed.
Print Assumptions C40_no_dangling.

(* an object held by nothing but weak references, or by ephemeron entries whose own key is so held, is freed by the cycle: in an ephemeron table a value that refers to its key keeps neither alive *)
Theorem C40_weak_frees : forall st n x k, exec covered init_state st -> gcs st = GCSpause -> gcs (gsteps (S n) st) = GCSpause ->
  kind_of st x = Some k -> k <> KStr -> ~ maybe_held st x -> heap (gsteps (S n) st) x = None.
Proof. exact weak_frees. Qed.
Print Assumptions C40_weak_frees.

(* and after the cycle no table the program can reach has an entry or a slot for it *)
Theorem C40_weak_cleared : forall st n x k, exec covered init_state st -> gcs st = GCSpause -> gcs (gsteps (S n) st) = GCSpause ->
  kind_of st x = Some k -> k <> KStr -> ~ maybe_held st x ->
  forall t ob, reach (gsteps (S n) st) t -> heap (gsteps (S n) st) t = Some ob ->
  (forall v, ~ In (KyObj x, v) (o_hash ob)) /\ (forall key, ~ In (key, VObj x) (o_hash ob)) /\ ~ In (VObj x) (o_vals ob).
Proof. exact weak_cleared. Qed.
Print Assumptions C40_weak_cleared.

(* throughout the cycle and after it, a table that is held keeps every entry whose key and value last, and every array slot whose value lasts *)
Theorem C40_entries_kept : forall st n t ob, exec covered init_state st -> gcs st = GCSpause ->
  (forall m, m < n -> gcs (gsteps (S m) st) <> GCSpause) ->
  heap st t = Some ob -> o_kind ob = KTable -> surely_held st t ->
  exists ob', heap (gsteps (S n) st) t = Some ob' /\
    (forall k v, In (k, v) (o_hash ob) -> v <> VNil -> lasting st (key_id k) -> lasting st (val_id v) -> In (k, v) (o_hash ob')) /\
    (forall i v, nth_error (o_vals ob) i = Some v -> lasting st (val_id v) -> nth_error (o_vals ob') i = Some v).
Proof. exact entries_kept. Qed.
Print Assumptions C40_entries_kept.

(* the cycle is interrupted between the marking of a weak table and the atomic phase, and the program takes the metatable away: the table stays in allweak (lgc.c:634-636) and the atomic phase clears an entry that is strong by now. The reference manual announces this *)
Theorem C40_mode_change_refuted : exists st t k v ob, exec covered init_state st /\ heap st t = Some ob /\ o_kind ob = KTable /\ o_meta ob = None /\
  surely_held st t /\ In (k, v) (o_hash ob) /\ v <> VNil /\ lasting st (key_id k) /\ lasting st (val_id v) /\
  exists ob', heap (step st (GStep false)) t = Some ob' /\ ~ In (k, v) (o_hash ob').
Proof. exact change_loses. Qed.
Print Assumptions C40_mode_change_refuted.

(* table 4 has weak keys; the key 5 is on the stack and its value 6 is not; the key 7 is referred to by its own value 8 only *)
Local Open Scope nat_scope.
Example C40_witness : let st := run init_state eph_trace in
  exec covered init_state st /\ gcs st = GCSpause /\ option_map o_hash (heap st 4) = Some [(KyObj 7, VObj 8); (KyObj 5, VObj 6)] /\
  (forall m, m < 16 -> gcs (gsteps (S m) st) <> GCSpause) /\ gcs (gsteps 17 st) = GCSpause /\
  ~ maybe_held st 7 /\ ~ maybe_held st 8 /\ edge st 8 7 /\ surely_held st 4 /\ lasting st (key_id (KyObj 5)) /\ lasting st (val_id (VObj 6)) /\
  option_map o_hash (heap (gsteps 17 st) 4) = Some [(KyDead 7, VNil); (KyObj 5, VObj 6)] /\
  map (fun o => match heap (gsteps 17 st) o with None => false | Some _ => true end) [4; 5; 6; 7; 8] = [true; true; true; false; false].
Proof.
  intros st. assert (M : forall x, In (VObj x) [VObj 3; VObj 4; VObj 5] -> surely_held st x).
  { intros x I. eapply (s_val _ _ _ 0); [apply s_root, f_main; reflexivity | vm_compute; reflexivity | cbn in I |- *; tauto | discriminate]. }
  assert (M6 : surely_held st 6).
  { eapply (s_hval _ _ _ 4); [apply M; cbn; tauto | vm_compute; reflexivity | right; left; reflexivity | vm_compute; reflexivity |].
    intros _ x kx Ex _ _. injection Ex as <-. apply M; cbn; tauto. }
  split; [exact eph_run|]. split; [reflexivity|]. split; [vm_compute; reflexivity|].
  split; [intros m L; do 16 (destruct m as [|m]; [vm_compute; discriminate|]); lia|]. split; [vm_compute; reflexivity|].
  split; [intros X; apply eph_hash in X; cbn in X; lia|]. split; [intros X; apply eph_hash in X; cbn in X; lia|].
  split; [eapply e_val; [vm_compute; reflexivity | vm_compute; tauto]|]. split; [apply M; cbn; tauto|]. split; [right; apply M; cbn; tauto|].
  split; [|split; vm_compute; reflexivity].
  right. exact M6.
Qed.
