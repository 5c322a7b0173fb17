(** The collector never frees what the program can reach; where it does. *)
From Coq Require Import ZArith List Bool Arith Lia.
From Verif Require Import Base Gc_model Gc_spec Gc_facts Gc_core Gc_sweep Gc_inv Gc_exec.
Import ListNotations.
Local Open Scope nat_scope.

Theorem reach_kept : forall st, exec covered init_state st -> forall o, reach st o -> heap st o <> None.
Proof. intros st E o R. destruct (run_inv st E) as [C _]. apply (alive_reach st C o R). Qed.

Theorem reach_kept_step : forall st e, exec covered init_state st -> legal st e -> covered st e ->
  forall o, reach (step st e) o -> heap (step st e) o <> None.
Proof. intros st e E L Cv o R. destruct (step_inv st e (run_inv st E) L Cv) as [C _]. apply (alive_reach _ C o R). Qed.

Theorem one_list : forall st, exec covered init_state st ->
  NoDup (allgc st ++ finobj st ++ tobefnz st ++ fixedgc st) /\
  (forall o, heap st o <> None <-> In o (allgc st ++ finobj st ++ tobefnz st ++ fixedgc st)).
Proof. intros st E. destruct (run_inv st E) as [_ [[N H _] _]]. split; [exact N|]. intros o. symmetry. apply H. Qed.

Theorem open_upvalue : forall st, exec covered init_state st ->
  (forall cl ob u, heap st cl = Some ob -> In u (o_upv ob) -> uvs st u <> None) /\
  (forall u th i t, uvs st u = Some (UOpen th i t) -> exists tb, heap st th = Some tb /\ In u (o_open tb)).
Proof. intros st E. destruct (run_inv st E) as [C _]. split; [intros cl ob u H I; apply (q_upv _ C cl ob u H I) | apply (q_uvwf _ C)]. Qed.

Theorem twups_kept : forall st, exec covered init_state st -> forall th, In th (twups st) -> heap st th <> None.
Proof. intros st E th I. destruct (run_inv st E) as [C _]. apply (q_tw _ C th I). Qed.

(** ** Concrete executions *)

Fixpoint run (st : gst) (l : list event) : gst := match l with [] => st | e :: l => run (step st e) l end.
Fixpoint lawful (ok : gst -> event -> Prop) (st : gst) (l : list event) : Prop :=
  match l with [] => True | e :: l => legal st e /\ ok st e /\ lawful ok (step st e) l end.
Lemma exec_run : forall ok l st, lawful ok st l -> exec ok st (run st l).
Proof. induction l as [|e l IH]; intros st H; cbn in *; [constructor|]. destruct H as [H1 [H2 H3]]. apply (exec_cons ok st e _ H1 H2), IH, H3. Qed.

(** An object in a slot of the main thread's stack. *)
Lemma on_stack : forall st o tb, heap st (mainth st) = Some tb -> In (VObj o) (o_vals tb) -> reach st o.
Proof. intros st o tb H I. eapply reach_edge; [apply reach_root, r_main; reflexivity|]. eapply e_val; eassumption. Qed.

Ltac stacked := match goal with |- reach _ _ => eapply on_stack; [vm_compute; reflexivity | vm_compute; tauto] end.
Ltac main := apply reach_root, r_main; reflexivity.
Ltac kd := eexists; split; [vm_compute; reflexivity | cbn; tauto].

(** A table is given a metatable while it waits in 'allweak': t is object 3, its
    first metatable (mode "kv") 4, the new one 5. *)
Definition allweak_trace : list event :=
  [MNew KTable [] []; MNew KTable [] []; MMode 4 (true, true) false; MMeta 3 (Some 4);
   GStep false; GStep false; GStep false; GStep false; GStep false;
   MNew KTable [] []; MMeta 3 (Some 5); MSlot 0 2 VNil; GStep false; GStep false; GStep false].

Theorem allweak_meta : exists st t ob m, exec any init_state st /\ reach st t /\ heap st t = Some ob /\ o_meta ob = Some m /\ heap st m = None.
Proof.
  exists (run init_state allweak_trace), 3. eexists. exists 5. split.
  - apply exec_run. unfold allweak_trace. cbn [lawful]. unfold any, legal.
    split; [repeat split; repeat constructor|]. split; [exact I|].
    split; [repeat split; repeat constructor|]. split; [exact I|].
    split; [split; [stacked | kd]|]. split; [exact I|].
    split; [split; [stacked | split; [kd | split; [stacked | kd]]]|]. split; [exact I|].
    split; [exact I|]. split; [exact I|]. split; [exact I|]. split; [exact I|]. split; [exact I|]. split; [exact I|].
    split; [exact I|]. split; [exact I|]. split; [exact I|]. split; [exact I|].
    split; [repeat split; repeat constructor|]. split; [exact I|].
    split; [split; [stacked | split; [kd | split; [stacked | kd]]]|]. split; [exact I|].
    split; [split; [main | split; [kd | exact I]]|]. split; [exact I|].
    repeat (split; [exact I|]). exact I.
  - split; [stacked|]. split; [vm_compute; reflexivity|]. split; reflexivity.
Qed.

(** A value is loaded into a prototype that has been traversed: prototype 3 holds
    the table 4. *)
Definition undump_trace : list event :=
  [MNew KProto [] []; GStep false; GStep false; GStep false; GStep false; MNew KTable [] [];
   MUndump 3 (VObj 4); MSlot 0 1 VNil; GStep false; GStep false; GStep false; GStep false].

Theorem undump_free : exists st p ob x, exec any init_state st /\ reach st p /\ heap st p = Some ob /\ In (VObj x) (o_vals ob) /\ heap st x = None.
Proof.
  exists (run init_state undump_trace), 3. eexists. exists 4. split.
  - apply exec_run. unfold undump_trace. cbn [lawful]. unfold any, legal.
    split; [repeat split; repeat constructor|]. split; [exact I|].
    split; [exact I|]. split; [exact I|]. split; [exact I|]. split; [exact I|]. split; [exact I|]. split; [exact I|].
    split; [exact I|]. split; [exact I|].
    split; [repeat split; repeat constructor|]. split; [exact I|].
    split; [split; [stacked | split; [kd | cbn [reach_val]; stacked]]|]. split; [exact I|].
    split; [split; [main | split; [kd | exact I]]|]. split; [exact I|].
    repeat (split; [exact I|]). exact I.
  - split; [stacked|]. split; [vm_compute; reflexivity|]. split; [vm_compute; tauto | reflexivity].
Qed.

(** A lawful execution in which a cycle of two tables becomes garbage and is
    freed, while a table that hangs off a black table survives because of the
    barrier. *)
Definition cycle_trace : list event :=
  [MNew KTable [VNil; VNil] []; MNew KTable [VNil] []; MVal 3 0 (VObj 4); MVal 4 0 (VObj 3); MNew KTable [VNil] [];
   MSlot 0 0 VNil; MSlot 0 1 VNil;
   GStep false; GStep false; GStep false; GStep false; GStep false;
   MNew KTable [] []; MVal 5 0 (VObj 6); MSlot 0 3 VNil;
   GStep false; GStep false; GStep false; GStep false; GStep false; GStep false].

Theorem cycle_run : exec covered init_state (run init_state cycle_trace).
Proof.
  apply exec_run. unfold cycle_trace. cbn [lawful]. unfold covered, legal.
  split; [repeat split; repeat constructor|]. split; [exact I|].
  split; [repeat split; repeat constructor|]. split; [exact I|].
  split; [split; [stacked | cbn [reach_val]; stacked]|]. split; [exact I|].
  split; [split; [stacked | cbn [reach_val]; stacked]|]. split; [exact I|].
  split; [repeat split; repeat constructor|]. split; [exact I|].
  split; [split; [main | split; [kd | exact I]]|]. split; [exact I|].
  split; [split; [main | split; [kd | exact I]]|]. split; [exact I|].
  do 10 (split; [exact I|]).
  split; [repeat split; repeat constructor|]. split; [exact I|].
  split; [split; [stacked | cbn [reach_val]; stacked]|]. split; [exact I|].
  split; [split; [main | split; [kd | exact I]]|]. split; [exact I|].
  repeat (split; [exact I|]). exact I.
Qed.
