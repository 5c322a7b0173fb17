(** What keeps an object alive through one collection; independent of how the
    collector works. *)
From Coq Require Import List Bool Arith.
From Verif Require Import Base Gc_model Gc_spec.
Import ListNotations.
Local Open Scope nat_scope.

(** [held st o]: the program can reach [o], or an object waiting for its finaliser
    refers to it, or it is the value of an open upvalue whose touched flag is set
    (lgc.c 435-449 marks those even when the thread is dead). *)
Inductive held (st : gst) : id -> Prop :=
  | h_root : forall o, root st o -> held st o
  | h_fin : forall o, In o (finobj st) -> held st o
  | h_touch : forall u th i tb o, uvs st u = Some (UOpen th i true) -> heap st th = Some tb ->
      nth_error (o_vals tb) i = Some (VObj o) -> held st o
  | h_edge : forall a b, held st a -> edge st a b -> held st b.

(** Executions in which the program cannot name [o], a string found again through
    the table of interned strings included, and no full collection throws away the
    marks of the current cycle (lgc.c 1747-1748). *)
Definition away (o : id) (st : gst) (e : event) : Prop :=
  covered st e /\ e <> MIntern o /\ (e = GAbort -> keepinvariant st = false).

(** The sweep of 'allgc' is over, or no cycle is under way. *)
Definition swept_out (g : gcstate) : Prop := g <> GCSpropagate /\ g <> GCSenteratomic /\ g <> GCSswpallgc.

(** [n] steps of the collector and nothing else. *)
Fixpoint gsteps (n : nat) (st : gst) : gst := match n with O => st | S n => gsteps n (step st (GStep false)) end.
