(** Concrete executions: garbage that one cycle frees, and garbage that survives. *)
From Coq Require Import ZArith List Bool Arith Lia.
From Verif Require Import Base Gc_model Gc_spec Gc_facts Gc_core Gc_inv Gc_exec Gc_proofs Gc_free_spec Gc_free_proofs.
Import ListNotations.
Local Open Scope nat_scope.

(** Everything an object or the collector refers to, as a list. *)
Definition vids (l : list val) : list id := flat_map (fun v => match v with VObj o => [o] | _ => [] end) l.
Definition kids (h : list (key * val)) : list id := flat_map (fun e => match fst e with KyObj o => [o] | _ => [] end) h.
Definition opt (m : option id) : list id := match m with Some o => [o] | None => [] end.
Definition succs (st : gst) (a : id) : list id :=
  match heap st a with
  | None => []
  | Some ob => opt (o_meta ob) ++ vids (o_vals ob) ++ kids (o_hash ob) ++ vids (map snd (o_hash ob)) ++ opt (o_cache ob) ++ vids (map (uv_val st) (o_upv ob))
  end.
Definition starts (st : gst) : list id :=
  mainth st :: curth st :: memerr st :: vids [registry st] ++ flat_map opt (mts st) ++ tobefnz st ++ strcache st ++ fixedgc st.
Definition touchedv (st : gst) : list id :=
  flat_map (fun u => match uvs st u with Some (UOpen _ _ true) => vids [uv_val st u] | _ => [] end) (seq 0 (nextuv st)).
Definition subset (l S : list id) : bool := forallb (fun x => existsb (Nat.eqb x) S) l.
Definition isclosed (st : gst) (S : list id) : bool := forallb (fun a => subset (succs st a) S) S.

Lemma in_vids : forall l o, In (VObj o) l -> In o (vids l).
Proof. intros l o I. apply in_flat_map. exists (VObj o). split; [exact I | left; reflexivity]. Qed.
Lemma subset_in : forall l S x, subset l S = true -> In x l -> In x S.
Proof. intros l S x H I. unfold subset in H. rewrite forallb_forall in H. specialize (H x I). apply existsb_exists in H. destruct H as [y [A B]]. apply Nat.eqb_eq in B. subst. exact A. Qed.
Lemma succs_edge : forall st a b, edge st a b -> In b (succs st a).
Proof.
  intros st a b E. unfold succs. destruct E as [ob H Q | ob H Q | ob v H Q | ob k H Q | ob H Q | ob u H Q V | ob u th i t tb H Q V T X]; rewrite H; rewrite !in_app_iff.
  - left. rewrite Q. left. reflexivity.
  - right; left. apply in_vids, Q.
  - do 2 right; left. apply in_flat_map. exists (KyObj b, v). split; [exact Q | left; reflexivity].
  - do 3 right; left. apply in_vids, in_map_iff. exists (k, VObj b). split; [reflexivity | exact Q].
  - do 4 right; left. rewrite Q. left. reflexivity.
  - do 5 right. apply in_vids, in_map_iff. exists u. split; [unfold uv_val; rewrite V; reflexivity | exact Q].
  - do 5 right. apply in_vids, in_map_iff. exists u. split; [unfold uv_val; rewrite V, T; apply nth_error_nth, X | exact Q].
Qed.
Lemma root_starts : forall st o, root st o -> In o (starts st).
Proof.
  intros st o R. unfold starts. destruct R as [R|R|R|R|R|R|R|R]; cbn [In]; rewrite !in_app_iff.
  - left. congruence.
  - right; left. congruence.
  - do 3 right. left. rewrite R. left. reflexivity.
  - do 4 right. left. apply in_flat_map. exists (Some o). split; [exact R | left; reflexivity].
  - tauto.
  - tauto.
  - tauto.
  - do 2 right. left. congruence.
Qed.
Lemma reach_in : forall st S, subset (starts st) S = true -> isclosed st S = true -> forall o, reach st o -> In o S.
Proof.
  intros st S A B o R. induction R as [o R | a b R IH E].
  - exact (subset_in _ _ _ A (root_starts _ _ R)).
  - unfold isclosed in B. rewrite forallb_forall in B. exact (subset_in _ _ _ (B a IH) (succs_edge _ _ _ E)).
Qed.
Lemma held_in : forall st S, exec covered init_state st -> subset (starts st ++ finobj st ++ touchedv st) S = true -> isclosed st S = true -> forall o, held st o -> In o S.
Proof.
  intros st S Ex A B o R. assert (Iv := run_inv st Ex). induction R as [o R | o R | u th i tb o U T X | a b R IH E].
  - apply (subset_in _ _ _ A). apply in_or_app. left. exact (root_starts _ _ R).
  - apply (subset_in _ _ _ A). apply in_or_app. right. apply in_or_app. left. exact R.
  - apply (subset_in _ _ _ A). apply in_or_app. right. apply in_or_app. right. apply in_flat_map. exists u. split.
    + apply in_seq. destruct (le_lt_dec (nextuv st) u) as [L|L]; [|lia]. rewrite (q_fresh _ (proj1 Iv) u L) in U. discriminate.
    + rewrite U. apply in_vids. left. unfold uv_val. rewrite U, T. apply nth_error_nth, X.
  - unfold isclosed in B. rewrite forallb_forall in B. exact (subset_in _ _ _ (B a IH) (succs_edge _ _ _ E)).
Qed.

(** A thread, 3, whose slot holds the table 4 that an open upvalue refers to; both
    are dropped. *)
Definition touched_trace : list event :=
  [MNew KThread [VNil] []; MNew KTable [] []; MSlot 3 0 (VObj 4); MFindUpv 3 0; MSlot 0 0 VNil; MSlot 0 1 VNil].
Lemma touched_run : exec covered init_state (run init_state touched_trace).
Proof.
  apply exec_run. unfold touched_trace. cbn [lawful]. unfold covered, legal.
  split; [repeat split; repeat constructor|]. split; [exact I|].
  split; [repeat split; repeat constructor|]. split; [exact I|].
  split; [split; [stacked | split; [kd | cbn [reach_val]; stacked]]|]. split; [exact I|].
  split; [split; [stacked | split; [kd | intros ob H; vm_compute in H; inversion H; cbn; lia]]|]. split; [exact I|].
  split; [split; [main | split; [kd | exact I]]|]. split; [exact I|].
  split; [split; [main | split; [kd | exact I]]|]. split; [exact I|]. exact I.
Qed.
Lemma touched_survives : exists st o n, exec covered init_state st /\ gcs st = GCSpause /\ ~ reach st o /\ finobj st = [] /\
  (forall k, 0 < k <= n -> gcs (gsteps k st) <> GCSpause) /\ gcs (gsteps (S n) st) = GCSpause /\ heap (gsteps (S n) st) o <> None.
Proof.
  exists (run init_state touched_trace), 4, 12. split; [exact touched_run|]. split; [reflexivity|]. split.
  - intros R. apply (reach_in _ [0; 1; 2]) in R; [|vm_compute; reflexivity|vm_compute; reflexivity]. cbn in R. lia.
  - split; [reflexivity|]. split; [|split; vm_compute; [reflexivity | discriminate]].
    intros k L. do 13 (destruct k as [|k]; [first [lia | vm_compute; discriminate]|]). lia.
Qed.

(** Two tables that refer to each other and a thread, dropped. *)
Definition garbage_trace : list event :=
  [MNew KTable [VNil] []; MNew KTable [VNil] []; MVal 3 0 (VObj 4); MVal 4 0 (VObj 3); MNew KThread [VNil] []; MSlot 5 0 (VObj 3);
   MNew KTable [] []; MSlot 0 0 VNil; MSlot 0 1 VNil; MSlot 0 2 VNil].
Lemma garbage_run : exec covered init_state (run init_state garbage_trace).
Proof.
  apply exec_run. unfold garbage_trace. cbn [lawful]. unfold covered, legal.
  split; [repeat split; repeat constructor|]. split; [exact I|].
  split; [repeat split; repeat constructor|]. split; [exact I|].
  split; [split; [stacked | cbn [reach_val]; stacked]|]. split; [exact I|].
  split; [split; [stacked | cbn [reach_val]; stacked]|]. split; [exact I|].
  split; [repeat split; repeat constructor|]. split; [exact I|].
  split; [split; [stacked | split; [kd | cbn [reach_val]; stacked]]|]. split; [exact I|].
  split; [repeat split; repeat constructor|]. split; [exact I|].
  do 3 (split; [split; [main | split; [kd | exact I]]|]; split; [exact I|]). exact I.
Qed.
