(** Concrete executions with weak tables. *)
From Coq Require Import ZArith List Bool Arith Lia.
From Verif Require Import Base Gc_model Gc_spec Gc_facts Gc_core Gc_inv Gc_exec Gc_proofs Gc_free_spec Gc_free_proofs Gc_free_wit Gc_weak_spec Gc_weak_proofs Gc_keep2.
Import ListNotations.
Local Open Scope nat_scope.

(** What an object holds, given that exactly the objects of [S] are held. *)
Definition inl (S : list id) (x : id) : bool := existsb (Nat.eqb x) S.
Definition entry_holds (st : gst) (S : list id) (wk wv : bool) (e : key * val) : list id :=
  (if wk || isnil (snd e) then [] else match fst e with KyObj o => [o] | _ => [] end) ++
  (if wv then [] else
   if wk && match fst e with KyObj x => match kind_of st x with Some KStr | None => false | Some _ => negb (inl S x) end | _ => false end then []
   else vids [snd e]).
Definition holds (st : gst) (S : list id) (a : id) : list id :=
  match heap st a with
  | None => []
  | Some ob => opt (o_meta ob)
      ++ (match o_kind ob with KTable => if weakvals st ob then [] else vids (o_vals ob) | _ => vids (o_vals ob) end)
      ++ flat_map (entry_holds st S (weakkeys st ob) (weakvals st ob)) (o_hash ob) ++ vids (map (uv_val st) (o_upv ob))
  end.
Definition wclosed (st : gst) (S : list id) : bool := forallb (fun a => subset (holds st S a) S) S.
Lemma inl_in : forall S x, inl S x = true <-> In x S.
Proof. intros S x. unfold inl. rewrite existsb_exists. split; [intros [y [A B]]; apply Nat.eqb_eq in B; subst; exact A | intros I; exists x; split; [exact I | apply Nat.eqb_refl]]. Qed.
Lemma maybe_in : forall st S, exec covered init_state st -> subset (starts st ++ finobj st ++ touchedv st) S = true -> wclosed st S = true ->
  forall o, maybe_held st o -> In o S.
Proof.
  intros st S Ex A B o H. assert (Iv := run_inv st Ex). unfold wclosed in B. rewrite forallb_forall in B.
  assert (Cl : forall a ob x, In a S -> heap st a = Some ob -> In x (holds st S a) -> In x S) by (intros a ob x I _ J; exact (subset_in _ _ _ (B a I) J)).
  induction H as [o R | a ob b H IH E M | a ob b H IH E I W | a ob b v H IH E I N W | a ob k b H IH E I W P Q | a ob u b H IH E I U | a ob u th i t tb b H IH E I U T X].
  - apply (subset_in _ _ _ A). destruct R as [R | R | u th i tb U T X].
    + apply in_or_app. left. exact (root_starts _ _ R).
    + apply in_or_app. right. apply in_or_app. left. exact R.
    + apply in_or_app. right. apply in_or_app. right. apply in_flat_map. exists u. split.
      * apply in_seq. destruct (le_lt_dec (nextuv st) u) as [L|L]; [|lia]. rewrite (q_fresh _ (proj1 Iv) u L) in U. discriminate.
      * rewrite U. apply in_vids. left. unfold uv_val. rewrite U, T. apply nth_error_nth, X.
  - apply (Cl a ob b IH E). unfold holds. rewrite E, !in_app_iff. left. rewrite M. left. reflexivity.
  - apply (Cl a ob b IH E). unfold holds. rewrite E, !in_app_iff. right; left. destruct (o_kind ob); try (apply in_vids, I). rewrite (W eq_refl). apply in_vids, I.
  - apply (Cl a ob b IH E). unfold holds. rewrite E, !in_app_iff. do 2 right; left. apply in_flat_map. exists (KyObj b, v). split; [exact I|].
    unfold entry_holds. cbn [fst snd]. rewrite W. destruct v; [congruence | left; reflexivity | left; reflexivity].
  - apply (Cl a ob b IH E). unfold holds. rewrite E, !in_app_iff. do 2 right; left. apply in_flat_map. exists (k, VObj b). split; [exact I|].
    unfold entry_holds. cbn [fst snd]. apply in_or_app. right. rewrite W. destruct (weakkeys st ob) eqn:Wk; [|left; reflexivity].
    cbn [andb]. destruct k as [z|x|x]; try (left; reflexivity). destruct (kind_of st x) as [kx|] eqn:Kx; [|left; reflexivity].
    destruct kx; try (left; reflexivity); rewrite (proj2 (inl_in S x) (Q eq_refl x _ eq_refl Kx ltac:(discriminate))); left; reflexivity.
  - apply (Cl a ob b IH E). unfold holds. rewrite E, !in_app_iff. do 3 right. apply in_vids, in_map_iff. exists u. split; [unfold uv_val; rewrite U; reflexivity | exact I].
  - apply (Cl a ob b IH E). unfold holds. rewrite E, !in_app_iff. do 3 right. apply in_vids, in_map_iff. exists u. split; [unfold uv_val; rewrite U, T; apply nth_error_nth, X | exact I].
Qed.

(** Table 4 has weak keys.  Its entry 5 -> 6 has a key on the stack; its entry 7 -> 8
    has a key that only the value refers to. *)
Definition eph_trace : list event :=
  [MNew KTable [] []; MMode 3 (true, false) false; MNew KTable [] []; MMeta 4 (Some 3); MNew KTable [] []; MNew KTable [] [];
   MNew KTable [] []; MNew KTable [VNil] []; MVal 8 0 (VObj 7); MHash 4 (KyObj 5) (VObj 6); MHash 4 (KyObj 7) (VObj 8);
   MSlot 0 3 VNil; MSlot 0 4 VNil; MSlot 0 5 VNil].
Lemma eph_run : exec covered init_state (run init_state eph_trace).
Proof.
  apply exec_run. unfold eph_trace. cbn [lawful]. unfold covered, legal.
  split; [repeat split; repeat constructor|]. split; [exact I|].
  split; [split; [stacked | kd]|]. split; [exact I|].
  split; [repeat split; repeat constructor|]. split; [exact I|].
  split; [split; [stacked | split; [kd | split; [stacked | kd]]]|]. split; [intros X; vm_compute in X; discriminate|].
  do 4 (split; [repeat split; repeat constructor|]; split; [exact I|]).
  split; [split; [stacked | cbn [reach_val]; stacked]|]. split; [exact I|].
  do 2 (split; [split; [stacked | split; [kd | split; [cbn [reach_key]; stacked | cbn [reach_val]; stacked]]]|]; split; [exact I|]).
  do 3 (split; [split; [main | split; [kd | exact I]]|]; split; [exact I|]). exact I.
Qed.
Lemma eph_hash : forall o, maybe_held (run init_state eph_trace) o -> In o [0; 1; 2; 3; 4; 5; 6].
Proof. apply maybe_in; [exact eph_run | vm_compute; reflexivity | vm_compute; reflexivity]. Qed.

(** Table 3 is weak (mode 4) while the collector passes it and strong afterwards. *)
Definition change_trace : list event :=
  [MNew KTable [] []; MNew KTable [] []; MMode 4 (true, true) false; MMeta 3 (Some 4); MNew KTable [] []; MHash 3 (KyPrim 1) (VObj 5); MSlot 0 2 VNil;
   GStep false; GStep false; GStep false; GStep false; GStep false; GStep false; MMeta 3 None].
Lemma change_run : exec covered init_state (run init_state change_trace).
Proof.
  apply exec_run. unfold change_trace. cbn [lawful]. unfold covered, legal.
  do 2 (split; [repeat split; repeat constructor|]; split; [exact I|]).
  split; [split; [stacked | kd]|]. split; [exact I|].
  split; [split; [stacked | split; [kd | split; [stacked | kd]]]|]. split; [intros X; vm_compute in X; discriminate|].
  split; [repeat split; repeat constructor|]. split; [exact I|].
  split; [split; [stacked | split; [kd | split; [exact I | cbn [reach_val]; stacked]]]|]. split; [exact I|].
  split; [split; [main | split; [kd | exact I]]|]. split; [exact I|].
  do 6 (split; [exact I|]; split; [exact I|]).
  split; [split; [stacked | split; [kd | exact I]]|]. split; [exact I|]. exact I.
Qed.
Lemma change_loses : exists st t k v ob, exec covered init_state st /\ heap st t = Some ob /\ o_kind ob = KTable /\ o_meta ob = None /\
  surely_held st t /\ In (k, v) (o_hash ob) /\ v <> VNil /\ lasting st (key_id k) /\ lasting st (val_id v) /\
  exists ob', heap (step st (GStep false)) t = Some ob' /\ ~ In (k, v) (o_hash ob').
Proof.
  assert (H3 : surely_held (run init_state change_trace) 3).
  { eapply (s_val _ _ _ 0); [apply s_root, f_main; reflexivity | vm_compute; reflexivity | left; reflexivity | discriminate]. }
  assert (H5 : surely_held (run init_state change_trace) 5).
  { eapply (s_hval live (firm (run init_state change_trace)) (run init_state change_trace) 3).
    exact H3.
    vm_compute; reflexivity.
    left; reflexivity.
    vm_compute; reflexivity.
    intros _ x kx E. discriminate E. }
  exists (run init_state change_trace), 3, (KyPrim 1), (VObj 5). eexists. split; [exact change_run|]. split; [vm_compute; reflexivity|].
  split; [reflexivity|]. split; [reflexivity|]. split; [exact H3|]. split; [left; reflexivity|]. split; [discriminate|]. split; [exact Logic.I|]. split.
  - right. exact H5.
  - eexists. split; [vm_compute; reflexivity|]. cbn. intros [X|[]]. discriminate.
Qed.
