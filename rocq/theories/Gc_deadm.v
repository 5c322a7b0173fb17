(** Stores made by the program never bring back an object it cannot reach. *)
From Coq Require Import ZArith List Bool Arith Lia.
From Verif Require Import Base Gc_model Gc_spec Gc_facts Gc_tri Gc_core Gc_sweep Gc_dead.
Import ListNotations.
Local Open Scope nat_scope.

Section deadm.
Variable D : id -> Prop.
Notation Q := (Gc_dead.Q D true).
Notation okv := (Gc_dead.okv D).
Notation same := (Gc_dead.same D).
Notation KQ := (Gc_dead.KQ D true).
Notation fullc := (Gc_dead.fullc D).

(** The position of the sweep. *)
Definition fr (st st' : gst) : Prop :=
  gcs st' = gcs st /\ cw st' = cw st /\ allgc st' = allgc st /\ sweepgc st' = sweepgc st /\ nextid st' = nextid st.
Lemma fr_refl : forall st, fr st st. Proof. intros. repeat split. Qed.
Lemma fr_trans : forall a b c, fr a b -> fr b c -> fr a c.
Proof. intros a b c (A1&A2&A3&A4&A5) (B1&B2&B3&B4&B5). repeat split; congruence. Qed.
Lemma fr_modify : forall st o f, fr st (modify st o f).
Proof. intros. rewrite modify_rest. repeat split. Qed.
Lemma fr_link_gray : forall st o, fr st (link_gray st o).
Proof. intros. eapply fr_trans; [|apply fr_modify]. repeat split. Qed.
Lemma fr_link_grayagain : forall st o, fr st (link_grayagain st o).
Proof. intros. eapply fr_trans; [|apply fr_modify]. repeat split. Qed.
Lemma fr_mark_obj : forall n st o, fr st (mark_obj n st o).
Proof.
  induction n as [|n IH]; intros st o; cbn [mark_obj]; [apply fr_refl|]. destruct (heap st o) as [ob|]; [|apply fr_refl].
  assert (P : fr st (set2black (mark_meta st (o_meta ob)) o)).
  { eapply fr_trans; [|apply fr_modify]. destruct (o_meta ob) as [m|]; cbn; [destruct (iswhite st m); [apply fr_link_gray|]|]; apply fr_refl. }
  assert (U : fr st (let st1 := set2black (mark_meta st (o_meta ob)) o in
          match o_vals ob with VObj u :: _ => if iswhite st1 u then mark_obj n st1 u else st1 | _ => st1 end)).
  { cbn. destruct (o_vals ob) as [|[| |u] l]; try exact P. destruct (iswhite _ u); [|exact P]. eapply fr_trans; [exact P | apply IH]. }
  destruct (o_kind ob); try apply fr_link_gray; [apply fr_modify | exact U | exact U].
Qed.

(** ** Nothing the program can reach is in the set *)
Lemma edge_ok : forall st a b, Q st -> ~ D a -> edge st a b -> ~ D b.
Proof.
  intros st a b H N E. inversion E as [ob Ha X|ob Ha X|ob v Ha X|ob k Ha X|ob Ha X|ob u Ha X Y|ob u th i t tb Ha X Y Hb Z]; clear E;
    destruct (d_obj _ _ _ H _ _ Ha N) as [Mt F]; cbn in F; unfold Gc_dead.fullc, oref in F.
  - exact (Mt b X).
  - apply F. tauto.
  - apply F. right. right. left. exists v. exact X.
  - apply F. right. right. right. left. exists k. exact X.
  - apply F. tauto.
  - apply (d_upv _ _ _ H _ _ u Ha N (or_introl X)). unfold uv_val. rewrite Y. reflexivity.
  - apply (d_upv _ _ _ H _ _ u Ha N (or_introl X)). unfold uv_val. rewrite Y, Hb. apply nth_error_nth with (1 := Z).
Qed.
Lemma reach_ok : forall st x, Q st -> reach st x -> ~ D x.
Proof. intros st x H R. induction R as [o R|a b R IH E]; [exact (d_root _ _ _ H _ R) | exact (edge_ok _ _ _ H IH E)]. Qed.
Lemma reach_val_ok : forall st v, Q st -> reach_val st v -> okv v.
Proof. intros st v H R b ->. exact (reach_ok _ _ H R). Qed.
Lemma reach_upv_ok : forall st u, Q st -> reach_upv st u -> okv (uv_val st u).
Proof.
  intros st u H [_ [[cl [ob [R [Ho I]]]]|[th [ob [R [Ho I]]]]]]; apply (d_upv _ _ _ H _ _ u Ho (reach_ok _ _ H R)); tauto.
Qed.

(** ** Building the invariant *)
Lemma full_ephm : forall st ob, fullc ob -> Gc_dead.okvals D ob /\ forall k v, In (k, v) (o_hash ob) -> v <> VNil -> Gc_dead.strk D st k /\ (Gc_dead.okk D k -> okv v).
Proof.
  intros st ob F. unfold Gc_dead.fullc, oref in F. split; [intros b I; apply F; tauto|]. intros k v I N. split.
  - intros s -> _. apply F. right. right. left. exists v. exact I.
  - intros _ b ->. apply F. right. right. right. left. exists k. exact I.
Qed.
Lemma Q_intro : forall st,
  (forall o ob, heap st o = Some ob -> ~ D o -> fullc ob) ->
  (forall o ob u, heap st o = Some ob -> ~ D o -> In u (o_upv ob) \/ In u (o_open ob) -> okv (uv_val st u)) ->
  (forall u th i, uvs st u = Some (UOpen th i true) -> okv (uv_val st u)) ->
  (forall o, root st o -> ~ D o) -> (forall o, In o (finobj st) -> ~ D o) -> (forall o, In o (glists [] st) -> ~ D o) -> Q st.
Proof.
  intros st A B C E F G. constructor; try assumption.
  { intros o ob Ho N. split; [|exact (A _ _ Ho N)]. intros m X. apply (A _ _ Ho N). left. exact X. }
  intros o I ob Ho. apply full_ephm, (A _ _ Ho). apply G. rewrite glists_app, !in_app_iff. tauto.
Qed.

Definition KM (st st' : gst) : Prop := Q st' /\ same st st' /\ fr st st'.
Lemma KM_refl : forall st, Q st -> KM st st.
Proof. intros st H. split; [exact H|]. split; [intros x _; reflexivity | apply fr_refl]. Qed.
Lemma KM_trans : forall a b c, KM a b -> KM b c -> KM a c.
Proof. intros a b c [_ [A A2]] [B [C C2]]. split; [exact B|]. split; [intros x Dx; rewrite (C x Dx); apply A, Dx | eapply fr_trans; eassumption]. Qed.
Lemma KM_KQ : forall st st', KQ st st' -> fr st st' -> KM st st'.
Proof. intros st st' [A [B _]] F. split; [exact A|]. split; assumption. Qed.

Lemma uv_val_modify : forall st o f u, (uv_val (modify st o f) u = uv_val st u) \/
  (exists a, heap st o = Some a /\ (In (uv_val (modify st o f) u) (o_vals (f a)) \/ uv_val (modify st o f) u = VNil)).
Proof.
  intros st o f u. unfold uv_val. assert (E : uvs (modify st o f) = uvs st) by (rewrite modify_rest; reflexivity). rewrite E.
  destruct (uvs st u) as [[th i t|v]|]; [|left; reflexivity|left; reflexivity]. rewrite heap_modify.
  destruct (Nat.eqb_spec th o) as [->|]; [|left; reflexivity]. destruct (heap st o) as [a|] eqn:Ha; [|left; reflexivity]. right. exists a. split; [reflexivity|].
  cbn. destruct (nth_in_or_default i (o_vals (f a)) VNil) as [I|I]; [left; exact I | right; exact I].
Qed.
Lemma Q_full : forall st o a, Q st -> heap st o = Some a -> ~ D o -> fullc a.
Proof. intros st o a H Ha N. apply (d_obj _ _ _ H _ _ Ha N). Qed.
(** A store into an object.  Storing through an upvalue may touch the stack of a
    thread that is in the set. *)
Lemma Q_store : forall st o f, Q st ->
  (forall a, heap st o = Some a -> (D o -> o_col (f a) = o_col a) /\
     (~ D o -> fullc (f a) /\ forall u, In u (o_upv (f a)) \/ In u (o_open (f a)) -> In u (o_upv a) \/ In u (o_open a) \/ okv (uv_val st u))) ->
  (forall u, okv (uv_val st u) -> okv (uv_val (modify st o f) u)) ->
  KM st (modify st o f).
Proof.
  intros st o f H F V. split; [|split; [|apply fr_modify]].
  - apply Q_intro.
    + intros x ob Hx N. rewrite heap_modify in Hx. destruct (Nat.eqb_spec x o) as [->|].
      * destruct (heap st o) as [a|] eqn:Ha; [|discriminate]. injection Hx as <-. destruct (F a eq_refl) as [_ F3]. apply F3, N.
      * exact (Q_full _ _ _ H Hx N).
    + intros x ob u Hx N I. rewrite heap_modify in Hx. destruct (Nat.eqb_spec x o) as [->|].
      * destruct (heap st o) as [a|] eqn:Ha; [|discriminate]. injection Hx as <-. destruct (F a eq_refl) as [_ F3]. destruct (F3 N) as [_ B].
        apply V. destruct (B u I) as [J|[J|J]]; [apply (d_upv _ _ _ H _ _ _ Ha N); tauto | apply (d_upv _ _ _ H _ _ _ Ha N); tauto | exact J].
      * apply V. exact (d_upv _ _ _ H _ _ _ Hx N I).
    + intros u th i X. apply V. apply (d_touch _ _ _ H u th i). rewrite modify_rest in X. exact X.
    + intros x R. apply (d_root _ _ _ H). refine (root_eq _ _ _ _ _ _ _ _ _ _ _ R); rewrite modify_rest; reflexivity.
    + rewrite modify_rest. exact (d_fin _ _ _ H).
    + rewrite glists_modify. exact (d_list _ _ _ H).
  - intros x Dx. rewrite heap_modify. destruct (Nat.eqb_spec x o) as [->|]; [|reflexivity]. destruct (heap st o) as [a|] eqn:Ha; [|reflexivity].
    destruct (F a eq_refl) as [F2 _]. cbn. rewrite (F2 Dx). reflexivity.
Qed.
(** The usual case. *)
Lemma Q_put : forall st o f, Q st -> ~ D o ->
  (forall a, heap st o = Some a -> (forall b, oref (f a) b -> oref a b \/ ~ D b) /\
     forall u, In u (o_upv (f a)) \/ In u (o_open (f a)) -> In u (o_upv a) \/ In u (o_open a) \/ okv (uv_val st u)) ->
  KM st (modify st o f).
Proof.
  intros st o f H N F.
  assert (G : forall a, heap st o = Some a -> fullc (f a)).
  { intros a Ha b R. destruct (proj1 (F a Ha) b R) as [X|X]; [exact (Q_full _ _ _ H Ha N b X) | exact X]. }
  apply Q_store; [exact H| |].
  - intros a Ha. split; [intros; contradiction|]. intros _. split; [apply G, Ha | apply F, Ha].
  - intros u Ou. destruct (uv_val_modify st o f u) as [E|[a [Ha [E|E]]]]; [rewrite E; exact Ou| |rewrite E; intros b; discriminate].
    intros b Eb. rewrite Eb in E. apply (G a Ha). unfold oref. tauto.
Qed.
(** Only the slots change. *)
Lemma Q_vals : forall st o g, Q st -> ~ D o -> (forall a b, heap st o = Some a -> In (VObj b) (g a) -> In (VObj b) (o_vals a) \/ ~ D b) ->
  KM st (modify st o (fun a => with_vals a (g a))).
Proof.
  intros st o g H N F. apply Q_put; [exact H | exact N|]. intros a Ha. split.
  - intros b R. unfold oref in *. destruct R as [R|[R|R]]; [left; left; destruct a; exact R | | left; right; right; destruct a; exact R].
    replace (o_vals (with_vals a (g a))) with (g a) in R by (destruct a; reflexivity). destruct (F a b Ha R); tauto.
  - intros u I. destruct a. cbn in *. tauto.
Qed.
Lemma firstn_In2 : forall (A : Type) (x : A) n l, In x (firstn n l) -> In x l.
Proof. intros A x n l I. rewrite <- (firstn_skipn n l). apply in_app_iff. left. exact I. Qed.
Lemma list_set_in : forall (A : Type) (l : list A) i x y, In y (list_set l i x) -> In y l \/ y = x.
Proof.
  intros A l i x y I. unfold list_set in I. destruct (Nat.ltb i (length l)); [|left; exact I]. apply in_app_iff in I.
  destruct I as [I|[I|I]]; [left; exact (firstn_In2 _ _ _ _ I) | right; symmetry; exact I|]. left.
  rewrite <- (firstn_skipn (S i) l). apply in_app_iff. right. exact I.
Qed.
Lemma list_set_nth : forall l i v j, nth j (list_set l i v) VNil = nth j l VNil \/ nth j (list_set l i v) VNil = v.
Proof.
  intros l i v j. unfold list_set. destruct (Nat.ltb_spec i (length l)) as [L|L]; [|left; reflexivity].
  destruct (Nat.lt_trichotomy j i) as [X|[X|X]].
  - left. rewrite app_nth1 by (rewrite firstn_length; lia). rewrite <- (firstn_skipn i l) at 2. rewrite app_nth1 by (rewrite firstn_length; lia). reflexivity.
  - right. subst. rewrite app_nth2 by (rewrite firstn_length; lia). rewrite firstn_length, Nat.min_l by lia. rewrite Nat.sub_diag. reflexivity.
  - left. rewrite app_nth2 by (rewrite firstn_length; lia). rewrite firstn_length, Nat.min_l by lia.
    destruct (j - i) as [|d] eqn:E; [lia|]. cbn [nth]. rewrite <- (firstn_skipn (S i) l) at 2. rewrite app_nth2 by (rewrite firstn_length; lia).
    rewrite firstn_length, Nat.min_l by lia. f_equal. lia.
Qed.
Lemma Q_slot : forall st o i v, Q st -> okv v -> KM st (modify st o (fun b => with_vals b (list_set (o_vals b) i v))).
Proof.
  intros st o i v H N. apply Q_store; [exact H| |].
  - intros a Ha. split; [intros _; destruct a; reflexivity|]. intros No. split.
    + intros b R. unfold oref in R. destruct R as [R|[R|R]].
      * apply (Q_full _ _ _ H Ha No). left. destruct a. exact R.
      * replace (o_vals (with_vals a (list_set (o_vals a) i v))) with (list_set (o_vals a) i v) in R by (destruct a; reflexivity).
        destruct (list_set_in _ _ _ _ _ R) as [I|E]; [apply (Q_full _ _ _ H Ha No); unfold oref; tauto | apply N; symmetry; exact E].
      * apply (Q_full _ _ _ H Ha No). right. right. destruct a. exact R.
    + intros u I. destruct a. cbn in *. tauto.
  - intros u Ou. unfold uv_val in *. assert (E : uvs (modify st o (fun b => with_vals b (list_set (o_vals b) i v))) = uvs st) by (rewrite modify_rest; reflexivity).
    rewrite E. destruct (uvs st u) as [[th j t|w]|]; [|exact Ou|exact Ou]. rewrite heap_modify. destruct (Nat.eqb_spec th o) as [->|]; [|exact Ou].
    destruct (heap st o) as [a|]; [|exact Ou]. cbn. replace (o_vals (with_vals a (list_set (o_vals a) i v))) with (list_set (o_vals a) i v) by (destruct a; reflexivity).
    destruct (list_set_nth (o_vals a) i v j) as [-> | ->]; assumption.
Qed.

(** ** Barriers *)
Lemma KM_mark_obj : forall n st v, Q st -> ~ D v -> KM st (mark_obj n st v).
Proof. intros. apply KM_KQ; [apply Q_mark_obj; assumption | apply fr_mark_obj]. Qed.
Lemma KM_setcol : forall st o c, Q st -> ~ D o -> KM st (setcol st o c).
Proof.
  intros st o c H N. apply Q_put; [exact H | exact N|]. intros a _. split; [intros b R; left; apply oref_with_col in R; exact R|]. intros u I. destruct a. cbn in *. tauto.
Qed.
Lemma KM_barrier : forall st o v, Q st -> ~ D o -> ~ D v -> KM st (barrier st o v).
Proof.
  intros st o v H N Nv. unfold barrier. destruct (_ && _); [|apply KM_refl, H]. destruct (keepinvariant st); [apply KM_mark_obj; assumption|].
  apply KM_setcol; assumption.
Qed.
Lemma KM_barrier_val : forall st o v, Q st -> ~ D o -> okv v -> KM st (barrier_val st o v).
Proof. intros st o [| |x] H N Nv; cbn; try (apply KM_refl, H). apply KM_barrier; [exact H | exact N | apply Nv; reflexivity]. Qed.
Lemma KM_back : forall st o v, Q st -> ~ D o -> KM st (barrierback st o v).
Proof.
  intros st o v H N. unfold barrierback. destruct (_ && _); [|apply KM_refl, H]. apply KM_KQ; [apply Q_link_grayagain; assumption | apply fr_link_grayagain].
Qed.
Lemma KM_back_val : forall st o v, Q st -> ~ D o -> KM st (barrierback_val st o v).
Proof. intros st o [| |x] H N; cbn; try (apply KM_refl, H). apply KM_back; assumption. Qed.
Lemma KM_back_key : forall st o v, Q st -> ~ D o -> KM st (barrierback_key st o v).
Proof. intros st o [|x|x] H N; cbn; try (apply KM_refl, H). apply KM_back; assumption. Qed.
Lemma KM_upvalbarrier : forall st u, Q st -> okv (uv_val st u) -> KM st (upvalbarrier st u).
Proof.
  intros st u H N. unfold upvalbarrier. unfold uv_val in N. destruct (uvs st u) as [[| [| |x]]|]; try (apply KM_refl, H).
  destruct (keepinvariant st); [|apply KM_refl, H]. unfold mark. destruct (iswhite st x); [|apply KM_refl, H]. apply KM_mark_obj; [exact H | apply N; reflexivity].
Qed.
Lemma KM_then : forall a b c, KM a b -> (Q b -> KM b c) -> KM a c.
Proof. intros a b c K F. eapply KM_trans; [exact K|]. apply F, K. Qed.

(** ** Upvalues *)
Lemma Q_uv : forall st st', Q st -> heap st' = heap st -> (forall o, root st' o -> root st o) -> finobj st' = finobj st -> glists [] st' = glists [] st -> fr st st' ->
  (forall u, okv (uv_val st u) -> okv (uv_val st' u)) -> (forall u th i, uvs st' u = Some (UOpen th i true) -> okv (uv_val st' u)) -> KM st st'.
Proof.
  intros st st' H E1 R E2 E3 F V T. split; [|split; [intros x _; rewrite E1; reflexivity | exact F]]. apply Q_intro.
  - intros o ob Ho. rewrite E1 in Ho. apply (Q_full _ _ _ H Ho).
  - intros o ob u Ho N I. rewrite E1 in Ho. apply V. exact (d_upv _ _ _ H _ _ _ Ho N I).
  - exact T.
  - intros o X. apply (d_root _ _ _ H), R, X.
  - rewrite E2. apply (d_fin _ _ _ H).
  - rewrite E3. apply (d_list _ _ _ H).
Qed.
Lemma root_uvs : forall st f n o, root (set_uvs st f n) o -> root st o.
Proof. intros st f n o R. refine (root_eq _ _ _ _ _ _ _ _ _ _ _ R); reflexivity. Qed.
Lemma uv_set : forall st u w n x, uv_val (set_uvs st (fun x => if Nat.eqb x u then Some w else uvs st x) n) x =
  if Nat.eqb x u then match w with UClosed v => v | UOpen th i _ => match heap st th with Some ob => nth i (o_vals ob) VNil | None => VNil end end else uv_val st x.
Proof. intros. unfold uv_val. cbn. destruct (Nat.eqb x u); reflexivity. Qed.
Lemma Q_setuv : forall st u w n, Q st ->
  okv (match w with UClosed v => v | UOpen th i _ => match heap st th with Some ob => nth i (o_vals ob) VNil | None => VNil end end) ->
  KM st (set_uvs st (fun x => if Nat.eqb x u then Some w else uvs st x) n).
Proof.
  intros st u w n H N. apply Q_uv; [exact H | reflexivity | intros o; apply root_uvs | reflexivity | reflexivity | repeat split| |].
  - intros x Ox. rewrite uv_set. destruct (Nat.eqb x u); [exact N | exact Ox].
  - intros x th i X. rewrite uv_set. cbn in X. destruct (Nat.eqb_spec x u) as [->|]; [exact N | exact (d_touch _ _ _ H _ _ _ X)].
Qed.
Lemma KM_close_upv : forall st u, Q st -> okv (uv_val st u) -> KM st (close_upv st u) /\ forall x, uv_val (close_upv st u) x = uv_val st x.
Proof.
  intros st u H N. split; [apply Q_setuv; assumption|]. intros x. unfold close_upv. rewrite uv_set. destruct (Nat.eqb_spec x u) as [->|]; reflexivity.
Qed.
Lemma uv_upvalbarrier : forall st u x, uv_val (upvalbarrier st u) x = uv_val st x.
Proof.
  intros st u x. unfold upvalbarrier. destruct (uvs st u) as [[| [| |y]]|]; try reflexivity. destruct (keepinvariant st); [|reflexivity].
  unfold mark. destruct (iswhite st y); [|reflexivity]. apply cu_uv_val, cu_mark_obj.
Qed.
Lemma KM_closes : forall us st, Q st -> (forall u, In u us -> okv (uv_val st u)) -> KM st (fold_left (fun s u => upvalbarrier (close_upv s u) u) us st).
Proof.
  induction us as [|u us IH]; intros st H N; cbn [fold_left]; [apply KM_refl, H|].
  destruct (KM_close_upv st u H (N u (or_introl eq_refl))) as [K1 E1].
  assert (K2 : KM (close_upv st u) (upvalbarrier (close_upv st u) u)) by (apply KM_upvalbarrier; [apply K1 | rewrite E1; apply N; left; reflexivity]).
  eapply KM_trans; [exact K1|]. eapply KM_trans; [exact K2|]. apply IH; [apply K2|].
  intros x I. rewrite uv_upvalbarrier, E1. apply N. right. exact I.
Qed.
Lemma KM_twups : forall st l, Q st -> KM st (set_twups st l).
Proof. intros st l H. apply KM_KQ; [apply Q_twups, H | repeat split]. Qed.
Lemma KM_roots : forall st st', Q st -> heap st' = heap st -> uvs st' = uvs st -> finobj st' = finobj st -> glists [] st' = glists [] st -> fr st st' ->
  (forall o, root st' o -> ~ D o) -> KM st st'.
Proof.
  intros st st' H E1 E2 E3 E4 F R. split; [|split; [intros x _; rewrite E1; reflexivity | exact F]].
  assert (V : forall u, uv_val st' u = uv_val st u) by (intros u; unfold uv_val; rewrite E1, E2; reflexivity). apply Q_intro.
  - intros o ob Ho. rewrite E1 in Ho. apply (Q_full _ _ _ H Ho).
  - intros o ob u Ho N I. rewrite E1 in Ho. rewrite V. exact (d_upv _ _ _ H _ _ _ Ho N I).
  - intros u th i X. rewrite E2 in X. rewrite V. exact (d_touch _ _ _ H _ _ _ X).
  - exact R.
  - rewrite E3. apply (d_fin _ _ _ H).
  - rewrite E4. apply (d_list _ _ _ H).
Qed.
Lemma KM_push : forall st v, Q st -> okv v -> KM st (push st v).
Proof.
  intros st v H N. unfold push. apply Q_put; [exact H | apply (d_root _ _ _ H); apply r_cur; reflexivity|]. intros a Ha. split.
  - intros b R. unfold oref in *. destruct R as [R|[R|R]]; [left; left; destruct a; exact R | | left; right; right; destruct a; exact R].
    replace (o_vals _) with (firstn (o_top a) (o_vals a) ++ v :: skipn (S (o_top a)) (o_vals a)) in R by (destruct a; reflexivity).
    apply in_app_iff in R. destruct R as [R|[R|R]]; [left; right; left; exact (firstn_In2 _ _ _ _ R) | right; apply N; exact R|].
    left. right. left. rewrite <- (firstn_skipn (S (o_top a)) (o_vals a)). apply in_app_iff. right. exact R.
  - intros u I. destruct a. cbn in *. tauto.
Qed.

(** ** Events *)
Lemma hash_set_in : forall h k v k' v', In (k', v') (hash_set h k v) -> In (k', v') h \/ (v' = v /\ exists w, In (k', w) h).
Proof.
  induction h as [|[a b] h IH]; intros k v k' v' I; cbn in *; [contradiction|]. destruct (key_eqb k a).
  - destruct I as [E|I]; [injection E as <- <-; right; split; [reflexivity | exists b; left; reflexivity] | left; right; exact I].
  - destruct I as [E|I]; [left; left; exact E|]. destruct (IH _ _ _ _ I) as [J|[J [w W]]]; [left; right; exact J | right; split; [exact J | exists w; right; exact W]].
Qed.
Lemma KM_sethash : forall st o h, Q st -> ~ D o ->
  (forall a, heap st o = Some a -> (forall b v, In (KyObj b, v) h -> (exists w, In (KyObj b, w) (o_hash a)) \/ ~ D b) /\
     (forall b k, In (k, VObj b) h -> (exists k', In (k', VObj b) (o_hash a)) \/ ~ D b)) -> KM st (sethash st o h).
Proof.
  intros st o h H N F. unfold sethash. apply Q_put; [exact H | exact N|]. intros a Ha. destruct (F a Ha) as [F1 F2]. split.
  - intros b R. unfold oref in *. destruct a; cbn in *. destruct R as [R|[R|[[v R]|[[k R]|R]]]]; try tauto.
    + destruct (F1 b v R) as [[w W]|W]; [left; right; right; left; exists w; exact W | right; exact W].
    + destruct (F2 b k R) as [[w W]|W]; [left; right; right; right; left; exists w; exact W | right; exact W].
  - intros u I. destruct a. cbn in *. tauto.
Qed.
Lemma KM_store_val : forall st o i v, Q st -> ~ D o -> okv v -> KM st (store_val st o i v).
Proof.
  intros st o i v H N Nv. unfold store_val. assert (K := Q_slot st o i v H Nv).
  destruct (kind_of st o) as [[]|]; try (apply KM_refl, H); (eapply KM_then; [exact K|]; intros Q1);
    first [apply KM_back_val; assumption | apply KM_barrier_val; assumption].
Qed.
Lemma KM_store_hash : forall st t k v, Q st -> ~ D t -> (forall b, k = KyObj b -> ~ D b) -> okv v -> KM st (store_hash st t k v).
Proof.
  intros st t k v H N Nk Nv. unfold store_hash. destruct (heap st t) as [ob|] eqn:Ht; [|apply KM_refl, H].
  assert (F := Q_full _ _ _ H Ht N). unfold Gc_dead.fullc, oref in F.
  destruct (existsb _ _).
  - eapply KM_then; [apply KM_sethash; [exact H | exact N|]|intros; apply KM_back_val; assumption].
    intros a Ha. replace a with ob in * by congruence. split.
    + intros b w I. destruct (hash_set_in _ _ _ _ _ I) as [J|[_ [w' J]]]; left; eexists; exact J.
    + intros b k' I. destruct (hash_set_in _ _ _ _ _ I) as [J|[J _]]; [left; exists k'; exact J | right; apply Nv; symmetry; exact J].
  - assert (X : forall b w, In (KyObj b, w) (o_hash ob) -> ~ D b) by (intros b w I; apply F; right; right; left; exists w; exact I).
    assert (Y : forall b w, In (w, VObj b) (o_hash ob) -> ~ D b) by (intros b w I; apply F; right; right; right; left; exists w; exact I).
    cbv zeta. eapply KM_then; [apply (KM_sethash st t ((k, VNil) :: o_hash ob)); [exact H | exact N|]|intros Q1].
    { intros a Ha. split; [intros b w [E|I]; [injection E as E _; right; apply Nk, E | right; exact (X b w I)] | intros b w [E|I]; [discriminate | right; exact (Y b w I)]]. }
    eapply KM_then; [apply KM_back_key; [exact Q1 | exact N]|intros Q2].
    eapply KM_then; [apply (KM_sethash _ t ((k, v) :: o_hash ob)); [exact Q2 | exact N|]|intros Q3; apply KM_back_val; assumption].
    intros a Ha. split; [intros b w [E|I]; [injection E as E _; right; apply Nk, E | right; exact (X b w I)] |
      intros b w [E|I]; [injection E as _ E; right; apply Nv, E | right; exact (Y b w I)]].
Qed.
Lemma KM_fold : forall (A : Type) (f : gst -> A -> gst), (forall st a, Q st -> KM st (f st a)) -> forall l st, Q st -> KM st (fold_left f l st).
Proof. intros A f F l. induction l as [|a l IH]; intros st H; cbn; [apply KM_refl, H|]. eapply KM_then; [apply F, H | apply IH]. Qed.
Lemma mut_ok : forall st e, Q st -> legal st e -> (forall s, e = MIntern s -> ~ D s) ->
  match e with GStep _ | GAbort | GHurry | MNew _ _ _ | MMeta _ (Some _) => True | _ => KM st (step st e) end.
Proof.
  intros st e H L Ni.
  destruct e as [em| | |k vs us|th i v|th n|o i v|o n|t k v|t vs h|o mt|mt md g|p cl|th i|u v|th us|cl i u|th|v|i m|s|i s|p v]; cbn [step legal] in *; try exact Logic.I.
  - destruct L as [R [_ V]]. apply Q_slot; [exact H | exact (reach_val_ok _ _ H V)].
  - destruct L as [R _]. apply Q_put; [exact H | exact (reach_ok _ _ H R)|]. intros a _. split; [intros b X; left; destruct a; exact X | intros u I; destruct a; cbn in *; tauto].
  - destruct L as [R V]. apply KM_store_val; [exact H | exact (reach_ok _ _ H R) | exact (reach_val_ok _ _ H V)].
  - destruct L as [R _]. apply (Q_vals st o (fun b => o_vals b ++ nils n)); [exact H | exact (reach_ok _ _ H R)|]. intros a b _ I. apply in_app_iff in I.
    destruct I as [I|I]; [left; exact I|]. apply repeat_spec in I. discriminate.
  - destruct L as [R [_ [K V]]]. apply KM_store_hash; [exact H | exact (reach_ok _ _ H R) | | exact (reach_val_ok _ _ H V)].
    intros b ->. exact (reach_ok _ _ H K).
  - destruct L as [R [_ F]]. assert (N := reach_ok _ _ H R). unfold rebuild.
    eapply KM_then; [|intros Q1; apply KM_fold; [intros s a Qs; apply KM_back_key; [exact Qs | exact N] | exact Q1]].
    apply Q_put; [exact H | exact N|]. intros a Ha. destruct (F a Ha) as [F1 F2]. split; [|intros u I; destruct a; cbn in *; tauto].
    intros b X. left. unfold oref in *. destruct a; cbn in *. destruct X as [X|[X|[[w X]|[[w X]|X]]]]; try tauto.
    + destruct (F1 b (or_introl X)) as [J|J]; tauto.
    + destruct (F2 b w X) as [w' J]. right. right. left. exists w'. exact J.
    + destruct (F1 b (or_intror (ex_intro _ w X))) as [J|J]; tauto.
  - destruct mt as [m|]; [exact Logic.I|]. destruct L as [R _]. unfold setmeta. apply Q_put; [exact H | exact (reach_ok _ _ H R)|].
    intros a _. split; [|intros u I; destruct a; cbn in *; tauto]. intros b X. left. unfold oref in *. destruct a; cbn in *. destruct X as [X|X]; [discriminate | right; exact X].
  - destruct L as [R _]. apply Q_put; [exact H | exact (reach_ok _ _ H R)|]. intros a _. split; [intros b X; left; destruct a; exact X | intros u I; destruct a; cbn in *; tauto].
  - destruct L as [R [_ [Rc _]]]. destruct (isblack st p); [apply KM_refl, H|]. apply Q_put; [exact H | exact (reach_ok _ _ H R)|].
    intros a _. split; [|intros u I; destruct a; cbn in *; tauto]. intros b X. unfold oref in *. destruct a; cbn in *. destruct X as [X|[X|[X|[X|X]]]]; try tauto.
    injection X as <-. right. exact (reach_ok _ _ H Rc).
  - destruct L as [R _]. assert (N := reach_ok _ _ H R). unfold findupval.
    assert (V : okv (match heap st th with Some ob => nth i (o_vals ob) VNil | None => VNil end)).
    { destruct (heap st th) as [ob|] eqn:Ht; [|intros b; discriminate]. intros b E. apply (Q_full _ _ _ H Ht N). right. left. rewrite <- E.
      destruct (nth_in_or_default i (o_vals ob) VNil) as [I|I]; [exact I | congruence]. }
    eapply KM_then; [apply (Q_setuv st (nextuv st) (UOpen th i true) (S (nextuv st)) H V)|]. intros Q1.
    assert (K2 : KM (set_uvs st (fun x => if Nat.eqb x (nextuv st) then Some (UOpen th i true) else uvs st x) (S (nextuv st)))
      (modify (set_uvs st (fun x => if Nat.eqb x (nextuv st) then Some (UOpen th i true) else uvs st x) (S (nextuv st))) th (fun b => with_open b (nextuv st :: o_open b)))).
    { apply Q_put; [exact Q1 | exact N|]. intros a Ha. split; [intros b X; left; destruct a; exact X|]. intros u I. destruct a; cbn in *.
      destruct I as [I|[I|I]]; [tauto | | tauto]. subst u. right. right. rewrite uv_set, Nat.eqb_refl. exact V. }
    cbv zeta. destruct (existsb _ _); [exact K2|]. eapply KM_then; [exact K2 | intros; apply KM_twups; assumption].
  - destruct L as [R V]. assert (Nv := reach_val_ok _ _ H V). unfold setupval. destruct (uvs st u) as [[th i t|w]|] eqn:E; [apply Q_slot; assumption| |apply KM_refl, H].
    eapply KM_then; [apply (Q_setuv st u (UClosed v) (nextuv st) H Nv)|]. intros Q1. apply KM_upvalbarrier; [exact Q1|]. rewrite uv_set, Nat.eqb_refl. exact Nv.
  - destruct L as [R [Hk I]]. assert (N := reach_ok _ _ H R). unfold close_upvs.
    set (f := fun b => with_open b (filter (fun u => negb (existsb (Nat.eqb u) us)) (o_open b))).
    assert (K1 : KM st (modify st th f)).
    { apply Q_put; [exact H | exact N|]. intros a _. split; [intros b X; left; destruct a; exact X|]. intros u J. destruct a; cbn in *.
      destruct J as [J|J]; [tauto|]. apply filter_In in J. tauto. }
    eapply KM_then; [exact K1|]. intros Q1.
    destruct (heap st th) as [tb|] eqn:Ht.
    + apply KM_closes; [exact Q1|]. intros u J. assert (O := d_upv _ _ _ H _ _ u Ht N (or_intror (I tb eq_refl u J))).
      replace (uv_val (modify st th f) u) with (uv_val st u); [exact O|]. unfold uv_val. rewrite modify_rest at 1. cbn.
      destruct (uvs st u) as [[th' j t|w]|]; [|reflexivity|reflexivity]. rewrite heap_modify. destruct (Nat.eqb_spec th' th) as [->|]; [|reflexivity]. rewrite Ht. destruct tb; reflexivity.
    + exfalso. destruct Hk as [k [Hk _]]. unfold kind_of in Hk. rewrite Ht in Hk. discriminate.
  - destruct L as [R [_ U]]. assert (N := reach_ok _ _ H R). assert (O := reach_upv_ok _ _ H U). unfold joinupv.
    set (f := fun b => with_upv b (list_set (o_upv b) i u)).
    assert (K1 : KM st (modify st cl f)).
    { apply Q_put; [exact H | exact N|]. intros a _. split; [intros b X; left; destruct a; exact X|]. intros x J. destruct a; cbn in *.
      destruct J as [J|J]; [|tauto]. destruct (list_set_in _ _ _ _ _ J) as [J'| ->]; tauto. }
    assert (E1 : forall x, uv_val (modify st cl f) x = uv_val st x).
    { intros x. unfold uv_val. rewrite modify_rest at 1. cbn. destruct (uvs st x) as [[th' j t|w]|]; [|reflexivity|reflexivity].
      rewrite heap_modify. destruct (Nat.eqb_spec th' cl) as [->|]; [|reflexivity]. destruct (heap st cl) as [[]|]; reflexivity. }
    eapply KM_then; [exact K1|]. intros Q1. cbv zeta. set (s := modify st cl f) in *.
    destruct (uvs s u) as [[th j t|w]|] eqn:E; [|apply KM_upvalbarrier; [exact Q1 | rewrite E1; exact O]|apply KM_upvalbarrier; [exact Q1 | rewrite E1; exact O]].
    assert (V : uv_val s u = match heap s th with Some ob => nth j (o_vals ob) VNil | None => VNil end) by (unfold uv_val; rewrite E; reflexivity).
    rewrite E1 in V. eapply KM_then; [apply (Q_setuv s u (UOpen th j true) (nextuv s) Q1); cbn; rewrite <- V; exact O|]. intros Q2.
    apply KM_upvalbarrier; [exact Q2|]. rewrite uv_set, Nat.eqb_refl, <- V. exact O.
  - destruct L as [R _]. apply KM_roots; try reflexivity; [exact H | repeat split|]. intros o X.
    destruct X as [X|X|X|X|X|X|X|X]; cbn in X; try (apply (d_root _ _ _ H); first [apply r_main, X | apply r_reg, X | apply r_mt, X | apply r_fin, X | apply r_cache, X | apply r_fixed, X | apply r_memerr, X]).
    subst. exact (reach_ok _ _ H R).
  - apply KM_roots; try reflexivity; [exact H | repeat split|]. intros o X.
    destruct X as [X|X|X|X|X|X|X|X]; cbn in X; try (apply (d_root _ _ _ H); first [apply r_main, X | apply r_cur, X | apply r_mt, X | apply r_fin, X | apply r_cache, X | apply r_fixed, X | apply r_memerr, X]).
    subst. exact (reach_ok _ _ H L).
  - apply KM_roots; try reflexivity; [exact H | repeat split|]. intros o X.
    destruct X as [X|X|X|X|X|X|X|X]; cbn in X; try (apply (d_root _ _ _ H); first [apply r_main, X | apply r_cur, X | apply r_reg, X | apply r_fin, X | apply r_cache, X | apply r_fixed, X | apply r_memerr, X]).
    destruct (list_set_in _ _ _ _ _ X) as [J|J]; [apply (d_root _ _ _ H), r_mt, J|]. subst m. exact (reach_ok _ _ H (proj1 L)).
  - assert (N := Ni s eq_refl). unfold intern. eapply KM_then; [|intros Q1; apply KM_push; [exact Q1 | intros b E; injection E as <-; exact N]].
    destruct (isdead st s); [apply KM_setcol; assumption | apply KM_refl, H].
  - destruct L as [R _]. apply KM_roots; try reflexivity; [exact H | repeat split|]. intros o X.
    destruct X as [X|X|X|X|X|X|X|X]; cbn in X; try (apply (d_root _ _ _ H); first [apply r_main, X | apply r_cur, X | apply r_reg, X | apply r_mt, X | apply r_fin, X | apply r_fixed, X | apply r_memerr, X]).
    destruct (list_set_in _ _ _ _ _ X) as [J|J]; [apply (d_root _ _ _ H), r_cache, J|]. subst. exact (reach_ok _ _ H R).
  - destruct L as [R [_ V]]. apply (Q_vals st p (fun b => o_vals b ++ [v])); [exact H | exact (reach_ok _ _ H R)|]. intros a b _ I. apply in_app_iff in I.
    destruct I as [I|[I|[]]]; [left; exact I|]. right. exact (reach_val_ok _ _ H V b I).
Qed.
End deadm.
