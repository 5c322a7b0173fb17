Require Import ZArith List Bool Lia.
From Verif Require Import Base Base_facts Meta_model Meta_spec.
Import ListNotations.
Open Scope Z_scope.

Definition coh (h : heap) : Prop := forall r e, t_flags (h_tab h r) e = true -> 0 <= e <= 5 /\ contents (t_raw (h_tab h r) e) = VNil.

Lemma is_nil_eq : forall v, is_nil v = true <-> v = VNil. Proof. destruct v; split; intros H; (reflexivity || discriminate H). Qed.
Lemma rawat_abs : forall h r k, rawat (abs h) r k = contents (luaH_get (h_tab h r) k). Proof. intros h r [| |z]; reflexivity. Qed.
Lemma same_refl : forall A, same A A. Proof. split; reflexivity. Qed.
Lemma same_sym : forall A B, same A B -> same B A. Proof. intros A B (X & Y). split; intros; symmetry; auto. Qed.
Lemma same_trans : forall A B C, same A B -> same B C -> same A C. Proof. intros A B C (X & Y) (X' & Y'). split; intros; [rewrite X; apply X'|rewrite Y; apply Y']. Qed.
Lemma rawat_same : forall A B r k, same A B -> rawat A r k = rawat B r k. Proof. intros A B r [| |z] (X & _); cbn; [reflexivity|reflexivity|]. rewrite X. reflexivity. Qed.
Lemma event_same : forall A B o e, same A B -> event A o e = event B o e. Proof. intros A B o e H. unfold event. destruct H as (X & Y). rewrite Y. destruct (a_meta B (owner o)); [apply rawat_same; split; assumption|reflexivity]. Qed.
Lemma gets_same : forall A B k t n r, same A B -> gets A k t n r -> gets B k t n r.
Proof.
  intros A B k t n r H G. assert (R : forall r0, rawat A r0 k = rawat B r0 k) by (intros; apply rawat_same; exact H). assert (E : forall o e, event A o e = event B o e) by (intros; apply event_same; exact H).
  induction G as [a|r0 N|r0 N N'|t O N|t f O N|t n r O N G IH]; rewrite ?R, ?E in *.
  - constructor.
  - constructor. exact N.
  - apply G_nil; assumption.
  - apply G_err; assumption.
  - apply G_call; [|exact N]. destruct O as [O|(x & -> & Q)]; [left; exact O|right; exists x; rewrite <- R; auto].
  - apply G_next; [|exact N|exact IH]. destruct O as [O|(x & -> & Q)]; [left; exact O|right; exists x; rewrite <- R; auto].
Qed.
Lemma sets_same : forall A B k v t n r, same A B -> sets A k v t n r -> sets B k v t n r.
Proof.
  intros A B k v t n r H G. assert (R : forall r0, rawat A r0 k = rawat B r0 k) by (intros; apply rawat_same; exact H). assert (E : forall o e, event A o e = event B o e) by (intros; apply event_same; exact H).
  induction G as [a|r0 N|r0 N N'|t O N|t f O N|t n r O N G IH]; rewrite ?R, ?E in *.
  - constructor.
  - constructor. exact N.
  - apply S_new; assumption.
  - apply S_err; assumption.
  - apply S_call; [|exact N]. destruct O as [O|(x & -> & Q)]; [left; exact O|right; exists x; rewrite <- R; auto].
  - apply S_next; [|exact N|exact IH]. destruct O as [O|(x & -> & Q)]; [left; exact O|right; exists x; rewrite <- R; auto].
Qed.
Lemma tab_set : forall h r t i, h_tab (set_tab h r t) i = if Nat.eqb i r then t else h_tab h i. Proof. reflexivity. Qed.
Lemma fasttm_ok : forall h o r e, coh h -> 0 <= e <= 5 -> o = VTab r -> exists h', fasttm h (t_meta (h_tab h r)) e = (h', if is_nil (event (abs h) o e) then None else Some (event (abs h) o e)) /\ same (abs h) (abs h') /\ coh h'.
Proof.
  intros h o r e C LE ->. unfold event. cbn [owner a_meta abs]. destruct (t_meta (h_tab h r)) as [m|] eqn:M; [|exists h; split; [reflexivity|split; [apply same_refl|exact C]]]. unfold fasttm. cbv zeta. rewrite rawat_abs. cbn [luaH_get]. destruct (t_flags (h_tab h m) e) eqn:F.
  - destruct (C m e F) as (_ & E). rewrite E. exists h. split; [reflexivity|split; [apply same_refl|exact C]].
  - destruct (is_nil (contents (t_raw (h_tab h m) e))) eqn:N; [|exists h; split; [reflexivity|split; [apply same_refl|exact C]]]. eexists. split; [reflexivity|]. split.
    + split; [intros r0 z; cbn [abs a_raw]; rewrite tab_set; destruct (Nat.eqb_spec r0 m) as [->|]; reflexivity|]. intros o. cbn [abs a_meta]. destruct o; try reflexivity. rewrite tab_set. destruct (Nat.eqb_spec r0 m) as [->|]; reflexivity.
    + intros r0 e0. rewrite tab_set. destruct (Nat.eqb_spec r0 m) as [->|]; [|apply C]. cbn [t_flags t_raw]. destruct (Z.eqb_spec e0 e) as [->|]; [|apply C]. intros _. split; [exact LE|apply is_nil_eq; exact N].
Qed.
Lemma gettm_ok : forall h o e, luaT_gettmbyobj h o e = event (abs h) o e.
Proof. intros h o e. unfold luaT_gettmbyobj, event. destruct o; cbn [owner abs a_meta]; cbn [Z.eqb]; repeat match goal with |- context [match ?x with Some _ => _ | None => _ end] => destruct x end; rewrite ?rawat_abs; reflexivity. Qed.

Definition matches (h : heap) (t : value) (k : key) (slot : option (nat * option value)) : Prop :=
  (exists r, t = VTab r /\ slot = Some (r, luaH_get (h_tab h r) k) /\ rawat (abs h) r k = VNil) \/ (other t /\ slot = None).
Definition got (h : heap) (k : key) (t : value) (loop : nat) (out : outcome (heap * res)) : Prop :=
  (exists n a, gets (abs h) k t n (RArr a k) /\ (n <= loop)%nat /\ out = UB) \/
  (exists n r h', gets (abs h) k t n r /\ (n <= loop)%nat /\ (forall a, r <> RArr a k) /\ out = Ok (h', r) /\ same (abs h) (abs h') /\ coh h') \/
  ((forall n r, gets (abs h) k t n r -> (loop < n)%nat) /\ exists h', out = Ok (h', RErr ELoop) /\ same (abs h) (abs h') /\ coh h').
Lemma fastget_case : forall h tm k, nofun tm -> (exists r, tm = VTab r /\ luaV_fastget h tm k = Ok (Some (r, luaH_get (h_tab h r) k))) \/ (exists a, tm = VArr a /\ luaV_fastget h tm k = UB) \/ (other tm /\ luaV_fastget h tm k = Ok None).
Proof. intros h [|r|a|u|f|ty z] k (N & F); [contradiction|left; exists r; auto|right; left; exists a; auto| | |]; right; right; (split; [split; discriminate|reflexivity]). Qed.
Lemma pre : forall h t k slot, matches h t k slot -> other t \/ exists r, t = VTab r /\ rawat (abs h) r k = VNil.
Proof. intros h t k slot [(r & -> & _ & N)|(O & _)]; [right; exists r; auto|left; exact O]. Qed.
Lemma gets_inv : forall A k t n r, (other t \/ exists r, t = VTab r /\ rawat A r k = VNil) -> gets A k t n r ->
  (1 <= n)%nat /\ (nofun (event A t TM_INDEX) -> exists m, n = S m /\ gets A k (event A t TM_INDEX) m r).
Proof.
  intros A k t n r P G. inversion G; subst.
  - exfalso. destruct P as [(_ & O)|(x & E & _)]; [apply (O a); reflexivity|discriminate].
  - exfalso. destruct P as [(O & _)|(x & E & N)]; [apply (O r0); reflexivity|injection E as ->; contradiction].
  - split; [lia|]. intros (N & _). congruence.
  - split; [lia|]. intros (N & _). congruence.
  - split; [lia|]. intros (_ & N). exfalso. apply (N f). assumption.
  - split; [lia|]. intros _. exists n0. auto.
Qed.
Lemma finishget_ok : forall loop h t k slot, coh h -> matches h t k slot -> got h k t loop (luaV_finishget loop h t k slot).
Proof.
  induction loop as [|loop IH]; intros h t k slot C M; cbn [luaV_finishget].
  - right. right. split; [intros n r G; apply (gets_inv _ _ _ _ _ (pre _ _ _ _ M)) in G; lia|]. exists h. split; [reflexivity|split; [apply same_refl|exact C]].
  - pose proof (pre _ _ _ _ M) as P. set (tm := event (abs h) t TM_INDEX). set (rest := fun (h0 : heap) (v : value) => if ttisfunction v then match v with VFun f => Ok (h0, RCall f [t] k) | _ => UB end else bind (luaV_fastget h0 v k) (fun slot0 => match slot0 with Some (r, s) => if is_nil (contents s) then luaV_finishget loop h0 v k slot0 else Ok (h0, RVal (contents s)) | None => luaV_finishget loop h0 v k slot0 end)).
    assert (REST : forall h1, same (abs h) (abs h1) -> coh h1 -> tm <> VNil -> got h k t (S loop) (rest h1 tm)).
    { intros h1 SA C1 NN. unfold rest. destruct (ttisfunction tm) eqn:F.
      - destruct tm as [| | | |f|] eqn:TM; try discriminate. right. left. exists 1%nat, (RCall f [t] k), h1. split; [apply G_call; [exact P|exact TM]|]. split; [lia|]. split; [discriminate|]. auto.
      - assert (NF : nofun tm) by (split; [exact NN|]; intros f E; rewrite E in F; discriminate).
        assert (NX : forall n r, gets (abs h1) k tm n r -> gets (abs h) k t (S n) r) by (intros n r G; apply G_next; [exact P|exact NF|]; apply (gets_same (abs h1)); [apply same_sym; exact SA|exact G]).
        assert (XN : forall n r, gets (abs h) k t n r -> exists m, n = S m /\ gets (abs h1) k tm m r) by (intros n r G; destruct (gets_inv _ _ _ _ _ P G) as (_ & X); destruct (X NF) as (m & E & G'); exists m; split; [exact E|]; apply (gets_same (abs h)); [exact SA|exact G']).
        assert (LIFT : forall out, got h1 k tm loop out -> got h k t (S loop) out).
        { intros out [(n & a & G & L & E)|[(n & r & h' & G & L & NA & E & S' & C')|(N & h' & E & S' & C')]].
          - left. exists (S n), a. split; [apply NX; exact G|]. split; [lia|exact E].
          - right. left. exists (S n), r, h'. split; [apply NX; exact G|]. split; [lia|]. split; [exact NA|]. split; [exact E|]. split; [apply (same_trans _ (abs h1)); assumption|exact C'].
          - right. right. split; [intros n r G; destruct (XN n r G) as (m & -> & G'); specialize (N m r G'); lia|]. exists h'. split; [exact E|]. split; [apply (same_trans _ (abs h1)); assumption|exact C']. }
        destruct (fastget_case h1 tm k NF) as [(r & E & ->)|[(a & E & ->)|(O & ->)]]; cbn [bind].
        + destruct (is_nil (contents (luaH_get (h_tab h1 r) k))) eqn:NI.
          * apply LIFT. apply IH; [exact C1|]. left. exists r. split; [exact E|]. split; [reflexivity|]. rewrite rawat_abs. apply is_nil_eq. exact NI.
          * right. left. exists 1%nat, (RVal (contents (luaH_get (h_tab h1 r) k))), h1. split; [apply NX; rewrite E; rewrite <- rawat_abs; apply G_hit; rewrite rawat_abs; intros Q; rewrite Q in NI; discriminate|]. split; [lia|]. split; [discriminate|]. auto.
        + left. exists 1%nat, a. split; [apply NX; rewrite E; constructor|]. split; [lia|reflexivity].
        + apply LIFT. apply IH; [exact C1|]. right. auto. }
    fold rest. destruct M as [(r & E & -> & N)|(O & ->)].
    + destruct (fasttm_ok h t r TM_INDEX C ltac:(unfold TM_INDEX; lia) E) as (h1 & -> & SA & C1). fold tm. destruct (is_nil tm) eqn:NI; [|apply REST; [exact SA|exact C1|intros Q; rewrite Q in NI; discriminate]].
      right. left. exists 1%nat, (RVal VNil), h1. split; [rewrite E; apply G_nil; [exact N|]; rewrite <- E; apply is_nil_eq; exact NI|]. split; [lia|]. split; [discriminate|]. auto.
    + rewrite gettm_ok. fold tm. destruct (is_nil tm) eqn:NI; [|apply REST; [apply same_refl|exact C|intros Q; rewrite Q in NI; discriminate]].
      right. left. exists 1%nat, (RErr EType), h. split; [apply G_err; [exact O|apply is_nil_eq; exact NI]|]. split; [lia|]. split; [discriminate|]. split; [reflexivity|split; [apply same_refl|exact C]].
Qed.
(* ---- assignment ---- *)
Lemma put_same : forall h h' r k v, same (abs h) (abs h') -> same (abs (put h r k v)) (abs (put h' r k v)).
Proof.
  intros h h' r [| |z] v (X & Y); cbn [put]; try (split; assumption). split.
  - intros r0 z0. specialize (X r0 z0). cbn [abs a_raw] in *. rewrite !tab_set. destruct (Nat.eqb_spec r0 r) as [->|]; [|exact X]. cbn [t_raw]. destruct (z0 =? z); [reflexivity|exact X].
  - intros o. specialize (Y o). cbn [abs a_meta] in *. destruct o; try exact Y. rewrite !tab_set. destruct (Nat.eqb_spec r0 r) as [->|]; exact Y.
Qed.
Lemma inval_same : forall h r, same (abs h) (abs (invalidateTMcache h r)).
Proof. intros h r. unfold invalidateTMcache. cbv zeta. split; [intros r0 z|intros [|r0| | | |]; try reflexivity]; cbn [abs a_raw a_meta]; rewrite tab_set; destruct (Nat.eqb_spec r0 r) as [->|]; reflexivity. Qed.
Lemma inval_coh : forall h r k v, coh h -> coh (invalidateTMcache (put h r k v) r).
Proof.
  intros h r k v C r0 e F. unfold invalidateTMcache in *. cbv zeta in *. rewrite tab_set in *. destruct (Nat.eqb_spec r0 r) as [->|N]; [discriminate|]. destruct k as [| |z]; cbn [put] in *; try (apply C; exact F). rewrite tab_set in *. destruct (Nat.eqb_spec r0 r) as [->|]; [contradiction|]. apply C. exact F.
Qed.
Lemma put_coh : forall h r k v, coh h -> (contents (luaH_get (h_tab h r) k) <> VNil \/ exists z, k = K z /\ ~ 0 <= z <= 5) -> coh (put h r k v).
Proof.
  intros h r [| |z] v C P; cbn [put]; try exact C. intros r0 e. rewrite tab_set. destruct (Nat.eqb_spec r0 r) as [->|]; [|apply C]. cbn [t_flags t_raw]. intros F. destruct (C r e F) as (L & E). split; [exact L|]. destruct (Z.eqb_spec e z) as [->|]; [|exact E]. exfalso. destruct P as [P|(z' & EZ & NZ)]; [apply P; exact E|injection EZ as <-; exact (NZ L)].
Qed.
Lemma put_store : forall h B r k v, newkey_err k = None -> same (abs (put h r k v)) B -> store (abs h) r v k B RDone.
Proof.
  intros h B r [| |z] v N (X & Y); try discriminate. apply St_ok.
  - intros r' z'. rewrite <- X. cbn [put abs a_raw]. rewrite tab_set. destruct (Nat.eqb_spec r' r) as [->|]; reflexivity.
  - intros o. rewrite <- Y. cbn [put abs a_meta]. destruct o; try reflexivity. rewrite tab_set. destruct (Nat.eqb_spec r0 r) as [->|]; reflexivity.
Qed.
Lemma store_ok : forall h r k v, coh h -> exists h' o, match luaH_get (h_tab h r) k, newkey_err k with None, Some e => Ok (h, RErr e) | _, _ => Ok (invalidateTMcache (put h r k v) r, RDone) end = Ok (h', o) /\ store (abs h) r v k (abs h') o /\ coh h'.
Proof.
  intros h r [| |z] v C; cbn [luaH_get newkey_err].
  - exists h, (RErr EIndexNil). split; [reflexivity|]. split; [constructor; apply same_refl|exact C].
  - exists h, (RErr EIndexNaN). split; [reflexivity|]. split; [constructor; apply same_refl|exact C].
  - exists (invalidateTMcache (put h r (K z) v) r), RDone. split; [destruct (t_raw (h_tab h r) z); reflexivity|]. split; [apply put_store; [reflexivity|apply inval_same]|apply inval_coh; exact C].
Qed.
Lemma hit_ok : forall h r k v, coh h -> contents (luaH_get (h_tab h r) k) <> VNil -> store (abs h) r v k (abs (put h r k v)) RDone /\ coh (put h r k v).
Proof. intros h r k v C N. split; [apply put_store; [destruct k; [exfalso; apply N; reflexivity|exfalso; apply N; reflexivity|reflexivity]|apply same_refl]|apply put_coh; [exact C|left; exact N]]. Qed.
Lemma stored_back : forall A A' r v k B o, same A A' -> store A' r v k B o -> store A r v k B o.
Proof.
  intros A A' r v k B o H S0. inversion S0; subst.
  - constructor. apply (same_trans _ A'); assumption.
  - constructor. apply (same_trans _ A'); assumption.
  - destruct H as (X & Y). apply St_ok; [intros; rewrite H0, X; reflexivity|intros; rewrite H1; symmetry; apply Y].
Qed.
Definition put_ (h : heap) (k : key) (v t : value) (loop : nat) (out : outcome (heap * res)) : Prop :=
  (exists n a, sets (abs h) k v t n (TRes (RArr a k)) /\ (n <= loop)%nat /\ out = UB) \/
  (exists n r h', sets (abs h) k v t n (TRes r) /\ (n <= loop)%nat /\ (forall a, r <> RArr a k) /\ out = Ok (h', r) /\ same (abs h) (abs h') /\ coh h') \/
  (exists n r h' o, sets (abs h) k v t n (TStore r) /\ (n <= loop)%nat /\ out = Ok (h', o) /\ store (abs h) r v k (abs h') o /\ coh h') \/
  ((forall n r, sets (abs h) k v t n r -> (loop < n)%nat) /\ exists h', out = Ok (h', RErr ELoop) /\ same (abs h) (abs h') /\ coh h').
Lemma sets_inv : forall A k v t n r, (other t \/ exists r, t = VTab r /\ rawat A r k = VNil) -> sets A k v t n r ->
  (1 <= n)%nat /\ (nofun (event A t TM_NEWINDEX) -> exists m, n = S m /\ sets A k v (event A t TM_NEWINDEX) m r).
Proof.
  intros A k v t n r P G. inversion G; subst.
  - exfalso. destruct P as [(_ & O)|(x & E & _)]; [apply (O a); reflexivity|discriminate].
  - exfalso. destruct P as [(O & _)|(x & E & N)]; [apply (O r0); reflexivity|injection E as ->; contradiction].
  - split; [lia|]. intros (N & _). congruence.
  - split; [lia|]. intros (N & _). congruence.
  - split; [lia|]. intros (_ & N). exfalso. apply (N f). assumption.
  - split; [lia|]. intros _. exists n0. auto.
Qed.
Lemma luaH_get_same : forall h h' r k, same (abs h) (abs h') -> luaH_get (h_tab h r) k = luaH_get (h_tab h' r) k.
Proof. intros h h' r [| |z] (X & _); [reflexivity|reflexivity|]. exact (X r z). Qed.
Lemma finishset_ok : forall loop h t k v slot, coh h -> matches h t k slot -> put_ h k v t loop (luaV_finishset loop h t k v slot).
Proof.
  induction loop as [|loop IH]; intros h t k v slot C M; cbn [luaV_finishset].
  - right. right. right. split; [intros n r G; apply (sets_inv _ _ _ _ _ _ (pre _ _ _ _ M)) in G; lia|]. exists h. split; [reflexivity|split; [apply same_refl|exact C]].
  - pose proof (pre _ _ _ _ M) as P. set (tm := event (abs h) t TM_NEWINDEX). set (rest := fun (h0 : heap) (w : value) => if ttisfunction w then match w with VFun f => Ok (h0, RCall f [t; v] k) | _ => UB end else bind (luaV_fastget h0 w k) (fun slot0 => match slot0 with Some (r, s) => if is_nil (contents s) then luaV_finishset loop h0 w k v slot0 else Ok (put h0 r k v, RDone) | None => luaV_finishset loop h0 w k v slot0 end)).
    assert (REST : forall h1, same (abs h) (abs h1) -> coh h1 -> tm <> VNil -> put_ h k v t (S loop) (rest h1 tm)).
    { intros h1 SA C1 NN. unfold rest. destruct (ttisfunction tm) eqn:F.
      - destruct tm as [| | | |f|] eqn:TM; try discriminate. right. left. exists 1%nat, (RCall f [t; v] k), h1. split; [apply S_call; [exact P|exact TM]|]. split; [lia|]. split; [discriminate|]. auto.
      - assert (NF : nofun tm) by (split; [exact NN|]; intros f E; rewrite E in F; discriminate).
        assert (NX : forall n r, sets (abs h1) k v tm n r -> sets (abs h) k v t (S n) r) by (intros n r G; apply S_next; [exact P|exact NF|]; apply (sets_same (abs h1)); [apply same_sym; exact SA|exact G]).
        assert (XN : forall n r, sets (abs h) k v t n r -> exists m, n = S m /\ sets (abs h1) k v tm m r) by (intros n r G; destruct (sets_inv _ _ _ _ _ _ P G) as (_ & X); destruct (X NF) as (m & E & G'); exists m; split; [exact E|]; apply (sets_same (abs h)); [exact SA|exact G']).
        assert (LIFT : forall out, put_ h1 k v tm loop out -> put_ h k v t (S loop) out).
        { intros out [(n & a & G & L & E)|[(n & r & h' & G & L & NA & E & S' & C')|[(n & r & h' & o & G & L & E & SO & C')|(N & h' & E & S' & C')]]].
          - left. exists (S n), a. split; [apply NX; exact G|]. split; [lia|exact E].
          - right. left. exists (S n), r, h'. split; [apply NX; exact G|]. split; [lia|]. split; [exact NA|]. split; [exact E|]. split; [apply (same_trans _ (abs h1)); assumption|exact C'].
          - right. right. left. exists (S n), r, h', o. split; [apply NX; exact G|]. split; [lia|]. split; [exact E|]. split; [apply (stored_back _ (abs h1)); assumption|exact C'].
          - right. right. right. split; [intros n r G; destruct (XN n r G) as (m & -> & G'); specialize (N m r G'); lia|]. exists h'. split; [exact E|]. split; [apply (same_trans _ (abs h1)); assumption|exact C']. }
        destruct (fastget_case h1 tm k NF) as [(r & E & ->)|[(a & E & ->)|(O & ->)]]; cbn [bind].
        + destruct (is_nil (contents (luaH_get (h_tab h1 r) k))) eqn:NI.
          * apply LIFT. apply IH; [exact C1|]. left. exists r. split; [exact E|]. split; [reflexivity|]. rewrite rawat_abs. apply is_nil_eq. exact NI.
          * assert (NE : contents (luaH_get (h_tab h1 r) k) <> VNil) by (intros Q; rewrite Q in NI; discriminate). destruct (hit_ok h1 r k v C1 NE) as (SO & C2). right. right. left. exists 1%nat, r, (put h1 r k v), RDone. split; [apply NX; rewrite E; apply S_hit; rewrite rawat_abs; exact NE|]. split; [lia|]. split; [reflexivity|]. split; [|exact C2]. apply (stored_back _ (abs h1)); [exact SA|exact SO].
        + left. exists 1%nat, a. split; [apply NX; rewrite E; constructor|]. split; [lia|reflexivity].
        + apply LIFT. apply IH; [exact C1|]. right. auto. }
    fold rest. destruct M as [(r & E & -> & N)|(O & ->)].
    + destruct (fasttm_ok h t r TM_NEWINDEX C ltac:(unfold TM_NEWINDEX; lia) E) as (h1 & -> & SA & C1). fold tm. destruct (is_nil tm) eqn:NI; [|apply REST; [exact SA|exact C1|intros Q; rewrite Q in NI; discriminate]].
      rewrite (luaH_get_same h h1 r k SA). destruct (store_ok h1 r k v C1) as (h' & o & EQ & SO & C2). rewrite EQ. right. right. left. exists 1%nat, r, h', o. split; [rewrite E; apply S_new; [exact N|]; rewrite <- E; apply is_nil_eq; exact NI|]. split; [lia|]. split; [reflexivity|]. split; [|exact C2]. apply (stored_back _ (abs h1)); [exact SA|exact SO].
    + rewrite gettm_ok. fold tm. destruct (is_nil tm) eqn:NI; [|apply REST; [apply same_refl|exact C|intros Q; rewrite Q in NI; discriminate]].
      right. left. exists 1%nat, (RErr EType), h. split; [apply S_err; [exact O|apply is_nil_eq; exact NI]|]. split; [lia|]. split; [discriminate|]. split; [reflexivity|split; [apply same_refl|exact C]].
Qed.

(* ---- operations ---- *)
Lemma get_ok : forall h t k, coh h -> got h k t limit (getfield h t k).
Proof.
  intros h t k C. unfold getfield, luaV_fastget. destruct t as [|r|a|u|f|ty z]; cbn [ttistable bind]; try (apply finishget_ok; [exact C|right; split; [split; discriminate|reflexivity]]).
  - destruct (is_nil (contents (luaH_get (h_tab h r) k))) eqn:NI; [apply finishget_ok; [exact C|]; left; exists r; split; [reflexivity|]; split; [reflexivity|]; rewrite rawat_abs; apply is_nil_eq; exact NI|].
    right. left. exists 0%nat, (RVal (contents (luaH_get (h_tab h r) k))), h. split; [rewrite <- rawat_abs; apply G_hit; rewrite rawat_abs; intros Q; rewrite Q in NI; discriminate|]. split; [lia|]. split; [discriminate|]. split; [reflexivity|]. split; [apply same_refl|exact C].
  - left. exists 0%nat, a. split; [constructor|]. split; [lia|reflexivity].
Qed.
Lemma set_ok : forall h t k v, coh h -> put_ h k v t limit (setfield h t k v).
Proof.
  intros h t k v C. unfold setfield, luaV_fastget. destruct t as [|r|a|u|f|ty z]; cbn [ttistable bind]; try (apply finishset_ok; [exact C|right; split; [split; discriminate|reflexivity]]).
  - destruct (is_nil (contents (luaH_get (h_tab h r) k))) eqn:NI; [apply finishset_ok; [exact C|]; left; exists r; split; [reflexivity|]; split; [reflexivity|]; rewrite rawat_abs; apply is_nil_eq; exact NI|].
    assert (NE : contents (luaH_get (h_tab h r) k) <> VNil) by (intros Q; rewrite Q in NI; discriminate). destruct (hit_ok h r k v C NE) as (SO & C2). right. right. left. exists 0%nat, r, (put h r k v), RDone. split; [apply S_hit; rewrite rawat_abs; exact NE|]. split; [lia|]. split; [reflexivity|]. split; [exact SO|exact C2].
  - left. exists 0%nat, a. split; [constructor|]. split; [lia|reflexivity].
Qed.
Lemma gettable_eq : forall h t k, (forall a, t <> VArr a) -> gettable h t k = getfield h t k.
Proof. intros h t k N. unfold gettable, getfield, luaV_fastget. generalize MAXTAGLOOP. intros lim. destruct t as [|r|a|u|f|ty z]; cbn [ttistable bind]; try reflexivity. exfalso. apply (N a). reflexivity. Qed.
Lemma settable_eq : forall h t k v, (forall a, t <> VArr a) -> settable h t k v = setfield h t k v.
Proof. intros h t k v N. unfold settable, setfield, luaV_fastget. generalize MAXTAGLOOP. intros lim. destruct t as [|r|a|u|f|ty z]; cbn [ttistable bind]; try reflexivity. exfalso. apply (N a). reflexivity. Qed.
Lemma gets_det : forall A k t n r, gets A k t n r -> forall n' r', gets A k t n' r' -> n = n' /\ r = r'.
Proof.
  intros A k t n r G. induction G as [a|r0 N|r0 N N'|t O N|t f O N|t n r O N G IH]; intros n' r' G'; inversion G'; subst; auto;
  repeat match goal with
  | H : other _ \/ (exists _, _) |- _ => destruct H as [H|(? & H & ?)]
  | H : other (VTab ?r) |- _ => destruct H as (H & _); exfalso; apply (H r); reflexivity
  | H : other (VArr ?r) |- _ => destruct H as (_ & H); exfalso; apply (H r); reflexivity
  | H : VTab _ = VTab _ |- _ => injection H as H; subst
  | H : VArr _ = VTab _ |- _ => discriminate H
  | H : nofun ?x |- _ => destruct H as (? & ?)
  end; try congruence; try (exfalso; match goal with H : forall f, ?x <> VFun f, E : ?x = VFun ?g |- _ => exact (H g E) end);
  try (match goal with H : gets _ _ _ _ r' |- _ => destruct (IH _ _ H) as (-> & ->); auto end); try (split; congruence).
Qed.
Lemma sets_det : forall A k v t n r, sets A k v t n r -> forall n' r', sets A k v t n' r' -> n = n' /\ r = r'.
Proof.
  intros A k v t n r G. induction G as [a|r0 N|r0 N N'|t O N|t f O N|t n r O N G IH]; intros n' r' G'; inversion G'; subst; auto;
  repeat match goal with
  | H : other _ \/ (exists _, _) |- _ => destruct H as [H|(? & H & ?)]
  | H : other (VTab ?r) |- _ => destruct H as (H & _); exfalso; apply (H r); reflexivity
  | H : other (VArr ?r) |- _ => destruct H as (_ & H); exfalso; apply (H r); reflexivity
  | H : VTab _ = VTab _ |- _ => injection H as H; subst
  | H : VArr _ = VTab _ |- _ => discriminate H
  | H : nofun ?x |- _ => destruct H as (? & ?)
  end; try congruence; try (exfalso; match goal with H : forall f, ?x <> VFun f, E : ?x = VFun ?g |- _ => exact (H g E) end);
  try (match goal with H : sets _ _ _ _ _ r' |- _ => destruct (IH _ _ H) as (-> & ->); auto end); try (split; congruence).
Qed.
Lemma step_ok : forall h o, coh h -> wellformed o -> (meets_array (abs h) o /\ step h o = UB) \/ (~ meets_array (abs h) o /\ exists h' r, step h o = Ok (h', r) /\ astep (abs h) o (abs h') r /\ coh h').
Proof.
  intros h o C W. destruct o as [t k|t k v|t k|t k v|r k v|r z v|o m|r e|r]; cbn [step meets_array].
  - assert (DA : (exists a, t = VArr a) \/ forall a, t <> VArr a) by (destruct t as [|r|a|u|f|ty z]; [right; discriminate|right; discriminate|left; exists a; reflexivity| | |]; right; discriminate). destruct DA as [(a & ->)|NA].
    + right. split; [intros (n & a' & L & G); inversion G; subst; [lia|]; match goal with H : other (VArr _) \/ _ |- _ => destruct H as [(_ & H)|(? & H & _)]; [apply (H a); reflexivity|discriminate] end|]. exists h, (RArr a k). split; [reflexivity|]. split; [apply (A_get _ _ _ 0); [constructor|lia|apply same_refl]|exact C].
    + rewrite gettable_eq by exact NA. destruct (get_ok h t k C) as [(n & a & G & L & E)|[(n & r & h' & G & L & ND & E & S' & C')|(N & h' & E & S' & C')]].
      * left. split; [|exact E]. exists n, a. split; [|exact G]. split; [|exact L]. destruct n; [|lia]. inversion G; subst. exfalso. apply (NA a). reflexivity.
      * right. split; [intros (m & a & _ & G'); destruct (gets_det _ _ _ _ _ G _ _ G') as (_ & Q); apply (ND a Q)|]. exists h', r. split; [exact E|]. split; [apply (A_get _ _ _ n); assumption|exact C'].
      * right. split; [intros (m & a & L & G'); specialize (N _ _ G'); lia|]. exists h', (RErr ELoop). split; [exact E|]. split; [apply A_getloop; assumption|exact C'].
  - assert (DA : (exists a, t = VArr a) \/ forall a, t <> VArr a) by (destruct t as [|r|a|u|f|ty z]; [right; discriminate|right; discriminate|left; exists a; reflexivity| | |]; right; discriminate). destruct DA as [(a & ->)|NA].
    + right. split; [intros (n & a' & L & G); inversion G; subst; [lia|]; match goal with H : other (VArr _) \/ _ |- _ => destruct H as [(_ & H)|(? & H & _)]; [apply (H a); reflexivity|discriminate] end|]. exists h, (RArr a k). split; [reflexivity|]. split; [apply (A_setres _ _ _ _ 0); [constructor|lia|apply same_refl]|exact C].
    + rewrite settable_eq by exact NA. destruct (set_ok h t k v C) as [(n & a & G & L & E)|[(n & r & h' & G & L & ND & E & S' & C')|[(n & r & h' & o & G & L & E & SO & C')|(N & h' & E & S' & C')]]].
      * left. split; [|exact E]. exists n, a. split; [|exact G]. split; [|exact L]. destruct n; [|lia]. inversion G; subst. exfalso. apply (NA a). reflexivity.
      * right. split; [intros (m & a & _ & G'); destruct (sets_det _ _ _ _ _ _ G _ _ G') as (_ & Q); injection Q as Q; apply (ND a Q)|]. exists h', r. split; [exact E|]. split; [apply (A_setres _ _ _ _ n); assumption|exact C'].
      * right. split; [intros (m & a & _ & G'); destruct (sets_det _ _ _ _ _ _ G _ _ G') as (_ & Q); discriminate|]. exists h', o. split; [exact E|]. split; [apply (A_set _ _ _ _ n r); assumption|exact C'].
      * right. split; [intros (m & a & L & G'); specialize (N _ _ G'); lia|]. exists h', (RErr ELoop). split; [exact E|]. split; [apply A_setloop; assumption|exact C'].
  - destruct (get_ok h t k C) as [(n & a & G & L & E)|[(n & r & h' & G & L & ND & E & S' & C')|(N & h' & E & S' & C')]].
    + left. split; [|exact E]. exists n, a. auto.
    + right. split; [intros (m & a & _ & G'); destruct (gets_det _ _ _ _ _ G _ _ G') as (_ & Q); apply (ND a Q)|]. exists h', r. split; [exact E|]. split; [apply (A_getfield _ _ _ n); assumption|exact C'].
    + right. split; [intros (m & a & L & G'); specialize (N _ _ G'); lia|]. exists h', (RErr ELoop). split; [exact E|]. split; [apply A_getfieldloop; assumption|exact C'].
  - destruct (set_ok h t k v C) as [(n & a & G & L & E)|[(n & r & h' & G & L & ND & E & S' & C')|[(n & r & h' & o & G & L & E & SO & C')|(N & h' & E & S' & C')]]].
    + left. split; [|exact E]. exists n, a. auto.
    + right. split; [intros (m & a & _ & G'); destruct (sets_det _ _ _ _ _ _ G _ _ G') as (_ & Q); injection Q as Q; apply (ND a Q)|]. exists h', r. split; [exact E|]. split; [apply (A_setfieldres _ _ _ _ n); assumption|exact C'].
    + right. split; [intros (m & a & _ & G'); destruct (sets_det _ _ _ _ _ _ G _ _ G') as (_ & Q); discriminate|]. exists h', o. split; [exact E|]. split; [apply (A_setfield _ _ _ _ n r); assumption|exact C'].
    + right. split; [intros (m & a & L & G'); specialize (N _ _ G'); lia|]. exists h', (RErr ELoop). split; [exact E|]. split; [apply A_setfieldloop; assumption|exact C'].
  - right. split; [tauto|]. destruct (store_ok h r k v C) as (h' & o & EQ & SO & C2). exists h', o. split; [exact EQ|]. split; [constructor; exact SO|exact C2].
  - right. split; [tauto|]. exists (put h r (K z) v), RDone. split; [reflexivity|]. split; [constructor; apply put_store; [reflexivity|apply same_refl]|]. apply put_coh; [exact C|right; exists z; auto].
  - right. split; [tauto|]. exists (setmetatable h o m), RDone. split; [reflexivity|]. assert (TB : forall r, t_raw (h_tab (setmetatable h o m) r) = t_raw (h_tab h r) /\ t_flags (h_tab (setmetatable h o m) r) = t_flags (h_tab h r)) by (intros r; destruct o; cbn [setmetatable h_tab]; auto; rewrite tab_set; destruct (Nat.eqb_spec r r0) as [->|]; auto). split.
    + apply A_setmeta.
      * intros r z. cbn [abs a_raw]. destruct (TB r) as (-> & _). reflexivity.
      * destruct o; cbn [setmetatable owner abs a_meta h_tab h_ameta h_umeta h_base]; rewrite ?tab_set, ?Nat.eqb_refl; reflexivity.
      * intros x NX. destruct o; cbn [setmetatable owner abs a_meta h_tab h_ameta h_umeta h_base] in *; destruct x; try reflexivity; rewrite ?tab_set;
        repeat match goal with
        | |- context [Nat.eqb ?a ?b] => destruct (Nat.eqb_spec a b)
        | |- context [Z.eqb ?a ?b] => destruct (Z.eqb_spec a b)
        | |- context [match ?f with O => _ | S _ => _ end] => destruct f
        end; try reflexivity; exfalso; apply NX; congruence.
    + intros r e F. destruct (TB r) as (E1 & E2). rewrite E1. rewrite E2 in F. apply C. exact F.
  - right. split; [tauto|]. unfold hasevent. destruct (fasttm_ok h (VTab r) r e C W eq_refl) as (h1 & E & SA & C1). rewrite E. eexists. eexists. split; [reflexivity|]. split; [|exact C1]. replace (contents (if is_nil (event (abs h) (VTab r) e) then None else Some (event (abs h) (VTab r) e))) with (event (abs h) (VTab r) e) by (destruct (event (abs h) (VTab r) e); reflexivity). constructor. exact SA.
  - right. split; [tauto|]. eexists. eexists. split; [reflexivity|]. split.
    + apply A_new.
      * intros r' z. cbn [abs a_raw]. rewrite tab_set. destruct (Nat.eqb_spec r' r) as [->|]; reflexivity.
      * cbn [abs a_meta]. rewrite tab_set, Nat.eqb_refl. reflexivity.
      * intros x NX. cbn [abs a_meta]. destruct x; try reflexivity. rewrite tab_set. destruct (Nat.eqb_spec r0 r) as [->|]; [exfalso; apply NX; reflexivity|reflexivity].
    + intros r0 e. rewrite tab_set. destruct (Nat.eqb_spec r0 r) as [->|]; [|apply C]. cbn [t_flags t_raw contents]. intros F. apply andb_prop in F. split; [lia|reflexivity].
Qed.

Lemma runs_coh : forall h, runs h -> coh h.
Proof.
  intros h R. induction R as [|h o h' r R IH W E]; [intros r e F; discriminate|]. destruct (step_ok h o IH W) as [(_ & U)|(_ & h1 & r1 & E1 & _ & C1)]; [congruence|]. rewrite E1 in E. injection E as <- _. exact C1.
Qed.
Lemma refines : forall h o, runs h -> wellformed o -> ~ meets_array (abs h) o -> exists h' r, step h o = Ok (h', r) /\ astep (abs h) o (abs h') r.
Proof. intros h o R W N. destruct (step_ok h o (runs_coh h R) W) as [(M & _)|(_ & h' & r & E & A & _)]; [contradiction|]. exists h', r. auto. Qed.
Lemma array_ub : forall h o, runs h -> wellformed o -> meets_array (abs h) o -> step h o = UB.
Proof. intros h o R W M. destruct (step_ok h o (runs_coh h R) W) as [(_ & E)|(N & _)]; [exact E|contradiction]. Qed.
Lemma cache : forall h r e, runs h -> 0 <= e <= 5 -> snd (fasttm h (t_meta (h_tab h r)) e) = match event (abs h) (VTab r) e with VNil => None | v => Some v end.
Proof. intros h r e R L. destruct (fasttm_ok h (VTab r) r e (runs_coh h R) L eq_refl) as (h' & -> & _). cbn [snd]. destruct (event (abs h) (VTab r) e); reflexivity. Qed.
Lemma store_det : forall A r v k B o B' o', store A r v k B o -> store A r v k B' o' -> same B B' /\ o = o'.
Proof.
  intros A r v k B o B' o' S1 S2. inversion S1; subst; inversion S2; subst.
  - split; [apply (same_trans _ A); [apply same_sym|]; assumption|reflexivity].
  - split; [apply (same_trans _ A); [apply same_sym|]; assumption|reflexivity].
  - split; [|reflexivity]. split; intros; repeat match goal with H : forall _ _, a_raw ?X _ _ = _ |- context [a_raw ?X _ _] => rewrite H | H : forall _, a_meta ?X _ = _ |- context [a_meta ?X _] => rewrite H end; reflexivity.
Qed.
Lemma unique : forall A o B r B' r', astep A o B r -> astep A o B' r' -> same B B' /\ r = r'.
Proof.
  intros A o B r B' r' S1 S2. destruct S1; inversion S2; subst;
  repeat match goal with
  | H : gets ?A ?k ?t _ _, H' : gets ?A ?k ?t _ _ |- _ => destruct (gets_det _ _ _ _ _ H _ _ H') as (-> & ->); clear H
  | H : sets ?A ?k ?v ?t _ _, H' : sets ?A ?k ?v ?t _ _ |- _ => let Q := fresh "Q" in destruct (sets_det _ _ _ _ _ _ H _ _ H') as (-> & Q); clear H; (discriminate Q || (injection Q as ->))
  | H : forall n r, gets ?A ?k ?t n r -> _, H' : gets ?A ?k ?t _ _ |- _ => exfalso; specialize (H _ _ H'); lia
  | H : forall n r, sets ?A ?k ?v ?t n r -> _, H' : sets ?A ?k ?v ?t _ _ |- _ => exfalso; specialize (H _ _ H'); lia
  end; try (split; [apply (same_trans _ A); [apply same_sym|]; assumption|reflexivity]).
  - eapply store_det; eassumption.
  - eapply store_det; eassumption.
  - eapply store_det; eassumption.
  - eapply store_det; eassumption.
  - split; [|reflexivity]. split; [intros; repeat match goal with H : forall _ _, a_raw ?X _ _ = _ |- context [a_raw ?X _ _] => rewrite H | H : forall _, a_meta ?X _ = _ |- context [a_meta ?X _] => rewrite H end; reflexivity|]. intros x. assert (D : x = owner o \/ x <> owner o) by (repeat decide equality). destruct D as [->|N]; [congruence|]. repeat match goal with H : forall x, _ -> a_meta _ x = _ |- _ => specialize (H x N) end. congruence.
  - split; [|reflexivity]. split; [intros; repeat match goal with H : forall _ _, a_raw ?X _ _ = _ |- context [a_raw ?X _ _] => rewrite H | H : forall _, a_meta ?X _ = _ |- context [a_meta ?X _] => rewrite H end; reflexivity|]. intros x. assert (D : x = VTab r \/ x <> VTab r) by (repeat decide equality). destruct D as [->|N]; [congruence|]. repeat match goal with H : forall x, _ -> a_meta _ x = _ |- _ => specialize (H x N) end. congruence.
Qed.
Fixpoint steps (h : heap) (l : list op) : outcome (heap * list res) :=
  match l with [] => Ok (h, []) | o :: l => bind (step h o) (fun '(h, r) => bind (steps h l) (fun '(h, rs) => Ok (h, r :: rs))) end.
Lemma steps_runs : forall l h h' rs, runs h -> Forall wellformed l -> steps h l = Ok (h', rs) -> runs h'.
Proof.
  induction l as [|o l IH]; intros h h' rs R W E; cbn [steps] in E; [injection E as <- _; exact R|]. inversion W; subst. destruct (step h o) as [[h1 r]| | |] eqn:S1; try discriminate. cbn [bind] in E. destruct (steps h1 l) as [[h2 rs2]| | |] eqn:S2; try discriminate. cbn [bind] in E. injection E as <- _. apply (IH h1 h2 rs2); [apply (R_step h o h1 r); assumption|assumption|exact S2].
Qed.
Definition array_index : list op := [ONew 1; OSet (VTab 1) (K 0) (VArr 7); ONew 2; OSetMeta (VTab 2) (Some 1%nat)].
Lemma array_index_ub : exists h rs, steps empty array_index = Ok (h, rs) /\ step h (OGet (VTab 2) (K 50)) = UB /\ step h (OGetField (VArr 7) (K 50)) = UB.
Proof. eexists. eexists. split; [vm_compute; reflexivity|]. split; vm_compute; reflexivity. Qed.
Lemma array_refuted : ~ (forall h o, runs h -> wellformed o -> exists h' r, step h o = Ok (h', r)).
Proof.
  intros H. destruct array_index_ub as (h & rs & E & U & _). assert (R : runs h) by (apply (steps_runs array_index empty h rs); [constructor|repeat constructor|exact E]). destruct (H h (OGet (VTab 2) (K 50)) R I) as (h' & r & Q). rewrite U in Q. discriminate.
Qed.
