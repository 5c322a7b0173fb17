(* Facts about lists of gotos and labels, and the loops of the parser over them. *)
Require Import List Bool Arith Lia.
From Verif Require Import Base Goto_model Goto_spec.
Import ListNotations.
Local Open Scope nat_scope.

Lemma implement_app : forall a b c d, implement a b -> implement c d -> implement (a ++ c) (b ++ d).
Proof.
  intros a b c d [A1 A2] [B1 B2]. split; intros x H; apply in_app_or in H as [H|H].
  - destruct (A1 _ H) as (j & I & D); exists j; auto using in_or_app.
  - destruct (B1 _ H) as (j & I & D); exists j; auto using in_or_app.
  - destruct (A2 _ H) as (j & I & D); exists j; auto using in_or_app.
  - destruct (B2 _ H) as (j & I & D); exists j; auto using in_or_app.
Qed.
Lemma implement_ext : forall a b b', implement a b -> (forall j, In j b <-> In j b') -> implement a b'.
Proof.
  intros a b b' [A1 A2] E. split.
  - intros e H. destruct (A1 _ H) as (j & I & D). exists j. split; auto. now apply E.
  - intros j H. apply A2. now apply E.
Qed.
Lemma implement_nil : implement [] [].
Proof. split; intros x []. Qed.
Lemma implement_one : forall e j, does e j -> implement [e] [j].
Proof. intros e j D. split; intros x [<-|[]]; eexists; split; [left; reflexivity|auto|left; reflexivity|auto]. Qed.

(* lookup in lists of labels *)
Lemma resolve_app : forall A B u, resolve (A ++ B) u = match resolve A u with Some t => Some t | None => resolve B u end.
Proof. intros A B u. unfold resolve. induction A as [|a A IH]; simpl; [reflexivity|]. destruct (tname a =? sname u); auto. Qed.
Lemma unresolved_app : forall A B u, unresolved (A ++ B) u = unresolved A u && unresolved B u.
Proof. intros A B u. unfold unresolved. rewrite resolve_app. destruct (resolve A u); reflexivity. Qed.
Lemma filter_filter : forall A (f g : A -> bool) l, filter f (filter g l) = filter (fun x => g x && f x) l.
Proof. intros A f g l. induction l as [|a l IH]; simpl; [reflexivity|]. destruct (g a); simpl; [destruct (f a); now rewrite IH|assumption]. Qed.
Lemma filter_unresolved_app : forall A B l, filter (unresolved (A ++ B)) l = filter (unresolved B) (filter (unresolved A) l).
Proof. intros A B l. rewrite filter_filter. apply filter_ext. intro u. apply unresolved_app. Qed.
Lemma resolved_app2 : forall T a b, resolved T (a ++ b) = resolved T a ++ resolved T b.
Proof. intros. unfold resolved. apply flat_map_app. Qed.
Lemma resolved_split : forall A B l j, In j (resolved (A ++ B) l) <-> In j (resolved A l ++ resolved B (filter (unresolved A) l)).
Proof.
  intros A B l j. rewrite in_app_iff. unfold resolved. induction l as [|u l IH]; simpl; [tauto|].
  rewrite !in_app_iff, IH, resolve_app. unfold unresolved at 2. destruct (resolve A u) as [t|]; simpl; [tauto|].
  rewrite in_app_iff. destruct (resolve B u); simpl; tauto.
Qed.
Lemma allowed_app2 : forall T a b, allowed T (a ++ b) = allowed T a && allowed T b.
Proof. intros. unfold allowed. apply forallb_app. Qed.
Lemma allowed_split : forall A B l, allowed (A ++ B) l = allowed A l && allowed B (filter (unresolved A) l).
Proof.
  intros A B l. unfold allowed. induction l as [|u l IH]; simpl; [reflexivity|].
  rewrite IH, resolve_app. unfold unresolved at 2. destruct (resolve A u) as [t|]; simpl; [now rewrite andb_assoc|].
  destruct (resolve B u); simpl; [|reflexivity]. rewrite !andb_assoc. f_equal. apply andb_comm.
Qed.

Lemma resolve_one : forall t u, resolve [t] u = if tname t =? sname u then Some t else None.
Proof. reflexivity. Qed.
Lemma allowed_cons : forall T u us, allowed T (u :: us) = match resolve T u with Some t => tneeds t <=? svars u | None => true end && allowed T us.
Proof. reflexivity. Qed.
Lemma resolved_cons : forall T u us, resolved T (u :: us) = match resolve T u with Some t => [mkJ (spc u) (tpc t) (min (svars u) (tvars t)) (scapt u)] | None => [] end ++ resolved T us.
Proof. reflexivity. Qed.
Lemma filter_cons : forall T u us, filter (unresolved T) (u :: us) = match resolve T u with Some _ => filter (unresolved T) us | None => u :: filter (unresolved T) us end.
Proof. intros. simpl. unfold unresolved at 1. destruct (resolve T u); reflexivity. Qed.

(* a pending goto of the parser and the goto it stands for *)
Definition pending (g : goto) (u : source) : Prop :=
  gname g = sname u /\ gpc g = spc u /\ gnact g = svars u /\ (gA g = 0 \/ svars u < gA g) /\ forall r, In r (scapt u) -> svars u <= r -> 0 < gA g <= r + 1.
Definition entry (t : target) : label := mkL (tname t) (tpc t) (tneeds t).

Lemma find_entry : forall T g u, gname g = sname u -> find (fun lb => lname lb =? gname g) (map entry T) = option_map entry (resolve T u).
Proof. intros T g u E. unfold resolve. induction T as [|t T IH]; simpl; [reflexivity|]. rewrite E in *. destruct (tname t =? sname u); auto. Qed.

Lemma nth_mid : forall A (G : list A) x P, nth_error (G ++ x :: P) (length G) = Some x.
Proof. intros. rewrite nth_error_app2 by lia. now rewrite Nat.sub_diag. Qed.
Lemma firstn_mid : forall A (G P : list A), firstn (length G) (G ++ P) = G.
Proof. intros. rewrite firstn_app, Nat.sub_diag, firstn_all. now rewrite app_nil_r. Qed.
Lemma skipn_mid : forall A (G : list A) x P, skipn (S (length G)) (G ++ x :: P) = P.
Proof. intros. induction G as [|a G IH]; simpl; auto. Qed.
Lemma skipn_pre : forall A (G P : list A), skipn (length G) (G ++ P) = P.
Proof. intros. induction G as [|a G IH]; simpl; auto. Qed.

(* the forward search *)
Lemma findgotos_spec : forall P PS fuel p n G L B lg t,
  Forall2 pending P PS -> length P <= fuel -> Forall (fun u => svars u <= tvars t) PS ->
  if allowed [t] PS
  then exists P' d, findgotos fuel (mkS p n (G ++ P) L B lg) (length G) (entry t) = Ok (mkS p n (G ++ P') L B (lg ++ d)) /\
       Forall2 pending P' (filter (unresolved [t]) PS) /\ implement d (resolved [t] PS)
  else exists e, findgotos fuel (mkS p n (G ++ P) L B lg) (length G) (entry t) = Err e.
Proof.
  intros P. induction P as [|g P IH]; intros PS fuel p n G L B lg t F Le V.
  - inversion F; subst. simpl. exists [], []. split; [|split; [constructor|apply implement_nil]].
    rewrite !app_nil_r. destruct fuel; simpl; rewrite Nat.leb_refl; reflexivity.
  - inversion F as [|? u ? PS' R F']; subst. inversion V as [|? ? Vu V']; subst. destruct fuel as [|fuel]; [simpl in Le; lia|].
    simpl in Le. cbn [findgotos gts]. rewrite (proj2 (Nat.leb_gt _ _)) by (rewrite app_length; simpl; lia). rewrite nth_mid.
    destruct R as (R1 & R2 & R3 & R4 & R5). rewrite R1. change (lname (entry t)) with (tname t). rewrite Nat.eqb_sym.
    rewrite allowed_cons, resolved_cons, filter_cons, resolve_one. destruct (tname t =? sname u) eqn:En.
    + unfold closegoto. cbn [gts]. rewrite nth_mid. change (lnact (entry t)) with (tneeds t). rewrite R3. destruct (tneeds t <=? svars u) eqn:Q.
      * rewrite (proj2 (Nat.ltb_ge _ _)) by now apply Nat.leb_le. change (lpc (entry t)) with (tpc t). cbn [bind pc nact labs bls Goto_model.log gts]. rewrite firstn_mid, skipn_mid.
        specialize (IH PS' fuel p n G L B (lg ++ [(gpc g, lpc (entry t), gA g)]) t F' ltac:(lia) V'). cbn [andb]. destruct (allowed [t] PS').
        -- destruct IH as (P' & d & E & FP & I). exists P', ((gpc g, tpc t, gA g) :: d). change (lpc (entry t)) with (tpc t) in *. split; [rewrite E; do 2 f_equal; now rewrite <- app_assoc|]. split; [exact FP|].
           apply (implement_app [_] [_]); [|exact I]. apply implement_one. cbn. split; [exact R2|]. split; [reflexivity|].
           rewrite Nat.min_l by exact Vu. auto.
        -- exact IH.
      * rewrite (proj2 (Nat.ltb_lt _ _)) by now apply Nat.leb_gt. simpl. now eexists.
    + specialize (IH PS' fuel p n (G ++ [g]) L B lg t F' ltac:(lia) V'). rewrite <- app_assoc in IH. simpl app in IH. rewrite app_length in IH. simpl length in IH. rewrite Nat.add_1_r in IH.
      cbn [andb]. destruct (allowed [t] PS').
      * destruct IH as (P' & d & E & FP & I). exists (g :: P'), d. split; [rewrite E; do 2 f_equal; now rewrite <- app_assoc|]. split; [|exact I]. constructor; [|exact FP]. unfold pending; auto.
      * exact IH.
Qed.

(* the backward search, for the goto behind G *)
Lemma findlabel_spec : forall g u p n G R L0 LS bl B lg,
  pending g u -> firstlabel bl = length L0 -> Forall (fun t => tneeds t = tvars t) LS ->
  match resolve LS u with
  | None => findlabel (mkS p n (G ++ g :: R) (L0 ++ map entry LS) (bl :: B) lg) (length G) = Ok (mkS p n (G ++ g :: R) (L0 ++ map entry LS) (bl :: B) lg, false)
  | Some t => if tneeds t <=? svars u
    then exists e, findlabel (mkS p n (G ++ g :: R) (L0 ++ map entry LS) (bl :: B) lg) (length G) = Ok (mkS p n (G ++ R) (L0 ++ map entry LS) (bl :: B) (lg ++ [e]), true) /\
         does e (mkJ (spc u) (tpc t) (min (svars u) (tvars t)) (scapt u))
    else exists e, findlabel (mkS p n (G ++ g :: R) (L0 ++ map entry LS) (bl :: B) lg) (length G) = Err e
  end.
Proof.
  intros g u p n G R L0 LS bl B lg (R1 & R2 & R3 & R4 & R5) Fl Pl. unfold findlabel. cbn [bls gts labs]. rewrite nth_mid, Fl, skipn_pre, (find_entry _ _ u R1).
  destruct (resolve LS u) as [t|] eqn:Er; cbn [option_map]; [|reflexivity].
  assert (It : In t LS) by (unfold resolve in Er; now apply find_some in Er).
  assert (Pt : tneeds t = tvars t) by (rewrite Forall_forall in Pl; auto).
  assert (Ln : (length L0 <? length (L0 ++ map entry LS)) = true) by (apply Nat.ltb_lt; rewrite app_length, map_length; destruct LS; [destruct It|simpl; lia]).
  rewrite Ln, orb_true_r, andb_true_r. change (lnact (entry t)) with (tneeds t). rewrite R3.
  destruct (tneeds t <? svars u) eqn:Lt.
  - apply Nat.ltb_lt in Lt. rewrite (proj2 (Nat.leb_le _ _)) by lia. unfold closegoto, set_goto. cbn [gts pc nact labs bls Goto_model.log].
    rewrite firstn_mid, skipn_mid, nth_mid. cbn [patchclose gnact gpc gA lnact entry]. rewrite R3, (proj2 (Nat.ltb_ge _ _)) by lia. cbn [bind]. rewrite firstn_mid, skipn_mid.
    eexists. split; [reflexivity|]. cbn. rewrite Nat.min_r by lia. repeat split; auto; lia.
  - apply Nat.ltb_ge in Lt. unfold closegoto. cbn [gts pc nact labs bls Goto_model.log]. rewrite nth_mid. cbn [lnact entry]. rewrite R3. destruct (tneeds t <=? svars u) eqn:Le.
    + apply Nat.leb_le in Le. rewrite (proj2 (Nat.ltb_ge _ _)) by lia. cbn [bind]. rewrite firstn_mid, skipn_mid.
      eexists. split; [reflexivity|]. cbn. rewrite Nat.min_l by lia. auto.
    + apply Nat.leb_gt in Le. rewrite (proj2 (Nat.ltb_lt _ _)) by lia. now eexists.
Qed.

(* the goto seen from around the block that has n variables around it *)
Definition outside (n : nat) (u : source) : source := mkSrc (sname u) (spc u) n (scapt u).
Definition lowered (bl : blk) (gt : goto) : goto :=
  if bnact bl <? gnact gt then let g := if upval bl then patchclose (bnact bl) gt else gt in mkG (gname g) (gpc g) (bnact bl) (gA g) else gt.
Lemma lower_pending : forall g u bl, pending g u -> bnact bl <= svars u ->
  (upval bl = false -> forall r, In r (scapt u) -> bnact bl <= r -> svars u <= r) -> pending (lowered bl g) (outside (bnact bl) u).
Proof.
  intros g u bl (R1 & R2 & R3 & R4 & R5) Le Nc. unfold lowered. rewrite R3. destruct (bnact bl <? svars u) eqn:Q.
  - apply Nat.ltb_lt in Q. destruct (upval bl); unfold pending; cbn.
    + repeat split; auto; lia.
    + split; [auto|]. split; [auto|]. split; [auto|]. split; [lia|auto].
  - apply Nat.ltb_ge in Q. assert (bnact bl = svars u) by lia. unfold pending; cbn. rewrite H. rewrite H in R3 || idtac. repeat (split; [solve [auto | lia]|]). auto.
Qed.

Lemma movegotosout_spec : forall P PS fuel p n G L0 LS bl ob B lg,
  Forall2 pending P PS -> length P <= fuel -> firstlabel ob = length L0 -> Forall (fun t => tneeds t = tvars t) LS ->
  Forall (fun u => bnact bl <= svars u /\ (upval bl = false -> forall r, In r (scapt u) -> bnact bl <= r -> svars u <= r)) PS ->
  if allowed LS (map (outside (bnact bl)) PS)
  then exists P' d, movegotosout fuel (mkS p n (G ++ P) (L0 ++ map entry LS) (ob :: B) lg) (length G) bl = Ok (mkS p n (G ++ P') (L0 ++ map entry LS) (ob :: B) (lg ++ d)) /\
       Forall2 pending P' (filter (unresolved LS) (map (outside (bnact bl)) PS)) /\ implement d (resolved LS (map (outside (bnact bl)) PS))
  else exists e, movegotosout fuel (mkS p n (G ++ P) (L0 ++ map entry LS) (ob :: B) lg) (length G) bl = Err e.
Proof.
  intros P. induction P as [|g P IH]; intros PS fuel p n G L0 LS bl ob B lg F Le Fl Pl V.
  - inversion F; subst. simpl. exists [], []. split; [|split; [constructor|apply implement_nil]].
    rewrite !app_nil_r. destruct fuel; simpl; rewrite Nat.leb_refl; reflexivity.
  - inversion F as [|? u ? PS' R F']; subst. inversion V as [|? ? [Vu Vc] V']; subst. destruct fuel as [|fuel]; [simpl in Le; lia|].
    simpl in Le. cbn [movegotosout gts]. rewrite (proj2 (Nat.leb_gt _ _)) by (rewrite app_length; simpl; lia). rewrite nth_mid.
    fold (lowered bl g). pose proof (lower_pending _ _ _ R Vu Vc) as R'.
    cbn [map]. rewrite allowed_cons, resolved_cons, filter_cons.
    unfold set_goto. cbn [gts pc nact labs bls Goto_model.log]. rewrite firstn_mid, skipn_mid.
    pose proof (findlabel_spec _ _ p n G P L0 LS ob B lg R' Fl Pl) as FL.
    destruct (resolve LS (outside (bnact bl) u)) as [t|].
    + destruct (tneeds t <=? svars (outside (bnact bl) u)); cbn [andb].
      * destruct FL as (e & FL & De). rewrite FL. cbn [bind fst snd].
        specialize (IH PS' fuel p n G L0 LS bl ob B (lg ++ [e]) F' ltac:(lia) Fl Pl V'). destruct (allowed LS _).
        -- destruct IH as (P' & d & E & FP & I). exists P', (e :: d). split; [rewrite E; do 2 f_equal; now rewrite <- app_assoc|]. split; [exact FP|].
           apply (implement_app [_] [_]); [|exact I]. now apply implement_one.
        -- exact IH.
      * destruct FL as (e & FL). rewrite FL. now exists e.
    + rewrite FL. cbn [bind fst snd andb].
      specialize (IH PS' fuel p n (G ++ [lowered bl g]) L0 LS bl ob B lg F' ltac:(lia) Fl Pl V'). rewrite <- app_assoc in IH. simpl app in IH. rewrite app_length in IH. simpl length in IH. rewrite Nat.add_1_r in IH.
      destruct (allowed LS _).
      * destruct IH as (P' & d & E & FP & I). exists (lowered bl g :: P'), d. split; [rewrite E; do 2 f_equal; now rewrite <- app_assoc|]. split; [|exact I]. now constructor.
      * exact IH.
Qed.
