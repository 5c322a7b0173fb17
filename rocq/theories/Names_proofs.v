(* C60: names denote the innermost visible declaration. *)
Require Import ZArith List Bool Arith Lia Permutation.
From Verif Require Import Base Names_model Names_spec Names_facts.
Import ListNotations.
Local Open Scope nat_scope.

Section env.
Variable envn : name.

Definition cap (base : bool) (sf : list sfun) (n : name) : list nat :=
  match lookup sf n with Some (O, d) => if base then [] else [did d] | Some (S _, d) => [did d] | None => [] end.
Definition known (sf : list sfun) (n : name) : Prop := lookup sf n <> None \/ n = envn.

Lemma find_name_in n ds d : find_name n ds = Some d -> In d ds.
Proof. intros F. apply find_some in F. tauto. Qed.
Lemma lookup_in : forall sf n k d, lookup sf n = Some (k, d) -> In (did d) (allids sf).
Proof.
  induction sf as [|f sf IH]; intros n k d L; [discriminate L|]. cbn [lookup] in L. unfold allids. cbn [flat_map]. apply in_or_app.
  destruct (find_name n (visible f)) eqn:F.
  - injection L as _ <-. left. unfold ids. apply in_or_app. left. apply in_map. eapply find_name_in; eauto.
  - destruct (lookup sf n) as [[k' d']|] eqn:Q; [|discriminate L]. injection L as _ <-. right. eapply IH; eauto.
Qed.

Lemma rel_length c sf fs : rel envn c sf fs -> sf <> [] /\ fs <> [].
Proof. intros R; inversion R; split; discriminate. Qed.
Lemma rel_head c sf f r fr : rel envn c (sf :: r) (f :: fr) -> funok c r sf f.
Proof. intros R; inversion R; subst; auto. Qed.
Lemma rel_ups c sf f r fr : rel envn c (sf :: r) (f :: fr) -> upsok envn c sf r (ups f) (map ups fr).
Proof.
  intros R; inversion R; subst; auto. intros i u N. rewrite H4 in *. destruct i as [|i]; [|destruct i; discriminate N].
  injection N as <-. repeat split; auto. intros k d L. discriminate L.
Qed.
Lemma stands_cons f r n : find_name n (visible f) = None -> stands_for (f :: r) n = stands_for r n.
Proof. intros F. unfold stands_for. cbn [lookup]. rewrite F. destruct (lookup r n) as [[k d]|]; reflexivity. Qed.
(* a function with another list of upvalues *)
Lemma funok_ups c r sf f us : funok c r sf f -> length us <= 125 -> funok c r sf (mkF (firstlocal f) (nactvar f) us (blks f)).
Proof. intros [A B C D E F G] L. constructor; auto. Qed.

Lemma nth_last {A} (l : list A) x : nth_error (l ++ [x]) (length l) = Some x.
Proof. rewrite nth_error_app2 by lia. now rewrite Nat.sub_diag. Qed.

Lemma resolve : forall sf fs c n base rest, rel envn c sf fs -> NoDup (allids sf) ->
  singlevaraux (avof sf ++ rest) fs n base = Err ETooLong \/
  exists e t fs', singlevaraux (avof sf ++ rest) fs n base = Ok (e, t, fs') /\ rel envn (cap base sf n ++ c) sf fs' /\ ext (map ups fs) (map ups fs') /\
    (known sf n -> denotes sf (map ups fs') e = Some (fst (stands_for sf n)) /\ t = snd (stands_for sf n) /\ match e with VVoid => False | VLocal i | VUpval i => i < 125 end) /\
    (~ known sf n -> e = VVoid /\ fs' = fs).
Proof.
  induction sf as [|f sf IH]; intros fs c n base rest R D; [inversion R|].
  destruct fs as [|g fs]; [inversion R|]. pose proof (rel_head _ _ _ _ _ R) as O. pose proof (rel_ups _ _ _ _ _ R) as U.
  unfold allids in D. cbn [flat_map] in D. fold (allids sf) in D. destruct (nodup_app _ _ D) as (Df & Ds & Dx).
  cbn [singlevaraux]. unfold searchvar. rewrite (fo_nact _ _ _ _ O).
  pose proof (searchvar_spec (avof (f :: sf) ++ rest) g n (visible f) (fun j L => getlocvar_at c sf f g rest j O L)) as SV.
  destruct (find_name n (visible f)) as [d|] eqn:F.
  { (* a local variable *)
    destruct SV as (v & -> & Nv & Lv). pose proof (typeinfo_at c sf f g rest v d O Nv) as T.
    assert (S : stands_for (f :: sf) n = (TDecl (did d), dtype d)) by (unfold stands_for; cbn [lookup]; now rewrite F).
    assert (C : cap base (f :: sf) n = if base then [] else [did d]) by (unfold cap; cbn [lookup]; now rewrite F).
    assert (K : known (f :: sf) n) by (left; cbn [lookup]; rewrite F; discriminate).
    assert (B : v < 125) by (pose proof (fo_vars _ _ _ _ O); lia).
    rewrite C, S, T. right. destruct base.
    - do 3 eexists. split; [reflexivity|]. split; [exact R|]. split; [apply ext_refl|]. split; [|tauto].
      intros _. split; [|split; [reflexivity|exact B]]. cbn [denotes]. rewrite frame_actives, nth_error_map. unfold actives. rewrite Nv. reflexivity.
    - destruct (markblk_spec c (blks g) (blocks f) d (fo_blk _ _ _ _ O) v Nv) as (bs & M & RB).
      { unfold ids in Df. apply nodup_app in Df. tauto. }
      unfold markupval. rewrite M. cbn [bind]. do 3 eexists. split; [reflexivity|].
      assert (Id : In (did d) (ids f)). { unfold ids. apply in_or_app. left. apply in_map. eapply find_name_in; eauto. }
      split; [|split].
      + assert (O' : funok (did d :: c) sf f (mkF (firstlocal g) (nactvar g) (ups g) bs)).
        { destruct O as [A1 A2 A3 A4 A5 A6 A7]. constructor; auto. intros d' Id' [E|I]; [|now apply (A7 d')].
          unfold ids in Df. apply nodup_app in Df. destruct Df as (_ & _ & Dz). apply (Dz (did d)).
          - apply in_map. eapply find_name_in; eauto.
          - rewrite E. now apply in_map. }
        cbn [app]. inversion R; subst; [apply rel_main; auto|apply rel_cons; auto].
        * eapply upsok_more; [|eassumption]. intros x X. now right.
        * apply rel_fresh; auto.
      + cbn [map ups]. apply ext_refl.
      + split; [|tauto]. intros _. split; [|split; [reflexivity|exact B]]. cbn [denotes]. rewrite frame_actives, nth_error_map. unfold actives. rewrite Nv. reflexivity. }
  rewrite SV.
  pose proof (searchupvalue_spec (ups g) n 0) as SU. unfold searchupvalue. destruct (searchupvalue_from (ups g) n 0) as [i|].
  { (* an upvalue that exists *)
    destruct SU as (j & u & -> & Nu & Qu). cbn [Nat.add]. rewrite Nu. right. do 3 eexists. split; [reflexivity|].
    destruct (U j u Nu) as (T & Ty & Ke & Kc). rewrite Qu in *.
    assert (B : j < 125). { pose proof (fo_ups _ _ _ _ O). assert (nth_error (ups g) j <> None) by congruence. apply nth_error_Some in H0. lia. }
    split; [|split; [apply ext_refl|split]].
    - eapply rel_ext; [|exact R]. intros x. unfold cap. cbn [lookup]. rewrite F. destruct (lookup sf n) as [[k d]|] eqn:L; cbn [app]; [|tauto].
      split; [now right|]. intros [<-|I]; [|exact I]. eapply Kc; eauto.
    - intros _. rewrite stands_cons by exact F. split; [exact T|]. split; [exact Ty|exact B].
    - intros NK. exfalso. apply NK. unfold known. cbn [lookup]. rewrite F. destruct (lookup sf n) as [[k d]|]; [left; discriminate|right; auto]. }
  (* a variable of the functions outside *)
  destruct sf as [|f2 sf].
  { inversion R; subst. cbn [singlevaraux]. cbn [singlevaraux bind]. right. do 3 eexists. split; [reflexivity|].
    assert (NK : ~ known [f] n).
    { intros [K|K]; [apply K; cbn [lookup]; now rewrite F|]. subst n. match goal with H : ups g = [_] |- _ => rewrite H in SU end. apply (SU _ (or_introl eq_refl)). reflexivity. }
    split; [|split; [apply ext_refl|split; [tauto|tauto]]]. unfold cap. cbn [lookup]. rewrite F. exact R. }
  assert (R2 : rel envn c (f2 :: sf) fs) by (inversion R; auto).
  assert (Av : avof (f :: f2 :: sf) ++ rest = avof (f2 :: sf) ++ (avf f ++ rest)) by (change (avof (f :: f2 :: sf)) with (avof (f2 :: sf) ++ avf f); now rewrite <- app_assoc).
  rewrite Av. destruct (IH fs c n false (avf f ++ rest) R2 Ds) as [E|(e & t & fs' & E & R' & X & K1 & K2)]; rewrite E; [left; reflexivity|]. cbn [bind].
  set (sg := f2 :: sf) in *.
  assert (KK : known (f :: sg) n <-> known sg n). { unfold known. cbn [lookup]. rewrite F. destruct (lookup sg n) as [[k d]|]; split; intros [A|A]; auto; left; try discriminate; congruence. }
  assert (Kd : known sg n \/ ~ known sg n). { unfold known. destruct (lookup sg n); [left; left; discriminate|]. destruct (Z.eq_dec n envn); [left; now right|right; intros [A|A]; congruence]. }
  destruct Kd as [K|K].
  2:{ destruct (K2 K) as (-> & ->). right. do 3 eexists. split; [reflexivity|]. split; [|split; [apply ext_refl|split; [tauto|tauto]]].
      unfold cap. cbn [lookup]. rewrite F. assert (L : lookup sg n = None) by (destruct (lookup sg n) eqn:L; auto; exfalso; apply K; left; congruence). rewrite L. exact R. }
  destruct (K1 K) as (Dn & Ty & Bd).
  assert (CC : cap base (f :: sg) n = cap false sg n). { unfold cap. cbn [lookup]. rewrite F. destruct (lookup sg n) as [[[|k] d]|]; reflexivity. }
  assert (Fr : forall x, In x (cap false sg n) -> ~ In x (ids f)).
  { intros x Ix If. apply (Dx x If). unfold cap in Ix. destruct (lookup sg n) as [[k d]|] eqn:L; [|destruct Ix].
    assert (x = did d) by (destruct k; destruct Ix as [<-|[]]; reflexivity). subst x. eapply lookup_in; eauto. }
  assert (O' : funok (cap false sg n ++ c) sg f g).
  { clear -O Fr. induction (cap false sg n) as [|x l IHl]; [exact O|]. cbn [app]. apply funok_fresh; [apply IHl; intros; apply Fr; now right|apply Fr; now left]. }
  unfold newupvalue.
  destruct (Nat.ltb_spec MAXUPVAL (length (ups g) + 1)) as [Lt|Le]; [left; destruct e; [destruct Bd|reflexivity|reflexivity]|].
  right. rewrite CC.
  set (u := match e with VLocal r => mkU n true (cast_byte r) t | VUpval i => mkU n false (cast_byte i) t | VVoid => mkU n false 0 t end).
  assert (Un : uname u = n) by (unfold u; destruct e; reflexivity).
  assert (Ut : utype u = t) by (unfold u; destruct e; reflexivity).
  set (g' := mkF (firstlocal g) (nactvar g) (ups g ++ [u]) (blks g)).
  exists (VUpval (length (ups g))), (utype u), (g' :: fs'). split.
  { subst g' u. destruct e; [destruct Bd| |]; cbn [bind ups]; rewrite nth_last; reflexivity. }
  assert (X' : ext (map ups (g :: fs)) (map ups (g' :: fs'))). { cbn [map]. constructor; [|exact X]. exists [u]. reflexivity. }
  assert (Tg : upval_target (f :: sg) (map ups (g' :: fs')) (length (ups g)) = Some (fst (stands_for sg n))).
  { unfold sg in *. cbn [upval_target map]. unfold g' at 1. cbn [ups]. rewrite nth_last. unfold u. destruct e as [|r|i]; [destruct Bd| |]; cbn [uinstack uidx]; unfold cast_byte; rewrite Nat.mod_small by lia; exact Dn. }
  assert (U' : upsok envn (cap false sg n ++ c) f sg (ups g') (map ups fs')).
  { intros i v N. unfold g' in N. cbn [ups] in N. destruct (Nat.lt_ge_cases i (length (ups g))) as [L|L].
    - rewrite nth_error_app1 in N by exact L. destruct (U i v N) as (A1 & A2 & A3 & A4). repeat split; auto.
      + eapply upval_target_ext; [exact X'|exact A1].
      + intros k d Lk. apply in_or_app. right. eauto.
    - rewrite nth_error_app2 in N by exact L. destruct (i - length (ups g)) as [|q] eqn:Q; [|destruct q; discriminate N]. injection N as <-.
      assert (i = length (ups g)) by lia. subst i. rewrite Un. split; [exact Tg|]. split; [congruence|]. split.
      + intros Ln. destruct K as [K|K]; [congruence|exact K].
      + intros k d Lk. apply in_or_app. left. unfold cap. rewrite Lk. destruct k; now left. }
  split; [|split; [exact X'|split]].
  - unfold sg. apply rel_cons; auto. apply (funok_ups _ _ _ g); auto. rewrite app_length. cbn [length]. unfold MAXUPVAL in Le. lia.
  - intros _. rewrite stands_cons by exact F. split; [exact Tg|]. split; [congruence|]. unfold MAXUPVAL in Le. lia.
  - intros NK. exfalso. apply NK. now apply KK.
Qed.

(* the tables represent the scopes *)
Record Inv (s : sstate) (p : pstate) : Prop := {
  iv_rel : rel envn (capt s) (sfuns s) (funs p);
  iv_av : actvar p = avof (sfuns s);
  iv_nodup : NoDup (allids (sfuns s));
  iv_ids : forall x, In x (allids (sfuns s)) -> x < next s;
  iv_capt : forall x, In x (capt s) -> x < next s }.

Lemma inv_init : Inv sinit (init envn).
Proof.
  constructor; cbn; auto; try constructor; try tauto; try reflexivity.
  constructor; cbn; try lia; auto; try discriminate; try tauto.
  constructor; [reflexivity| |constructor]. cbn. split; [discriminate|]. intros [H|(d & [] & _)]; discriminate H.
Qed.
(* only the innermost function changes *)
Lemma rel_change c sf sf' f f' r fr : rel envn c (sf :: r) (f :: fr) -> funok c r sf' f' -> ups f' = ups f -> rel envn c (sf' :: r) (f' :: fr).
Proof.
  intros R O E. inversion R; subst; [apply rel_main; congruence|apply rel_cons; auto]. rewrite E. 
  match goal with H : upsok _ _ _ _ _ _ |- _ => intros i u N; destruct (H i u N) as (A & B); split; [exact A|exact B] end.
Qed.
Lemma allids_perm f f' r : Permutation (ids f) (ids f') -> Permutation (allids (f :: r)) (allids (f' :: r)).
Proof. intros P. unfold allids. cbn [flat_map]. now apply Permutation_app_tail. Qed.
Lemma avof_cons f r : avof (f :: r) = avof r ++ avf f. Proof. reflexivity. Qed.

Definition event_ok (s : sstate) (o : op) (s' : sstate) (p' : pstate) (ev : event) : Prop :=
  match o, ev with
  | Use n, Variable_ e t => known (sfuns s) n /\ denotes (sfuns s) (upvals p') e = Some (fst (stands_for (sfuns s) n)) /\ t = snd (stands_for (sfuns s) n)
  | Use n, Global_ e => ~ known (sfuns s) n /\ denotes (sfuns s) (upvals p') e = Some (fst (stands_for (sfuns s) envn))
  | Leave, CloseAt l => (block_captured s -> l = Some (block_base s)) /\ (~ block_captured s -> l = None)
  | Finish, Proto_ us => True
  | Use _, _ | Leave, _ | Finish, _ => False
  | _, e => e = Quiet
  end.

Lemma step_ok s p o s' : Inv s p -> sstep envn s o = Some s' ->
  step envn p o = Err ETooLong \/ exists p' ev, step envn p o = Ok (p', ev) /\ Inv s' p' /\ event_ok s o s' p' ev /\
    match o with
    | Finish => (exists us, ev = Proto_ us /\ upvals p = us :: upvals p')
    | Open => upvals p' = [] :: upvals p
    | _ => ext (upvals p) (upvals p') end.
Proof.
  intros [R A D I C] S. destruct s as [sfs nx c]. destruct p as [av fs]. cbn [sfuns next capt actvar funs] in *.
  destruct sfs as [|sf r]; [inversion R|]. destruct fs as [|f fr]; [inversion R|]. pose proof (rel_head _ _ _ _ _ R) as O.
  destruct o; cbn [sstep sfuns] in S.
  - (* New *)
    injection S as <-. cbn [step]. unfold new_localvar. cbn [funs actvar].
    destruct (Nat.ltb_spec MAXVARS (length av + 1 - firstlocal f)) as [L|L]; [left; reflexivity|]. right.
    do 2 eexists. split; [reflexivity|]. cbn [next capt]. set (d := mkD nx n t).
    assert (F : ~ In nx (allids (sf :: r))) by (intros X; apply I in X; lia).
    split; [|split; [reflexivity|apply ext_refl]]. constructor; cbn [sfuns funs actvar next capt].
    + eapply rel_change; [exact R| |reflexivity]. destruct O as [O1 O2 O3 O4 O5 O6 O7]. constructor; auto; cbn [blocks pend].
      * change (visible (mkSF (blocks sf) (pend sf ++ [d]))) with (visible sf). rewrite app_length. cbn [length].
        rewrite A in L. rewrite avof_cons, app_length, O1 in L. unfold avf in L. rewrite map_length, app_length in L. unfold actives in L. rewrite rev_length in L. unfold MAXVARS in L. lia.
      * intros d' Id Ic. apply in_app_or in Id. destruct Id as [Id|[<-|[]]]; [now apply (O7 d')|]. apply C in Ic. cbn in Ic. lia.
    + rewrite A, !avof_cons. unfold avf. cbn [pend]. change (actives (mkSF (blocks sf) (pend sf ++ [d]))) with (actives sf). now rewrite !map_app, <- !app_assoc.
    + assert (P : Permutation (allids (mkSF (blocks sf) (pend sf ++ [d]) :: r)) (nx :: allids (sf :: r))).
      { unfold allids. cbn [flat_map]. unfold ids at 1. cbn [pend]. change (visible (mkSF (blocks sf) (pend sf ++ [d]))) with (visible sf). rewrite map_app. cbn [map]. unfold d. cbn [did].
        unfold ids at 2. rewrite <- !app_assoc. cbn [app]. rewrite !app_assoc. symmetry. rewrite <- (app_assoc _ (map did (pend sf))).  rewrite (app_assoc _ (map did (pend sf))). apply Permutation_middle. }
      eapply Permutation_NoDup; [symmetry; exact P|]. constructor; auto.
    + intros x X. unfold allids in X. cbn [flat_map] in X. apply in_app_or in X. unfold ids in X. cbn [pend] in X. change (visible (mkSF (blocks sf) (pend sf ++ [d]))) with (visible sf) in X.
      assert (In x (allids (sf :: r)) \/ x = nx) as [Y|Y]; [|apply I in Y; lia|lia].
      unfold allids. cbn [flat_map]. destruct X as [X|X]; [|left; apply in_or_app; now right].
      rewrite map_app in X. cbn [map] in X. unfold d in X. cbn [did] in X. apply in_app_or in X. destruct X as [X|X]; [left; apply in_or_app; left; unfold ids; apply in_or_app; now left|].
      apply in_app_or in X. destruct X as [X|[X|[]]]; [|auto]. left. apply in_or_app. left. unfold ids. apply in_or_app. now right.
    + intros x X. apply C in X. lia.
  - (* Activate *)
    destruct sf as [bs p]. destruct bs as [|b bs]; [discriminate S|]. destruct (Nat.leb_spec k (length p)) as [L|L]; [|discriminate S]. injection S as <-. cbn [next capt].
    destruct O as [O1 O2 O3 O4 O5 O6 O7]. cbn [pend blocks] in *.
    set (sf := mkSF (b :: bs) p) in *. set (sf' := mkSF (mkSB (rev (firstn k p) ++ decls b) (deferred b) :: bs) (skipn k p)).
    assert (V : visible sf' = rev (firstn k p) ++ visible sf). { unfold visible, sf', sf. cbn [blocks flat_map decls]. now rewrite <- app_assoc. }
    assert (LV : length (visible sf') = k + length (visible sf)). { rewrite V, app_length, rev_length, firstn_length. lia. }
    assert (Ac : actives sf' ++ skipn k p = actives sf ++ p). { unfold actives. rewrite V, rev_app_distr, rev_involutive, <- app_assoc. now rewrite firstn_skipn. }
    assert (Bk : cast_byte (nactvar f + k) = length (visible sf')). { unfold cast_byte. rewrite Nat.mod_small; lia. }
    assert (Av : avof (sf' :: r) = avof (sf :: r)). { rewrite !avof_cons. f_equal. unfold avf. unfold sf' at 2, sf at 2. cbn [pend]. now rewrite Ac. }
    assert (La : length av = length (avof r) + length (visible sf) + length p). { rewrite A, avof_cons, app_length. unfold avf. rewrite map_length, app_length. unfold actives. rewrite rev_length. cbn [pend sf]. lia. }
    assert (P : Permutation (ids sf) (ids sf')).
    { unfold ids. rewrite V. unfold sf at 2, sf' . cbn [pend]. rewrite map_app. rewrite <- (firstn_skipn k p) at 1. rewrite map_app, !app_assoc. apply Permutation_app_tail.
      rewrite Permutation_app_comm. apply Permutation_app_tail. rewrite map_rev. apply Permutation_rev. }
    right. cbn [step]. unfold adjustlocalvars. cbn [funs actvar]. rewrite Bk. destruct (Nat.ltb_spec (length av) (firstlocal f + length (visible sf'))) as [X|X]; [lia|]. cbn [bind].
    do 2 eexists. split; [reflexivity|]. split; [|split; [reflexivity|apply ext_refl]]. constructor; cbn [sfuns funs actvar next capt].
    + eapply rel_change; [exact R| |reflexivity]. constructor; auto.
      * rewrite LV. unfold sf'. cbn [pend]. rewrite skipn_length. lia.
      * cbn [blks]. unfold sf'. cbn [blocks]. inversion O5 as [|b0 bs0 sb sbs N U B]; subst. constructor; auto. cbn [deferred decls]. rewrite U.
        split; (intros [Q|(d & Id & Ic)]; [now left|]; right; exists d; split; auto).
        -- apply in_or_app. now right.
        -- apply in_app_or in Id. destruct Id as [Id|Id]; [|exact Id]. exfalso. apply (O7 d); auto. apply in_rev in Id. rewrite <- (firstn_skipn k p). apply in_or_app. now left.
      * discriminate.
      * intros d Id. apply O7. unfold sf' in Id. cbn [pend] in Id. rewrite <- (firstn_skipn k p). apply in_or_app. now right.
    + now rewrite A, Av.
    + eapply Permutation_NoDup; [apply allids_perm; exact P|exact D].
    + intros x X'. apply I. eapply Permutation_in; [symmetry; apply allids_perm; exact P|exact X'].
    + exact C.
  - (* Enter *)
    injection S as <-. cbn [next capt]. right. cbn [step]. unfold enterblock. cbn [funs actvar bind]. do 2 eexists. split; [reflexivity|].
    split; [|split; [reflexivity|apply ext_refl]]. destruct O as [O1 O2 O3 O4 O5 O6 O7]. constructor; cbn [sfuns funs actvar next capt]; auto.
    eapply rel_change; [exact R| |reflexivity]. constructor; auto; [|discriminate]. cbn [blks blocks]. constructor; [exact O2| |exact O5]. cbn. split; [discriminate|]. intros [Q|(d & [] & _)]; discriminate Q.
  - (* Leave *)
    destruct sf as [bs p]. destruct bs as [|b [|b2 bs]]; try discriminate S. destruct p; [|discriminate S]. injection S as <-. cbn [next capt]. right.
    destruct O as [O1 O2 O3 O4 O5 O6 O7]. cbn [pend blocks] in *.
    set (sf := mkSF (b :: b2 :: bs) []) in *. set (sf' := mkSF (b2 :: bs) []).
    assert (V : visible sf = decls b ++ visible sf') by reflexivity.
    assert (Av : avof (sf :: r) = avof (sf' :: r) ++ map nt (rev (decls b))).
    { rewrite !avof_cons, <- app_assoc. f_equal. unfold avf, actives. rewrite V, rev_app_distr. unfold sf, sf'. cbn [pend]. now rewrite !app_nil_r, map_app. }
    destruct (blks f) as [|b0 bs0] eqn:Eb; [inversion O5|]. assert (NUB : bnact b0 = length (visible sf') /\ (bupval b0 = true <-> deferred b = true \/ exists d, In d (decls b) /\ In (did d) c) /\ blkrel c bs0 (b2 :: bs)) by (inversion O5; auto).
    destruct NUB as (N & U & B). destruct bs0 as [|b1 bs1]; [inversion B|]. cbn [step]. unfold leaveblock. cbn [funs actvar]. rewrite Eb. cbn [bind].
    rewrite N.
    assert (La : length av - (nactvar f - length (visible sf')) = length (avof (sf' :: r))). { rewrite A, Av, O2, V, !app_length, map_length, rev_length. lia. }
    rewrite La. rewrite A, Av, firstn_app, firstn_all, Nat.sub_diag. cbn [firstn]. rewrite app_nil_r.
    do 2 eexists. split; [reflexivity|]. split; [|split; [|apply ext_refl]].
    + constructor; cbn [sfuns funs actvar next capt]; auto.
      * eapply rel_change; [exact R| |reflexivity]. constructor; cbn [firstlocal nactvar ups blks blocks pend]; auto; try discriminate.
        -- rewrite O2, V, app_length. lia.
        -- rewrite V, app_length in O3. change (length (pend sf')) with 0. lia.
      * unfold allids in *. cbn [flat_map] in *. unfold ids in D at 1. rewrite V, map_app, <- !app_assoc in D. apply nodup_app in D. unfold ids at 1. cbn [pend sf] in D. rewrite <- app_assoc. tauto.
      * intros x X. apply I. unfold allids in *. cbn [flat_map] in *. unfold ids at 1. rewrite V, map_app, <- !app_assoc. apply in_or_app. right. unfold ids in X at 1. rewrite <- app_assoc in X. exact X.
    + unfold event_ok, block_captured, block_base. cbn [sfuns capt blocks sf tl]. change (flat_map decls (b2 :: bs)) with (visible sf').
      split; intros Q.
      * apply U in Q. now rewrite Q.
      * destruct (bupval b0) eqn:Y; [|reflexivity]. exfalso. apply Q. now apply U.
  - (* Open *)
    injection S as <-. cbn [next capt]. right. cbn [step]. unfold open_func, enterblock. cbn [funs actvar bind firstlocal nactvar ups blks]. do 2 eexists. split; [reflexivity|].
    split; [|split; reflexivity]. constructor; cbn [sfuns funs actvar next capt]; auto.
    + apply rel_cons; auto.
      * constructor; cbn; auto; try lia; try discriminate; try tauto. { now rewrite A. } constructor; [reflexivity| |constructor]. cbn. split; [discriminate|]. intros [Q|(d & [] & _)]; discriminate Q.
      * intros i u N. destruct i; discriminate N.
    + rewrite A. cbn [avof]. unfold avf. cbn. now rewrite app_nil_r.
  - (* Finish *)
    destruct sf as [bs p]. destruct bs as [|b [|b2 bs]]; try discriminate S. destruct p; [|discriminate S]. destruct r as [|sf2 r]; [discriminate S|]. injection S as <-. cbn [next capt]. right.
    destruct O as [O1 O2 O3 O4 O5 O6 O7]. cbn [pend blocks] in *.
    destruct (blks f) as [|b0 bs0] eqn:Eb; [inversion O5|]. assert (N : bnact b0 = 0) by (inversion O5; auto).
    cbn [step]. unfold close_func, leaveblock. cbn [funs actvar]. rewrite Eb. cbn [bind funs actvar ups].
    do 2 eexists. split; [reflexivity|]. split; [|split; [exact Logic.I|eexists; split; reflexivity]].
    assert (R2 : rel envn c (sf2 :: r) fr) by (inversion R; auto).
    constructor; cbn [sfuns funs actvar next capt]; auto.
    + rewrite N, Nat.sub_0_r, O2, A. rewrite avof_cons. unfold avf, visible, actives. cbn [blocks flat_map pend]. rewrite !app_nil_r. change (visible (mkSF [b] [])) with (decls b ++ []). rewrite app_nil_r.
      rewrite app_length, map_length, rev_length. replace (length (avof (sf2 :: r)) + length (decls b) - length (decls b)) with (length (avof (sf2 :: r))) by lia.
      rewrite firstn_app, firstn_all, Nat.sub_diag. cbn [firstn]. now rewrite app_nil_r.
    + unfold allids in *. cbn [flat_map] in D. apply nodup_app in D. tauto.
    + intros x X. apply I. unfold allids in *. cbn [flat_map]. apply in_or_app. now right.
  - (* Defer *)
    destruct sf as [bs p]. destruct bs as [|b bs]; try discriminate S. injection S as <-. cbn [next capt]. right.
    destruct O as [O1 O2 O3 O4 O5 O6 O7]. cbn [pend blocks] in *. destruct (blks f) as [|b0 bs0] eqn:Eb; [inversion O5|].
    assert (NB : bnact b0 = length (flat_map decls bs) /\ blkrel c bs0 bs) by (inversion O5; auto). destruct NB as (N & B).
    cbn [step]. unfold defer_mark, markupval. cbn [funs actvar]. rewrite Eb. cbn [markblk].
    destruct (Nat.ltb_spec (nactvar f) (bnact b0)) as [L|L].
    { exfalso. rewrite O2, N in L. unfold visible in L. cbn [blocks flat_map] in L. rewrite app_length in L. lia. }
    cbn [bind]. do 2 eexists. split; [reflexivity|]. split; [|split; [reflexivity|apply ext_refl]]. constructor; cbn [sfuns funs actvar next capt]; auto.
    eapply rel_change; [exact R| |reflexivity]. constructor; auto; [|discriminate]. cbn [blks blocks]. constructor; auto. cbn. tauto.
  - (* Use *)
    match type of S with Some ?a = _ => assert (S' : s' = a) by congruence end. subst s'. cbn [next capt]. cbn [step]. unfold singlevar. cbn [funs actvar]. rewrite A.
    pose proof (resolve (sf :: r) (f :: fr) c n true [] R D) as Q. rewrite app_nil_r in Q. destruct Q as [Q|(e & t & fs' & Q & R' & X & K1 & K2)]; rewrite Q; [left; reflexivity|]. cbn [bind].
    assert (CE : forall m, captures (mkS (sf :: r) nx c) m = cap true (sf :: r) m) by (intros m; unfold captures, cap; cbn [sfuns]; destruct (lookup (sf :: r) m) as [[[|k] d]|]; reflexivity).
    assert (CB : forall m x, In x (cap true (sf :: r) m) -> x < nx). { intros m x Ix. apply I. unfold cap in Ix. destruct (lookup (sf :: r) m) as [[k d]|] eqn:L; [|destruct Ix]. assert (x = did d) by (destruct k; [destruct Ix|destruct Ix as [<-|[]]; reflexivity]). subst x. eapply lookup_in; eauto. }
    assert (Kd : known (sf :: r) n \/ ~ known (sf :: r) n). { unfold known. destruct (lookup (sf :: r) n); [left; left; discriminate|]. destruct (Z.eq_dec n envn); [left; now right|right; intros [Y|Y]; congruence]. }
    destruct Kd as [K|K].
    + destruct (K1 K) as (Dn & Ty & Bd). right. exists (mkP (avof (sf :: r)) fs'), (Variable_ e t). split; [destruct e; [destruct Bd|reflexivity|reflexivity]|].
      assert (CC : captures (mkS (sf :: r) nx c) match lookup (sf :: r) n with Some _ => n | None => envn end = cap true (sf :: r) n).
      { rewrite CE. unfold known in K. destruct (lookup (sf :: r) n) eqn:L; [reflexivity|]. destruct K as [K| ->]; [congruence|]. reflexivity. }
      split; [|split; [|exact X]].
      * constructor; cbn [sfuns funs actvar next capt]; [rewrite CC; exact R'|reflexivity|exact D|exact I|]. rewrite CC. intros x Ix. apply in_app_or in Ix. destruct Ix as [Ix|Ix]; [eapply CB; eauto|auto].
      * cbn [event_ok sfuns]. auto.
    + destruct (K2 K) as (-> & ->). 
      pose proof (resolve (sf :: r) (f :: fr) c envn true [] R D) as Q2. rewrite app_nil_r in Q2. destruct Q2 as [Q2|(e & t' & fs' & Q2 & R2 & X2 & K3 & K4)]; rewrite Q2; [left; reflexivity|]. cbn [bind].
      destruct (K3 (or_intror eq_refl)) as (Dn & Ty & Bd). right. exists (mkP (avof (sf :: r)) fs'), (Global_ e). split; [destruct e; [destruct Bd|reflexivity|reflexivity]|].
      assert (L : lookup (sf :: r) n = None) by (destruct (lookup (sf :: r) n) eqn:L; auto; exfalso; apply K; left; congruence).
      split; [|split; [|exact X2]].
      * constructor; cbn [sfuns funs actvar next capt]; [rewrite L, CE; exact R2|reflexivity|exact D|exact I|]. rewrite L, CE. intros x Ix. apply in_app_or in Ix. destruct Ix as [Ix|Ix]; [eapply CB; eauto|auto].
      * cbn [event_ok sfuns]. auto.
Qed.

Lemma steps_ok : forall os s p s', Inv s p -> ssteps envn s os = Some s' ->
  steps envn p os = Err ETooLong \/ exists p', steps envn p os = Ok p' /\ Inv s' p'.
Proof.
  induction os as [|o os IH]; intros s p s' V S; cbn [ssteps steps] in *.
  - injection S as <-. right. eauto.
  - destruct (sstep envn s o) as [s1|] eqn:Q; [|discriminate S].
    destruct (step_ok s p o s1 V Q) as [E|(p1 & ev & E & V1 & _)]; rewrite E; [left; reflexivity|]. cbn [bind]. apply (IH s1 p1 s'); auto.
Qed.
Lemma steps_inv os s p : ssteps envn sinit os = Some s -> steps envn (init envn) os = Ok p -> Inv s p.
Proof.
  intros S P. destruct (steps_ok os sinit (init envn) s inv_init S) as [E|(p' & E & V)]; rewrite E in P; [discriminate P|]. injection P as <-. exact V.
Qed.
End env.

Lemma parser_total : forall envn os s, ssteps envn sinit os = Some s ->
  steps envn (init envn) os = Err ETooLong \/ exists p, steps envn (init envn) os = Ok p.
Proof.
  intros envn os s S. destruct (steps_ok envn os sinit (init envn) s (inv_init envn) S) as [E|(p & E & _)]; [left|right]; eauto.
Qed.

Lemma names_resolved : forall envn os s p n p' ev, ssteps envn sinit os = Some s -> steps envn (init envn) os = Ok p ->
  step envn p (Use n) = Ok (p', ev) ->
  match ev with
  | Variable_ e t =>
    (lookup (sfuns s) n <> None \/ n = envn) /\ denotes (sfuns s) (upvals p') e = Some (fst (stands_for (sfuns s) n)) /\ t = snd (stands_for (sfuns s) n)
  | Global_ e => lookup (sfuns s) n = None /\ n <> envn /\ denotes (sfuns s) (upvals p') e = Some (fst (stands_for (sfuns s) envn))
  | _ => False
  end.
Proof.
  intros envn os s p n p' ev S P E. pose proof (steps_inv envn os s p S P) as V.
  destruct (step_ok envn s p (Use n) _ V eq_refl) as [Q|(p1 & ev1 & Q & _ & O & _)]; rewrite Q in E; [discriminate E|]. injection E as -> ->.
  cbn [event_ok] in O. destruct ev; try contradiction; [exact O|]. destruct O as (K & D). unfold known in K.
  assert (L : lookup (sfuns s) n = None) by (destruct (lookup (sfuns s) n) eqn:L; auto; exfalso; apply K; left; congruence).
  split; [exact L|]. split; [|exact D]. intros ->. apply K. now right.
Qed.

Lemma block_closed : forall envn os s p s' p' l, ssteps envn sinit os = Some s -> steps envn (init envn) os = Ok p ->
  sstep envn s Leave = Some s' -> step envn p Leave = Ok (p', CloseAt l) ->
  (block_captured s -> l = Some (block_base s)) /\ (~ block_captured s -> l = None).
Proof.
  intros envn os s p s' p' l S P S' E. pose proof (steps_inv envn os s p S P) as V.
  destruct (step_ok envn s p Leave _ V S') as [Q|(p1 & ev1 & Q & _ & O & _)]; rewrite Q in E; [discriminate E|]. injection E as -> ->. exact O.
Qed.

Lemma lastn_cons {A} k (x : A) l : k <= length l -> lastn k (x :: l) = lastn k l.
Proof. intros L. unfold lastn. cbn [length]. replace (S (length l) - k) with (S (length l - k)) by lia. reflexivity. Qed.
Lemma lastn_same {A} k (x y : A) l : k <= length l -> lastn k (x :: l) = lastn k (y :: l).
Proof. intros L. rewrite !lastn_cons; auto. Qed.
Lemma ext_skipn k : forall a b, ext a b -> ext (skipn k a) (skipn k b).
Proof. induction k; intros a b E; [exact E|]. destruct E; cbn [skipn]; [constructor|]. now apply IHk. Qed.
Lemma ext_length a b : ext a b -> length a = length b.
Proof. induction 1; cbn; auto. Qed.

(* the functions outside the innermost ones stay as they are *)
Lemma sstep_outer envn s o s' d : sstep envn s o = Some s' -> S d <= depth s -> S d <= depth s' -> lastn d (sfuns s') = lastn d (sfuns s).
Proof.
  intros S L L'. unfold depth in *. destruct s as [sf nx c]. cbn [sfuns] in *.
  destruct o; cbn [sstep sfuns] in S.
  - destruct sf as [|f r]; [discriminate S|]. injection S as <-. cbn [sfuns length] in *. apply lastn_same. lia.
  - destruct sf as [|[[|b bs] p] r]; try discriminate S. destruct (k <=? length p); [|discriminate S]. injection S as <-. cbn [sfuns length] in *. apply lastn_same. lia.
  - destruct sf as [|f r]; [discriminate S|]. injection S as <-. cbn [sfuns length] in *. apply lastn_same. lia.
  - destruct sf as [|[[|b [|b2 bs]] [|]] r]; try discriminate S. injection S as <-. cbn [sfuns length] in *. apply lastn_same. lia.
  - injection S as <-. cbn [sfuns length] in *. apply lastn_cons. lia.
  - destruct sf as [|[[|b [|b2 bs]] [|]] [|g r]]; try discriminate S. injection S as <-. cbn [sfuns length] in *. rewrite (lastn_cons d {| blocks := [b]; pend := [] |}) by (cbn [length]; lia). reflexivity.
  - destruct sf as [|[[|b bs] p] r]; try discriminate S. injection S as <-. cbn [sfuns length] in *. apply lastn_same. lia.
  - injection S as <-. reflexivity.
Qed.
Lemma rel_len envn c sf fs : rel envn c sf fs -> length sf = length fs.
Proof. induction 1; cbn; auto. Qed.
Lemma sstep_upvals envn s p o s' p' ev d : Inv envn s p -> sstep envn s o = Some s' -> step envn p o = Ok (p', ev) -> d <= depth s -> d <= depth s' ->
  ext (lastn d (upvals p)) (lastn d (upvals p')).
Proof.
  intros V S E L L'. destruct (step_ok envn s p o s' V S) as [Q|(p1 & ev1 & Q & V1 & _ & M)]; rewrite Q in E; [discriminate E|]. injection E as -> ->.
  assert (L1 : length (upvals p) = depth s). { unfold upvals, depth. rewrite map_length. symmetry. eapply rel_len. exact (iv_rel _ _ _ V). }
  assert (L2 : length (upvals p') = depth s'). { unfold upvals, depth. rewrite map_length. symmetry. eapply rel_len. exact (iv_rel _ _ _ V1). }
  assert (G : ext (upvals p) (upvals p') -> ext (lastn d (upvals p)) (lastn d (upvals p'))).
  { intros X. unfold lastn. rewrite <- (ext_length _ _ X). now apply ext_skipn. }
  destruct o; auto.
  - rewrite M in *. cbn [length] in L2. rewrite lastn_cons by lia. apply ext_refl.
  - destruct M as (us & _ & M). rewrite M in *. cbn [length] in L1. rewrite lastn_cons by lia. apply ext_refl.
Qed.
Lemma rel_sub envn c : forall sf fs, rel envn c sf fs -> forall d, 1 <= d -> d <= length sf -> rel envn c (lastn d sf) (lastn d fs).
Proof.
  induction 1 as [sf f O U|sf f g r fr O U R IH]; intros d L1 L2.
  - cbn [length] in L2. assert (d = 1) by lia. subst d. apply rel_main; auto.
  - pose proof (rel_len _ _ _ _ R) as Q. destruct (Nat.eq_dec d (S (length (g :: r)))) as [->|N].
    + unfold lastn. cbn [length] in *. rewrite Nat.sub_diag, <- Q, Nat.sub_diag. cbn [skipn]. apply rel_cons; auto.
    + cbn [length] in L2, N. rewrite (lastn_cons d sf) by (cbn [length]; lia). rewrite (lastn_cons d f) by (rewrite <- Q; cbn [length]; lia). apply IH; [lia|cbn [length]; lia].
Qed.
Lemma lastn_map {A B} (h : A -> B) d l : lastn d (map h l) = map h (lastn d l).
Proof. unfold lastn. rewrite map_length. now rewrite skipn_map. Qed.
Lemma upvalue_kept : forall os envn s p s' p' d, Inv envn s p -> Inv envn s' p' -> steps envn p os = Ok p' -> ssteps envn s os = Some s' -> 1 <= d -> stays envn d s os ->
  lastn (d - 1) (sfuns s') = lastn (d - 1) (sfuns s) /\ ext (lastn d (upvals p)) (lastn d (upvals p')) /\ d <= depth s'.
Proof.
  induction os as [|o os IH]; intros envn s p s' p' d V V' P S L T; cbn [steps ssteps stays] in *.
  - injection P as <-. injection S as <-. split; [reflexivity|]. split; [apply ext_refl|tauto].
  - destruct T as (Ld & T). destruct (sstep envn s o) as [s1|] eqn:Q; [|contradiction].
    destruct (step envn p o) as [[p1 ev]|e| |] eqn:E; cbn [bind] in P; try discriminate P.
    destruct (step_ok envn s p o s1 V Q) as [Y|(p2 & ev2 & Y & V1 & _)]; rewrite E in Y; [discriminate Y|]. injection Y as -> ->.
    assert (L1 : d <= depth s1) by (destruct os; cbn [stays] in T; tauto).
    destruct (IH envn s1 p2 s' p' d V1 V' P S L T) as (A & B & C). split; [|split; [|exact C]].
    + rewrite A. eapply sstep_outer; [exact Q| |]; lia.
    + eapply ext_trans; [|exact B]. eapply sstep_upvals; eauto.
Qed.

Lemma upvalue_stable : forall envn os os' s p s' p' d i t, ssteps envn sinit os = Some s -> steps envn (init envn) os = Ok p ->
  stays envn d s os' -> ssteps envn s os' = Some s' -> steps envn p os' = Ok p' -> 1 <= d ->
  upval_target (lastn d (sfuns s)) (lastn d (upvals p)) i = Some t -> upval_target (lastn d (sfuns s')) (lastn d (upvals p')) i = Some t.
Proof.
  intros envn os os' s p s' p' d i t S P T S' P' L U. pose proof (steps_inv envn os s p S P) as V.
  assert (V' : Inv envn s' p'). { destruct (steps_ok envn os' s p s' V S') as [E|(q & E & W)]; rewrite E in P'; [discriminate P'|]. injection P' as <-. exact W. }
  destruct (upvalue_kept os' envn s p s' p' d V V' P' S' L T) as (A & B & C).
  assert (Ls : d <= depth s) by (destruct os'; cbn [stays] in T; tauto). unfold depth in *.
  assert (X : forall f g r us, upval_target (f :: r) us i = upval_target (g :: r) us i) by (intros; destruct r; reflexivity).
  assert (Y : forall l : list sfun, d <= length l -> exists f, lastn d l = f :: lastn (d - 1) l).
  { intros l Ll. unfold lastn. remember (length l - d) as k. replace (length l - (d - 1)) with (Datatypes.S k) by lia. assert (K : k < length l) by lia. clear -K. revert l K. induction k; intros [|x l] K; cbn [length] in K; try lia; [exists x; reflexivity|]. cbn [skipn]. apply IHk. lia. }
  destruct (Y (sfuns s) Ls) as (f & Ef). destruct (Y (sfuns s') C) as (f' & Ef'). rewrite Ef in U. rewrite Ef', A. rewrite (X f' f).
  eapply upval_target_ext; [exact B|exact U].
Qed.

Lemma lastn_all {A} (l : list A) : lastn (length l) l = l.
Proof. unfold lastn. now rewrite Nat.sub_diag. Qed.
Lemma upvals_len envn s p : Inv envn s p -> length (upvals p) = length (sfuns s).
Proof. intros V. unfold upvals. rewrite map_length. symmetry. eapply rel_len. exact (iv_rel _ _ _ V). Qed.

Lemma closure_right : forall envn os s p n s0 p0 i t os' s1 p1 s2 p2 us, ssteps envn sinit os = Some s -> steps envn (init envn) os = Ok p ->
  sstep envn s (Use n) = Some s0 -> step envn p (Use n) = Ok (p0, Variable_ (VUpval i) t) ->
  stays envn (depth s) s0 os' -> ssteps envn s0 os' = Some s1 -> steps envn p0 os' = Ok p1 -> depth s1 = depth s ->
  sstep envn s1 Finish = Some s2 -> step envn p1 Finish = Ok (p2, Proto_ us) ->
  forall f, upval_target (f :: sfuns s2) (us :: upvals p2) i = Some (fst (stands_for (sfuns s) n)).
Proof.
  intros envn os s p n s0 p0 i t os' s1 p1 s2 p2 us S P S0 P0 T S1 P1 Dp S2 P2 f.
  pose proof (steps_inv envn os s p S P) as V.
  pose proof (names_resolved envn os s p n p0 _ S P P0) as (_ & D & _). cbn [denotes] in D.
  assert (E0 : sfuns s0 = sfuns s) by (cbn [sstep] in S0; destruct (sfuns s); injection S0 as <-; reflexivity).
  destruct (step_ok envn s p (Use n) s0 V S0) as [Q|(q & ev & Q & V0 & _)]; rewrite Q in P0; [discriminate P0|]. injection P0 as -> ->.
  assert (SS : ssteps envn sinit (os ++ [Use n]) = Some s0 /\ steps envn (init envn) (os ++ [Use n]) = Ok p0).
  { clear -S P S0 Q. split.
    - clear P. revert S. generalize sinit. induction os as [|o os IH]; intros a S; cbn [app ssteps] in *; [injection S as <-; now rewrite S0|]. destruct (sstep envn a o); [auto|discriminate S].
    - clear S. revert P. generalize (init envn). induction os as [|o os IH]; intros a P; cbn [app steps] in *; [injection P as <-; rewrite Q; reflexivity|]. destruct (step envn a o) as [[b e]|e| |]; cbn [bind] in *; try discriminate P. auto. }
  destruct SS as (SS & PP).
  assert (V1 : Inv envn s1 p1). { destruct (steps_ok envn os' s0 p0 s1 V0 S1) as [Y|(q & Y & W)]; rewrite Y in P1; [discriminate P1|]. injection P1 as <-. exact W. }
  assert (N1 : 1 <= depth s). { pose proof (iv_rel _ _ _ V) as R. unfold depth. inversion R; cbn; lia. }
  pose proof (upvalue_stable envn (os ++ [Use n]) os' s0 p0 s1 p1 (depth s) i (fst (stands_for (sfuns s) n)) SS PP T S1 P1 N1) as U.
  unfold depth in *. rewrite <- E0 in U at 1. rewrite lastn_all in U. rewrite <- E0 in U at 1. rewrite <- (upvals_len _ _ _ V0) in U at 1. rewrite lastn_all in U.
  rewrite <- Dp in U. rewrite lastn_all in U. rewrite <- (upvals_len _ _ _ V1) in U at 1. rewrite lastn_all in U. rewrite E0 in U. specialize (U D).
  destruct (step_ok envn s1 p1 Finish s2 V1 S2) as [Y|(q & ev & Y & _ & _ & us' & W & Z)]; rewrite Y in P2; [discriminate P2|]. injection P2 as -> ->. injection W as <-. rewrite Z in U.
  cbn [sstep] in S2. destruct (sfuns s1) as [|[[|b [|b2 bs]] [|]] [|g r]]; try discriminate S2. injection S2 as <-. exact U.
Qed.
