(* The invariant of the hash part and its preservation by the elementary updates. *)
Require Import ZArith List Bool Lia Permutation.
From Verif Require Import Base Base_facts Float_model Table_model Table_facts.
Import ListNotations.
Open Scope Z_scope.

Definition kmatch (k : key) (n : nodekey) : bool :=
  match n with NoKey => false | Live k' => key_eqb k k' | Dead k' => key_eqb k k' end.

Section H.
Variable V : Type.
Variable mp : key -> Z.      (* main position, for the given size *)
Notation node := (node V).
Notation keyat := (keyat V). Notation nodeat := (nodeat V). Notation anext := (anext V). Notation seg := (seg V). Notation inr := (inr V).

(* searching for k from its main position finds i first *)
Definition located (cs : list (list Z)) (ns : list node) (k : key) (i : Z) : Prop :=
  exists c p q r, In c cs /\ c = p ++ q ++ i :: r /\ hd i q = mp k /\ forall j, In j q -> kmatch k (keyat ns j) = false.

Record winv (ns : list node) (cs : list (list Z)) : Prop := {
  w_mp : forall k, inr ns (mp k);
  w_nodup : NoDup (concat cs);
  w_range : forall i, In i (concat cs) -> inr ns i;
  w_seg : forall c, In c cs -> seg ns c None;
  w_free : forall i, inr ns i -> ~ In i (concat cs) -> nodeat ns i = blank V;
  w_used : forall i, In i (concat cs) -> keyat ns i <> NoKey;
  w_live : forall i k, inr ns i -> keyat ns i = Live k -> good k /\ located cs ns k i;
  w_main : forall i k, inr ns i -> keyat ns i = Live k -> exists k', (keyat ns (mp k) = Live k' \/ keyat ns (mp k) = Dead k') /\ mp k' = mp k;
  w_val : forall i, inr ns i -> nval V (nodeat ns i) <> None -> exists k, keyat ns i = Live k;
  w_dead : forall i k, inr ns i -> keyat ns i = Dead k -> collectable k = true }.

Lemma w_in : forall ns cs i, winv ns cs -> inr ns i -> keyat ns i <> NoKey -> In i (concat cs).
Proof.
  intros ns cs i W R K. destruct (in_dec Z.eq_dec i (concat cs)) as [I|I]; [assumption|].
  exfalso. apply K. unfold Table_facts.keyat. rewrite (w_free _ _ W i R I). reflexivity.
Qed.

(* the chain from the main position on *)
Lemma chain_from : forall ns cs i, winv ns cs -> In i (concat cs) -> exists c p r, In c cs /\ c = p ++ i :: r /\
  seg ns (i :: r) None /\ (forall j, In j (i :: r) -> inr ns j) /\ (length (i :: r) <= length ns)%nat.
Proof.
  intros ns cs i W I. apply in_concat in I. destruct I as (c & C & I). apply in_split in I. destruct I as (p & r & E).
  exists c, p, r. split; [assumption|]. split; [assumption|]. pose proof (w_seg _ _ W c C) as S. rewrite E in S. apply seg_app in S.
  assert (R : forall j, In j (i :: r) -> inr ns j).
  { intros j J. apply (w_range _ _ W). apply in_concat. exists c. split; [assumption|]. rewrite E. apply in_app_iff. auto. }
  split; [apply S|]. split; [exact R|].
  assert (ND : NoDup (i :: r)) by (pose proof (nodup_concat_in cs c (w_nodup _ _ W) C) as ND; rewrite E in ND; eapply nodup_app_r; eassumption).
  pose proof (nodup_range (i :: r) (Z.of_nat (length ns)) ltac:(lia) ND R). lia.
Qed.

(* what the search loop finds *)
Lemma search_from : forall ns cs p k, winv ns cs -> p NoKey = false ->
  exists r, search V (length ns) p ns (mp k) = Ok (find (fun j => p (keyat ns j)) r) /\
  (In (mp k) (concat cs) -> exists c l, In c cs /\ c = l ++ r /\ exists r', r = mp k :: r') /\
  (~ In (mp k) (concat cs) -> r = []).
Proof.
  intros ns cs p k W P. destruct (in_dec Z.eq_dec (mp k) (concat cs)) as [I|I].
  - destruct (chain_from ns cs (mp k) W I) as (c & l & r & C & E & S & R & L). exists (mp k :: r). split; [apply search_seg; assumption|].
    split; [|tauto]. intros _. exists c, l. split; [assumption|]. split; [assumption|]. exists r. reflexivity.
  - exists []. split; [|tauto]. pose proof (w_mp _ _ W k) as M. pose proof (w_free _ _ W _ M I) as B.
    destruct ns as [|n ns]; [unfold Table_facts.inr in M; cbn in M; lia|]. cbn [length search]. rewrite getnode_ok by assumption. cbn [bind].
    rewrite B. cbn [nkey blank]. rewrite P. reflexivity.
Qed.

Lemma located_find : forall ns cs k i p r c l, winv ns cs -> located cs ns k i -> In c cs -> c = l ++ mp k :: r ->
  (forall n, p n = true -> kmatch k n = true) -> p (keyat ns i) = true ->
  find (fun j => p (keyat ns j)) (mp k :: r) = Some i.
Proof.
  intros ns cs k i p r c l W (c' & a & q & b & C' & E' & H & NQ) C E PM PI.
  assert (Q : exists q', q ++ i :: b = mp k :: q').
  { destruct q as [|y q]; cbn [hd] in H; subst; eexists; reflexivity. }
  destruct Q as (q' & Q). assert (CE : c = c').
  { apply (nodup_concat_unique cs c c' (mp k) (w_nodup _ _ W) C C').
    - rewrite E. apply in_app_iff. right. left. reflexivity.
    - rewrite E', Q. apply in_app_iff. right. left. reflexivity. }
  rewrite <- CE in E'. rewrite Q in E'. destruct (split_unique c l r a q' (mp k) (nodup_concat_in cs c (w_nodup _ _ W) C) E E') as [_ ->].
  rewrite <- Q. rewrite find_app_none.
  - cbn [find]. rewrite PI. reflexivity.
  - intros j J. specialize (NQ j J). destruct (p (keyat ns j)) eqn:F; [|reflexivity]. rewrite (PM _ F) in NQ. discriminate.
Qed.
Lemma located_in : forall ns cs k i, winv ns cs -> located cs ns k i -> In (mp k) (concat cs) /\ In i (concat cs).
Proof.
  intros ns cs k i W (c & a & q & b & C & E & H & NQ). split; apply in_concat; exists c; split; auto; rewrite E.
  - destruct q as [|y q]; cbn [hd] in H; subst; apply in_app_iff; right; cbn; auto.
  - apply in_app_iff; right. apply in_app_iff; right. left. reflexivity.
Qed.
(* a search for a located key *)
Lemma search_located : forall ns cs k i p, winv ns cs -> located cs ns k i -> p NoKey = false ->
  (forall n, p n = true -> kmatch k n = true) -> p (keyat ns i) = true ->
  search V (length ns) p ns (mp k) = Ok (Some i).
Proof.
  intros ns cs k i p W L P PM PI. destruct (search_from ns cs p k W P) as (r & E & I & _). destruct (located_in ns cs k i W L) as [M _].
  destruct (I M) as (c & l & C & EC & r' & ->). rewrite E. f_equal. eapply located_find; eassumption.
Qed.
Lemma live_match : forall k n, is_live k n = true -> kmatch k n = true.
Proof. intros k [|k'|k'] H; cbn in *; congruence. Qed.

Lemma search_live : forall ns cs k i, winv ns cs -> inr ns i -> keyat ns i = Live k ->
  search V (length ns) (is_live k) ns (mp k) = Ok (Some i).
Proof.
  intros ns cs k i W R K. destruct (w_live _ _ W i k R K) as [G L]. eapply search_located; try eassumption; try reflexivity.
  - intros n. apply live_match.
  - rewrite K. cbn. apply key_eqb_refl. assumption.
Qed.
Lemma live_unique : forall ns cs k i j, winv ns cs -> inr ns i -> inr ns j -> keyat ns i = Live k -> keyat ns j = Live k -> i = j.
Proof.
  intros ns cs k i j W RI RJ KI KJ. pose proof (search_live ns cs k i W RI KI) as A. rewrite (search_live ns cs k j W RJ KJ) in A. congruence.
Qed.
Definition notlive (ns : list node) (k : key) : Prop := forall i, inr ns i -> keyat ns i <> Live k.
Definition self_uneq (k : key) : Prop := forall k', good k' -> key_eqb k k' = false.
Lemma search_absent : forall ns cs k, winv ns cs -> (good k /\ notlive ns k \/ self_uneq k) ->
  search V (length ns) (is_live k) ns (mp k) = Ok None.
Proof.
  intros ns cs k W G. destruct (search_from ns cs (is_live k) k W eq_refl) as (r & E & I & O). rewrite E. f_equal.
  assert (X : forall j, In j r -> inr ns j).
  { intros j J. destruct (in_dec Z.eq_dec (mp k) (concat cs)) as [M|M].
    - destruct (I M) as (c & l & C & EC & _). apply (w_range _ _ W). apply in_concat. exists c. split; [assumption|]. rewrite EC. apply in_app_iff. auto.
    - rewrite (O M) in J. destruct J. }
  destruct (find (fun j => is_live k (keyat ns j)) r) eqn:F; [|reflexivity]. exfalso. apply find_some in F. destruct F as [J F].
  destruct (keyat ns z) as [|k'|k'] eqn:K; try discriminate. cbn in F. destruct (w_live _ _ W z k' (X z J) K) as [G' _].
  destruct G as [[G NL]|SU].
  - apply key_eqb_eq in F; try assumption. subst. exact (NL z (X z J) K).
  - rewrite (SU k' G') in F. discriminate.
Qed.
(* conversely *)
Lemma search_none : forall ns cs k, winv ns cs -> good k -> search V (length ns) (is_live k) ns (mp k) = Ok None -> notlive ns k.
Proof. intros ns cs k W G E i R K. rewrite (search_live ns cs k i W R K) in E. discriminate. Qed.

(* ---- frame: updates which keep keys and links ---- *)
Definition same_key (a b : nodekey) : Prop := forall k, kmatch k a = kmatch k b.
Lemma located_ext : forall ns ns' cs k i, (forall j, In j (concat cs) -> kmatch k (keyat ns j) = false -> kmatch k (keyat ns' j) = false) ->
  located cs ns k i -> located cs ns' k i.
Proof.
  intros ns ns' cs k i H (c & p & q & r & C & E & HD & NQ). exists c, p, q, r. repeat (split; [assumption|]).
  intros j J. apply H; [|apply NQ; assumption]. apply in_concat. exists c. split; [assumption|]. rewrite E. rewrite !in_app_iff. auto.
Qed.

(* storing a value in a live node, or nil in any node *)
Lemma winv_value : forall ns cs i v, winv ns cs -> inr ns i -> (v = None \/ exists k, keyat ns i = Live k) ->
  (keyat ns i = NoKey -> v = None) ->
  winv (setnode V ns i (mkNode V (nkey V (nodeat ns i)) v (nnext V (nodeat ns i)))) cs.
Proof.
  intros ns cs i v W R HV HN. set (ns' := setnode V ns i _).
  assert (KE : forall j, inr ns j -> keyat ns' j = keyat ns j /\ anext ns' j = anext ns j).
  { intros j J. destruct (Z.eq_dec i j) as [<-|N].
    - unfold ns', Table_facts.keyat, Table_facts.anext. rewrite nodeat_same by assumption. cbn [nkey nnext]. auto.
    - unfold ns', Table_facts.keyat, Table_facts.anext. rewrite nodeat_other by (unfold Table_facts.inr in *; lia). auto. }
  assert (RR : forall j, inr ns' j <-> inr ns j) by (intros; apply inr_set).
  constructor.
  - intros k. apply RR. apply (w_mp _ _ W).
  - apply (w_nodup _ _ W).
  - intros j J. apply RR. apply (w_range _ _ W). assumption.
  - intros c C. apply (seg_ext V ns); [|apply (w_seg _ _ W); assumption]. intros x X. apply KE. apply (w_range _ _ W). apply in_concat. exists c. auto.
  - intros j J NJ. apply RR in J. destruct (Z.eq_dec i j) as [<-|N].
    + pose proof (w_free _ _ W i R NJ) as B. unfold ns'. rewrite nodeat_same by assumption. rewrite B. cbn.
      rewrite HN by (unfold Table_facts.keyat; rewrite B; reflexivity). reflexivity.
    + unfold ns'. rewrite nodeat_other by (unfold Table_facts.inr in *; lia). apply (w_free _ _ W); assumption.
  - intros j J. rewrite (proj1 (KE j (w_range _ _ W j J))). apply (w_used _ _ W). assumption.
  - intros j k J K. apply RR in J. rewrite (proj1 (KE j J)) in K. destruct (w_live _ _ W j k J K) as [G L]. split; [assumption|].
    apply (located_ext ns); [|assumption]. intros x X. rewrite (proj1 (KE x (w_range _ _ W x X))). auto.
  - intros j k J K. apply RR in J. rewrite (proj1 (KE j J)) in K. rewrite (proj1 (KE _ (w_mp _ _ W k))). apply (w_main _ _ W j); assumption.
  - intros j J NV. apply RR in J. rewrite (proj1 (KE j J)). destruct (Z.eq_dec i j) as [<-|N].
    + unfold ns' in NV. rewrite nodeat_same in NV by assumption. cbn in NV. destruct HV as [->|HV]; [congruence|assumption].
    + unfold ns' in NV. rewrite nodeat_other in NV by (unfold Table_facts.inr in *; lia). apply (w_val _ _ W); assumption.
  - intros j k J K. apply RR in J. rewrite (proj1 (KE j J)) in K. apply (w_dead _ _ W j); assumption.
Qed.

(* marking the key of an empty entry dead *)
Lemma winv_kill : forall ns cs i k, winv ns cs -> inr ns i -> keyat ns i = Live k -> collectable k = true ->
  winv (setnode V ns i (mkNode V (Dead k) None (nnext V (nodeat ns i)))) cs.
Proof.
  intros ns cs i k W R K CK. set (ns' := setnode V ns i _).
  assert (KO : forall j, inr ns j -> j <> i -> nodeat ns' j = nodeat ns j).
  { intros j J N. unfold ns'. rewrite nodeat_other by (unfold Table_facts.inr in *; lia). reflexivity. }
  assert (KI : nodeat ns' i = mkNode V (Dead k) None (nnext V (nodeat ns i))) by (apply nodeat_same; assumption).
  assert (KE : forall j, inr ns j -> anext ns' j = anext ns j /\ (forall k', kmatch k' (keyat ns' j) = kmatch k' (keyat ns j))).
  { intros j J. unfold Table_facts.keyat, Table_facts.anext. destruct (Z.eq_dec j i) as [->|N].
    - rewrite KI. cbn [nkey nnext]. split; [reflexivity|]. intros k'. fold (keyat ns i). rewrite K. reflexivity.
    - rewrite (KO j J N). auto. }
  assert (RR : forall j, inr ns' j <-> inr ns j) by (intros; apply inr_set).
  assert (INI : In i (concat cs)) by (apply (w_in ns); auto; congruence).
  constructor.
  - intros k'. apply RR. apply (w_mp _ _ W).
  - apply (w_nodup _ _ W).
  - intros j J. apply RR. apply (w_range _ _ W). assumption.
  - intros c C. apply (seg_ext V ns); [|apply (w_seg _ _ W); assumption]. intros x X. apply KE. apply (w_range _ _ W). apply in_concat. exists c. auto.
  - intros j J NJ. apply RR in J. rewrite KO by (auto; intros ->; contradiction). apply (w_free _ _ W); assumption.
  - intros j J. pose proof (w_range _ _ W j J). unfold Table_facts.keyat. destruct (Z.eq_dec j i) as [->|N].
    + rewrite KI. discriminate.
    + rewrite KO by assumption. apply (w_used _ _ W). assumption.
  - intros j k' J K'. apply RR in J. assert (N : j <> i) by (intros ->; unfold Table_facts.keyat in K'; rewrite KI in K'; discriminate).
    unfold Table_facts.keyat in K'. rewrite KO in K' by assumption. destruct (w_live _ _ W j k' J K') as [G L]. split; [assumption|].
    apply (located_ext ns); [|assumption]. intros x X. rewrite (proj2 (KE x (w_range _ _ W x X))). auto.
  - intros j k' J K'. apply RR in J. assert (N : j <> i) by (intros ->; unfold Table_facts.keyat in K'; rewrite KI in K'; discriminate).
    unfold Table_facts.keyat in K'. rewrite KO in K' by assumption. destruct (w_main _ _ W j k' J K') as (k2 & M & E).
    exists k2. split; [|assumption]. unfold Table_facts.keyat. destruct (Z.eq_dec (mp k') i) as [EI|NI].
    + right. rewrite EI, KI. cbn. f_equal. rewrite EI in M. rewrite K in M. destruct M as [M|M]; congruence.
    + rewrite KO by (auto; apply (w_mp _ _ W)). exact M.
  - intros j J NV. apply RR in J. unfold Table_facts.keyat. destruct (Z.eq_dec j i) as [->|N].
    + rewrite KI in NV. cbn in NV. congruence.
    + rewrite KO in * by assumption. apply (w_val _ _ W); assumption.
  - intros j k' J K'. apply RR in J. unfold Table_facts.keyat in K'. destruct (Z.eq_dec j i) as [->|N].
    + rewrite KI in K'. cbn in K'. congruence.
    + rewrite KO in K' by assumption. apply (w_dead _ _ W j); assumption.
Qed.

(* ---- (a) the main position has no value: its node is reused ---- *)
Lemma winv_reuse : forall ns cs k, winv ns cs -> good k -> notlive ns k -> nval V (nodeat ns (mp k)) = None ->
  exists cs', winv (setnode V ns (mp k) (mkNode V (Live k) None (nnext V (nodeat ns (mp k))))) cs' .
Proof.
  intros ns cs k W G NL NV. set (m := mp k) in *. set (ns' := setnode V ns m _).
  pose proof (w_mp _ _ W k) as M. fold m in M.
  assert (KO : forall j, inr ns j -> j <> m -> nodeat ns' j = nodeat ns j).
  { intros j J N. unfold ns'. rewrite nodeat_other by (unfold Table_facts.inr in *; lia). reflexivity. }
  assert (KI : nodeat ns' m = mkNode V (Live k) None (nnext V (nodeat ns m))) by (apply nodeat_same; assumption).
  assert (KE : forall j, inr ns j -> anext ns' j = anext ns j).
  { intros j J. unfold Table_facts.anext. destruct (Z.eq_dec j m) as [->|N]; [rewrite KI; reflexivity|]. rewrite (KO j J N). reflexivity. }
  assert (RR : forall j, inr ns' j <-> inr ns j) by (intros; apply inr_set).
  set (cs' := if in_dec Z.eq_dec m (concat cs) then cs else [m] :: cs).
  assert (CI : forall j, In j (concat cs') <-> j = m \/ In j (concat cs)).
  { intros j. unfold cs'. destruct (in_dec Z.eq_dec m (concat cs)) as [I|I].
    - split; [auto|]. intros [->|H]; assumption.
    - cbn [concat app In]. split; intros [H|H]; auto. }
  assert (CC : forall c, In c cs -> In c cs') by (intros c C; unfold cs'; destruct (in_dec Z.eq_dec m (concat cs)); [assumption|right; assumption]).
  exists cs'. constructor.
  - intros k'. apply RR. apply (w_mp _ _ W).
  - unfold cs'. destruct (in_dec Z.eq_dec m (concat cs)) as [I|I]; [apply (w_nodup _ _ W)|]. cbn [concat app]. constructor; [assumption|apply (w_nodup _ _ W)].
  - intros j J. apply RR. apply CI in J. destruct J as [->|J]; [assumption|]. apply (w_range _ _ W). assumption.
  - intros c C. assert (X : In c cs -> seg ns' c None).
    { intros C'. apply (seg_ext V ns); [|apply (w_seg _ _ W); assumption]. intros x X. apply KE. apply (w_range _ _ W). apply in_concat. exists c. auto. }
    unfold cs' in C. destruct (in_dec Z.eq_dec m (concat cs)) as [I|I]; [auto|]. destruct C as [<-|C]; [|auto].
    cbn [Table_facts.seg]. split; [|exact Logic.I]. rewrite KE by assumption. unfold Table_facts.anext. rewrite (w_free _ _ W m M I). reflexivity.
  - intros j J NJ. apply RR in J. rewrite CI in NJ. rewrite KO by (auto). apply (w_free _ _ W); auto.
  - intros j J. apply CI in J. unfold Table_facts.keyat. destruct (Z.eq_dec j m) as [->|N].
    + rewrite KI. discriminate.
    + destruct J as [->|J]; [congruence|]. rewrite KO by (auto; apply (w_range _ _ W); assumption). apply (w_used _ _ W). assumption.
  - intros j k' J K'. apply RR in J. unfold Table_facts.keyat in K'. destruct (Z.eq_dec j m) as [->|N].
    + rewrite KI in K'. cbn in K'. injection K' as <-. split; [assumption|].
      assert (I : In m (concat cs')) by (apply CI; auto). apply in_concat in I. destruct I as (c & C & I). apply in_split in I. destruct I as (p & r & E).
      exists c, p, [], r. split; [assumption|]. split; [assumption|]. split; [reflexivity|]. intros x [].
    + rewrite KO in K' by assumption. destruct (w_live _ _ W j k' J K') as [G' L]. split; [assumption|].
      destruct (located_in ns cs k' j W L) as [_ JI].
      assert (L2 : located cs ns' k' j).
      { apply (located_ext ns); [|assumption]. intros x X F. unfold Table_facts.keyat. destruct (Z.eq_dec x m) as [->|NX].
        - rewrite KI. cbn. apply key_eqb_neq; auto. intros ->. exact (NL j J K').
        - rewrite KO by (auto; apply (w_range _ _ W); assumption). exact F. }
      destruct L2 as (c & p & q & r & C & REST). exists c, p, q, r. split; [apply CC; assumption|exact REST].
  - intros j k' J K'. apply RR in J. destruct (Z.eq_dec (mp k') m) as [E|NE].
    + exists k. rewrite E. unfold Table_facts.keyat. rewrite KI. cbn. auto.
    + unfold Table_facts.keyat in K'. destruct (Z.eq_dec j m) as [->|N]; [rewrite KI in K'; cbn in K'; injection K' as <-; unfold m in NE; congruence|].
      rewrite KO in K' by assumption. unfold Table_facts.keyat. rewrite KO by (auto; apply (w_mp _ _ W)). apply (w_main _ _ W j); assumption.
  - intros j J NV'. apply RR in J. unfold Table_facts.keyat. destruct (Z.eq_dec j m) as [->|N].
    + rewrite KI in NV'. cbn in NV'. congruence.
    + rewrite KO in * by assumption. apply (w_val _ _ W); assumption.
  - intros j k' J K'. apply RR in J. unfold Table_facts.keyat in K'. destruct (Z.eq_dec j m) as [->|N].
    + rewrite KI in K'. discriminate.
    + rewrite KO in K' by assumption. apply (w_dead _ _ W j); assumption.
Qed.

Lemma anext_eq : forall ns i j n, nodeat ns i = n -> (if nnext V n =? 0 then None else Some (i + nnext V n)) = j -> anext ns i = j.
Proof. intros ns i j n <- <-. reflexivity. Qed.

(* ---- (b) the colliding node is out of its main position: it moves to the free node f ---- *)
Lemma winv_move : forall ns cs k mk f prev, winv ns cs -> good k -> notlive ns k ->
  keyat ns (mp k) = Live mk -> mp mk <> mp k -> inr ns f -> keyat ns f = NoKey ->
  inr ns prev -> anext ns prev = Some (mp k) ->
  let m := mp k in let mn := nodeat ns m in let pn := nodeat ns prev in
  exists cs', winv (setnode V (setnode V (setnode V ns prev (mkNode V (nkey V pn) (nval V pn) (f - prev)))
      f (mkNode V (nkey V mn) (nval V mn) (if nnext V mn =? 0 then 0 else nnext V mn + (m - f))))
      m (mkNode V (Live k) None 0)) cs'.
Proof.
  intros ns cs k mk f prev W G NL KM NE RF KF RP AP m mn pn. set (ns' := setnode V _ m _).
  pose proof (w_mp _ _ W k) as M. fold m in M, KM, NE, AP.
  assert (FI : ~ In f (concat cs)) by (intros I; exact (w_used _ _ W f I KF)).
  assert (MI : In m (concat cs)) by (apply (w_in ns); auto; congruence).
  assert (FM : f <> m) by congruence.
  assert (PI : In prev (concat cs)).
  { destruct (in_dec Z.eq_dec prev (concat cs)) as [I|I]; [assumption|]. exfalso. unfold Table_facts.anext in AP. rewrite (w_free _ _ W prev RP I) in AP. discriminate. }
  assert (PM : prev <> m) by (intros ->; exact (anext_irr V ns cs m (w_nodup _ _ W) (w_seg _ _ W) MI AP)).
  assert (PF : prev <> f) by (intros ->; contradiction).
  (* the new nodes *)
  assert (N_m : nodeat ns' m = mkNode V (Live k) None 0).
  { unfold ns'. apply nodeat_same. rewrite !inr_set. assumption. }
  assert (N_f : nodeat ns' f = mkNode V (nkey V mn) (nval V mn) (if nnext V mn =? 0 then 0 else nnext V mn + (m - f))).
  { unfold ns'. rewrite nodeat_other by (unfold Table_facts.inr in *; lia). apply nodeat_same. rewrite inr_set. assumption. }
  assert (N_p : nodeat ns' prev = mkNode V (nkey V pn) (nval V pn) (f - prev)).
  { unfold ns'. rewrite !nodeat_other by (unfold Table_facts.inr in *; lia). apply nodeat_same. assumption. }
  assert (N_o : forall j, inr ns j -> j <> m -> j <> f -> j <> prev -> nodeat ns' j = nodeat ns j).
  { intros j J A B C. unfold ns'. rewrite !nodeat_other by (unfold Table_facts.inr in *; lia). reflexivity. }
  assert (RR : forall j, inr ns' j <-> inr ns j) by (intros; unfold ns'; rewrite !inr_set; tauto).
  assert (K_o : forall j, inr ns j -> j <> m -> j <> f -> keyat ns' j = keyat ns j /\ nval V (nodeat ns' j) = nval V (nodeat ns j)).
  { intros j J A B. unfold Table_facts.keyat. destruct (Z.eq_dec j prev) as [->|C]; [rewrite N_p; cbn; auto|]. rewrite N_o by assumption. auto. }
  assert (K_f : keyat ns' f = Live mk) by (unfold Table_facts.keyat; rewrite N_f; exact KM).
  assert (K_m : keyat ns' m = Live k) by (unfold Table_facts.keyat; rewrite N_m; reflexivity).
  set (s := fun x => if x =? m then f else x).
  assert (s_m : s m = f) by (unfold s; rewrite Z.eqb_refl; reflexivity).
  assert (s_o : forall x, x <> m -> s x = x) by (intros x X; unfold s; apply Z.eqb_neq in X; rewrite X; reflexivity).
  assert (K_s : forall x, In x (concat cs) -> keyat ns' (s x) = keyat ns x).
  { intros x X. destruct (Z.eq_dec x m) as [->|N]; [rewrite s_m, K_f; symmetry; exact KM|]. rewrite s_o by assumption.
    apply K_o; [apply (w_range _ _ W); assumption|assumption|intros ->; contradiction]. }
  assert (A_s : forall x, In x (concat cs) -> anext ns' (s x) = option_map s (anext ns x)).
  { intros x X. pose proof (w_range _ _ W x X) as RX. destruct (Z.eq_dec x m) as [->|N].
    - rewrite s_m. apply (anext_eq ns' f _ _ N_f). cbn [nnext]. unfold Table_facts.anext. fold mn. destruct (Z.eqb_spec (nnext V mn) 0) as [Z0|Z0]; [reflexivity|].
      assert (AN : anext ns m = Some (m + nnext V mn)) by (apply (anext_eq ns m _ mn eq_refl); apply Z.eqb_neq in Z0; rewrite Z0; reflexivity).
      assert (m + nnext V mn <> m) by lia. cbn [option_map]. rewrite s_o by lia.
      pose proof (anext_in V ns cs m _ (w_seg _ _ W) MI AN) as NI. destruct (Z.eqb_spec (nnext V mn + (m - f)) 0) as [Q|Q].
      + exfalso. apply FI. replace f with (m + nnext V mn) by lia. assumption.
      + f_equal. lia.
    - rewrite s_o by assumption. destruct (Z.eq_dec x prev) as [->|NP].
      + rewrite AP. cbn [option_map]. rewrite s_m. apply (anext_eq ns' prev _ _ N_p). cbn [nnext]. destruct (Z.eqb_spec (f - prev) 0); [exfalso; apply PF; lia|]. f_equal. lia.
      + assert (NF : x <> f) by (intros ->; contradiction). assert (E : anext ns' x = anext ns x) by (unfold Table_facts.anext; rewrite N_o by assumption; reflexivity).
        rewrite E. destruct (anext ns x) as [y|] eqn:AX; [|reflexivity]. cbn [option_map]. rewrite s_o; [reflexivity|]. intros ->.
        apply NP. apply (pred_unique V ns cs x prev m (w_nodup _ _ W) (w_seg _ _ W)); assumption. }
  assert (S_s : forall c e, (forall x, In x c -> In x (concat cs)) -> seg ns c e -> seg ns' (map s c) (option_map s e)).
  { induction c as [|x c IH]; intros e X S; [exact Logic.I|]. cbn [map Table_facts.seg] in *. destruct S as [S1 S2]. split.
    - rewrite A_s by (apply X; left; reflexivity). rewrite S1. destruct c; reflexivity.
    - apply IH; [|assumption]. intros y Y. apply X. right. assumption. }
  exists ([m] :: map (map s) cs).
  assert (CI : forall j, In j (concat ([m] :: map (map s) cs)) <-> j = m \/ j = f \/ (In j (concat cs) /\ j <> m)).
  { intros j. cbn [concat app In]. rewrite concat_map_map, in_map_iff. split.
    - intros [H|(x & E & X)]; [left; auto|]. destruct (Z.eq_dec x m) as [->|N]; [rewrite s_m in E; auto|]. rewrite s_o in E by assumption. rewrite <- E. auto.
    - intros [->|[->|[H N]]]; [auto|right; exists m; auto|right; exists j; split; [apply s_o|]; assumption]. }
  assert (NOM : forall j k', inr ns j -> keyat ns j = Live k' -> mp k' <> m).
  { intros j k' J K' E. destruct (w_main _ _ W j k' J K') as (k2 & H & E2). rewrite E in H, E2. rewrite KM in H. destruct H as [H|H]; [|discriminate]. injection H as <-. contradiction. }
  constructor.
  - intros k'. apply RR. apply (w_mp _ _ W).
  - cbn [concat app]. rewrite concat_map_map. constructor.
    + rewrite in_map_iff. intros (x & E & X). destruct (Z.eq_dec x m) as [->|N]; [rewrite s_m in E; congruence|]. rewrite s_o in E by assumption. congruence.
    + apply nodup_map_inj; [apply (w_nodup _ _ W)|]. intros x y X Y E. unfold s in E.
      destruct (Z.eqb_spec x m); destruct (Z.eqb_spec y m); try congruence; exfalso; apply FI; congruence.
  - intros j J. apply RR. apply CI in J. destruct J as [->|[->|[J _]]]; auto. apply (w_range _ _ W). assumption.
  - intros c [<-|C].
    + cbn [Table_facts.seg]. split; [|exact Logic.I]. apply (anext_eq ns' m _ _ N_m). reflexivity.
    + apply in_map_iff in C. destruct C as (d & <- & D). apply (S_s d None); [|apply (w_seg _ _ W); assumption].
      intros x X. apply in_concat. exists d. auto.
  - intros j J NJ. apply RR in J. rewrite CI in NJ. assert (j <> m /\ j <> f /\ ~ In j (concat cs)) as (A & B & C).
    { split; [tauto|]. split; [tauto|]. intros X. apply NJ. right. right. split; [assumption|tauto]. }
    rewrite N_o; auto. apply (w_free _ _ W); assumption. intros ->; contradiction.
  - intros j J. apply CI in J. destruct J as [->|[->|[J N]]].
    + rewrite K_m. discriminate.
    + rewrite K_f. discriminate.
    + rewrite (proj1 (K_o j (w_range _ _ W j J) N ltac:(intros ->; contradiction))). apply (w_used _ _ W). assumption.
  - intros j k' J K'. apply RR in J. destruct (Z.eq_dec j m) as [->|N].
    + rewrite K_m in K'. injection K' as <-. split; [assumption|]. exists [m], [], [], []. split; [left; reflexivity|]. split; [reflexivity|]. split; [reflexivity|]. intros x [].
    + assert (OLD : exists i, s i = j /\ inr ns i /\ keyat ns i = Live k').
      { destruct (Z.eq_dec j f) as [->|NF].
        - exists m. rewrite K_f in K'. split; [assumption|]. split; [assumption|]. congruence.
        - exists j. rewrite (proj1 (K_o j J N NF)) in K'. split; [apply s_o; assumption|]. auto. }
      destruct OLD as (i & EI & RI & KI). destruct (w_live _ _ W i k' RI KI) as [G' (c & p & q & r & C & E & H & NQ)]. split; [assumption|].
      exists (map s c), (map s p), (map s q), (map s r). split; [right; apply in_map; assumption|]. split; [|split].
      * rewrite E, !map_app. cbn [map]. rewrite EI. reflexivity.
      * rewrite <- EI. destruct q as [|y q]; cbn [map hd] in *; rewrite s_o; auto; rewrite H; apply (NOM i); assumption.
      * intros x X. apply in_map_iff in X. destruct X as (y & <- & Y). rewrite K_s; [apply NQ; assumption|]. apply in_concat. exists c. split; [assumption|]. rewrite E, !in_app_iff. auto.
  - intros j k' J K'. apply RR in J. destruct (Z.eq_dec (mp k') m) as [E|NE'].
    + exists k. rewrite E, K_m. auto.
    + destruct (Z.eq_dec j m) as [->|N]; [rewrite K_m in K'; injection K' as <-; unfold m in NE'; congruence|].
      assert (OLD : exists i, inr ns i /\ keyat ns i = Live k').
      { destruct (Z.eq_dec j f) as [->|NF]; [exists m; rewrite K_f in K'; split; [assumption|congruence]|]. exists j. rewrite (proj1 (K_o j J N NF)) in K'. auto. }
      destruct OLD as (i & RI & KI). destruct (w_main _ _ W i k' RI KI) as (k2 & H & E2). exists k2. split; [|assumption].
      assert (mp k' <> f) by (intros E; rewrite E in H; rewrite KF in H; destruct H; discriminate).
      rewrite (proj1 (K_o (mp k') (w_mp _ _ W k') NE' H0)). assumption.
  - intros j J NV. apply RR in J. destruct (Z.eq_dec j m) as [->|N]; [exists k; assumption|]. destruct (Z.eq_dec j f) as [->|NF]; [exists mk; assumption|].
    destruct (K_o j J N NF) as [E1 E2]. rewrite E1. rewrite E2 in NV. apply (w_val _ _ W); assumption.
  - intros j k' J K'. apply RR in J. destruct (Z.eq_dec j m) as [->|N]; [rewrite K_m in K'; discriminate|].
    destruct (Z.eq_dec j f) as [->|NF]; [rewrite K_f in K'; discriminate|]. rewrite (proj1 (K_o j J N NF)) in K'. apply (w_dead _ _ W j); assumption.
Qed.

(* ---- (c) the colliding node is in its main position: the new key goes to the free node ---- *)
Lemma winv_chain : forall ns cs k mk f, winv ns cs -> good k -> notlive ns k ->
  keyat ns (mp k) = Live mk -> mp mk = mp k -> inr ns f -> keyat ns f = NoKey ->
  let m := mp k in let mn := nodeat ns m in
  exists cs', winv (setnode V (setnode V ns f (mkNode V (Live k) None (if nnext V mn =? 0 then 0 else m + nnext V mn - f)))
      m (mkNode V (nkey V mn) (nval V mn) (f - m))) cs'.
Proof.
  intros ns cs k mk f W G NL KM EM RF KF m mn. set (ns' := setnode V _ m _).
  pose proof (w_mp _ _ W k) as M. fold m in M, KM, EM.
  assert (FI : ~ In f (concat cs)) by (intros I; exact (w_used _ _ W f I KF)).
  assert (MI : In m (concat cs)) by (apply (w_in ns); auto; congruence).
  assert (FM : f <> m) by congruence.
  destruct (w_live _ _ W m mk M KM) as [GM _]. assert (KMK : k <> mk) by (intros ->; exact (NL m M KM)).
  assert (N_m : nodeat ns' m = mkNode V (nkey V mn) (nval V mn) (f - m)) by (unfold ns'; apply nodeat_same; rewrite inr_set; assumption).
  assert (N_f : nodeat ns' f = mkNode V (Live k) None (if nnext V mn =? 0 then 0 else m + nnext V mn - f)).
  { unfold ns'. rewrite nodeat_other by (unfold Table_facts.inr in *; lia). apply nodeat_same. assumption. }
  assert (N_o : forall j, inr ns j -> j <> m -> j <> f -> nodeat ns' j = nodeat ns j).
  { intros j J A B. unfold ns'. rewrite !nodeat_other by (unfold Table_facts.inr in *; lia). reflexivity. }
  assert (RR : forall j, inr ns' j <-> inr ns j) by (intros; unfold ns'; rewrite !inr_set; tauto).
  assert (K_f : keyat ns' f = Live k) by (unfold Table_facts.keyat; rewrite N_f; reflexivity).
  assert (K_o : forall j, inr ns j -> j <> f -> keyat ns' j = keyat ns j /\ nval V (nodeat ns' j) = nval V (nodeat ns j)).
  { intros j J A. unfold Table_facts.keyat. destruct (Z.eq_dec j m) as [->|C]; [rewrite N_m; cbn; auto|]. rewrite N_o by assumption. auto. }
  set (g := fun x => if x =? m then [m; f] else [x]).
  assert (g_m : g m = [m; f]) by (unfold g; rewrite Z.eqb_refl; reflexivity).
  assert (g_o : forall x, x <> m -> g x = [x]) by (intros x X; unfold g; apply Z.eqb_neq in X; rewrite X; reflexivity).
  assert (A_m : anext ns' m = Some f) by (apply (anext_eq ns' m _ _ N_m); cbn [nnext]; destruct (Z.eqb_spec (f - m) 0); [exfalso; apply FM; lia|f_equal; lia]).
  assert (A_f : anext ns' f = anext ns m).
  { apply (anext_eq ns' f _ _ N_f). cbn [nnext]. unfold Table_facts.anext. fold mn. destruct (Z.eqb_spec (nnext V mn) 0) as [Z0|Z0]; [reflexivity|].
    assert (AN : anext ns m = Some (m + nnext V mn)) by (apply (anext_eq ns m _ mn eq_refl); apply Z.eqb_neq in Z0; rewrite Z0; reflexivity).
    pose proof (anext_in V ns cs m _ (w_seg _ _ W) MI AN) as NI. destruct (Z.eqb_spec (m + nnext V mn - f) 0) as [Q|Q].
    - exfalso. apply FI. replace f with (m + nnext V mn) by lia. assumption.
    - f_equal. lia. }
  assert (A_o : forall x, inr ns x -> x <> m -> x <> f -> anext ns' x = anext ns x) by (intros x X A B; unfold Table_facts.anext; rewrite N_o by assumption; reflexivity).
  assert (HG : forall c e, hdo (flat_map g c) e = hdo c e).
  { intros [|x c] e; [reflexivity|]. cbn [flat_map]. unfold g. destruct (Z.eqb_spec x m) as [->|]; reflexivity. }
  assert (S_g : forall c e, (forall x, In x c -> In x (concat cs)) -> seg ns c e -> seg ns' (flat_map g c) e).
  { induction c as [|x c IH]; intros e X S; [exact Logic.I|]. cbn [flat_map Table_facts.seg] in *. destruct S as [S1 S2].
    assert (IHc : seg ns' (flat_map g c) e) by (apply IH; [intros y Y; apply X; right; assumption|assumption]).
    apply seg_app. split; [|assumption]. rewrite HG. fold (hdo c e) in S1. destruct (Z.eq_dec x m) as [->|N].
    - rewrite g_m. cbn [Table_facts.seg]. rewrite A_m, A_f. auto.
    - rewrite g_o by assumption. cbn [Table_facts.seg]. split; [|exact Logic.I]. rewrite A_o; auto; [apply (w_range _ _ W); apply X; left; reflexivity|].
      intros ->. apply FI. apply X. left. reflexivity. }
  assert (PERM : forall l, NoDup l -> In m l -> Permutation (flat_map g l) (f :: l)).
  { intros l ND I. apply in_split in I. destruct I as (a & b & ->). assert (O : forall l, ~ In m l -> flat_map g l = l).
    { induction l as [|x l IH]; intros X; [reflexivity|]. cbn [flat_map]. rewrite IH by (intros Y; apply X; right; assumption). rewrite g_o; [reflexivity|]. intros ->. apply X. left. reflexivity. }
    assert (MA : ~ In m (a ++ b)) by (apply NoDup_remove_2; assumption). rewrite in_app_iff in MA.
    rewrite flat_map_app. cbn [flat_map]. rewrite g_m, (O a), (O b) by tauto. cbn [app].
    symmetry. replace (a ++ m :: f :: b) with ((a ++ [m]) ++ f :: b) by (rewrite <- app_assoc; reflexivity).
    apply Permutation_cons_app. rewrite <- app_assoc. reflexivity. }
  exists (map (flat_map g) cs).
  pose proof (PERM (concat cs) (w_nodup _ _ W) MI) as PP. rewrite <- concat_map_flat in PP.
  assert (CI : forall j, In j (concat (map (flat_map g) cs)) <-> j = f \/ In j (concat cs)).
  { intros j. split; intros H.
    - apply (Permutation_in _ PP) in H. destruct H; auto.
    - apply (Permutation_in _ (Permutation_sym PP)). destruct H as [->|H]; cbn; auto. }
  constructor.
  - intros k'. apply RR. apply (w_mp _ _ W).
  - apply (Permutation_NoDup (Permutation_sym PP)). constructor; [assumption|apply (w_nodup _ _ W)].
  - intros j J. apply RR. apply CI in J. destruct J as [->|J]; auto. apply (w_range _ _ W). assumption.
  - intros c C. apply in_map_iff in C. destruct C as (d & <- & D). apply S_g; [|apply (w_seg _ _ W); assumption]. intros x X. apply in_concat. exists d. auto.
  - intros j J NJ. apply RR in J. rewrite CI in NJ. assert (j <> f /\ ~ In j (concat cs)) as [A B] by tauto.
    rewrite N_o; auto. apply (w_free _ _ W); assumption. intros ->; contradiction.
  - intros j J. apply CI in J. destruct (Z.eq_dec j f) as [->|N]; [rewrite K_f; discriminate|]. destruct J as [->|J]; [congruence|].
    rewrite (proj1 (K_o j (w_range _ _ W j J) N)). apply (w_used _ _ W). assumption.
  - intros j k' J K'. apply RR in J. destruct (Z.eq_dec j f) as [->|N].
    + rewrite K_f in K'. injection K' as <-. split; [assumption|]. apply in_concat in MI. destruct MI as (c & C & I). apply in_split in I. destruct I as (a & b & E).
      exists (flat_map g c), (flat_map g a), [m], (flat_map g b). split; [apply in_map; assumption|]. split; [|split].
      * rewrite E, flat_map_app. cbn [flat_map]. rewrite g_m. reflexivity.
      * reflexivity.
      * intros x [<-|[]]. rewrite (proj1 (K_o m M ltac:(congruence))). rewrite KM. cbn. apply key_eqb_neq; assumption.
    + destruct (K_o j J N) as [E1 _]. rewrite E1 in K'. destruct (w_live _ _ W j k' J K') as [G' (c & p & q & r & C & E & H & NQ)]. split; [assumption|].
      exists (flat_map g c), (flat_map g p), (flat_map g q), ((if j =? m then [f] else []) ++ flat_map g r). split; [apply in_map; assumption|]. split; [|split].
      * rewrite E, !flat_map_app. cbn [flat_map]. unfold g at 3. destruct (Z.eqb_spec j m) as [->|]; reflexivity.
      * destruct q as [|y q]; [exact H|]. cbn [hd] in H. subst y. cbn [flat_map]. unfold g at 1. destruct (Z.eqb_spec (mp k') m) as [->|]; reflexivity.
      * intros x X. apply in_flat_map in X. destruct X as (y & Y & GX).
        assert (YI : In y (concat cs)) by (apply in_concat; exists c; split; [assumption|]; rewrite E, !in_app_iff; auto).
        assert (YF : keyat ns' y = keyat ns y) by (apply K_o; [apply (w_range _ _ W); assumption|intros ->; contradiction]).
        unfold g in GX. destruct (Z.eqb_spec y m) as [->|NY].
        -- destruct GX as [<-|[<-|[]]]; [rewrite YF; apply NQ; assumption|]. rewrite K_f. cbn. apply key_eqb_neq; auto. intros ->. exact (NL j J K').
        -- destruct GX as [<-|[]]. rewrite YF. apply NQ. assumption.
  - intros j k' J K'. apply RR in J. assert (MAIN : forall k2, mp k2 = m -> exists k', (keyat ns' (mp k2) = Live k' \/ keyat ns' (mp k2) = Dead k') /\ mp k' = mp k2).
    { intros k2 E. rewrite E. exists mk. rewrite (proj1 (K_o m M ltac:(congruence))). auto. }
    destruct (Z.eq_dec j f) as [->|N]; [rewrite K_f in K'; injection K' as <-; apply MAIN; reflexivity|].
    rewrite (proj1 (K_o j J N)) in K'. destruct (w_main _ _ W j k' J K') as (k2 & H & E2). exists k2. split; [|assumption].
    assert (mp k' <> f) by (intros E; rewrite E in H; rewrite KF in H; destruct H; discriminate).
    rewrite (proj1 (K_o (mp k') (w_mp _ _ W k') H0)). assumption.
  - intros j J NV. apply RR in J. destruct (Z.eq_dec j f) as [->|NF]; [exists k; assumption|].
    destruct (K_o j J NF) as [E1 E2]. rewrite E1. rewrite E2 in NV. apply (w_val _ _ W); assumption.
  - intros j k' J K'. apply RR in J. destruct (Z.eq_dec j f) as [->|NF]; [rewrite K_f in K'; discriminate|].
    rewrite (proj1 (K_o j J NF)) in K'. apply (w_dead _ _ W j); assumption.
Qed.
End H.
