(* luaH_newkey, luaH_resize and rehash on tables satisfying the invariant. *)
Require Import ZArith List Bool Lia Permutation.
From Verif Require Import Base Base_facts Float_model Size_model Size_proofs Table_model Table_facts Table_hash Table_count Table_ops.
Import ListNotations.
Open Scope Z_scope.

Section NEW.
Variable V : Type.
Variable mainpos : Z -> key -> Z.
Notation table := (table V). Notation node := (node V).
Notation keyat := (keyat V). Notation nodeat := (nodeat V). Notation anext := (anext V). Notation inr := (inr V).
Notation arr := (arr V). Notation nodes := (nodes V). Notation lsize := (lsize V). Notation lastfree := (lastfree V). Notation sizearray := (sizearray V).
Notation nval := (nval V). Notation nkey := (nkey V). Notation nnext := (nnext V). Notation mkTable := (mkTable V). Notation mkNode := (mkNode V).
Notation setnode := (setnode V).
Notation luaH_get := (luaH_get V mainpos). Notation get := (get V mainpos).
Notation newkey := (newkey V mainpos). Notation insert := (insert V mainpos). Notation setk := (setk V mainpos). Notation resize := (resize V mainpos).
Notation rehash := (rehash V mainpos).
Notation tinv := (tinv V mainpos). Notation hhas := (hhas V). Notation has := (has V). Notation place := (place V). Notation nfree := (nfree V).
Notation isfreeb := (isfreeb V).

Lemma free_below_some : forall ns n m, free_below V ns n = Some m -> (m < n)%nat /\ nkey (nth m ns (blank V)) = NoKey /\
  forall j, (m < j < n)%nat -> nkey (nth j ns (blank V)) <> NoKey.
Proof.
  induction n as [|n IH]; intros m H; cbn in H; [discriminate|]. destruct (nkey (nth n ns (blank V))) eqn:E.
  - injection H as <-. split; [lia|]. split; [assumption|]. intros j J. lia.
  - destruct (IH m H) as (A & B & C). split; [lia|]. split; [assumption|]. intros j J. destruct (Nat.eq_dec j n) as [->|N]; [congruence|apply C; lia].
  - destruct (IH m H) as (A & B & C). split; [lia|]. split; [assumption|]. intros j J. destruct (Nat.eq_dec j n) as [->|N]; [congruence|apply C; lia].
Qed.
Lemma free_below_none : forall ns n, free_below V ns n = None -> forall j, (j < n)%nat -> nkey (nth j ns (blank V)) <> NoKey.
Proof.
  induction n as [|n IH]; intros H j J; [lia|]. cbn in H. destruct (nkey (nth n ns (blank V))) eqn:E; [discriminate| |].
  all: destruct (Nat.eq_dec j n) as [->|N]; [congruence|apply IH; auto; lia].
Qed.

(* the table with another lastfree *)
Definition withlf (t : table) (l : option Z) : table := mkTable (arr t) (nodes t) (lsize t) l.

Lemma getfreepos_ok : forall t, tinv t ->
  (exists f, getfreepos V t = (Some f, withlf t (Some f)) /\ inr (nodes t) f /\ keyat (nodes t) f = NoKey /\ lastfree t <> None /\
     forall i, f < i < Z.of_nat (length (nodes t)) -> keyat (nodes t) i <> NoKey) \/
  (exists l, getfreepos V t = (None, withlf t l) /\ tinv (withlf t l) /\ nfree t = 0 /\ (l = None <-> lastfree t = None)).
Proof.
  intros t T. pose proof (t_free _ _ t T) as F. unfold getfreepos. destruct (lastfree t) as [l|] eqn:LF.
  - destruct F as [B U]. destruct (free_below V (nodes t) (Z.to_nat l)) as [m|] eqn:E.
    + left. destruct (free_below_some _ _ _ E) as (A & K & C). exists (Z.of_nat m). split; [reflexivity|]. split; [unfold Table_facts.inr; lia|].
      split; [unfold Table_facts.keyat, Table_facts.nodeat; rewrite Nat2Z.id; assumption|]. split; [discriminate|].
      intros i I. destruct (Z.le_gt_cases l i) as [H|H]; [apply U; lia|]. unfold Table_facts.keyat, Table_facts.nodeat. apply C. lia.
    + right. exists (Some 0). pose proof (free_below_none _ _ E) as C.
      assert (AL : forall i, 0 <= i < Z.of_nat (length (nodes t)) -> keyat (nodes t) i <> NoKey).
      { intros i I. destruct (Z.le_gt_cases l i) as [H|H]; [apply U; lia|]. unfold Table_facts.keyat, Table_facts.nodeat. apply C. lia. }
      split; [reflexivity|]. split; [|split; [|split; discriminate]].
      * destruct T. constructor; auto. cbn. split; [lia|]. assumption.
      * unfold Table_ops.nfree. rewrite LF. assert (X : filter isfreeb (nodes t) = []); [|rewrite X; reflexivity].
        destruct (filter isfreeb (nodes t)) as [|n r] eqn:FE; [reflexivity|]. exfalso.
        assert (IN : In n (filter isfreeb (nodes t))) by (rewrite FE; left; reflexivity). apply filter_In in IN. destruct IN as [IN FR].
        apply (In_nth _ _ (blank V)) in IN. destruct IN as (j & J & EJ). apply (AL (Z.of_nat j)); [lia|]. unfold Table_facts.keyat, Table_facts.nodeat. rewrite Nat2Z.id, EJ.
        unfold Table_ops.isfreeb in FR. destruct (nkey n); [reflexivity|discriminate|discriminate].
  - right. exists None. split; [destruct t; cbn in *; subst; reflexivity|]. split; [|split; [unfold Table_ops.nfree; rewrite LF; reflexivity|split; reflexivity]].
    destruct T as [W TL TS TA TD TF]. rewrite LF in TF. constructor; auto.
Qed.

(* what a newkey without rehash does *)
Record added (t : table) (k : key) (t' : table) (c : cell) : Prop := {
  a_inv : tinv t';
  a_place : place t' k c;
  a_cell : c <> CNil;
  a_arr : arr t' = arr t;
  a_ls : lsize t' = lsize t;
  a_lf : lastfree t' <> None;
  a_has : forall k' v, has t' k' v <-> has t k' v;
  a_free : nfree t - 1 <= nfree t' }.

Lemma has_same : forall t t' k v, arr t' = arr t -> (hhas (nodes t') k v <-> hhas (nodes t) k v) -> (has t' k v <-> has t k v).
Proof.
  intros t t' k v A H. unfold Table_ops.has, Table_model.sizearray. rewrite A. destruct k; auto. destruct (inarrb _ _); [reflexivity|assumption].
Qed.

Lemma freecount_set : forall ns i n, inr ns i ->
  Z.of_nat (length (filter isfreeb (setnode ns i n))) = Z.of_nat (length (filter isfreeb ns)) + (if isfreeb n then 1 else 0) - (if isfreeb (nodeat ns i) then 1 else 0).
Proof.
  intros ns i n R. unfold Table_model.setnode. unfold Table_facts.inr in R.
  pose proof (filter_upd _ isfreeb ns (Z.to_nat i) n (blank V) ltac:(lia)) as F. unfold Table_facts.nodeat.
  destruct (isfreeb n); destruct (isfreeb (nth (Z.to_nat i) ns (blank V))); lia.
Qed.
Lemma isfree_key : forall n k, nkey n = k -> isfreeb n = match k with NoKey => true | _ => false end.
Proof. intros n k <-. reflexivity. Qed.

Lemma added_reuse : forall t k, tinv t -> good k -> inarrb (sizearray t) k = false -> notlive V (nodes t) k ->
  let m := mainpos (lsize t) k in
  nval (nodeat (nodes t) m) = None -> lastfree t <> None ->
  added t k (mkTable (arr t) (setnode (nodes t) m (mkNode (Live k) None (nnext (nodeat (nodes t) m)))) (lsize t) (lastfree t)) (CNode m).
Proof.
  intros t k T G NA NL m NV LF. destruct (t_w _ _ t T) as (cs & W). destruct (winv_reuse _ _ _ _ k W G NL NV) as (cs' & W'). fold m in W'.
  pose proof (w_mp _ _ _ _ W k) as M. fold m in M. set (ns' := setnode (nodes t) m _) in *.
  assert (NO : forall j, inr (nodes t) j -> j <> m -> nodeat ns' j = nodeat (nodes t) j).
  { intros j J N. unfold ns'. rewrite nodeat_other by (unfold Table_facts.inr in *; lia). reflexivity. }
  assert (NM : nodeat ns' m = mkNode (Live k) None (nnext (nodeat (nodes t) m))) by (apply nodeat_same; assumption).
  assert (LEN : length ns' = length (nodes t)) by apply setnode_length.
  assert (RR : forall j, inr ns' j <-> inr (nodes t) j) by (intros j; unfold Table_facts.inr; rewrite LEN; tauto).
  constructor; cbn; auto; try discriminate.
  - destruct T as [TW TL TS TA TD TF]. constructor; cbn; auto.
    + exists cs'. assumption.
    + rewrite LEN. assumption.
    + intros i k' R K. apply RR in R. destruct (Z.eq_dec i m) as [->|N].
      * unfold Table_facts.keyat in K. rewrite NM in K. cbn in K. injection K as <-. assumption.
      * unfold Table_facts.keyat in K. rewrite NO in K by assumption. apply (TD i k'); assumption.
    + destruct (lastfree t) as [l|]; [|congruence]. rewrite LEN. destruct TF as [A B]. split; [assumption|]. intros i I. unfold Table_facts.keyat.
      destruct (Z.eq_dec i m) as [->|N]; [rewrite NM; discriminate|]. rewrite NO by (unfold Table_facts.inr; lia || assumption). apply B. assumption.
  - apply PNode; cbn; auto; [apply RR; assumption|]. unfold Table_facts.keyat. rewrite NM. reflexivity.
  - intros k' v. apply has_same; [reflexivity|]. cbn. split; intros (j & J & K & VV); exists j.
    + apply RR in J. destruct (Z.eq_dec j m) as [->|N]; [rewrite NM in VV; discriminate|]. unfold Table_facts.keyat in *. rewrite NO in K, VV by assumption. auto.
    + rewrite RR. assert (j <> m) by (intros ->; rewrite NV in VV; discriminate). unfold Table_facts.keyat in *. rewrite NO by assumption. auto.
  - unfold Table_ops.nfree. cbn. destruct (lastfree t); [|congruence]. unfold ns'. rewrite freecount_set by assumption. cbn. destruct (isfreeb _); lia.
Qed.

Lemma added_chain : forall t k mk f, tinv t -> good k -> inarrb (sizearray t) k = false -> notlive V (nodes t) k ->
  let m := mainpos (lsize t) k in let mn := nodeat (nodes t) m in
  keyat (nodes t) m = Live mk -> mainpos (lsize t) mk = m -> inr (nodes t) f -> keyat (nodes t) f = NoKey ->
  lastfree t <> None -> (forall i, f < i < Z.of_nat (length (nodes t)) -> keyat (nodes t) i <> NoKey) ->
  added t k (mkTable (arr t) (setnode (setnode (nodes t) f (mkNode (Live k) None (if nnext mn =? 0 then 0 else m + nnext mn - f)))
      m (mkNode (nkey mn) (nval mn) (f - m))) (lsize t) (Some f)) (CNode f).
Proof.
  intros t k mk f T G NA NL m mn KM EM RF KF LF AB. destruct (t_w _ _ t T) as (cs & W). destruct (winv_chain _ _ _ _ k mk f W G NL KM EM RF KF) as (cs' & W').
  fold m in W'. fold mn in W'. pose proof (w_mp _ _ _ _ W k) as M. fold m in M. set (ns' := setnode _ m _) in *.
  assert (FM : f <> m) by congruence.
  assert (NO : forall j, inr (nodes t) j -> j <> m -> j <> f -> nodeat ns' j = nodeat (nodes t) j).
  { intros j J N N'. unfold ns'. rewrite !nodeat_other by (unfold Table_facts.inr in *; lia). reflexivity. }
  assert (NM : nodeat ns' m = mkNode (nkey mn) (nval mn) (f - m)) by (apply nodeat_same; apply inr_set; assumption).
  assert (NF : nodeat ns' f = mkNode (Live k) None (if nnext mn =? 0 then 0 else m + nnext mn - f)).
  { unfold ns'. rewrite nodeat_other by (unfold Table_facts.inr in *; lia). apply nodeat_same. assumption. }
  assert (LEN : length ns' = length (nodes t)) by (unfold ns'; rewrite !setnode_length; reflexivity).
  assert (RR : forall j, inr ns' j <-> inr (nodes t) j) by (intros j; unfold Table_facts.inr; rewrite LEN; tauto).
  assert (KO : forall j, inr (nodes t) j -> j <> f -> keyat ns' j = keyat (nodes t) j /\ nval (nodeat ns' j) = nval (nodeat (nodes t) j)).
  { intros j J N. unfold Table_facts.keyat. destruct (Z.eq_dec j m) as [->|N']; [rewrite NM; split; reflexivity|rewrite NO by assumption; auto]. }
  assert (FB : nodeat (nodes t) f = blank V) by (apply (w_free _ _ _ _ W); [assumption|]; intros I; exact (w_used _ _ _ _ W f I KF)).
  constructor; cbn; auto; try discriminate.
  - destruct T as [TW TL TS TA TD TF]. constructor; cbn; auto.
    + exists cs'. assumption.
    + rewrite LEN. assumption.
    + intros i k' R K. apply RR in R. destruct (Z.eq_dec i f) as [->|N].
      * unfold Table_facts.keyat in K. rewrite NF in K. cbn in K. injection K as <-. assumption.
      * destruct (KO i R N) as [KE _]. rewrite KE in K. apply (TD i k'); assumption.
    + rewrite LEN. split; [unfold Table_facts.inr in RF; lia|]. intros i I.
      destruct (Z.eq_dec i f) as [->|N]; [unfold Table_facts.keyat; rewrite NF; discriminate|]. unfold Table_facts.inr in RF. destruct (KO i ltac:(unfold Table_facts.inr; lia) N) as [KE _]. rewrite KE. apply AB. lia.
  - apply PNode; cbn; auto; [apply RR; assumption|]. unfold Table_facts.keyat. rewrite NF. reflexivity.
  - intros k' v. apply has_same; [reflexivity|]. cbn. split; intros (j & J & K & VV); exists j.
    + apply RR in J. destruct (Z.eq_dec j f) as [->|N]; [rewrite NF in VV; discriminate|]. destruct (KO j J N) as [KE VE]. rewrite KE in K. rewrite VE in VV. auto.
    + rewrite RR. assert (N : j <> f) by (intros ->; rewrite FB in VV; discriminate). destruct (KO j J N) as [KE VE]. rewrite KE, VE. auto.
  - unfold Table_ops.nfree. cbn. destruct (lastfree t); [|congruence]. unfold ns'. rewrite freecount_set by (apply inr_set; assumption). rewrite freecount_set by assumption.
    rewrite nodeat_other by (unfold Table_facts.inr in *; lia). rewrite (isfree_key (nodeat (nodes t) m) (Live mk)) by exact KM. rewrite (isfree_key (mkNode (nkey mn) _ _) (Live mk)) by exact KM.
    rewrite FB. cbn. lia.
Qed.

Lemma added_move : forall t k mk f prev, tinv t -> good k -> inarrb (sizearray t) k = false -> notlive V (nodes t) k ->
  let m := mainpos (lsize t) k in let mn := nodeat (nodes t) m in let pn := nodeat (nodes t) prev in
  keyat (nodes t) m = Live mk -> mainpos (lsize t) mk <> m -> inr (nodes t) f -> keyat (nodes t) f = NoKey ->
  inr (nodes t) prev -> keyat (nodes t) prev <> NoKey -> anext (nodes t) prev = Some m -> prev <> m ->
  lastfree t <> None -> (forall i, f < i < Z.of_nat (length (nodes t)) -> keyat (nodes t) i <> NoKey) ->
  added t k (mkTable (arr t) (setnode (setnode (setnode (nodes t) prev (mkNode (nkey pn) (nval pn) (f - prev)))
      f (mkNode (nkey mn) (nval mn) (if nnext mn =? 0 then 0 else nnext mn + (m - f))))
      m (mkNode (Live k) None 0)) (lsize t) (Some f)) (CNode m).
Proof.
  intros t k mk f prev T G NA NL m mn pn KM EM RF KF RP KP AP PM LF AB. destruct (t_w _ _ t T) as (cs & W).
  destruct (winv_move _ _ _ _ k mk f prev W G NL KM EM RF KF RP AP) as (cs' & W').
  fold m in W'. fold mn in W'. fold pn in W'. pose proof (w_mp _ _ _ _ W k) as M. fold m in M. set (ns' := setnode _ m _) in *.
  assert (FM : f <> m) by congruence. assert (FP : f <> prev) by congruence.
  assert (NM : nodeat ns' m = mkNode (Live k) None 0) by (apply nodeat_same; apply inr_set; apply inr_set; assumption).
  assert (NF : nodeat ns' f = mkNode (nkey mn) (nval mn) (if nnext mn =? 0 then 0 else nnext mn + (m - f))).
  { unfold ns'. rewrite nodeat_other by (unfold Table_facts.inr in *; lia). apply nodeat_same. apply inr_set. assumption. }
  assert (LEN : length ns' = length (nodes t)) by (unfold ns'; rewrite !setnode_length; reflexivity).
  assert (RR : forall j, inr ns' j <-> inr (nodes t) j) by (intros j; unfold Table_facts.inr; rewrite LEN; tauto).
  assert (KO : forall j, inr (nodes t) j -> j <> f -> j <> m -> keyat ns' j = keyat (nodes t) j /\ nval (nodeat ns' j) = nval (nodeat (nodes t) j)).
  { intros j J N N'. unfold Table_facts.keyat, ns'. rewrite 2!nodeat_other by (unfold Table_facts.inr in *; lia).
    destruct (Z.eq_dec j prev) as [->|NP]; [rewrite nodeat_same by assumption; split; reflexivity|rewrite nodeat_other by (unfold Table_facts.inr in *; lia); auto]. }
  assert (FB : nodeat (nodes t) f = blank V) by (apply (w_free _ _ _ _ W); [assumption|]; intros I; exact (w_used _ _ _ _ W f I KF)).
  assert (KFM : keyat ns' f = Live mk) by (unfold Table_facts.keyat; rewrite NF; exact KM).
  assert (KMM : keyat ns' m = Live k) by (unfold Table_facts.keyat; rewrite NM; reflexivity).
  constructor; cbn; auto; try discriminate.
  - destruct T as [TW TL TS TA TD TF]. constructor; cbn; auto.
    + exists cs'. assumption.
    + rewrite LEN. assumption.
    + intros i k' R K. apply RR in R. destruct (Z.eq_dec i f) as [->|N].
      * rewrite KFM in K. injection K as <-. apply (TD m mk); assumption.
      * destruct (Z.eq_dec i m) as [->|N']; [rewrite KMM in K; injection K as <-; assumption|].
        destruct (KO i R N N') as [KE _]. rewrite KE in K. apply (TD i k'); assumption.
    + rewrite LEN. split; [unfold Table_facts.inr in RF; lia|]. intros i I.
      destruct (Z.eq_dec i f) as [->|N]; [rewrite KFM; discriminate|]. destruct (Z.eq_dec i m) as [->|N']; [rewrite KMM; discriminate|].
      unfold Table_facts.inr in RF. destruct (KO i ltac:(unfold Table_facts.inr; lia) N N') as [KE _]. rewrite KE. apply AB. lia.
  - apply PNode; cbn; auto. apply RR; assumption.
  - intros k' v. apply has_same; [reflexivity|]. cbn. split; intros (j & J & K & VV).
    + apply RR in J. destruct (Z.eq_dec j m) as [->|N']; [rewrite NM in VV; discriminate|]. destruct (Z.eq_dec j f) as [->|N].
      * exists m. rewrite KFM in K. rewrite NF in VV. split; [assumption|]. rewrite KM. split; assumption.
      * exists j. destruct (KO j J N N') as [KE VE]. rewrite KE in K. rewrite VE in VV. auto.
    + assert (N : j <> f) by (intros ->; rewrite FB in VV; discriminate). destruct (Z.eq_dec j m) as [->|N'].
      * exists f. rewrite RR, KFM, NF. rewrite KM in K. auto.
      * exists j. rewrite RR. destruct (KO j J N N') as [KE VE]. rewrite KE, VE. auto.
  - unfold Table_ops.nfree. cbn. destruct (lastfree t); [|congruence]. unfold ns'. rewrite freecount_set by (apply inr_set; apply inr_set; assumption). rewrite freecount_set by (apply inr_set; assumption).
    rewrite freecount_set by assumption. rewrite !nodeat_other by (unfold Table_facts.inr in *; lia). rewrite (isfree_key (nodeat (nodes t) m) (Live mk)) by exact KM.
    rewrite (isfree_key (mkNode (nkey mn) _ _) (Live mk)) by exact KM. replace (isfreeb (mkNode (nkey pn) (nval pn) (f - prev))) with (isfreeb pn) by reflexivity. fold pn. rewrite FB. cbn. destruct (isfreeb pn); lia.
Qed.

(* luaH_newkey: without rehash, or through it *)
Lemma newkey_ok : forall fuel t k, tinv t -> good k -> inarrb (sizearray t) k = false -> notlive V (nodes t) k ->
  (exists t' c, newkey fuel t k = Ok (t', c) /\ added t k t' c) \/
  (nfree t = 0 /\ exists l, tinv (withlf t l) /\
     newkey fuel t k = match fuel with O => OutOfFuel | S f => bind (rehash (newkey f) (withlf t l) k) (fun t => setk (newkey f) t k) end).
Proof.
  intros fuel t k T G NA NL. destruct (t_w _ _ t T) as (cs & W). set (m := mainpos (lsize t) k).
  pose proof (w_mp _ _ _ _ W k) as M. fold m in M.
  assert (ND : lastfree t = None -> nodes t = [blank V]) by (intros E; pose proof (t_free _ _ t T) as F; rewrite E in F; exact F).
  assert (E : newkey fuel t k = bind (getnode V (nodes t) m) (fun mpn =>
    if nonnil V (nval mpn) || isdummy V t then
    let '(fr, t) := getfreepos V t in
    match fr with
    | None =>
      match fuel with
      | O => OutOfFuel
      | S f => bind (rehash (newkey f) t k) (fun t => setk (newkey f) t k)
      end
    | Some f =>
      match nkey mpn with
      | Live mk =>
        let ns := nodes t in
        let othern := mainpos (lsize t) mk in
        if othern =? m then
          bind (getnode V ns f) (fun fn =>
          let fnext := if nnext mpn =? 0 then nnext fn else m + nnext mpn - f in
          let ns := setnode ns f (mkNode (Live k) (nval fn) fnext) in
          let ns := setnode ns m (mkNode (nkey mpn) (nval mpn) (f - m)) in
          Ok (mkTable (arr t) ns (lsize t) (lastfree t), CNode f))
        else
          bind (findprev V (length ns) ns othern m) (fun prev =>
          bind (getnode V ns prev) (fun pn =>
          let ns := setnode ns prev (mkNode (nkey pn) (nval pn) (f - prev)) in
          let ns := setnode ns f (mkNode (nkey mpn) (nval mpn) (if nnext mpn =? 0 then 0 else nnext mpn + (m - f))) in
          let ns := setnode ns m (mkNode (Live k) None 0) in
          Ok (mkTable (arr t) ns (lsize t) (lastfree t), CNode m)))
      | _ => UB
      end
    end
  else Ok (mkTable (arr t) (setnode (nodes t) m (mkNode (Live k) (nval mpn) (nnext mpn))) (lsize t) (lastfree t), CNode m))).
  { destruct fuel; reflexivity. }
  rewrite E. clear E. rewrite getnode_ok by assumption. cbn [bind].
  destruct (nonnil V (nval (nodeat (nodes t) m)) || isdummy V t) eqn:TK.
  - destruct (getfreepos_ok t T) as [(f & E & RF & KF & LF & AB)|(l & E & TI & NF & _)]; rewrite E.
    + left. assert (DU : isdummy V t = false) by (unfold isdummy; destruct (lastfree t); [reflexivity|congruence]).
      rewrite DU, orb_false_r in TK. destruct (w_val _ _ _ _ W m M) as (mk & KM).
      { intros X. rewrite X in TK. discriminate. }
      unfold Table_facts.keyat in KM. rewrite KM. cbn [withlf Table_model.nodes Table_model.lsize Table_model.arr Table_model.lastfree].
      cbv zeta. destruct (Z.eqb_spec (mainpos (lsize t) mk) m) as [EM|EM].
      * rewrite getnode_ok by assumption. cbn [bind]. assert (FB : nodeat (nodes t) f = blank V) by (apply (w_free _ _ _ _ W); [assumption|]; intros I; exact (w_used _ _ _ _ W f I KF)).
        rewrite FB. cbn [Table_model.nval Table_model.nnext blank]. eexists. eexists. split; [reflexivity|].
        rewrite <- KM. apply (added_chain t k mk f); auto.
      * destruct (w_live _ _ _ _ W m mk M KM) as [GM (c & p & q & r & C & EC & HD & NQ)].
        destruct q as [|o q]; [cbn in HD; congruence|]. cbn in HD. subst o.
        pose proof (w_seg _ _ _ _ W c C) as S. rewrite EC in S. apply seg_app in S. destruct S as [_ S].
        assert (RG : forall j, In j (mainpos (lsize t) mk :: q) -> inr (nodes t) j /\ keyat (nodes t) j <> NoKey).
        { intros j J. assert (In j (concat cs)) by (apply in_concat; exists c; split; [assumption|]; rewrite EC; apply in_app_iff; right; apply in_app_iff; auto).
          split; [apply (w_range _ _ _ _ W)|apply (w_used _ _ _ _ W)]; assumption. }
        assert (CN : NoDup c) by (apply (nodup_concat_in cs); [apply (w_nodup _ _ _ _ W)|assumption]). rewrite EC in CN. apply nodup_app_r in CN.
        assert (LQ : (length (mainpos (lsize t) mk :: q) <= length (nodes t))%nat).
        { pose proof (nodup_range (mainpos (lsize t) mk :: q) (Z.of_nat (length (nodes t))) ltac:(lia) (nodup_app_l _ _ _ CN) (fun j J => proj1 (RG j J))). lia. }
        destruct (findprev_ok V (nodes t) q (mainpos (lsize t) mk) m r (length (nodes t)) S (fun j J => proj1 (RG j J)) LQ) as (prev & E1 & E2 & E3).
        rewrite E1. cbn [bind]. destruct (RG prev E2) as [RP KP]. rewrite getnode_ok by assumption. cbn [bind]. eexists. eexists. split; [reflexivity|].
        rewrite <- KM. apply (added_move t k mk f prev); auto.
        intros ->. exact (anext_irr V (nodes t) cs m (w_nodup _ _ _ _ W) (w_seg _ _ _ _ W) (w_in _ _ _ _ m W M ltac:(unfold Table_facts.keyat; congruence)) E3).
    + right. split; [assumption|]. exists l. split; [assumption|]. reflexivity.
  - left. apply orb_false_elim in TK. destruct TK as [TK DU]. assert (NV : nval (nodeat (nodes t) m) = None) by (destruct (nval (nodeat (nodes t) m)); [discriminate|reflexivity]).
    rewrite NV. eexists. eexists. split; [reflexivity|]. apply added_reuse; auto. unfold isdummy in DU. destruct (lastfree t); [discriminate|discriminate].
Qed.
Lemma newkey_room : forall fuel t k, tinv t -> good k -> inarrb (sizearray t) k = false -> notlive V (nodes t) k -> 1 <= nfree t ->
  exists t' c, newkey fuel t k = Ok (t', c) /\ added t k t' c.
Proof. intros fuel t k T G NA NL R. destruct (newkey_ok fuel t k T G NA NL) as [H|(Z & _)]; [assumption|lia]. Qed.

(* ---- insertion into a table with room ---- *)
Definition sets (t t' : table) (k : key) (v : option V) : Prop :=
  (forall v', has t' k v' <-> v = Some v') /\ (forall k' v', good k' -> k' <> k -> (has t' k' v' <-> has t k' v')).

Lemma insert_room : forall fuel t k v, tinv t -> good k -> (inarrb (sizearray t) k = false -> 1 <= nfree t) ->
  exists t', insert (newkey fuel) t k v = Ok t' /\ tinv t' /\ sizearray t' = sizearray t /\ sets t t' k v /\
    nfree t - (if inarrb (sizearray t) k then 0 else 1) <= nfree t'.
Proof.
  intros fuel t k v T G R. unfold Table_model.insert, Table_model.setk. destruct (luaH_get_ok V mainpos t k T G) as (c & E & P). rewrite E. cbn [bind].
  destruct P as [z EZ RZ|i NA RI KI|NA NL].
  - assert (IA : inarrb (sizearray t) k = true) by (apply inarrb_iff; exists z; auto). rewrite IA. eexists. split; [reflexivity|].
    destruct (write_spec V mainpos t k (CArr (z - 1)) v T G ltac:(apply PArr; assumption) ltac:(discriminate)) as (A & B & C & _ & D & F).
    split; [assumption|]. split; [assumption|]. split; [split; assumption|]. lia.
  - rewrite NA. eexists. split; [reflexivity|].
    destruct (write_spec V mainpos t k (CNode i) v T G ltac:(apply PNode; assumption) ltac:(discriminate)) as (A & B & C & _ & D & F).
    split; [assumption|]. split; [assumption|]. split; [split; assumption|]. lia.
  - rewrite NA. destruct (newkey_room fuel t k T G NA NL (R NA)) as (t1 & c1 & E1 & [AI AP AC AA AL AF AH AN]). rewrite E1. cbn [bind]. eexists. split; [reflexivity|].
    destruct (write_spec V mainpos t1 k c1 v AI G AP AC) as (A & B & C & _ & D & F).
    assert (S1 : sizearray t1 = sizearray t) by (unfold Table_model.sizearray; rewrite AA; reflexivity).
    split; [assumption|]. split; [congruence|]. split; [split; [assumption|]|lia]. intros k' v' G' N. rewrite (F k' v' G' N). apply AH.
Qed.

(* a list of entries *)
Fixpoint ins_all (nk : table -> key -> outcome (table * cell)) (t : table) (l : list (key * V)) : outcome table :=
  match l with [] => Ok t | (k, v) :: r => bind (insert nk t k (Some v)) (fun t => ins_all nk t r) end.
Definition outside (n : Z) (l : list (key * V)) : Z := Z.of_nat (length (filter (fun kv => negb (inarrb n (fst kv))) l)).

Lemma ins_all_ok : forall fuel l t, tinv t -> (forall kv, In kv l -> good (fst kv)) -> NoDup (map fst l) -> outside (sizearray t) l <= nfree t ->
  exists t', ins_all (newkey fuel) t l = Ok t' /\ tinv t' /\ sizearray t' = sizearray t /\ nfree t - outside (sizearray t) l <= nfree t' /\
  (forall k v, good k -> (has t' k v <-> In (k, v) l \/ (~ In k (map fst l) /\ has t k v))).
Proof.
  induction l as [|[k v] l IH]; intros t T G ND R; cbn [ins_all].
  - exists t. split; [reflexivity|]. split; [assumption|]. split; [reflexivity|]. split; [unfold outside; cbn; lia|]. intros k v _. cbn. tauto.
  - assert (GK : good k) by (apply (G (k, v)); left; reflexivity). cbn [map fst] in ND. inversion ND as [|? ? NI ND']; subst.
    assert (OC : outside (sizearray t) ((k, v) :: l) = (if inarrb (sizearray t) k then 0 else 1) + outside (sizearray t) l).
    { unfold outside. cbn [filter fst]. destruct (inarrb (sizearray t) k); cbn [negb length]; lia. }
    destruct (insert_room fuel t k (Some v) T GK) as (t1 & E1 & T1 & S1 & [H1 H2] & N1).
    { intros X. rewrite X in OC. assert (0 <= outside (sizearray t) l) by (unfold outside; lia). lia. }
    rewrite E1. cbn [bind]. destruct (IH t1 T1) as (t2 & E2 & T2 & S2 & N2 & H3).
    + intros kv I. apply G. right. assumption.
    + assumption.
    + rewrite S1. lia.
    + exists t2. split; [assumption|]. split; [assumption|]. split; [congruence|]. split; [rewrite S1 in N2; lia|].
      intros k' v' G'. rewrite (H3 k' v' G'). cbn [In map fst]. destruct (key_dec k' k G' GK) as [->|N].
      * split.
        -- intros [I|[NI' HH]]; [exfalso; apply NI; apply in_map_iff; exists (k, v'); auto|]. apply H1 in HH. injection HH as ->. auto.
        -- intros [[E|I]|[NI' _]]; [|auto|tauto]. injection E as ->. right. split; [assumption|]. apply H1. reflexivity.
      * rewrite (H2 k' v' G' N). split.
        -- intros [I|[NI' HH]]; [auto|]. right. split; [|assumption]. intros [E|I]; [congruence|tauto].
        -- intros [[E|I]|[NI' HH]]; [congruence|auto|tauto].
Qed.

Lemma ins_all_app : forall nk l1 l2 t, ins_all nk t (l1 ++ l2) = bind (ins_all nk t l1) (fun t => ins_all nk t l2).
Proof.
  induction l1 as [|[k v] l1 IH]; intros l2 t; cbn [app ins_all]; [reflexivity|]. destruct (insert nk t k (Some v)); cbn [bind]; auto.
Qed.
Definition kitems (l : list (Z * V)) : list (key * V) := map (fun iv => (KI (fst iv), snd iv)) l.
Lemma reinsert_arr_ins : forall nk vs t i, reinsert_arr V mainpos nk t vs i = ins_all nk t (kitems (arr_items V vs i)).
Proof.
  induction vs as [|[v|] vs IH]; intros t i; cbn [reinsert_arr arr_items kitems map ins_all fst snd]; [reflexivity| |apply IH].
  destruct (insert nk t (KI i) (Some v)); cbn [bind]; auto.
Qed.
Lemma reinsert_hash_ins : forall nk ns t, live_nodes V ns -> reinsert_hash V mainpos nk t ns = ins_all nk t (hash_items V ns).
Proof.
  induction ns as [|n ns IH]; intros t L; cbn [reinsert_hash hash_items]; [reflexivity|].
  assert (L' : live_nodes V ns) by (intros x X; apply L; right; assumption).
  destruct (nval n) as [v|] eqn:E; [|apply IH; assumption]. destruct (L n (or_introl eq_refl) ltac:(congruence)) as (k & K & _). rewrite K. cbn [ins_all].
  destruct (insert nk t k (Some v)); cbn [bind]; auto.
Qed.

(* ---- the entries of a table ---- *)
Definition items (t : table) : list (key * V) := kitems (arr_items V (arr t) 1) ++ hash_items V (nodes t).
Lemma live_nodes_ok : forall t, tinv t -> live_nodes V (nodes t).
Proof.
  intros t T n I NV. destruct (t_w _ _ t T) as (cs & W). apply (In_nth _ _ (blank V)) in I. destruct I as (j & J & E).
  assert (R : inr (nodes t) (Z.of_nat j)) by (unfold Table_facts.inr; lia). assert (NE : nodeat (nodes t) (Z.of_nat j) = n) by (unfold Table_facts.nodeat; rewrite Nat2Z.id; assumption).
  destruct (w_val _ _ _ _ W _ R) as (k & K); [rewrite NE; assumption|]. exists k. destruct (w_live _ _ _ _ W _ _ R K) as [G _].
  unfold Table_facts.keyat in K. rewrite NE in K. auto.
Qed.
Lemma hash_has : forall ns k v, In (k, v) (hash_items V ns) <-> hhas ns k v.
Proof.
  intros ns k v. rewrite hash_items_in. split.
  - intros (n & I & K & E). apply (In_nth _ _ (blank V)) in I. destruct I as (j & J & EJ). exists (Z.of_nat j). unfold Table_facts.inr, Table_facts.keyat, Table_facts.nodeat. rewrite Nat2Z.id, EJ. split; [lia|auto].
  - intros (j & J & K & E). exists (nodeat ns j). split; [apply nth_In; unfold Table_facts.inr in J; lia|auto].
Qed.
Lemma kitems_in : forall l k v, In (k, v) (kitems l) <-> exists z, k = KI z /\ In (z, v) l.
Proof.
  intros l k v. unfold kitems. rewrite in_map_iff. split.
  - intros ([z x] & E & I). cbn in E. injection E as <- <-. exists z. auto.
  - intros (z & -> & I). exists (z, v). auto.
Qed.
Lemma items_has : forall t k v, tinv t -> (In (k, v) (items t) <-> has t k v).
Proof.
  intros t k v T. unfold items. rewrite in_app_iff, kitems_in, hash_has. split.
  - intros [(z & -> & I)|H].
    + apply arr_items_in in I. destruct I as [B E]. assert (IA : inarrb (sizearray t) (KI z) = true) by (apply inarrb_iff; exists z; split; [reflexivity|unfold Table_model.sizearray; lia]).
      unfold Table_ops.has. rewrite IA. assumption.
    + assert (IA : inarrb (sizearray t) k = false) by (destruct H as (j & J & K & _); apply (t_disj _ _ t T j); assumption). apply (proj2 (has_hash V mainpos t k v IA)). assumption.
  - intros H. destruct (inarrb (sizearray t) k) eqn:IA.
    + left. apply inarrb_iff in IA. destruct IA as (z & -> & B). exists z. split; [reflexivity|]. apply arr_items_in.
      unfold Table_ops.has in H. assert (IA : inarrb (sizearray t) (KI z) = true) by (apply inarrb_iff; exists z; auto). rewrite IA in H.
      split; [unfold Table_model.sizearray in B; lia|assumption].
    + right. apply (proj1 (has_hash V mainpos t k v IA)). assumption.
Qed.
Lemma hash_keys_nodup : forall ns, (forall i j k, inr ns i -> inr ns j -> keyat ns i = Live k -> keyat ns j = Live k -> i = j) -> NoDup (map fst (hash_items V ns)).
Proof.
  induction ns as [|n ns IH]; intros U; cbn [hash_items]; [constructor|].
  assert (U' : forall i j k, inr ns i -> inr ns j -> keyat ns i = Live k -> keyat ns j = Live k -> i = j).
  { intros i j k I J KI KJ. assert (E : i + 1 = j + 1); [|lia]. unfold Table_facts.inr in *.
    apply (U (i + 1) (j + 1) k); unfold Table_facts.keyat, Table_facts.nodeat in *; cbn [length]; try lia;
    [replace (Z.to_nat (i + 1)) with (S (Z.to_nat i)) by lia|replace (Z.to_nat (j + 1)) with (S (Z.to_nat j)) by lia]; assumption. }
  destruct (nval n); [destruct (nkey n) as [|k|k] eqn:K|]; try (apply IH; assumption).
  cbn [map fst]. constructor; [|apply IH; assumption]. intros I. apply in_map_iff in I. destruct I as ([k' v'] & E & I). cbn in E. subst k'.
  apply hash_has in I. destruct I as (j & J & KJ & _). unfold Table_facts.inr in *. assert (0 = j + 1); [|lia].
  apply (U 0 (j + 1) k); unfold Table_facts.keyat, Table_facts.nodeat in *; cbn [length]; try lia; [exact K|]. replace (Z.to_nat (j + 1)) with (S (Z.to_nat j)) by lia. assumption.
Qed.
Lemma nodup_app : forall A (a b : list A), NoDup a -> NoDup b -> (forall x, In x a -> In x b -> False) -> NoDup (a ++ b).
Proof.
  induction a as [|x a IH]; intros b NA NB D; [assumption|]. cbn [app]. inversion NA; subst. constructor.
  - rewrite in_app_iff. intros [I|I]; [tauto|]. apply (D x); [left; reflexivity|assumption].
  - apply IH; auto. intros y Y. apply D. right. assumption.
Qed.
Lemma kitems_keys : forall l, map fst (kitems l) = map KI (map fst l).
Proof. intros l. unfold kitems. rewrite !map_map. reflexivity. Qed.
Lemma items_nodup : forall t, tinv t -> NoDup (map fst (items t)).
Proof.
  intros t T. destruct (t_w _ _ t T) as (cs & W). unfold items. rewrite map_app, kitems_keys. apply nodup_app.
  - apply nodup_map_inj; [apply arr_items_nodup|]. intros x y _ _ E. injection E as ->. reflexivity.
  - apply hash_keys_nodup. intros i j k I J KI KJ. eapply live_unique; eassumption.
  - intros k I J. apply in_map_iff in I. destruct I as (z & <- & I). apply arr_items_lb in I. apply in_map_iff in J. destruct J as ([k' v] & E & J). cbn in E. subst k'.
    apply hash_has in J. destruct J as (j & J & K & _). pose proof (t_disj _ _ t T j _ J K) as X. assert (IA : inarrb (sizearray t) (KI z) = true) by (apply inarrb_iff; exists z; split; [reflexivity|unfold Table_model.sizearray; lia]). congruence.
Qed.
Lemma items_good : forall t kv, tinv t -> In kv (items t) -> good (fst kv).
Proof.
  intros t [k v] T I. unfold items in I. rewrite in_app_iff, kitems_in, hash_has in I. destruct I as [(z & -> & I)|(j & J & K & _)].
  - apply arr_items_in in I. cbn. pose proof (t_arr _ _ t T) as TA. unfold Table_model.sizearray in TA. unfold MAXASIZE, MAXABITS in TA. change (2 ^ 31) with 2147483648 in TA. unfold is_s64. unfold_consts. lia.
  - destruct (t_w _ _ t T) as (cs & W). apply (w_live _ _ _ _ W j k J K).
Qed.
End NEW.
