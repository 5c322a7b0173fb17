Require Import ZArith Lia Bool List.
From Verif Require Import Base Base_facts Bits_facts Opcode_model Opcode_proofs Jump_spec.
Import ListNotations.
Open Scope Z_scope.

Lemma code_at_range : forall fs p i, code_at fs p = Some i -> 0 <= p < pc fs.
Proof.
  intros fs p i H. unfold code_at in H. destruct (Z.ltb_spec p 0); [discriminate|].
  assert (nth_error (code fs) (Z.to_nat p) <> None) by congruence.
  apply nth_error_Some in H1. unfold pc. lia.
Qed.

Lemma code_at_some : forall fs p, 0 <= p < pc fs -> exists i, code_at fs p = Some i.
Proof.
  intros fs p H. unfold code_at. destruct (Z.ltb_spec p 0); [lia|].
  destruct (nth_error (code fs) (Z.to_nat p)) eqn:E; [eauto|].
  apply nth_error_None in E. unfold pc in H. lia.
Qed.

Lemma set_code_at : forall fs p i q, 0 <= p < pc fs ->
  code_at (set_code fs p i) q = if q =? p then Some i else code_at fs q.
Proof.
  intros fs p i q H. unfold code_at, set_code. cbn [code].
  destruct (Z.ltb_spec q 0).
  - destruct (Z.eqb_spec q p); [lia|reflexivity].
  - destruct (Z.eqb_spec q p).
    + subst. apply upd_nth_error_same. unfold pc in H. lia.
    + apply upd_nth_error_other. lia.
Qed.

Lemma set_code_pc : forall fs p i, pc (set_code fs p i) = pc fs.
Proof. intros. unfold pc, set_code. cbn [code]. rewrite upd_length. reflexivity. Qed.

Lemma wf_at : forall fs p i, wf_code fs -> code_at fs p = Some i -> is_u32 i.
Proof.
  intros fs p i W H. unfold code_at in H. destruct (p <? 0); [discriminate|].
  unfold wf_code in W. rewrite Forall_forall in W. apply W. eapply nth_error_In; eauto.
Qed.

Lemma wf_set : forall fs p i, wf_code fs -> is_u32 i -> wf_code (set_code fs p i).
Proof.
  intros fs p i W H. unfold wf_code, set_code in *. cbn [code].
  revert W. generalize (Z.to_nat p). induction (code fs); simpl; intros n W; auto.
  inversion W; subst. destruct n; constructor; auto.
Qed.

(* getjump vs the specification *)
Lemma getjump_end : forall fs p i, code_at fs p = Some i -> jump_dest fs p = Some p ->
  getjump fs p = Ok NO_JUMP.
Proof.
  intros fs p i H J. unfold jump_dest in J. unfold getjump. rewrite H in *.
  inversion J. destruct (Z.eqb_spec (GETARG_sBx i) NO_JUMP); [reflexivity|].
  unfold NO_JUMP in *. lia.
Qed.

Lemma getjump_next : forall fs p i n, code_at fs p = Some i -> jump_dest fs p = Some n -> n <> p ->
  getjump fs p = Ok n.
Proof.
  intros fs p i n H J D. unfold jump_dest in J. unfold getjump. rewrite H in *.
  inversion J. destruct (Z.eqb_spec (GETARG_sBx i) NO_JUMP); [unfold NO_JUMP in *; lia|reflexivity].
Qed.

Lemma jlist_head : forall fs l ps, jlist fs l ps -> ps <> [] -> 0 <= l < pc fs /\ In l ps.
Proof.
  intros fs l ps H Hn. inversion H; subst; try congruence; split; simpl; auto; eapply code_at_range; eauto.
Qed.

Lemma jlist_head_nil : forall fs l ps, jlist fs l ps -> l = -1 -> ps = [].
Proof.
  intros fs l ps H E. inversion H; subst; auto.
  - apply code_at_range in H0. lia.
  - apply code_at_range in H0. lia.
Qed.

Lemma jlist_det : forall fs l ps, jlist fs l ps -> forall ps', jlist fs l ps' -> ps = ps'.
Proof.
  induction 1; intros ps' H'.
  - symmetry. eapply jlist_head_nil; eauto.
  - inversion H'; subst; auto; try congruence.
    apply code_at_range in H. lia.
  - inversion H'; subst; try congruence.
    + apply code_at_range in H. lia.
    + f_equal. apply IHjlist. replace next with next0 by congruence. assumption.
Qed.

Lemma jlist_in_sub : forall fs l ps, jlist fs l ps -> forall q, In q ps ->
  exists ps', jlist fs q ps' /\ (length ps' <= length ps)%nat.
Proof.
  induction 1; intros q Hq; simpl in Hq.
  - tauto.
  - destruct Hq as [->|[]]. exists [q]. split; [econstructor; eauto|lia].
  - destruct Hq as [->|Hq].
    + exists (q :: ps). split; [econstructor; eauto|lia].
    + destruct (IHjlist q Hq) as (ps' & J & L). exists ps'. split; [assumption|simpl; lia].
Qed.

Lemma jlist_nodup : forall fs l ps, jlist fs l ps -> NoDup ps.
Proof.
  induction 1.
  - constructor.
  - constructor; [simpl; tauto|constructor].
  - constructor; [|assumption]. intros Hin.
    destruct (jlist_in_sub _ _ _ H3 p Hin) as (ps' & J & L).
    assert (J2 : jlist fs p (p :: ps)) by (econstructor; eauto).
    pose proof (jlist_det _ _ _ J _ J2). subst ps'. simpl in L. lia.
Qed.

Lemma jlist_range : forall fs l ps, jlist fs l ps -> forall q, In q ps ->
  exists i, code_at fs q = Some i /\ testTMode (GET_OPCODE i) = false.
Proof.
  induction 1; intros q Hq; simpl in Hq; try tauto.
  - destruct Hq as [->|[]]. eauto.
  - destruct Hq as [->|Hq]; eauto.
Qed.

Lemma nodup_range_length : forall (ps : list Z) n, NoDup ps ->
  (forall q, In q ps -> 0 <= q < Z.of_nat n) -> (length ps <= n)%nat.
Proof.
  intros ps n Hd Hr.
  assert (I : incl ps (map Z.of_nat (seq 0 n))).
  { intros q Hq. specialize (Hr q Hq). apply in_map_iff. exists (Z.to_nat q).
    split; [lia|]. apply in_seq. lia. }
  pose proof (NoDup_incl_length Hd I). rewrite map_length, seq_length in H. assumption.
Qed.

Lemma jlist_length : forall fs l ps, jlist fs l ps -> (length ps <= length (code fs))%nat.
Proof.
  intros fs l ps H. apply nodup_range_length.
  - eapply jlist_nodup; eauto.
  - intros q Hq. destruct (jlist_range _ _ _ H q Hq) as (i & E & _).
    apply code_at_range in E. exact E.
Qed.

(* jlist only depends on the listed instructions *)
Lemma jlist_frame : forall fs fs' l ps, jlist fs l ps ->
  (forall q, In q ps -> code_at fs' q = code_at fs q) -> jlist fs' l ps.
Proof.
  induction 1; intros F.
  - constructor.
  - assert (E : code_at fs' p = Some i) by (rewrite F; simpl; auto).
    econstructor; eauto. unfold jump_dest in *. rewrite E. rewrite H in H1. assumption.
  - assert (E : code_at fs' p = Some i) by (rewrite F; simpl; auto).
    econstructor; eauto.
    + unfold jump_dest in *. rewrite E. rewrite H in H1. assumption.
    + apply IHjlist. intros q Hq. apply F. simpl; auto.
Qed.

(* fixjump *)
Lemma fixjump_ok : forall fs p i dest, wf_code fs -> code_at fs p = Some i ->
  Z.abs (dest - (p + 1)) <= MAXARG_sBx ->
  fixjump fs p dest = Ok (set_code fs p (SETARG_sBx i (dest - (p + 1)))).
Proof.
  intros fs p i dest W H D. unfold fixjump. rewrite H.
  destruct (Z.ltb_spec MAXARG_sBx (Z.abs (dest - (p + 1)))); [lia|reflexivity].
Qed.

Lemma fixjump_far : forall fs p i dest, code_at fs p = Some i ->
  MAXARG_sBx < Z.abs (dest - (p + 1)) -> fixjump fs p dest = Err ETooLong.
Proof.
  intros fs p i dest H D. unfold fixjump. rewrite H.
  destruct (Z.ltb_spec MAXARG_sBx (Z.abs (dest - (p + 1)))); [reflexivity|lia].
Qed.

Lemma sbx_u32 : forall i x, is_u32 i -> is_u32 (SETARG_sBx i x).
Proof.
  intros i x H. unfold SETARG_sBx. destruct (set_Bx_mod i (u32 (u32 x + MAXARG_sBx)) H) as (R & _).
  assumption.
Qed.

Lemma sbx_opcode : forall i x, is_u32 i -> GET_OPCODE (SETARG_sBx i x) = GET_OPCODE i /\
  GETARG_A (SETARG_sBx i x) = GETARG_A i.
Proof.
  intros i x H. unfold SETARG_sBx. destruct (set_Bx_mod i (u32 (u32 x + MAXARG_sBx)) H) as (_ & _ & O & A).
  auto.
Qed.

(* last element *)
Lemma last_jump_ok : forall fs l ps, jlist fs l ps -> ps <> [] ->
  forall fuel, (length ps <= fuel)%nat -> last_jump fuel fs l = Ok (last ps 0).
Proof.
  induction 1; intros Hn fuel Hf; try congruence; destruct fuel; simpl in Hf; try lia.
  - cbn [last_jump]. erewrite getjump_end by eauto. reflexivity.
  - cbn [last_jump]. erewrite getjump_next by eauto. cbn [bind].
    destruct (Z.eqb_spec next NO_JUMP) as [E|E].
    + exfalso. apply H4. eapply jlist_head_nil; eauto.
    + rewrite IHjlist by (auto; lia). destruct ps; [congruence|]. reflexivity.
Qed.

Lemma last_in : forall (ps : list Z), ps <> [] -> In (last ps 0) ps.
Proof.
  induction ps; intros; [congruence|]. destruct ps; simpl; auto.
  right. apply IHps. congruence.
Qed.

(* appending a list after the last jump *)
Lemma jlist_append : forall fs l1 ps1, jlist fs l1 ps1 -> ps1 <> [] -> wf_code fs ->
  forall l2 ps2, jlist fs l2 ps2 -> ps2 <> [] -> (forall q, In q ps1 -> ~ In q ps2) ->
  forall i, code_at fs (last ps1 0) = Some i ->
  short (last ps1 0) l2 ->
  jlist (set_code fs (last ps1 0) (SETARG_sBx i (l2 - (last ps1 0 + 1)))) l1 (ps1 ++ ps2).
Proof.
  induction 1; intros Hn W l2 ps2 J2 Hn2 Dis i0 Hi Hs; try congruence.
  - simpl in Hi. simpl (last [p] 0) in *. simpl ([p] ++ ps2).
    assert (Hp : 0 <= p < pc fs) by (eapply code_at_range; eauto).
    replace i0 with i in * by congruence.
    assert (Hu : is_u32 i) by (eapply wf_at; eauto).
    destruct (set_sBx i (l2 - (p+1)) Hu) as (R & B & O & A).
    { unfold short, MAXARG_sBx in *. lia. }
    assert (Hl2 : l2 <> p).
    { intros ->. apply (Dis p); [simpl; auto|]. destruct (jlist_head _ _ _ J2 Hn2). assumption. }
    eapply (jl_cons _ p (SETARG_sBx i (l2 - (p + 1))) l2).
    + rewrite set_code_at by assumption. rewrite Z.eqb_refl. reflexivity.
    + rewrite O. assumption.
    + unfold jump_dest. rewrite set_code_at by assumption. rewrite Z.eqb_refl, B. f_equal. lia.
    + assumption.
    + eapply jlist_frame; eauto. intros q Hq. rewrite set_code_at by assumption.
      destruct (Z.eqb_spec q p); [|reflexivity]. subst. exfalso. apply (Dis p); simpl; auto.
    + assumption.
  - assert (L : last (p :: ps) 0 = last ps 0) by (destruct ps; [congruence|reflexivity]).
    rewrite L in *. simpl.
    assert (Hl : 0 <= last ps 0 < pc fs) by (eapply code_at_range; eauto).
    assert (J : jlist fs p (p :: ps)) by (econstructor; eauto).
    assert (Hpl : last ps 0 <> p).
    { pose proof (jlist_nodup _ _ _ J) as ND. inversion ND; subst. intros E. apply H7.
      rewrite <- E. apply last_in. assumption. }
    econstructor.
    + rewrite set_code_at by assumption. destruct (Z.eqb_spec p (last ps 0)); [congruence|eassumption].
    + assumption.
    + unfold jump_dest in *. rewrite set_code_at by assumption.
      destruct (Z.eqb_spec p (last ps 0)); [congruence|eassumption].
    + assumption.
    + eapply IHjlist; eauto. intros q Hq. apply Dis. simpl; auto.
    + destruct ps; simpl; congruence.
Qed.

Theorem concat_ok : forall fs l1 ps1 l2 ps2, wf_code fs ->
  jlist fs l1 ps1 -> jlist fs l2 ps2 -> (forall q, In q ps1 -> ~ In q ps2) ->
  (ps1 <> [] -> ps2 <> [] -> short (last ps1 0) l2) ->
  exists fs' l, luaK_concat fs l1 l2 = Ok (fs', l) /\ jlist fs' l (ps1 ++ ps2) /\ wf_code fs' /\
    pc fs' = pc fs /\ jpc fs' = jpc fs /\ lasttarget fs' = lasttarget fs /\
    (forall q, q <> last ps1 0 -> code_at fs' q = code_at fs q) /\
    (forall q i, code_at fs q = Some i -> exists i', code_at fs' q = Some i' /\
       GET_OPCODE i' = GET_OPCODE i /\ GETARG_A i' = GETARG_A i).
Proof.
  intros fs l1 ps1 l2 ps2 W J1 J2 Dis Hs. unfold luaK_concat.
  destruct (Z.eqb_spec l2 NO_JUMP) as [E2|E2].
  { assert (ps2 = []) by (eapply jlist_head_nil; eauto). subst ps2. rewrite app_nil_r.
    exists fs, l1. repeat split; auto. intros q i H. eauto. }
  assert (Hn2 : ps2 <> []) by (inversion J2; subst; unfold NO_JUMP in *; congruence).
  destruct (Z.eqb_spec l1 NO_JUMP) as [E1|E1].
  { assert (ps1 = []) by (eapply jlist_head_nil; eauto). subst ps1.
    exists fs, l2. repeat split; auto. intros q i H. eauto. }
  assert (Hn1 : ps1 <> []) by (inversion J1; subst; unfold NO_JUMP in *; congruence).
  specialize (Hs Hn1 Hn2).
  erewrite last_jump_ok; eauto. 2:{ pose proof (jlist_length _ _ _ J1). lia. }
  cbn [bind].
  destruct (jlist_range _ _ _ J1 _ (last_in _ Hn1)) as (i & Hi & Ht).
  assert (Hr : 0 <= last ps1 0 < pc fs) by (eapply code_at_range; eauto).
  assert (Hu : is_u32 i) by (eapply wf_at; eauto).
  rewrite (fixjump_ok _ _ i) by (auto; unfold short, MAXARG_sBx in *; lia). cbn [bind].
  exists (set_code fs (last ps1 0) (SETARG_sBx i (l2 - (last ps1 0 + 1)))), l1.
  split; [reflexivity|]. split; [apply jlist_append; auto|].
  split; [apply wf_set; auto; apply sbx_u32; assumption|].
  split; [apply set_code_pc|]. split; [reflexivity|]. split; [reflexivity|]. split.
  - intros q Hq. rewrite set_code_at by assumption. destruct (Z.eqb_spec q (last ps1 0)); congruence.
  - intros q j Hj. rewrite set_code_at by assumption. destruct (Z.eqb_spec q (last ps1 0)).
    + subst. replace j with i in * by congruence.
      exists (SETARG_sBx i (l2 - (last ps1 0 + 1))). split; [reflexivity|]. apply sbx_opcode. assumption.
    + exists j. auto.
Qed.

(* patching *)
Definition patch_test (i reg : Z) : Z :=
  if negb (reg =? NO_REG) && negb (reg =? GETARG_B i) then SETARG_A i reg
  else CREATE_ABC OP_TEST (GETARG_B i) 0 (GETARG_C i).


Definition expected (fs : fstate) (ps : list Z) (vt reg dt q : Z) : option Z :=
  match code_at fs q with
  | None => None
  | Some i =>
    if in_dec Z.eq_dec q ps then Some (SETARG_sBx i (target fs q vt dt - (q + 1)))
    else if in_dec Z.eq_dec (q + 1) ps then
      (if GET_OPCODE i =? OP_TESTSET then Some (patch_test i reg) else Some i)
    else Some i
  end.

Lemma getB_range : forall i, is_u32 i -> 0 <= GETARG_B i <= 255.
Proof. intros i H. rewrite B_byte by assumption. pose proof (byte_range i 3). lia. Qed.
Lemma getC_range : forall i, 0 <= GETARG_C i <= 255.
Proof. intros i. rewrite C_byte. pose proof (byte_range i 2). lia. Qed.

Lemma patch_test_u32 : forall i reg, is_u32 i -> 0 <= reg <= 127 -> GETARG_B i <= 127 -> is_u32 (patch_test i reg).
Proof.
  intros i reg H Hr HB. unfold patch_test. destruct (negb (reg =? NO_REG) && negb (reg =? GETARG_B i)).
  - destruct (set_A i reg H) as (R & _); [unfold MAXARG_A; lia|assumption].
  - pose proof (getB_range i H). pose proof (getC_range i).
    destruct (abc_roundtrip OP_TEST (GETARG_B i) 0 (GETARG_C i)) as (R & _);
      unfold OP_TEST, MAXARG_A, MAXARG_B, MAXARG_C; try lia. assumption.
Qed.

Lemma patch_test_op : forall i reg, is_u32 i -> 0 <= reg <= 127 -> GETARG_B i <= 127 ->
  GET_OPCODE i = OP_TESTSET ->
  GET_OPCODE (patch_test i reg) = OP_TESTSET \/ GET_OPCODE (patch_test i reg) = OP_TEST.
Proof.
  intros i reg H Hr HB E. unfold patch_test. destruct (negb (reg =? NO_REG) && negb (reg =? GETARG_B i)).
  - left. destruct (set_A i reg H) as (R & _ & O & _); [unfold MAXARG_A; lia|congruence].
  - right. pose proof (getB_range i H). pose proof (getC_range i).
    destruct (abc_roundtrip OP_TEST (GETARG_B i) 0 (GETARG_C i)) as (R & O & _);
      unfold OP_TEST, MAXARG_A, MAXARG_B, MAXARG_C in *; try lia. 
Qed.


Definition all_short (fs : fstate) (ps : list Z) (vt dt : Z) : Prop :=
  forall p, In p ps -> Z.abs (target fs p vt dt - (p + 1)) <= MAXARG_sBx.

(* one step of the patching loop *)
Lemma patch_step : forall fs p i vt reg dt, wf_code fs -> tests_ok fs -> 0 <= reg <= 127 ->
  code_at fs p = Some i -> testTMode (GET_OPCODE i) = false ->
  Z.abs (target fs p vt dt - (p + 1)) <= MAXARG_sBx ->
  exists fs2,
    bind (patchtestreg fs p reg) (fun '(fs1, isset) =>
      fixjump fs1 p (if isset then vt else dt)) = Ok fs2 /\
    wf_code fs2 /\ pc fs2 = pc fs /\ jpc fs2 = jpc fs /\ lasttarget fs2 = lasttarget fs /\
    forall q, code_at fs2 q =
      if q =? p then Some (SETARG_sBx i (target fs p vt dt - (p + 1)))
      else match code_at fs q with
           | Some j => if (q =? p - 1) && (GET_OPCODE j =? OP_TESTSET) then Some (patch_test j reg) else Some j
           | None => None
           end.
Proof.
  intros fs p i vt reg dt W T Hreg Hi Ht Hd.
  pose proof (code_at_range _ _ _ Hi) as Hp.
  pose proof (wf_at _ _ _ W Hi) as Hu.
  assert (NT : (GET_OPCODE i =? OP_TESTSET) = false).
  { destruct (Z.eqb_spec (GET_OPCODE i) OP_TESTSET) as [E|]; [|reflexivity].
    rewrite E in Ht. discriminate. }
  unfold target, testset_at in *.
  unfold patchtestreg, getjumpcontrol.
  destruct (code_at fs (p - 1)) as [j|] eqn:Ej.
  - pose proof (code_at_range _ _ _ Ej) as Hp1.
    replace (1 <=? p) with true by (symmetry; apply Z.leb_le; lia). cbn [andb].
    destruct (Z.eqb_spec (GET_OPCODE j) OP_TESTSET) as [Eo|Eo].
    + rewrite Eo. change (testTMode OP_TESTSET) with true. cbv iota. rewrite Ej, Eo.
      change (negb (OP_TESTSET =? OP_TESTSET)) with false. cbv iota.
      exists (set_code (set_code fs (p - 1) (patch_test j reg)) p (SETARG_sBx i (vt - (p + 1)))).
      assert (Hu1 : is_u32 (patch_test j reg)).
      { apply patch_test_u32; auto; [eapply wf_at; eauto|eapply T; eauto]. }
      split.
      { assert (R : fixjump (set_code fs (p - 1) (patch_test j reg)) p vt =
                Ok (set_code (set_code fs (p - 1) (patch_test j reg)) p (SETARG_sBx i (vt - (p + 1))))).
        { apply fixjump_ok; auto. - apply wf_set; auto.
          - rewrite set_code_at by assumption. destruct (Z.eqb_spec p (p-1)); [lia|assumption]. }
        unfold patch_test in *. destruct (negb (reg =? NO_REG) && negb (reg =? GETARG_B j)); cbn [bind]; exact R. }
      split; [apply wf_set; [apply wf_set; auto|apply sbx_u32; auto]|].
      split; [rewrite !set_code_pc; reflexivity|]. split; [reflexivity|]. split; [reflexivity|].
      intros q. rewrite set_code_at by (rewrite set_code_pc; assumption).
      destruct (Z.eqb_spec q p); [reflexivity|].
      rewrite set_code_at by assumption. destruct (Z.eqb_spec q (p - 1)).
      * subst. rewrite Ej, Eo. reflexivity.
      * cbn [andb]. destruct (code_at fs q); reflexivity.
    + assert (P : match code_at fs (if testTMode (GET_OPCODE j) then p - 1 else p) with
             | Some k => GET_OPCODE k <> OP_TESTSET | None => False end).
      { destruct (testTMode (GET_OPCODE j)); [rewrite Ej; assumption|rewrite Hi].
        intros E. rewrite E in Ht. discriminate. }
      destruct (code_at fs (if testTMode (GET_OPCODE j) then p - 1 else p)) as [k|]; [|tauto].
      destruct (Z.eqb_spec (GET_OPCODE k) OP_TESTSET); [tauto|]. cbn [negb bind].
      rewrite (fixjump_ok _ _ i) by auto.
      exists (set_code fs p (SETARG_sBx i (dt - (p + 1)))).
      split; [reflexivity|]. split; [apply wf_set; [auto|apply sbx_u32; auto]|].
      split; [apply set_code_pc|]. split; [reflexivity|]. split; [reflexivity|].
      intros q. rewrite set_code_at by assumption. destruct (Z.eqb_spec q p); [reflexivity|].
      destruct (Z.eqb_spec q (p - 1)).
      * subst q. rewrite Ej. destruct (Z.eqb_spec (GET_OPCODE j) OP_TESTSET); [tauto|reflexivity].
      * cbn [andb]. destruct (code_at fs q); reflexivity.
  - rewrite Hi, NT. cbn [negb bind].
    rewrite (fixjump_ok _ _ i) by auto.
    exists (set_code fs p (SETARG_sBx i (dt - (p + 1)))).
    split; [reflexivity|]. split; [apply wf_set; [auto|apply sbx_u32; auto]|].
    split; [apply set_code_pc|]. split; [reflexivity|]. split; [reflexivity|].
    intros q. rewrite set_code_at by assumption. destruct (Z.eqb_spec q p); [reflexivity|].
    destruct (Z.eqb_spec q (p - 1)).
    * subst q. rewrite Ej. reflexivity.
    * cbn [andb]. destruct (code_at fs q); reflexivity.
Qed.

Lemma bind_assoc3 : forall A B C (x : outcome A) (f : A -> outcome B) (g : B -> outcome C),
  bind (bind x f) g = bind x (fun a => bind (f a) g).
Proof. destruct x; reflexivity. Qed.

Lemma testset_not_in : forall fs l ps q i, jlist fs l ps -> code_at fs q = Some i ->
  GET_OPCODE i = OP_TESTSET -> ~ In q ps.
Proof.
  intros fs l ps q i J H E Hin. destruct (jlist_range _ _ _ J q Hin) as (k & K & T).
  replace k with i in * by congruence. rewrite E in T. discriminate.
Qed.

Lemma patch_head : forall fs fs2 p i vt reg dt ps, wf_code fs -> tests_ok fs -> 0 <= reg <= 127 ->
  code_at fs p = Some i -> testTMode (GET_OPCODE i) = false ->
  (forall q, code_at fs2 q =
      if q =? p then Some (SETARG_sBx i (target fs p vt dt - (p + 1)))
      else match code_at fs q with
           | Some j => if (q =? p - 1) && (GET_OPCODE j =? OP_TESTSET) then Some (patch_test j reg) else Some j
           | None => None
           end) ->
  ~ In p ps -> (forall q j, In q ps -> code_at fs q = Some j -> testTMode (GET_OPCODE j) = false) ->
  (forall q, In q ps -> code_at fs2 q = code_at fs q) /\
  (forall q, In q ps -> testset_at fs2 q = testset_at fs q) /\
  tests_ok fs2 /\
  (forall q, expected fs2 ps vt reg dt q = expected fs (p :: ps) vt reg dt q).
Proof.
  intros fs fs2 p i vt reg dt ps W T Hreg Hi Ht F Np NT.
  assert (Hu := wf_at _ _ _ W Hi).
  assert (Q : forall q, In q ps -> code_at fs2 q = code_at fs q).
  { intros q Hq. rewrite F. destruct (Z.eqb_spec q p); [congruence|].
    destruct (code_at fs q) as [j|] eqn:Ej; [|reflexivity].
    destruct (Z.eqb_spec (GET_OPCODE j) OP_TESTSET) as [E|]; [|rewrite andb_false_r; reflexivity].
    specialize (NT q j Hq Ej). rewrite E in NT. discriminate. }
  assert (TS : forall q, In q ps -> testset_at fs2 q = testset_at fs q).
  { intros q Hq. unfold testset_at. rewrite F. destruct (Z.eqb_spec (q - 1) p) as [E|E].
    - rewrite E, Hi. destruct (sbx_opcode i (target fs p vt dt - (p + 1)) Hu) as [-> _]. reflexivity.
    - destruct (code_at fs (q - 1)); [|reflexivity].
      destruct (Z.eqb_spec (q - 1) (p - 1)); [|reflexivity].
      assert (q = p) by lia. congruence. }
  split; [exact Q|]. split; [exact TS|]. split.
  - intros q j Hj Ej. rewrite F in Hj. destruct (Z.eqb_spec q p).
    + inversion Hj; subst. destruct (sbx_opcode i (target fs p vt dt - (p + 1)) Hu) as [E _].
      rewrite E in Ej. rewrite Ej in Ht. discriminate.
    + destruct (code_at fs q) as [k|] eqn:Ek; [|discriminate].
      destruct ((q =? p - 1) && (GET_OPCODE k =? OP_TESTSET)) eqn:C.
      * inversion Hj; subst. apply andb_prop in C. destruct C as [_ C]. apply Z.eqb_eq in C.
        pose proof (T _ _ Ek C). pose proof (wf_at _ _ _ W Ek) as Huk. unfold patch_test in *.
        destruct (negb (reg =? NO_REG) && negb (reg =? GETARG_B k)).
        -- destruct (set_A k reg Huk) as (_ & _ & _ & B & _); [unfold MAXARG_A; lia|]. lia.
        -- pose proof (getB_range k Huk). pose proof (getC_range k).
           destruct (abc_roundtrip OP_TEST (GETARG_B k) 0 (GETARG_C k)) as (_ & O & _);
             unfold OP_TEST, MAXARG_A, MAXARG_B, MAXARG_C in *; try lia.
           rewrite O in Ej. discriminate.
      * inversion Hj; subst. eapply T; eauto.
  - intros q. unfold expected. rewrite F.
    destruct (Z.eqb_spec q p).
    + subst q. rewrite Hi. destruct (in_dec Z.eq_dec p ps); [tauto|].
      destruct (in_dec Z.eq_dec p (p :: ps)) as [_|N]; [|exfalso; apply N; left; reflexivity].
      destruct (sbx_opcode i (target fs p vt dt - (p + 1)) Hu) as [-> _].
      assert (NTi : (GET_OPCODE i =? OP_TESTSET) = false).
      { destruct (Z.eqb_spec (GET_OPCODE i) OP_TESTSET) as [E|]; [|reflexivity]. rewrite E in Ht. discriminate. }
      rewrite NTi. destruct (in_dec Z.eq_dec (p + 1) ps); reflexivity.
    + destruct (code_at fs q) as [j|] eqn:Ej; [|reflexivity].
      assert (Iq : In q (p :: ps) <-> In q ps) by (simpl; split; [intros [E|E]; [congruence|assumption]|auto]).
      destruct (Z.eqb_spec q (p - 1)) as [E1|E1]; cbn [andb].
      * destruct (Z.eqb_spec (GET_OPCODE j) OP_TESTSET) as [Eo|Eo].
        -- assert (Nq : ~ In q ps).
           { intros Hq. specialize (NT q j Hq Ej). rewrite Eo in NT. discriminate. }
           destruct (in_dec Z.eq_dec q ps); [tauto|].
           destruct (in_dec Z.eq_dec q (p :: ps)); [tauto|].
           destruct (in_dec Z.eq_dec (q + 1) (p :: ps)) as [_|N]; [|exfalso; apply N; left; lia].
           destruct (in_dec Z.eq_dec (q + 1) ps) as [I|_]; [|reflexivity].
           replace (q + 1) with p in I by lia. tauto.
        -- destruct (in_dec Z.eq_dec q ps) as [I|I]; destruct (in_dec Z.eq_dec q (p :: ps)); try tauto.
           ++ unfold target. rewrite TS by assumption. reflexivity.
           ++ destruct (in_dec Z.eq_dec (q + 1) ps), (in_dec Z.eq_dec (q + 1) (p :: ps));
                destruct (Z.eqb_spec (GET_OPCODE j) OP_TESTSET); try tauto; reflexivity.
      * destruct (in_dec Z.eq_dec q ps) as [I|I]; destruct (in_dec Z.eq_dec q (p :: ps)); try tauto.
        -- unfold target. rewrite TS by assumption. reflexivity.
        -- assert (Iq1 : In (q + 1) (p :: ps) <-> In (q + 1) ps) by (simpl; split; [intros [E|E]; [lia|assumption]|auto]).
           destruct (in_dec Z.eq_dec (q + 1) ps), (in_dec Z.eq_dec (q + 1) (p :: ps)); try tauto; reflexivity.
Qed.

Theorem patchlist_ok : forall ps fs l vt reg dt fuel, wf_code fs -> tests_ok fs -> 0 <= reg <= 127 ->
  jlist fs l ps -> all_short fs ps vt dt -> (length ps <= fuel)%nat ->
  exists fs', patchlistaux fuel fs l vt reg dt = Ok fs' /\ wf_code fs' /\ tests_ok fs' /\
    pc fs' = pc fs /\ jpc fs' = jpc fs /\ lasttarget fs' = lasttarget fs /\
    forall q, code_at fs' q = expected fs ps vt reg dt q.
Proof.
  induction ps as [|p ps IH]; intros fs l vt reg dt fuel W T Hreg J S Hf.
  - inversion J; subst. exists fs. split; [destruct fuel; reflexivity|].
    repeat split; auto. intros q. unfold expected. destruct (code_at fs q); reflexivity.
  - destruct fuel; [simpl in Hf; lia|].
    assert (ND := jlist_nodup _ _ _ J). inversion ND as [|? ? Np ND']; subst.
    assert (E : exists i next, l = p /\ code_at fs p = Some i /\ testTMode (GET_OPCODE i) = false /\
       getjump fs p = Ok next /\ jlist fs next ps).
    { inversion J; subst.
      - exists i, (-1). repeat split; auto; [eapply getjump_end; eauto|constructor].
      - exists i, next. repeat split; auto. eapply getjump_next; eauto. }
    destruct E as (i & next & -> & Hi & Ht & G & J').
    assert (Hp := code_at_range _ _ _ Hi).
    cbn [patchlistaux]. destruct (Z.eqb_spec p NO_JUMP); [unfold NO_JUMP in *; lia|].
    rewrite G. cbn [bind].
    destruct (patch_step fs p i vt reg dt W T Hreg Hi Ht) as (fs2 & E2 & W2 & P2 & Jp2 & L2 & F2).
    { apply S. left. reflexivity. }
    replace (bind (patchtestreg fs p reg) (fun '(fs1, isset) =>
       bind (fixjump fs1 p (if isset then vt else dt)) (fun fs2 => patchlistaux fuel fs2 next vt reg dt)))
      with (bind (bind (patchtestreg fs p reg) (fun '(fs1, isset) => fixjump fs1 p (if isset then vt else dt)))
              (fun fs2 => patchlistaux fuel fs2 next vt reg dt)).
    2:{ rewrite bind_assoc3. destruct (patchtestreg fs p reg) as [[? ?]| | |]; reflexivity. }
    rewrite E2. cbn [bind].
    destruct (patch_head fs fs2 p i vt reg dt ps W T Hreg Hi Ht F2 Np) as (Q & TS & T2 & EX).
    { intros q j Hq Ej. destruct (jlist_range _ _ _ J' q Hq) as (k & K & Tk). congruence. }
    destruct (IH fs2 next vt reg dt fuel W2 T2 Hreg) as (fs' & E' & W' & T' & P' & Jp' & L' & F').
    + eapply jlist_frame; eauto.
    + intros q Hq. unfold target. rewrite TS by assumption. apply S. right. assumption.
    + simpl in Hf. lia.
    + exists fs'. split; [exact E'|]. split; [assumption|]. split; [assumption|].
      split; [congruence|]. split; [congruence|]. split; [congruence|].
      intros q. rewrite F', EX. reflexivity.
Qed.

Theorem patchlist_far : forall ps fs l vt reg dt fuel, wf_code fs -> tests_ok fs -> 0 <= reg <= 127 ->
  jlist fs l ps -> (exists p, In p ps /\ MAXARG_sBx < Z.abs (target fs p vt dt - (p + 1))) ->
  (length ps <= fuel)%nat ->
  patchlistaux fuel fs l vt reg dt = Err ETooLong.
Proof.
  induction ps as [|p ps IH]; intros fs l vt reg dt fuel W T Hreg J S Hf.
  - destruct S as (p & [] & _).
  - destruct fuel; [simpl in Hf; lia|].
    assert (ND := jlist_nodup _ _ _ J). inversion ND as [|? ? Np ND']; subst.
    assert (E : exists i next, l = p /\ code_at fs p = Some i /\ testTMode (GET_OPCODE i) = false /\
       getjump fs p = Ok next /\ jlist fs next ps).
    { inversion J; subst.
      - exists i, (-1). repeat split; auto; [eapply getjump_end; eauto|constructor].
      - exists i, next. repeat split; auto. eapply getjump_next; eauto. }
    destruct E as (i & next & -> & Hi & Ht & G & J').
    assert (Hp := code_at_range _ _ _ Hi).
    cbn [patchlistaux]. destruct (Z.eqb_spec p NO_JUMP); [unfold NO_JUMP in *; lia|].
    rewrite G. cbn [bind].
    replace (bind (patchtestreg fs p reg) (fun '(fs1, isset) =>
       bind (fixjump fs1 p (if isset then vt else dt)) (fun fs2 => patchlistaux fuel fs2 next vt reg dt)))
      with (bind (bind (patchtestreg fs p reg) (fun '(fs1, isset) => fixjump fs1 p (if isset then vt else dt)))
              (fun fs2 => patchlistaux fuel fs2 next vt reg dt)).
    2:{ rewrite bind_assoc3. destruct (patchtestreg fs p reg) as [[? ?]| | |]; reflexivity. }
    destruct (Z_le_gt_dec (Z.abs (target fs p vt dt - (p + 1))) MAXARG_sBx) as [Hs|Hs].
    + destruct (patch_step fs p i vt reg dt W T Hreg Hi Ht Hs) as (fs2 & E2 & W2 & P2 & Jp2 & L2 & F2).
      rewrite E2. cbn [bind].
      destruct (patch_head fs fs2 p i vt reg dt ps W T Hreg Hi Ht F2 Np) as (Q & TS & T2 & EX).
      { intros q j Hq Ej. destruct (jlist_range _ _ _ J' q Hq) as (k & K & Tk). congruence. }
      eapply IH; eauto.
      * eapply jlist_frame; eauto.
      * destruct S as (q & [->|Hq] & B); [lia|]. exists q. split; [assumption|].
        unfold target in *. rewrite TS by assumption. assumption.
      * simpl in Hf. lia.
    + assert (R : bind (patchtestreg fs p reg) (fun '(fs1, isset) => fixjump fs1 p (if isset then vt else dt)) = Err ETooLong).
      2:{ rewrite R. reflexivity. }
      clear - W T Hreg Hi Ht Hs Hp.
      unfold target, testset_at in Hs. unfold patchtestreg, getjumpcontrol.
      destruct (code_at fs (p - 1)) as [j|] eqn:Ej.
      * pose proof (code_at_range _ _ _ Ej) as Hp1.
        replace (1 <=? p) with true by (symmetry; apply Z.leb_le; lia). cbn [andb].
        destruct (Z.eqb_spec (GET_OPCODE j) OP_TESTSET) as [Eo|Eo].
        -- rewrite Eo. change (testTMode OP_TESTSET) with true. cbv iota. rewrite Ej, Eo.
           change (negb (OP_TESTSET =? OP_TESTSET)) with false. cbv iota.
           destruct (negb (reg =? NO_REG) && negb (reg =? GETARG_B j)); cbn [bind];
           (eapply (fixjump_far _ _ i); [rewrite set_code_at by assumption;
             destruct (Z.eqb_spec p (p-1)); [lia|assumption]|lia]).
        -- assert (P : match code_at fs (if testTMode (GET_OPCODE j) then p - 1 else p) with
             | Some k => GET_OPCODE k <> OP_TESTSET | None => False end).
           { destruct (testTMode (GET_OPCODE j)); [rewrite Ej; assumption|rewrite Hi].
             intros E. rewrite E in Ht. discriminate. }
           destruct (code_at fs (if testTMode (GET_OPCODE j) then p - 1 else p)) as [k|]; [|tauto].
           destruct (Z.eqb_spec (GET_OPCODE k) OP_TESTSET); [tauto|]. cbn [negb bind].
           eapply fixjump_far; eauto. lia.
      * rewrite Hi. destruct (Z.eqb_spec (GET_OPCODE i) OP_TESTSET) as [E|].
        { rewrite E in Ht. discriminate. }
        cbn [negb bind]. eapply fixjump_far; eauto. lia.
Qed.

(* destinations after patching *)
Lemma expected_dest : forall fs ps vt reg dt fs' p, wf_code fs ->
  (forall q, code_at fs' q = expected fs ps vt reg dt q) -> In p ps ->
  (exists i, code_at fs p = Some i) ->
  short p (target fs p vt dt) -> jump_dest fs' p = Some (target fs p vt dt).
Proof.
  intros fs ps vt reg dt fs' p W F Hin [i Hi] Hs. unfold jump_dest. rewrite F. unfold expected. rewrite Hi.
  destruct (in_dec Z.eq_dec p ps); [|tauto].
  destruct (set_sBx i (target fs p vt dt - (p + 1)) (wf_at _ _ _ W Hi)) as (_ & -> & _).
  - unfold short, MAXARG_sBx in *. lia.
  - f_equal. lia.
Qed.

Lemma code_at_app : forall l jp lt i q,
  code_at (mkFS (l ++ [i]) jp lt) q = if q =? Z.of_nat (length l) then Some i else code_at (mkFS l jp lt) q.
Proof.
  intros. unfold code_at. cbn [code]. destruct (Z.ltb_spec q 0).
  - destruct (Z.eqb_spec q (Z.of_nat (length l))); [lia|reflexivity].
  - destruct (Z.eqb_spec q (Z.of_nat (length l))).
    + subst. rewrite Nat2Z.id. rewrite nth_error_app2 by lia. rewrite Nat.sub_diag. reflexivity.
    + destruct (Nat.lt_ge_cases (Z.to_nat q) (length l)).
      * rewrite nth_error_app1 by assumption. reflexivity.
      * assert (N : nth_error (l ++ [i]) (Z.to_nat q) = None).
        { apply nth_error_None. rewrite app_length. simpl. lia. }
        rewrite N. symmetry. apply nth_error_None. assumption.
Qed.

(* emitting an instruction discharges the pending jumps to it *)
Theorem code_ok : forall fs ps i, wf_code fs -> tests_ok fs -> is_u32 i ->
  jlist fs (jpc fs) ps -> (forall p, In p ps -> short p (pc fs)) ->
  exists fs', luaK_code fs i = Ok (fs', pc fs) /\ wf_code fs' /\ pc fs' = pc fs + 1 /\ jpc fs' = NO_JUMP /\
    lasttarget fs' = lasttarget fs /\ code_at fs' (pc fs) = Some i /\
    (forall p, In p ps -> jump_dest fs' p = Some (pc fs)) /\
    (forall q j, q <> pc fs -> ~ In q ps -> code_at fs q = Some j ->
       GET_OPCODE j <> OP_TESTSET \/ ~ In (q + 1) ps -> code_at fs' q = Some j) /\
    (forall q j, In (q + 1) ps -> code_at fs q = Some j -> GET_OPCODE j = OP_TESTSET ->
       exists j', code_at fs' q = Some j' /\ GET_OPCODE j' = OP_TEST /\ GETARG_A j' = GETARG_B j /\
                  GETARG_C j' = GETARG_C j).
Proof.
  intros fs ps i W T Hu J S.
  assert (TG : forall p, target fs p (pc fs) (pc fs) = pc fs) by (intros; unfold target; destruct (testset_at fs p); reflexivity).
  destruct (patchlist_ok ps fs (jpc fs) (pc fs) NO_REG (pc fs) (length (code fs))) as
    (fs1 & E & W1 & T1 & P1 & Jp1 & L1 & F1); auto.
  { unfold NO_REG, MAXARG_A. lia. }
  { intros p Hp. rewrite TG. specialize (S p Hp). unfold short, MAXARG_sBx in *. lia. }
  { eapply jlist_length; eauto. }
  unfold luaK_code, dischargejpc. rewrite E. cbn [bind code jpc lasttarget].
  assert (PC : Z.of_nat (length (code fs1)) = pc fs) by (exact P1).
  exists (mkFS (code fs1 ++ [i]) NO_JUMP (lasttarget fs1)).
  split; [unfold pc at 1; cbn [code]; rewrite PC; reflexivity|].
  assert (CA : forall q, code_at (mkFS (code fs1 ++ [i]) NO_JUMP (lasttarget fs1)) q =
     if q =? pc fs then Some i else expected fs ps (pc fs) NO_REG (pc fs) q).
  { intros q. rewrite code_at_app, PC. destruct (Z.eqb_spec q (pc fs)); [reflexivity|].
    unfold code_at. cbn [code]. apply F1. }
  split; [unfold wf_code in *; cbn [code]; apply Forall_app; split; auto|].
  split; [unfold pc at 1; cbn [code]; rewrite app_length, Nat2Z.inj_add, PC; reflexivity|].
  split; [reflexivity|]. split; [assumption|].
  split; [rewrite CA, Z.eqb_refl; reflexivity|].
  split; [|split].
  - intros p Hp. destruct (jlist_range _ _ _ J p Hp) as (j & Hj & _).
    pose proof (code_at_range _ _ _ Hj).
    assert (D := expected_dest fs ps (pc fs) NO_REG (pc fs) fs1 p W F1 Hp (ex_intro _ j Hj)).
    rewrite TG in D. specialize (D (S p Hp)). unfold jump_dest in *. rewrite CA.
    destruct (Z.eqb_spec p (pc fs)); [lia|]. rewrite F1 in D. assumption.
  - intros q j Nq Nin Hj Hc. rewrite CA. destruct (Z.eqb_spec q (pc fs)); [tauto|].
    unfold expected. rewrite Hj. destruct (in_dec Z.eq_dec q ps); [tauto|].
    destruct (in_dec Z.eq_dec (q + 1) ps); [|reflexivity].
    destruct (Z.eqb_spec (GET_OPCODE j) OP_TESTSET); [tauto|reflexivity].
  - intros q j Hin Hj Ho. pose proof (code_at_range _ _ _ Hj).
    pose proof (wf_at _ _ _ W Hj) as Hw. pose proof (getB_range j Hw). pose proof (getC_range j).
    pose proof (T _ _ Hj Ho).
    exists (patch_test j NO_REG). rewrite CA. destruct (Z.eqb_spec q (pc fs)); [lia|].
    split.
    + unfold expected. rewrite Hj. destruct (in_dec Z.eq_dec q ps) as [I|].
      { exfalso. eapply testset_not_in; eauto. }
      destruct (in_dec Z.eq_dec (q + 1) ps); [|tauto]. rewrite Ho. reflexivity.
    + unfold patch_test. rewrite Z.eqb_refl. cbn [negb andb].
      destruct (abc_roundtrip OP_TEST (GETARG_B j) 0 (GETARG_C j)) as (_ & O & A & B & C);
        unfold OP_TEST, MAXARG_A, MAXARG_B, MAXARG_C in *; try lia.
Qed.

(* patch to here: pending jumps are joined *)
Theorem patchtohere_ok : forall fs ps1 l ps2, wf_code fs ->
  jlist fs (jpc fs) ps1 -> jlist fs l ps2 -> (forall q, In q ps1 -> ~ In q ps2) ->
  (ps1 <> [] -> ps2 <> [] -> short (last ps1 0) l) ->
  exists fs', luaK_patchtohere fs l = Ok fs' /\ jlist fs' (jpc fs') (ps1 ++ ps2) /\ wf_code fs' /\
    pc fs' = pc fs /\ lasttarget fs' = pc fs /\
    (forall q, q <> last ps1 0 -> code_at fs' q = code_at fs q) /\
    (forall q i, code_at fs q = Some i -> exists i', code_at fs' q = Some i' /\
       GET_OPCODE i' = GET_OPCODE i /\ GETARG_A i' = GETARG_A i).
Proof.
  intros fs ps1 l ps2 W J1 J2 Dis S. unfold luaK_patchtohere, luaK_getlabel. cbn [fst jpc].
  set (fs0 := mkFS (code fs) (jpc fs) (pc fs)).
  assert (K : forall q, code_at fs0 q = code_at fs q) by reflexivity.
  destruct (concat_ok fs0 (jpc fs) ps1 l ps2) as (fs1 & h & E & J & W1 & P & Jp & L & F & G); auto.
  - eapply jlist_frame; eauto.
  - eapply jlist_frame; eauto.
  - rewrite E. cbn [bind]. exists (mkFS (code fs1) h (lasttarget fs1)).
    split; [reflexivity|]. split; [eapply jlist_frame; [exact J|reflexivity]|].
    split; [exact W1|]. split; [exact P|]. split; [exact L|]. split.
    + intros q Hq. exact (F q Hq).
    + intros q i Hi. exact (G q i Hi).
Qed.

Theorem jump_ok : forall fs ps, wf_code fs -> tests_ok fs ->
  jlist fs (jpc fs) ps -> (ps <> [] -> short (pc fs) (jpc fs)) ->
  exists fs', luaK_jump fs = Ok (fs', pc fs) /\ jlist fs' (pc fs) (pc fs :: ps) /\
    jpc fs' = NO_JUMP /\ pc fs' = pc fs + 1 /\ wf_code fs' /\
    (forall q, q <> pc fs -> code_at fs' q = code_at fs q).
Proof.
  intros fs ps W T J S. unfold luaK_jump, luaK_codeAsBx.
  set (fs0 := mkFS (code fs) NO_JUMP (lasttarget fs)).
  set (jmp := CREATE_ABx OP_JMP 0 (NO_JUMP + MAXARG_sBx)).
  assert (K : forall q, code_at fs0 q = code_at fs q) by reflexivity.
  destruct (code_ok fs0 [] jmp) as (fs1 & E & W1 & P1 & Jp1 & L1 & C1 & _ & F1 & _).
  - exact W.
  - exact T.
  - unfold jmp; vm_compute; split; [discriminate|reflexivity].
  - constructor.
  - intros p [].
  - change (pc fs0) with (pc fs) in *.
    rewrite E. cbn [bind].
    assert (F : forall q, q <> pc fs -> code_at fs1 q = code_at fs q).
    { intros q Hq. destruct (code_at fs q) as [j|] eqn:Ej.
      - apply F1; auto.
      - destruct (code_at fs1 q) as [k|] eqn:Ek; [|reflexivity]. pose proof (code_at_range _ _ _ Ek).
        destruct (code_at_some fs q) as [x X]; [lia|congruence]. }
    assert (JJ : jlist fs1 (pc fs) [pc fs]).
    { econstructor; [exact C1|reflexivity|]. unfold jump_dest. rewrite C1. f_equal.
      change (GETARG_sBx jmp) with (-1). lia. }
    assert (Nin : forall q, In q ps -> q <> pc fs).
    { intros q Hq. destruct (jlist_range _ _ _ J q Hq) as (j & Hj & _). pose proof (code_at_range _ _ _ Hj). lia. }
    destruct (concat_ok fs1 (pc fs) [pc fs] (jpc fs) ps) as (fs2 & h & E2 & J2 & W2 & P2 & Jp2 & L2 & F2 & G2); auto.
    + eapply jlist_frame; [exact J|]. intros q Hq. apply F. auto.
    + intros q [<-|[]] Hq. apply (Nin _ Hq). reflexivity.
    + rewrite E2. exists fs2.
      assert (Hh : h = pc fs).
      { inversion J2; reflexivity. }
      subst h. split; [reflexivity|]. split; [exact J2|]. split; [congruence|]. split; [congruence|].
      split; [assumption|]. intros q Hq. rewrite F2 by (simpl; auto). apply F; auto.
Qed.

(* LOADNIL merging *)
Theorem nil_ok : forall fs ps from n, wf_code fs -> tests_ok fs -> 0 <= lasttarget fs <= pc fs ->
  jlist fs (jpc fs) ps -> (forall p, In p ps -> short p (pc fs)) ->
  0 <= from -> 1 <= n -> from + n <= MAXARG_A + 1 ->
  (forall i, code_at fs (pc fs - 1) = Some i -> GET_OPCODE i = OP_LOADNIL -> GETARG_A i + GETARG_B i <= MAXARG_A) ->
  exists fs', luaK_nil fs from n = Ok fs' /\
  ((exists i i', lasttarget fs < pc fs /\ code_at fs (pc fs - 1) = Some i /\ GET_OPCODE i = OP_LOADNIL /\
      pc fs' = pc fs /\ jpc fs' = jpc fs /\ lasttarget fs' = lasttarget fs /\
      code_at fs' (pc fs - 1) = Some i' /\ GET_OPCODE i' = OP_LOADNIL /\
      (forall q, q <> pc fs - 1 -> code_at fs' q = code_at fs q) /\
      (forall r, GETARG_A i' <= r <= GETARG_A i' + GETARG_B i' <->
                 (GETARG_A i <= r <= GETARG_A i + GETARG_B i) \/ (from <= r <= from + n - 1)))
   \/ (exists i', luaK_code fs i' = Ok (fs', pc fs) /\ pc fs' = pc fs + 1 /\ code_at fs' (pc fs) = Some i' /\ GET_OPCODE i' = OP_LOADNIL /\
      GETARG_A i' = from /\ GETARG_B i' = n - 1 /\
      (forall p, In p ps -> jump_dest fs' p = Some (pc fs)))).
Proof.
  intros fs ps from n W T LT J S Hf Hn Hfn Hprev.
  unfold MAXARG_A in *.
  assert (EM : exists fs', bind (luaK_codeABC fs OP_LOADNIL from (n - 1) 0) (fun '(fs', _) => Ok fs') = Ok fs' /\
     (exists i', luaK_code fs i' = Ok (fs', pc fs) /\ pc fs' = pc fs + 1 /\ code_at fs' (pc fs) = Some i' /\ GET_OPCODE i' = OP_LOADNIL /\
      GETARG_A i' = from /\ GETARG_B i' = n - 1 /\
      (forall p, In p ps -> jump_dest fs' p = Some (pc fs)))).
  { destruct (abc_roundtrip OP_LOADNIL from (n-1) 0) as (R & O & A & B & C);
      unfold OP_LOADNIL, MAXARG_A, MAXARG_B, MAXARG_C in *; try lia.
    destruct (code_ok fs ps (CREATE_ABC 4 from (n - 1) 0)) as (fs1 & E & W1 & P1 & Jp1 & L1 & C1 & D1 & F1 & G1); auto.
    unfold luaK_codeABC. rewrite E. exists fs1. split; [reflexivity|]. eexists. repeat split; eauto. }
  destruct EM as (fsE & EE & EE2).
  unfold luaK_nil. destruct (Z.ltb_spec (lasttarget fs) (pc fs)) as [HL|HL].
  2:{ exists fsE. split; [exact EE|]. right. exact EE2. }
  destruct (code_at_some fs (pc fs - 1)) as [i Hi]; [lia|]. rewrite Hi.
  destruct (Z.eqb_spec (GET_OPCODE i) OP_LOADNIL) as [Ho|Ho].
  2:{ exists fsE. split; [exact EE|]. right. exact EE2. }
  assert (Hu := wf_at _ _ _ W Hi). specialize (Hprev i Hi Ho).
  pose proof (getB_range i Hu) as HB.
  assert (HA : 0 <= GETARG_A i <= 127).
  { rewrite A_byte. pose proof (Z.mod_pos_bound (byte i 1) 128). lia. }
  set (pfrom := GETARG_A i) in *. set (pl := pfrom + GETARG_B i) in *.
  destruct (((pfrom <=? from) && (from <=? pl + 1)) || ((from <=? pfrom) && (pfrom <=? from + n - 1 + 1))) eqn:C.
  2:{ exists fsE. split; [exact EE|]. right. exact EE2. }
  apply orb_prop in C. rewrite !andb_true_iff, !Z.leb_le in C.
  set (from' := if pfrom <? from then pfrom else from).
  set (l' := if from + n - 1 <? pl then pl else from + n - 1).
  assert (Hfr : from' = Z.min pfrom from) by (unfold from'; destruct (Z.ltb_spec pfrom from); lia).
  assert (Hl : l' = Z.max pl (from + n - 1)) by (unfold l'; destruct (Z.ltb_spec (from + n - 1) pl); lia).
  eexists. split; [reflexivity|]. left.
  destruct (set_A i from' Hu) as (Ru & Ra & Ro & Rb & Rc); [unfold MAXARG_A; lia|].
  destruct (set_B (SETARG_A i from') (l' - from') Ru) as (Qu & Qb & Qo & Qa & Qc); [unfold MAXARG_B; lia|].
  exists i, (SETARG_B (SETARG_A i from') (l' - from')).
  assert (PR : 0 <= pc fs - 1 < pc fs) by lia.
  split; [assumption|]. split; [reflexivity|]. split; [assumption|].
  split; [apply set_code_pc|]. split; [reflexivity|]. split; [reflexivity|].
  split; [rewrite set_code_at by assumption; rewrite Z.eqb_refl; reflexivity|].
  split; [congruence|]. split.
  { intros q Hq. rewrite set_code_at by assumption. destruct (Z.eqb_spec q (pc fs - 1)); congruence. }
  intros r. rewrite Qb, Qa, Ra. fold pfrom. replace (pfrom + GETARG_B i) with pl by reflexivity. lia.
Qed.

Theorem patch_full : forall fs l ps vt reg dt, wf_code fs -> tests_ok fs -> 0 <= reg <= 127 ->
  jlist fs l ps -> (forall p, In p ps -> short p (target fs p vt dt)) ->
  exists fs', patchlistaux (length (code fs)) fs l vt reg dt = Ok fs' /\ pc fs' = pc fs /\
    jpc fs' = jpc fs /\ lasttarget fs' = lasttarget fs /\
    (forall p, In p ps -> jump_dest fs' p = Some (target fs p vt dt)) /\
    (forall q, ~ In q ps -> testset_at fs (q + 1) = false \/ ~ In (q + 1) ps ->
       code_at fs' q = code_at fs q) /\
    (forall p i, In p ps -> code_at fs p = Some i -> exists i', code_at fs' p = Some i' /\
       GET_OPCODE i' = GET_OPCODE i /\ GETARG_A i' = GETARG_A i) /\
    (forall p i, In p ps -> code_at fs (p - 1) = Some i -> GET_OPCODE i = OP_TESTSET ->
       exists i', code_at fs' (p - 1) = Some i' /\ GETARG_C i' = GETARG_C i /\
         if (reg =? NO_REG) || (reg =? GETARG_B i)
         then GET_OPCODE i' = OP_TEST /\ GETARG_A i' = GETARG_B i
         else GET_OPCODE i' = OP_TESTSET /\ GETARG_A i' = reg /\ GETARG_B i' = GETARG_B i).
Proof.
  intros fs l ps vt reg dt W T Hreg J S.
  destruct (patchlist_ok ps fs l vt reg dt (length (code fs))) as
    (fs1 & E & W1 & T1 & P1 & Jp1 & L1 & F1); auto.
  { intros p Hp. specialize (S p Hp). unfold short, MAXARG_sBx in *. lia. }
  { eapply jlist_length; eauto. }
  exists fs1. split; [assumption|]. split; [assumption|]. split; [assumption|]. split; [assumption|].
  split; [|split; [|split]].
  - intros p Hp. apply (expected_dest fs ps vt reg dt fs1 p W F1 Hp); [|apply S; assumption].
    destruct (jlist_range _ _ _ J p Hp) as (j & Hj & _). eauto.
  - intros q Nq C. rewrite F1. unfold expected. destruct (code_at fs q) as [i|] eqn:Ei; [|reflexivity].
    destruct (in_dec Z.eq_dec q ps); [tauto|].
    destruct (in_dec Z.eq_dec (q + 1) ps); [|reflexivity].
    destruct C as [C|C]; [|tauto].
    unfold testset_at in C. replace (q + 1 - 1) with q in C by lia. rewrite Ei in C. rewrite C. reflexivity.
  - intros p i Hp Hi. rewrite F1. unfold expected. rewrite Hi.
    destruct (in_dec Z.eq_dec p ps); [|tauto]. eexists. split; [reflexivity|].
    apply sbx_opcode. exact (wf_at _ _ _ W Hi).
  - intros p i Hp Hi Ho. exists (patch_test i reg).
    pose proof (wf_at _ _ _ W Hi) as Hw. pose proof (getB_range i Hw). pose proof (getC_range i).
    pose proof (T _ _ Hi Ho).
    split.
    + rewrite F1. unfold expected. rewrite Hi.
      destruct (in_dec Z.eq_dec (p - 1) ps) as [I|].
      { exfalso. eapply testset_not_in; eauto. }
      replace (p - 1 + 1) with p by lia.
      destruct (in_dec Z.eq_dec p ps); [|tauto]. rewrite Ho. reflexivity.
    + unfold patch_test.
      destruct (reg =? NO_REG) eqn:B1; destruct (reg =? GETARG_B i) eqn:B2; cbn [negb andb orb].
      1-3: destruct (abc_roundtrip OP_TEST (GETARG_B i) 0 (GETARG_C i)) as (_ & O & A & B & C);
        unfold OP_TEST, MAXARG_A, MAXARG_B, MAXARG_C in *; try lia.
      destruct (set_A i reg Hw) as (_ & A & O & B & C); [unfold MAXARG_A; lia|].
      rewrite O. auto.
Qed.

Lemma patchtohere_nil : forall fs l, jpc fs = -1 ->
  luaK_patchtohere fs l = Ok (mkFS (code fs) l (pc fs)).
Proof.
  intros fs l H. unfold luaK_patchtohere, luaK_getlabel. cbn [fst jpc].
  unfold luaK_concat. rewrite H. destruct (Z.eqb_spec l NO_JUMP) as [->|]; reflexivity.
Qed.

Theorem forward_ok : forall fs ps1 l ps2 i, wf_code fs -> tests_ok fs -> is_u32 i ->
  jlist fs (jpc fs) ps1 -> jlist fs l ps2 -> (forall q, In q ps1 -> ~ In q ps2) ->
  (ps1 <> [] -> ps2 <> [] -> short (last ps1 0) l) ->
  (forall p, In p (ps1 ++ ps2) -> short p (pc fs)) ->
  exists fs1 fs2, luaK_patchtohere fs l = Ok fs1 /\ luaK_code fs1 i = Ok (fs2, pc fs) /\
    pc fs2 = pc fs + 1 /\ code_at fs2 (pc fs) = Some i /\ jpc fs2 = -1 /\
    (forall p, In p (ps1 ++ ps2) -> jump_dest fs2 p = Some (pc fs)) /\
    (forall q j, q <> pc fs -> ~ In q (ps1 ++ ps2) -> code_at fs q = Some j ->
       GET_OPCODE j <> OP_TESTSET -> code_at fs2 q = Some j).
Proof.
  intros fs ps1 l ps2 i W T Hu J1 J2 Dis S1 S2.
  destruct (patchtohere_ok fs ps1 l ps2 W J1 J2 Dis S1) as (fs1 & E1 & J & W1 & P1 & L1 & F1 & G1).
  assert (K : forall q j, code_at fs1 q = Some j -> q <> last ps1 0 \/ ps1 = [] \/ testTMode (GET_OPCODE j) = false).
  { intros q j Hj. destruct ps1 as [|p1 ps1']; [auto|].
    destruct (Z.eq_dec q (last (p1 :: ps1') 0)) as [->|]; [|auto]. right. right.
    assert (I : In (last (p1 :: ps1') 0) (p1 :: ps1')) by (apply last_in; discriminate).
    destruct (jlist_range _ _ _ J1 _ I) as (k & Hk & Tk).
    destruct (G1 _ _ Hk) as (k' & Hk' & O & _). congruence. }
  assert (T1 : tests_ok fs1).
  { intros q j Hj Ho.
    assert (Q : code_at fs q = Some j \/ (exists j0, code_at fs q = Some j0 /\ GET_OPCODE j0 = OP_TESTSET /\ In q ps1) \/ code_at fs q = None).
    { destruct (code_at fs q) as [j0|] eqn:E0; [|auto].
      destruct (G1 _ _ E0) as (j' & Hj' & O' & _). replace j' with j in * by congruence.
      destruct (in_dec Z.eq_dec q ps1) as [I|I]; [right; left; exists j0; split; [reflexivity|split; [congruence|assumption]]|].
      left. rewrite <- E0. destruct (Z.eq_dec q (last ps1 0)) as [Eq|Nq].
      - destruct ps1 as [|p1 ps1']; [|exfalso; apply I; rewrite Eq; apply last_in; discriminate].
        assert (fs1 = mkFS (code fs) l (pc fs)) as ->.
        { rewrite patchtohere_nil in E1 by (inversion J1; auto). congruence. }
        unfold code_at in *. cbn [code] in *. congruence.
      - rewrite <- (F1 q Nq). congruence. }
    destruct Q as [Q|[(j0 & Q & O & I)|Q]].
    - eapply T; eauto.
    - exfalso. exact (testset_not_in _ _ _ _ _ J1 Q O I).
    - pose proof (code_at_range _ _ _ Hj). destruct (code_at_some fs q) as [x X]; [lia|congruence]. }
  destruct (code_ok fs1 (ps1 ++ ps2) i W1 T1 Hu J) as (fs2 & E2 & W2 & P2 & Jp2 & L2 & C2 & D2 & F2 & G2).
  { rewrite P1. assumption. }
  rewrite P1 in *. exists fs1, fs2. repeat (split; [assumption|]).
  intros q j Nq Nin Hj Ho. apply F2; auto.
  rewrite <- Hj. destruct (Z.eq_dec q (last ps1 0)) as [Eq|N]; [|apply F1; assumption].
  destruct ps1 as [|p1 ps1'].
  - assert (fs1 = mkFS (code fs) l (pc fs)) as ->.
    { rewrite patchtohere_nil in E1 by (inversion J1; auto). congruence. }
    reflexivity.
  - exfalso. apply Nin. rewrite Eq. apply in_or_app. left. apply last_in. discriminate.
Qed.

Lemma patch_far_gen : forall tl, Forall is_u32 tl -> Z.of_nat (length tl) = 32768 ->
  let fs := mkFS (CREATE_ABx OP_JMP 0 32767 :: tl) (-1) 0 in
  wf_code fs /\ jlist fs 0 [0] /\ pc fs = 32769 /\
  exists fs', patchlistaux (length (code fs)) fs 0 32769 127 32769 = Ok fs' /\
    jump_dest fs' 0 <> Some 32769 /\ jump_dest fs' 0 = Some (32769 - 65536).
Proof.
  intros tl Htl Hlen fs.
  assert (PC : pc fs = 32769).
  { unfold pc, fs. cbn [code length]. rewrite Nat2Z.inj_succ. lia. }
  assert (WF : wf_code fs).
  { unfold wf_code, fs. cbn [code]. constructor; [|assumption].
    vm_compute. split; [discriminate|reflexivity]. }
  split; [assumption|].
  split; [eapply jl_end; reflexivity|]. split; [assumption|].
  change (length (code fs)) with (S (length tl)). cbn [patchlistaux]. change (0 =? NO_JUMP) with false. cbv iota.
  assert (G : getjump fs 0 = Ok NO_JUMP) by reflexivity.
  assert (P : patchtestreg fs 0 127 = Ok (fs, false)) by reflexivity.
  rewrite G. cbn [bind]. rewrite P. cbn [bind].
  rewrite (fixjump_ok fs 0 (CREATE_ABx OP_JMP 0 32767)); auto.
  - cbn [bind]. exists (set_code fs 0 (SETARG_sBx (CREATE_ABx OP_JMP 0 32767) (32769 - (0 + 1)))).
    split; [destruct (length tl); reflexivity|].
    unfold jump_dest. rewrite set_code_at by lia. cbn [Z.eqb].
    change (GETARG_sBx (SETARG_sBx (CREATE_ABx OP_JMP 0 32767) (32769 - (0 + 1)))) with (-32768).
    split; [discriminate|reflexivity].
  - vm_compute. discriminate.
Qed.

Theorem patch_far_refuted : exists fs l p dest, wf_code fs /\ jlist fs l [p] /\ 0 <= dest <= pc fs /\
  exists fs', patchlistaux (length (code fs)) fs l dest 127 dest = Ok fs' /\
    jump_dest fs' p <> Some dest /\ jump_dest fs' p = Some (dest - 65536).
Proof.
  assert (E : exists tl, Forall is_u32 tl /\ Z.of_nat (length tl) = 32768).
  { exists (repeat 0 (Z.to_nat 32768)). split.
    - apply Forall_forall. intros x Hx. apply repeat_spec in Hx. subst. unfold is_u32. unfold_consts. lia.
    - rewrite repeat_length. apply Z2Nat.id. lia. }
  destruct E as (tl & H1 & H2).
  destruct (patch_far_gen tl H1 H2) as (W & J & P & F).
  eexists _, 0, 0, 32769. split; [exact W|]. split; [exact J|]. split; [|exact F].
  rewrite P. lia.
Qed.
