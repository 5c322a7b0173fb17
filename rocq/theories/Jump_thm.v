(* Property C31: jump lists; C51: merging of LOADNIL instructions. *)
Require Import ZArith Lia List Bool.
From Verif Require Import Base Base_facts Opcode_model Jump_spec Jump_proofs.
Import ListNotations.
Open Scope Z_scope.

(* A pending list has no repetition, and its jumps are instructions of the function. *)
Theorem C31_list_wf : forall fs l ps, jlist fs l ps ->
  NoDup ps /\ forall p, In p ps -> 0 <= p < pc fs.
Proof.
  intros fs l ps J. split; [eapply jlist_nodup; eauto|]. intros p Hp.
  destruct (jlist_range _ _ _ J p Hp) as (i & Hi & _). eapply code_at_range; eauto.
Qed.
Print Assumptions C31_list_wf.

(* Joining two lists loses no jump, adds none and keeps every other instruction. *)
Theorem C31_concat_partial : forall fs l1 ps1 l2 ps2, wf_code fs ->
  jlist fs l1 ps1 -> jlist fs l2 ps2 -> (forall q, In q ps1 -> ~ In q ps2) ->
  (ps1 <> [] -> ps2 <> [] -> short (last ps1 0) l2) ->
  exists fs' l, luaK_concat fs l1 l2 = Ok (fs', l) /\ jlist fs' l (ps1 ++ ps2) /\ wf_code fs' /\
    pc fs' = pc fs /\ jpc fs' = jpc fs /\ lasttarget fs' = lasttarget fs /\
    (forall q, q <> last ps1 0 -> code_at fs' q = code_at fs q) /\
    (forall q i, code_at fs q = Some i -> exists i', code_at fs' q = Some i' /\
       GET_OPCODE i' = GET_OPCODE i /\ GETARG_A i' = GETARG_A i).
Proof. exact concat_ok. Qed.
Print Assumptions C31_concat_partial.

(* Patching a list: every jump of the list goes to its target, tests which produce a value
   store it in the wanted register (or are turned into plain tests), and nothing else
   changes.  Partial: distances restricted to -2^15..2^15-1, see C31_patch_refuted. *)
Theorem C31_patch_partial : forall fs l ps vt reg dt, wf_code fs -> tests_ok fs -> 0 <= reg <= 127 ->
  jlist fs l ps -> (forall p, In p ps -> short p (target fs p vt dt)) ->
  exists fs', patchlistaux (length (code fs)) fs l vt reg dt = Ok fs' /\ pc fs' = pc fs /\
    jpc fs' = jpc fs /\ lasttarget fs' = lasttarget fs /\
    (forall p, In p ps -> jump_dest fs' p = Some (target fs p vt dt)) /\
    (forall q, ~ In q ps -> testset_at fs (q + 1) = false \/ ~ In (q + 1) ps ->
       code_at fs' q = code_at fs q) /\
    (forall p i, In p ps -> code_at fs p = Some i -> exists i', code_at fs' p = Some i' /\
       GET_OPCODE i' = GET_OPCODE i /\ GETARG_A i' = GETARG_A i) /\
    (forall p i, In p ps -> code_at fs (p - 1) = Some i -> GET_OPCODE i = OP_TESTSET ->
       exists i', code_at fs' (p - 1) = Some i' /\ GETARG_C i' = GETARG_C i /\
         if (reg =? NO_REG) || (reg =? GETARG_B i)
         then GET_OPCODE i' = OP_TEST /\ GETARG_A i' = GETARG_B i
         else GET_OPCODE i' = OP_TESTSET /\ GETARG_A i' = reg /\ GETARG_B i' = GETARG_B i).
Proof. exact patch_full. Qed.
Print Assumptions C31_patch_partial.

(* a conditional value jump: TESTSET R5 := R3, then a jump; patched to 7 with register 9 *)
Definition ex_fs : fstate :=
  mkFS [CREATE_ABC OP_TESTSET 127 3 1; CREATE_ABx OP_JMP 0 32769;
        CREATE_ABC 34 2 0 0; CREATE_ABx OP_JMP 0 32767] (-1) 0.
Example C31_patch_witness :
  wf_code ex_fs /\ tests_ok ex_fs /\ jlist ex_fs 1 [1; 3] /\
  match patchlistaux 4 ex_fs 1 2 9 0 with
  | Ok fs' => jump_dest fs' 1 = Some 2 /\ jump_dest fs' 3 = Some 0 /\
              code_at fs' 0 = Some (CREATE_ABC OP_TESTSET 9 3 1)
  | _ => False
  end.
Proof.
  split; [repeat constructor; vm_compute; intros; discriminate|].
  split.
  { intros p i H. pose proof (code_at_range _ _ _ H) as R. unfold pc in R. cbn in R.
    assert (C : p = 0 \/ p = 1 \/ p = 2 \/ p = 3) by lia.
    destruct C as [->|[->|[->| ->]]]; vm_compute in H; inversion H; subst; vm_compute; intros; try discriminate. }
  split.
  { eapply jl_cons with (next := 3); try reflexivity; try discriminate.
    eapply jl_end; reflexivity. }
  vm_compute. auto.
Qed.

(* A jump which is too far is refused: no wrong code is produced silently, except at the
   distance of C31_patch_refuted. *)
Theorem C31_too_far : forall fs l ps vt reg dt, wf_code fs -> tests_ok fs -> 0 <= reg <= 127 ->
  jlist fs l ps ->
  (exists p, In p ps /\ 32768 < Z.abs (target fs p vt dt - (p + 1))) ->
  patchlistaux (length (code fs)) fs l vt reg dt = Err ETooLong.
Proof.
  intros. eapply patchlist_far; eauto. eapply jlist_length; eauto.
Qed.
Print Assumptions C31_too_far.

(* Forward jumps: joining a list to the pending ones and emitting the next instruction
   makes all of them jump to that instruction. *)
Theorem C31_forward_partial : forall fs ps1 l ps2 i, wf_code fs -> tests_ok fs -> is_u32 i ->
  jlist fs (jpc fs) ps1 -> jlist fs l ps2 -> (forall q, In q ps1 -> ~ In q ps2) ->
  (ps1 <> [] -> ps2 <> [] -> short (last ps1 0) l) ->
  (forall p, In p (ps1 ++ ps2) -> short p (pc fs)) ->
  exists fs1 fs2, luaK_patchtohere fs l = Ok fs1 /\ luaK_code fs1 i = Ok (fs2, pc fs) /\
    pc fs2 = pc fs + 1 /\ code_at fs2 (pc fs) = Some i /\ jpc fs2 = -1 /\
    (forall p, In p (ps1 ++ ps2) -> jump_dest fs2 p = Some (pc fs)) /\
    (forall q j, q <> pc fs -> ~ In q (ps1 ++ ps2) -> code_at fs q = Some j ->
       GET_OPCODE j <> OP_TESTSET -> code_at fs2 q = Some j).
Proof. exact forward_ok. Qed.
Print Assumptions C31_forward_partial.

Example C31_forward_witness :
  match luaK_patchtohere (mkFS (code ex_fs) (-1) 0) 1 with
  | Ok fs1 => match luaK_code fs1 (CREATE_ABC 1 0 0 0) with
              | Ok (fs2, 4) => jump_dest fs2 1 = Some 4 /\ jump_dest fs2 3 = Some 4
              | _ => False end
  | _ => False
  end.
Proof. vm_compute. auto. Qed.

(* A new jump takes over the jumps pending at its own position: they will go directly to
   its final destination. *)
Theorem C31_jump_partial : forall fs ps, wf_code fs -> tests_ok fs ->
  jlist fs (jpc fs) ps -> (ps <> [] -> short (pc fs) (jpc fs)) ->
  exists fs', luaK_jump fs = Ok (fs', pc fs) /\ jlist fs' (pc fs) (pc fs :: ps) /\
    jpc fs' = -1 /\ pc fs' = pc fs + 1 /\ wf_code fs' /\
    (forall q, q <> pc fs -> code_at fs' q = code_at fs q).
Proof. exact jump_ok. Qed.
Print Assumptions C31_jump_partial.

(* The limit check admits the distance +2^15, which the operand cannot hold: the jump is
   compiled without error and goes 2^16 instructions away from its target. *)
Theorem C31_patch_refuted : exists fs l p dest, wf_code fs /\ jlist fs l [p] /\ 0 <= dest <= pc fs /\
  exists fs', patchlistaux (length (code fs)) fs l dest 127 dest = Ok fs' /\
    jump_dest fs' p <> Some dest /\ jump_dest fs' p = Some (dest - 65536).
Proof. exact patch_far_refuted. Qed.
Print Assumptions C31_patch_refuted.

(* C51: clearing registers from .. from+n-1.  Either the preceding LOADNIL is widened, and
   then it clears exactly the union of both ranges and no jump arrives between the two; or
   a new LOADNIL with that range is appended. *)
Theorem C51_loadnil : forall fs ps from n, wf_code fs -> tests_ok fs -> 0 <= lasttarget fs <= pc fs ->
  jlist fs (jpc fs) ps -> (forall p, In p ps -> short p (pc fs)) ->
  0 <= from -> 1 <= n -> from + n <= 128 ->
  (forall i, code_at fs (pc fs - 1) = Some i -> GET_OPCODE i = OP_LOADNIL -> GETARG_A i + GETARG_B i <= 127) ->
  exists fs', luaK_nil fs from n = Ok fs' /\
  ((exists i i', lasttarget fs < pc fs /\ code_at fs (pc fs - 1) = Some i /\ GET_OPCODE i = OP_LOADNIL /\
      pc fs' = pc fs /\ jpc fs' = jpc fs /\ lasttarget fs' = lasttarget fs /\
      code_at fs' (pc fs - 1) = Some i' /\ GET_OPCODE i' = OP_LOADNIL /\
      (forall q, q <> pc fs - 1 -> code_at fs' q = code_at fs q) /\
      (forall r, GETARG_A i' <= r <= GETARG_A i' + GETARG_B i' <->
                 (GETARG_A i <= r <= GETARG_A i + GETARG_B i) \/ (from <= r <= from + n - 1)))
   \/ (exists i', luaK_code fs i' = Ok (fs', pc fs) /\ pc fs' = pc fs + 1 /\
      code_at fs' (pc fs) = Some i' /\ GET_OPCODE i' = OP_LOADNIL /\
      GETARG_A i' = from /\ GETARG_B i' = n - 1 /\
      (forall p, In p ps -> jump_dest fs' p = Some (pc fs)))).
Proof. exact nil_ok. Qed.
Print Assumptions C51_loadnil.

Example C51_loadnil_witness :
  match luaK_nil (mkFS [CREATE_ABC OP_LOADNIL 2 1 0] (-1) 0) 4 3 with
  | Ok fs' => code fs' = [CREATE_ABC OP_LOADNIL 2 4 0]
  | _ => False end /\
  match luaK_nil (mkFS [CREATE_ABC OP_LOADNIL 2 1 0] (-1) 1) 4 3 with
  | Ok fs' => code fs' = [CREATE_ABC OP_LOADNIL 2 1 0; CREATE_ABC OP_LOADNIL 4 2 0]
  | _ => False end.
Proof. vm_compute. auto. Qed.
