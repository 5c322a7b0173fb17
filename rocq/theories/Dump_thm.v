(* C17, C18: binary chunks. *)
Require Import ZArith List Bool Lia.
From Verif Require Import Base Base_facts Str Pack_model Dump_model Dump_spec Dump_proofs.
Import ListNotations.
Open Scope Z_scope.

(* loading a dumped function, in pieces of any sizes and followed by anything, gives a closure over an equal prototype; without debug information exactly names, sources, lines and the untyped tail of the local variables are lost *)
Theorem C17_roundtrip : forall nl f strip mode pieces rest, main_ok f -> allows mode 98 = true -> live pieces = str_dump nl f strip ++ rest ->
  exists d g, erased g = (if strip then stripped f else erased f) /\ forall fuel, (d <= fuel)%nat -> f_parser nl fuel mode ([], pieces) = Ok (Binary (num (pupvalues f)) g).
Proof. exact load_dump. Qed.
Print Assumptions C17_roundtrip.

(* the loaded prototype can be dumped again and gives the same bytes *)
Theorem C17_redump : forall nl f strip, main_ok f -> exists g d, main_ok g /\ str_dump nl g strip = str_dump nl f strip /\ forall fuel pieces mode rest, (d <= fuel)%nat -> allows mode 98 = true -> live pieces = str_dump nl f strip ++ rest -> f_parser nl fuel mode ([], pieces) = Ok (Binary (num (pupvalues f)) g).
Proof. exact redump. Qed.
Print Assumptions C17_redump.

(* lua_dump passes the bytes of string.dump to the writer in non-empty blocks, in order, and stops at the first status that is not zero, which it returns *)
Theorem C17_writer : forall nl f strip W (writer : W -> list Z -> W * Z) w w' status, luaU_dump nl W writer w strip f = (w', status) ->
  exists done rest, str_dump nl f strip = concat done ++ concat rest /\ Forall (fun b => b <> []) (done ++ rest) /\
    if status =? 0 then rest = [] /\ written writer w done w'
    else exists w1 b r, rest = b :: r /\ written writer w done w1 /\ writer w1 b = (w', status).
Proof. exact dump_writer. Qed.
Print Assumptions C17_writer.

(* a chunk that ends early, at any byte but the first, is refused with an error, however its bytes are delivered *)
Theorem C18_truncated : forall nl f strip mode pieces rest, main_ok f -> allows mode 98 = true -> str_dump nl f strip = live pieces ++ rest -> live pieces <> [] -> rest <> [] ->
  exists d, forall fuel, (d <= fuel)%nat -> f_parser nl fuel mode ([], pieces) = Err ETruncated.
Proof. exact load_truncated. Qed.
Print Assumptions C18_truncated.

(* a closure is only ever loaded when the mode allows binary chunks and the data starts with the signature, version, format, sizes and number layouts of this build *)
Theorem C18_header : forall nl fuel mode pieces n g, wf_str (live pieces) -> f_parser nl fuel mode ([], pieces) = Ok (Binary n g) ->
  allows mode 98 = true /\ exists format rest, (format = 0 \/ format = 1) /\ live pieces = header nl format ++ rest.
Proof. exact load_header. Qed.
Print Assumptions C18_header.

(* function with a nested function that shares its source, typed and untyped variables *)
Definition w_inner : proto :=
  Proto (Some [64; 97]) true 2 3 1 0 2 [2147483686; 38] [KStr [104; 105]; KNil] [mkUp (Some [120]) None 8 1 0; mkUp (Some [95]) None ANY 0 0] [] [2; -3]
    [mkLoc (Some [110]) None 0 2 8; mkLoc (Some [109]) None 1 2 ANY].
Definition w_outer : proto :=
  Proto (Some [64; 97]) false 0 0 0 1 5 [44; 1; 4294967295] [KBool 1; KFlt 4608533498688228557; KInt (-9223372036854775808); KStr (repeat 65 300); KStr []]
    [mkUp (Some [95; 69; 78; 86]) None ANY 1 0] [w_inner; w_inner] [1; 1; 3] [mkLoc (Some [116]) (Some [85; 46; 84]) 1 3 1025].
Lemma w_str : forall s, forallb (fun b => (0 <=? b) && (b <? 256)) s = true -> (length s <= 300)%nat -> str_ok s.
Proof.
  intros s B L. split; [|unfold slen; unfold_consts; lia]. apply Forall_forall. intros b IN. rewrite forallb_forall in B. specialize (B b IN). apply andb_true_iff in B. destruct B as [B1 B2]. apply Z.leb_le in B1. apply Z.ltb_lt in B2. split; assumption.
Qed.
Ltac w_solve := match goal with
  | |- _ /\ _ => split; w_solve
  | |- Forall _ _ => repeat apply Forall_cons; try apply Forall_nil; w_solve
  | |- ostr_ok (Some _) => cbn [ostr_ok]; w_solve
  | |- ostr_ok None => exact I
  | |- str_ok _ => apply w_str; [vm_compute; reflexivity|vm_compute; lia]
  | |- const_ok (KStr _) => cbn [const_ok]; w_solve
  | |- const_ok (KInt _) => cbn [const_ok]; unfold is_s64; unfold_consts; lia
  | |- const_ok (KFlt _) => cbn [const_ok]; unfold is_u64; unfold_consts; lia
  | |- const_ok (KBool _) => right; reflexivity
  | |- const_ok KNil => exact I
  | |- up_ok _ => unfold up_ok; cbn [u_name u_user u_type u_instack u_idx]; w_solve
  | |- loc_ok _ => unfold loc_ok; cbn [l_name l_user l_start l_end l_type]; w_solve
  | |- len_ok _ => unfold len_ok, num, two31; cbn [length]; lia
  | |- True => exact I
  | |- _ => first [discriminate | reflexivity | (intros; reflexivity) | (intros; discriminate) | (unfold is_s32, byte_ok, is_u32, ANY; unfold_consts; lia)]
  end.
Example C17_witness :
  main_ok w_outer /\
  f_parser true 5 (Some [98]) ([], [firstn 1 (str_dump true w_outer false); firstn 100 (skipn 1 (str_dump true w_outer false)); skipn 101 (str_dump true w_outer false)]) =
    Ok (Binary 1 w_outer) /\
  f_parser false 5 None ([], [str_dump false w_outer true ++ [1]]) = Ok (Binary 1 (image true w_outer)) /\
  stripped w_inner = Proto None true 2 3 1 0 2 [2147483686; 38] [KStr [104; 105]; KNil] [mkUp None None 8 1 0; mkUp None None ANY 0 0] [] [] [mkLoc None None 0 2 8] /\
  slen (str_dump true w_outer false) = 681.
Proof.
  split; [|split; [vm_compute; reflexivity|split; [vm_compute; reflexivity|split; vm_compute; reflexivity]]].
  unfold main_ok, w_outer, w_inner. split; [|vm_compute; discriminate]. cbn [proto_ok]. w_solve.
Qed.
Example C18_witness :
  f_parser true 5 None ([], [firstn 200 (str_dump true w_outer false)]) = Err ETruncated /\
  f_parser true 5 None ([], [firstn 680 (str_dump true w_outer false); []; [0]]) = Err ETruncated /\
  f_parser true 5 (Some [116]) ([], [str_dump true w_outer false]) = Err EFormat /\
  f_parser false 5 None ([], [str_dump true w_outer false]) = Err EFormat /\
  f_parser true 5 None ([], []) = Ok Text.
Proof. split; [vm_compute; reflexivity|split; [vm_compute; reflexivity|split; [vm_compute; reflexivity|split; vm_compute; reflexivity]]]. Qed.
Definition w_leaf : proto := Proto None true 0 0 0 0 2 [38] [] [] [] [] [].
Definition w_bad : list Z := let s := str_dump true w_leaf false in firstn (length s - 4) s ++ [1; 0; 0; 0] ++ repeat 0 6.
(* Chunks that are not made by dump are not checked: with one upvalue name more than upvalues the
   loader writes behind its block (lundump.c:225-230). *)
Theorem C18_malformed_refuted : ~ (forall nl fuel mode pieces, wf_str (live pieces) -> f_parser nl fuel mode ([], pieces) <> UB).
Proof.
  intros H. apply (H true 5%nat None [w_bad]); [|vm_compute; reflexivity]. cbn [live]. apply Forall_forall. intros b IN. assert (B : forallb (fun b => (0 <=? b) && (b <? 256)) (live [w_bad]) = true) by (vm_compute; reflexivity). rewrite forallb_forall in B. specialize (B b IN). apply andb_true_iff in B. destruct B as [B1 B2]. apply Z.leb_le in B1. apply Z.ltb_lt in B2. split; assumption.
Qed.
Print Assumptions C18_malformed_refuted.
