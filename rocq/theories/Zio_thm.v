(* Property C19: chunked readers. *)
Require Import ZArith List Bool Lia.
From Verif Require Import Base Base_facts Zio_model Zio_spec Zio_proofs.
Import ListNotations.
Open Scope Z_scope.

(* Whatever the pieces, a consumer sees exactly the bytes up to the first empty piece; no
   read leaves the current piece. *)
Theorem C19_stream : forall R (c : consumer R) pieces, Forall bytes_ok pieces -> reads_ok c ->
  consume c (luaZ_init pieces) = Ok (eats c (contents pieces)).
Proof. exact chunks_ok. Qed.
Print Assumptions C19_stream.

Theorem C19_split : forall R (c : consumer R) p1 p2, Forall bytes_ok p1 -> Forall bytes_ok p2 -> reads_ok c ->
  ~ In [] p1 -> ~ In [] p2 -> concat p1 = concat p2 -> consume c (luaZ_init p1) = consume c (luaZ_init p2).
Proof. exact split_irrelevant. Qed.
Print Assumptions C19_split.

(* a consumer reading one byte, then two, then one, then five *)
Definition demo : consumer (list Z) :=
  Getc (fun a => Read 2 (fun b => Getc (fun c => Read 5 (fun d => Done (a :: b ++ c :: d)) (fun d => a :: b ++ [c; 0] ++ d)) []) (fun b => b)) [].
Example C19_witness : reads_ok demo /\
  consume demo (luaZ_init [[1]; [2; 3; 4]; [5; 6]; [7]; []; [8; 9]]) = Ok [1; 2; 3; 4; 0; 5; 6; 7] /\
  consume demo (luaZ_init [[1; 2]; [3]; [4; 5; 6; 7; 8; 9; 10]]) = Ok [1; 2; 3; 4; 5; 6; 7; 8; 9].
Proof. split; [cbn; repeat split; intros; lia|]. split; reflexivity. Qed.

(* A consumer that asked for another byte after the end would read outside the buffer:
   zgetc leaves the count at SIZE_MAX. *)
Theorem C19_after_end : exists z1 z2, zgetc (luaZ_init [[65]]) = Ok (z1, 65) /\ zgetc z1 = Ok (z2, EOZ) /\ zgetc z2 = UB.
Proof. eexists _, _. split; [reflexivity|]. split; reflexivity. Qed.
Print Assumptions C19_after_end.
