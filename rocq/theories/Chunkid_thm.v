(* C69: the name of a chunk in messages. *)
Require Import ZArith List Bool Lia.
From Verif Require Import Base Chunkid_model Chunkid_spec Chunkid_proofs.
Import ListNotations.
Open Scope Z_scope.

(* for every source and every buffer of at least 16 bytes, luaO_chunkid reads nothing outside the source, writes nothing outside the buffer and writes exactly the name that the manual describes *)
Theorem C69_name : forall s b, 16 <= b < two64 -> luaO_chunkid s b = Ok (chunk_name s (Z.to_nat (b - 1)) ++ [0]).
Proof. exact chunkid_ok. Qed.
Print Assumptions C69_name.

(* the name with its zero byte fits, and has no other zero byte *)
Theorem C69_fits : forall s b, 16 <= b < two64 -> ~ In 0 s ->
  exists r, luaO_chunkid s b = Ok (r ++ [0]) /\ zlen (r ++ [0]) <= b /\ ~ In 0 r.
Proof. exact chunkid_fits. Qed.
Print Assumptions C69_fits.

(* the name of a chunk loaded from a string is one line *)
Theorem C69_line : forall s b, 16 <= b < two64 -> hd 0 s <> 61 -> hd 0 s <> 64 ->
  exists r, luaO_chunkid s b = Ok (r ++ [0]) /\ ~ In 10 r.
Proof. exact chunkid_line. Qed.
Print Assumptions C69_line.

(* "=stdin" as it is; "@aaa...z" of 61 bytes loses its start; "x=1\ny" stops at the newline *)
Example C69_witness :
  luaO_chunkid [61; 115; 116; 100; 105; 110] 60 = Ok [115; 116; 100; 105; 110; 0] /\
  luaO_chunkid (64 :: repeat 97 59 ++ [122]) 60 = Ok ([46; 46; 46] ++ repeat 97 55 ++ [122; 0]) /\
  luaO_chunkid [120; 61; 49; 10; 121] 60 =
    Ok (PRE ++ [120; 61; 49] ++ RETS ++ POS ++ [0]) /\
  luaO_chunkid (repeat 97 46) 60 = Ok (PRE ++ repeat 97 45 ++ RETS ++ POS ++ [0]) /\
  luaO_chunkid (61 :: repeat 97 60) 60 = Ok (repeat 97 59 ++ [0]).
Proof. repeat split; vm_compute; reflexivity. Qed.
