(* C68: string buffers hold exactly what was added. *)
Require Import ZArith List Bool Lia.
From Verif Require Import Base Buffer_model Buffer_spec Buffer_proofs.
Import ListNotations.
Open Scope Z_scope.

(* whatever is added in whatever way, wherever the blocks are and whatever is in fresh memory: no access outside the block in use or to a freed one; at the end the stack has the strings that were added, one after the other, on top of what it had, and all memory is freed; "buffer too large" is reported only if 2^63 bytes or more were needed, "not enough memory" only if the allocator failed *)
Theorem C68_buffer : forall bufsize alloc junk l s0 h nx ib,
  0 <= bufsize < two64 -> len ib = bufsize -> (forall j, (nx <= j)%nat -> h j = None) -> Forall proper l ->
  match build bufsize alloc junk l s0 h nx ib with
  | Ok s => stk s = Str (text l) :: s0 /\ (forall j, heap s j = h j)
  | Err ETooLong => 2 ^ 63 <= demand 0 l
  | Err EResize => exists k z, alloc k z = false
  | _ => False
  end.
Proof. exact build_ok. Qed.
Print Assumptions C68_buffer.

(* with enough memory the result is always built *)
Theorem C68_succeeds : forall bufsize alloc junk l s0 h nx ib,
  0 <= bufsize < two64 -> len ib = bufsize -> (forall j, (nx <= j)%nat -> h j = None) -> Forall proper l ->
  (forall k z, alloc k z = true) -> demand 0 l < 2 ^ 63 ->
  exists s, build bufsize alloc junk l s0 h nx ib = Ok s /\ stk s = Str (text l) :: s0 /\ (forall j, heap s j = h j).
Proof. exact build_succeeds. Qed.
Print Assumptions C68_succeeds.

(* a first buffer of 4 bytes: it is used up, left, grown by doubling and by need *)
Definition wops : list op := [OAdd [1; 2; 3]; OChar 4; OValue [5; 6]; OPrep 9 [7]; OAdd []; OChar 8; OValue [9; 10; 11; 12; 13; 14; 15; 16; 17; 18; 19]].
Definition view (r : outcome state) :=
  match r with Ok s => Ok (stk s, map (heap s) (seq 0 8), next s) | Err e => Err e | UB => UB | OutOfFuel => OutOfFuel end.

Example C68_witness :
  view (build 4 (fun _ _ => true) (fun _ => 99) wops [Str [77]] (fun _ => None) 1 [0; 0; 0; 0]) =
    Ok ([Str [1; 2; 3; 4; 5; 6; 7; 8; 9; 10; 11; 12; 13; 14; 15; 16; 17; 18; 19]; Str [77]], repeat None 8, 4%nat) /\
  view (build 4 (fun k _ => Nat.ltb k 3) (fun _ => 99) wops [Str [77]] (fun _ => None) 1 [0; 0; 0; 0]) = Err EResize /\
  view (build 4 (fun _ _ => true) (fun _ => 99) [OAdd [1; 2]; OPrep (two64 - 1) []] [] (fun _ => None) 1 [0; 0; 0; 0]) = Err ETooLong /\
  Forall proper wops.
Proof.
  split; [vm_compute; reflexivity|]. split; [vm_compute; reflexivity|]. split; [vm_compute; reflexivity|].
  repeat constructor; vm_compute; congruence.
Qed.
