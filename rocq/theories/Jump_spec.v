(* Specification of jump lists: what the virtual machine does with a jump, and which
   jumps are pending in a list. *)
Require Import ZArith List Bool.
From Verif Require Import Base Opcode_model.
Import ListNotations.
Open Scope Z_scope.

(* lvm.c:1094-1108 dojump: pc already points to the next instruction, and the offset is
   added to it. *)
Definition jump_dest (fs : fstate) (p : Z) : option Z :=
  match code_at fs p with
  | Some i => Some (p + 1 + GETARG_sBx i)
  | None => None
  end.

(* [jlist fs l ps]: the pending jumps threaded from head l are exactly ps (in order);
   each is an instruction which is not itself a test. *)
Inductive jlist (fs : fstate) : Z -> list Z -> Prop :=
| jl_nil : jlist fs (-1) []
| jl_end : forall p i, code_at fs p = Some i -> testTMode (GET_OPCODE i) = false ->
    jump_dest fs p = Some p -> jlist fs p [p]
| jl_cons : forall p i next ps, code_at fs p = Some i -> testTMode (GET_OPCODE i) = false ->
    jump_dest fs p = Some next -> next <> p -> jlist fs next ps -> ps <> [] ->
    jlist fs p (p :: ps).

(* all instructions are 32-bit words *)
Definition wf_code (fs : fstate) : Prop := Forall is_u32 (code fs).

(* the jump at p is controlled by a TESTSET instruction *)
Definition testset_at (fs : fstate) (p : Z) : bool :=
  match code_at fs (p - 1) with
  | Some i => GET_OPCODE i =? OP_TESTSET
  | None => false
  end.

(* distance that the encoding can represent *)
Definition short (p dest : Z) : Prop := -32768 <= dest - (p + 1) <= 32767.

(* a TESTSET tests a register (a number up to MAXARG_A) *)
Definition tests_ok (fs : fstate) : Prop :=
  forall p i, code_at fs p = Some i -> GET_OPCODE i = OP_TESTSET -> GETARG_B i <= 127.

(* where the jump at p must go: jumps after a value-producing test to vt, others to dt *)
Definition target (fs : fstate) (p vt dt : Z) : Z := if testset_at fs p then vt else dt.
