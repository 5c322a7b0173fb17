(* Common vocabulary of the models: machine integers, outcomes, arrays. *)
Require Import ZArith List Lia Bool.
Import ListNotations.
Open Scope Z_scope.

(* lua_Integer is a 64-bit two's complement integer, lua_Unsigned its unsigned
   counterpart (src/luaconf.h, LUA_INTEGER = long long); llimits.h:154-164 casts. *)
Definition two63 : Z := 9223372036854775808.
Definition two64 : Z := 18446744073709551616.
Definition two31 : Z := 2147483648.
Definition two32 : Z := 4294967296.
Definition maxint : Z := 9223372036854775807.
Definition minint : Z := -9223372036854775808.

(* the cast (lua_Unsigned)x, llimits.h:155 *)
Definition u64 (x : Z) : Z := x mod two64.
(* the cast (lua_Integer)x of an unsigned value, llimits.h:164 (two's complement) *)
Definition s64 (x : Z) : Z :=
  let y := x mod two64 in if y <? two63 then y else y - two64.
(* the cast (unsigned int)x *)
Definition u32 (x : Z) : Z := x mod two32.
(* the cast (int)x (two's complement) *)
Definition s32 (x : Z) : Z :=
  let y := x mod two32 in if y <? two31 then y else y - two32.

Definition is_s64 (x : Z) : Prop := minint <= x <= maxint.
Definition is_u64 (x : Z) : Prop := 0 <= x < two64.
Definition is_u32 (x : Z) : Prop := 0 <= x < two32.

(* Outcome of running a piece of C code. *)
Inductive error : Set :=
| EDivZero        (* attempt to perform 'n//0' *)
| EModZero        (* attempt to perform 'n%%0' *)
| EIndexNil       (* index is nil *)
| EIndexNaN       (* index is NaN *)
| EInvalidNext    (* invalid key to 'next' *)
| EOverflow       (* table overflow *)
| EBounds         (* array out of bounds *)
| EResize         (* array cannot be resized *)
| ELength         (* array length out of range *)
| EType           (* some type error *)
| ETooLong        (* control structure too long *)
| ETruncated      (* truncated precompiled chunk *)
| EFormat         (* bad format / malformed input *)
| EArg            (* bad argument *)
| ELoop           (* chain too long; possible loop *)
| EOrder          (* invalid order function for sorting *)
| EUser.          (* error raised by user code *)

Inductive outcome (A : Type) : Type :=
| Ok  : A -> outcome A
| Err : error -> outcome A      (* a Lua error is raised *)
| UB  : outcome A               (* undefined behaviour in C *)
| OutOfFuel : outcome A.        (* artefact of the model: fuel exhausted *)
Arguments Ok {A} _.
Arguments Err {A} _.
Arguments UB {A}.
Arguments OutOfFuel {A}.

Definition bind {A B} (x : outcome A) (f : A -> outcome B) : outcome B :=
  match x with
  | Ok a => f a
  | Err e => Err e
  | UB => UB
  | OutOfFuel => OutOfFuel
  end.

Declare Scope outcome_scope.
Delimit Scope outcome_scope with out.
Notation "'do' x <- e ; f" := (bind e (fun x => f))
  (at level 200, x name, e at level 100, f at level 200, right associativity) : outcome_scope.
Notation "'do' ' p <- e ; f" := (bind e (fun x => match x with p => f end))
  (at level 200, p pattern, e at level 100, f at level 200, right associativity) : outcome_scope.

(* C signed arithmetic on lua_Integer: undefined when the result does not fit. *)
Definition c_signed (x : Z) : outcome Z :=
  if (minint <=? x) && (x <=? maxint) then Ok x else UB.

(* Array update at position n (unchanged when out of range). *)
Fixpoint upd {A} (l : list A) (n : nat) (a : A) : list A :=
  match l, n with
  | [], _ => []
  | _ :: r, O => a :: r
  | x :: r, S n' => x :: upd r n' a
  end.
