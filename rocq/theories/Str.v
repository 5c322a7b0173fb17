(* C strings as seen by the library code: an array of len bytes followed by a zero byte. *)
Require Import ZArith List Bool.
From Verif Require Import Base.
Import ListNotations.
Open Scope Z_scope.

Definition is_byte (b : Z) : Prop := 0 <= b < 256.
Definition wf_str (s : list Z) : Prop := Forall is_byte s.
Definition slen (s : list Z) : Z := Z.of_nat (length s).

(* Reading s[i] of a Lua string (lstring.c:118-126 createstrobj puts a '\0' after the len
   bytes): a read outside positions 0..len is undefined. *)
Definition sbyte (s : list Z) (i : Z) : outcome Z :=
  if i <? 0 then UB
  else match nth_error s (Z.to_nat i) with
       | Some b => Ok b
       | None => if i =? slen s then Ok 0 else UB
       end.

(* The n bytes at position i, reading them one after the other (memcpy and the like). *)
Fixpoint sread (s : list Z) (i : Z) (n : nat) : outcome (list Z) :=
  match n with
  | O => Ok []
  | S k => bind (sbyte s i) (fun b => bind (sread s (i + 1) k) (fun r => Ok (b :: r)))
  end.
