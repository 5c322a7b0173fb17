(* Model of the pseudo-random generator and of math.random (lmathlib.c). *)
Require Import ZArith List Bool.
From Verif Require Import Base.
Import ListNotations.
Open Scope Z_scope.

(* lmathlib.c:315-317 rotl; Rand64 = unsigned long, 64 bits *)
Definition rotl (x n : Z) : Z := Z.lor (u64 (Z.shiftl x n)) (Z.shiftr x (64 - n)).

Definition rstate : Type := Z * Z * Z * Z.

(* lmathlib.c:319-330 nextrand (the implementation with 64-bit integers) *)
Definition nextrand (st : rstate) : rstate * Z :=
  let '(state0, state1, s2, s3) := st in
  let state2 := Z.lxor s2 state0 in
  let state3 := Z.lxor s3 state1 in
  let res := u64 (rotl (u64 (state1 * 5)) 7 * 9) in
  ((Z.lxor state0 state3, Z.lxor state1 state2, Z.lxor state2 (u64 (Z.shiftl state1 17)), rotl state3 45), res).

(* lmathlib.c:548-552: the smallest 2^b - 1 not smaller than n *)
Definition mersenne (n : Z) : Z :=
  let lim := Z.lor n (Z.shiftr n 1) in
  let lim := Z.lor lim (Z.shiftr lim 2) in
  let lim := Z.lor lim (Z.shiftr lim 4) in
  let lim := Z.lor lim (Z.shiftr lim 8) in
  let lim := Z.lor lim (Z.shiftr lim 16) in
  Z.lor lim (Z.shiftr lim 32).

(* lmathlib.c:558-559: the retry loop *)
Fixpoint retry (fuel : nat) (ran lim n : Z) (st : rstate) : outcome (Z * rstate) :=
  let ran := Z.land ran lim in
  if negb (n <? ran) then Ok (ran, st) else
  match fuel with
  | O => OutOfFuel
  | S f => let '(st', r) := nextrand st in retry f r lim n st'
  end.

(* lmathlib.c:539-562 project *)
Definition project (fuel : nat) (ran n : Z) (st : rstate) : outcome (Z * rstate) :=
  if Z.land n (u64 (n + 1)) =? 0 then Ok (Z.land ran n, st)
  else retry fuel ran (mersenne n) n st.

(* lmathlib.c:565-598 math_random with two arguments (one argument: low = 1) *)
Definition math_random (fuel : nat) (low up : Z) (st : rstate) : outcome (Z * rstate) :=
  let '(st', rv) := nextrand st in
  if up <? low then Err EArg else
  bind (project fuel rv (u64 (u64 up - u64 low)) st') (fun '(p, st'') =>
  Ok (s64 (u64 (p + u64 low)), st'')).

(* lmathlib.c:601-613 setseed *)
Fixpoint discard (k : nat) (st : rstate) : rstate :=
  match k with O => st | S k' => discard k' (fst (nextrand st)) end.
Definition setseed (n1 n2 : Z) : rstate := discard 16 (u64 n1, 255, u64 n2, 0).
