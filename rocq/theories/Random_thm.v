(* Properties C43 (math.random) and C54 (the generator). *)
Require Import ZArith List Bool Lia.
From Verif Require Import Base Base_facts Random_model Random_proofs.
Import ListNotations.
Open Scope Z_scope.

(* every result lies in the interval, whatever the state of the generator *)
Theorem C43_range : forall fuel low up st v st', is_s64 low -> is_s64 up ->
  math_random fuel low up st = Ok (v, st') -> low <= v <= up.
Proof. exact random_range. Qed.
Print Assumptions C43_range.

Theorem C43_empty : forall fuel low up st, up < low -> math_random fuel low up st = Err EArg.
Proof. exact random_empty. Qed.
Print Assumptions C43_empty.

(* project takes the first word drawn whose low bits are in range; it stops as soon as
   there is one (nothing else can make it go on) *)
Theorem C43_first_accepted : forall fuel ran n st, 0 <= n < two64 ->
  project fuel ran n st =
  match find (fun p => fst p mod 2^(width n) <=? n) (draws fuel ran st) with
  | Some (r, s) => Ok (r mod 2^(width n), s)
  | None => OutOfFuel
  end.
Proof. exact project_ok. Qed.
Print Assumptions C43_first_accepted.

(* no bias: each value v in [0,n] is produced by exactly 2^(64-w) raw words, where w depends
   only on n; and w is minimal, so that at least half of the words are accepted *)
Theorem C43_uniform : forall n v ran st, 0 <= n < two64 -> 0 <= v <= n -> 0 <= ran < two64 ->
  (project 0 ran n st = Ok (v, st) <-> exists k, 0 <= k < 2^(64 - width n) /\ ran = v + k * 2^(width n)).
Proof. exact project_uniform. Qed.
Print Assumptions C43_uniform.

Theorem C43_width : forall n, 0 <= n < two64 ->
  0 <= width n <= 64 /\ n < 2^(width n) /\ (0 < n -> 2^(width n - 1) <= n).
Proof. exact width_range. Qed.
Print Assumptions C43_width.

Example C43_witness : project 3 255 9 (1, 2, 3, 4) = Ok (0, (7, 0, 262146, 211106232532992)) /\
  draws 1 255 (1, 2, 3, 4) = [(255, (1, 2, 3, 4)); (11520, (7, 0, 262146, 211106232532992))] /\ width 9 = 4 /\
  math_random 5 (-3) 3 (1, 2, 3, 4) = Ok (-3, (7, 0, 262146, 211106232532992)).
Proof. repeat split; vm_compute; reflexivity. Qed.

(* ------------------------------------------------------------------ C54 *)
Theorem C54_bijective : forall s t, st_ok s -> st_ok t -> fst (nextrand s) = fst (nextrand t) -> s = t.
Proof. exact nextrand_inj. Qed.
Print Assumptions C54_bijective.

Theorem C54_closed : forall st, st_ok st -> st_ok (fst (nextrand st)) /\ word (snd (nextrand st)).
Proof. exact nextrand_ok. Qed.
Print Assumptions C54_closed.

(* whatever the seed, the generator never reaches its only fixed bad state *)
Theorem C54_never_zero : forall n1 n2 k, let st := discard k (setseed n1 n2) in st_ok st /\ st <> (0, 0, 0, 0).
Proof. exact seed_nonzero. Qed.
Print Assumptions C54_never_zero.

Example C54_witness : setseed 42 0 <> setseed 43 0 /\ fst (nextrand (0, 0, 0, 0)) = (0, 0, 0, 0).
Proof. split; [vm_compute; congruence|reflexivity]. Qed.
