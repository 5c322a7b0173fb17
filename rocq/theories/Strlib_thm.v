(* C21, C22, C23: substrings, repetition and plain searching. *)
Require Import ZArith List Bool Lia.
From Verif Require Import Base Str Strlib_model Strlib_spec Strlib_proofs.
Import ListNotations.
Open Scope Z_scope.

(* string.sub(s, i, j): every string, every pair of 64-bit integers *)
Theorem C21_sub : forall s i j, slen s <= maxint -> is_s64 i -> is_s64 j ->
  exists r, str_sub s i j = Ok r /\ bytes_between s (first_pos (slen s) i) (last_pos (slen s) j) r.
Proof. exact sub_ok. Qed.
Print Assumptions C21_sub.

(* string.byte(s, i, j) with its defaults; only ranges too long for the stack are refused *)
Theorem C21_byte : forall avail s pi pj, slen s <= maxint ->
  let i := match pi with Some i => i | None => 1 end in
  let j := match pj with Some j => j | None => i end in
  is_s64 i -> is_s64 j ->
  let a := first_pos (slen s) i in let b := last_pos (slen s) j in
  (b - a + 1 <= Z.min avail INT_MAX -> exists r, str_byte avail s pi pj = Ok r /\ bytes_between s a b r) /\
  (b - a + 1 > Z.min avail INT_MAX -> b - a + 1 > 0 -> str_byte avail s pi pj = Err ETooLong).
Proof. exact byte_ok. Qed.
Print Assumptions C21_byte.

(* string.reverse *)
Theorem C21_reverse : forall s, str_reverse s = Ok (rev s).
Proof. exact reverse_ok. Qed.
Print Assumptions C21_reverse.

(* string.char accepts exactly bytes *)
Theorem C21_char : forall args, Forall is_s64 args ->
  (Forall is_byte args -> str_char args = Ok args) /\ (~ Forall is_byte args -> str_char args = Err EArg).
Proof. exact char_ok. Qed.
Print Assumptions C21_char.

Example C21_witness : str_sub [104; 101; 108; 108; 111] (-3) (-2) = Ok [108; 108] /\ str_sub [104; 101] minint maxint = Ok [104; 101] /\
  str_sub [104; 101] 2 1 = Ok [] /\ str_byte 100 [104; 0; 255] (Some (-1)) None = Ok [255] /\
  str_byte 100 [104; 0; 255] (Some 0) (Some maxint) = Ok [104; 0; 255] /\ str_char [256] = Err EArg.
Proof. vm_compute. repeat split; reflexivity. Qed.

(* string.rep when the copies fit *)
Theorem C22_rep : forall s n sep, slen s <= maxint -> slen sep <= maxint -> is_s64 n -> 0 < n ->
  n * (slen s + slen sep) <= MAXSIZE ->
  exists r, str_rep s n sep = Ok r /\ copies s sep n r /\ slen r = n * slen s + (n - 1) * slen sep.
Proof. exact rep_ok. Qed.
Print Assumptions C22_rep.

(* string.rep(s, n) with n <= 0 *)
Theorem C22_nonpositive : forall s n sep, n <= 0 -> str_rep s n sep = Ok [].
Proof. exact rep_nonpos. Qed.
Print Assumptions C22_nonpositive.

(* otherwise an error, with no overflow on the way *)
Theorem C22_too_long : forall s n sep, slen s <= maxint -> slen sep <= maxint -> is_s64 n -> 0 < n ->
  MAXSIZE < n * (slen s + slen sep) -> str_rep s n sep = Err ETooLong.
Proof. exact rep_too_long. Qed.
Print Assumptions C22_too_long.

Example C22_witness : str_rep [97; 98] 3 [44] = Ok [97; 98; 44; 97; 98; 44; 97; 98] /\ str_rep [97; 98] maxint [] = Err ETooLong /\
  str_rep [97] (-1) [] = Ok [].
Proof. vm_compute. repeat split; reflexivity. Qed.

(* string.find(s, p, init, plain) when plain is true or p has no special character *)
Theorem C23_find : forall s p oi plain, slen s <= maxint ->
  let i := match oi with Some i => i | None => 1 end in
  is_s64 i ->
  plain = true \/ (forall c, In c p -> ~ magic c) ->
  exists o, str_find_plain s p oi plain = Ok (Some o) /\
  match o with
  | Some (a, b) => first_pos (slen s) i <= a /\ occurs s p a /\ b = a + slen p - 1 /\
                   forall a', first_pos (slen s) i <= a' < a -> ~ occurs s p a'
  | None => forall a', first_pos (slen s) i <= a' -> ~ occurs s p a'
  end.
Proof. exact find_ok. Qed.
Print Assumptions C23_find.

(* with a special character and no plain flag the pattern matcher is used *)
Theorem C23_special : forall s p oi, slen s <= maxint ->
  let i := match oi with Some i => i | None => 1 end in
  is_s64 i -> first_pos (slen s) i <= slen s + 1 ->
  (exists c, In c p /\ magic c) -> str_find_plain s p oi false = Ok None.
Proof. exact find_special. Qed.
Print Assumptions C23_special.

(* the test for special characters looks beyond embedded zeros *)
Theorem C23_nospecials : forall p, exists b, nospecials p = Ok b /\ (b = true <-> forall c, In c p -> ~ magic c).
Proof. exact nospecials_ok. Qed.
Print Assumptions C23_nospecials.

Example C23_witness : str_find_plain [0; 1; 0; 1; 0; 2] [1; 0; 2] None true = Ok (Some (Some (4, 6))) /\
  str_find_plain [97; 98] [] (Some 3) false = Ok (Some (Some (3, 2))) /\ str_find_plain [97; 98] [] (Some 4) false = Ok (Some None) /\
  str_find_plain [97; 98] [0; 46] None false = Ok None /\ str_find_plain [97; 98; 97] [97] (Some (-1)) true = Ok (Some (Some (3, 3))).
Proof. vm_compute. repeat split; reflexivity. Qed.
