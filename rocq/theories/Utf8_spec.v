(* Specification of (extended, up to 31 bits) UTF-8, from the RFC 2279 table. *)
Require Import ZArith List Bool.
Import ListNotations.
Open Scope Z_scope.

(* the encoding of x, shortest form *)
Definition utf8 (x : Z) : list Z :=
  if x <? 2^7 then [x]
  else if x <? 2^11 then [192 + x / 64; 128 + x mod 64]
  else if x <? 2^16 then [224 + x / 64^2; 128 + x / 64 mod 64; 128 + x mod 64]
  else if x <? 2^21 then
    [240 + x / 64^3; 128 + x / 64^2 mod 64; 128 + x / 64 mod 64; 128 + x mod 64]
  else if x <? 2^26 then
    [248 + x / 64^4; 128 + x / 64^3 mod 64; 128 + x / 64^2 mod 64; 128 + x / 64 mod 64; 128 + x mod 64]
  else
    [252 + x / 64^5; 128 + x / 64^4 mod 64; 128 + x / 64^3 mod 64; 128 + x / 64^2 mod 64;
     128 + x / 64 mod 64; 128 + x mod 64].

(* code points accepted: 31-bit values in lax mode, Unicode scalar values in strict mode *)
Definition code_ok (strict : bool) (x : Z) : Prop :=
  0 <= x < 2^31 /\ (strict = true -> x <= 1114111 /\ ~ (55296 <= x <= 57343)).

(* s, from position p on, starts with the encoding of an accepted code point x *)
Definition char_at (strict : bool) (s : list Z) (p x : Z) : Prop :=
  0 <= p /\ code_ok strict x /\ exists rest, skipn (Z.to_nat p) s = utf8 x ++ rest.

(* positions at which the characters xs start, when the first one starts at p *)
Fixpoint starts (p : Z) (xs : list Z) : list Z :=
  match xs with
  | [] => []
  | x :: r => p :: starts (p + Z.of_nat (length (utf8 x))) r
  end.

Definition encode (xs : list Z) : list Z := concat (map utf8 xs).

(* Reading characters from position p as long as they start at or before q: the list of
   (position, code) read, and either the position after the last one (inl) or the position
   at which no accepted character starts (inr). *)
Inductive run (strict : bool) (s : list Z) : Z -> Z -> list (Z * Z) -> Z + Z -> Prop :=
| run_stop : forall p q, q < p -> run strict s p q [] (inl p)
| run_bad : forall p q, p <= q -> (forall x, ~ char_at strict s p x) -> run strict s p q [] (inr p)
| run_step : forall p q x l e, p <= q -> char_at strict s p x ->
    run strict s (p + Z.of_nat (length (utf8 x))) q l e -> run strict s p q ((p, x) :: l) e.

(* the byte at position p continues a character (the position after the last byte does not) *)
Definition contat (s : list Z) (p : Z) : bool :=
  let b := nth (Z.to_nat p) s 0 in (128 <=? b) && (b <? 192).

(* number of positions a <= p < b at which a character starts *)
Fixpoint cnt (s : list Z) (a : Z) (k : nat) : Z :=
  match k with
  | O => 0
  | S k' => (if contat s a then 0 else 1) + cnt s (a + 1) k'
  end.
Definition nstarts (s : list Z) (a b : Z) : Z := cnt s a (Z.to_nat (b - a)).

(* documented translation of positions: negative ones count from the end *)
Definition abs_pos (pos len : Z) : Z :=
  if 0 <=? pos then pos else Z.max 0 (len + pos + 1).

(* the input that makes the decoder shift by 35 bits *)
Definition has_ff (s : list Z) : Prop :=
  exists p a b c d e f g rest, skipn p s = [255; a; b; c; d; e; f; g] ++ rest /\
    Forall (fun x => 128 <= x < 192) [a; b; c; d; e; f; g].

(* the start positions a <= p < a+k *)
Fixpoint start_list (s : list Z) (a : Z) (k : nat) : list Z :=
  match k with
  | O => []
  | S k' => (if contat s a then [] else [a]) ++ start_list s (a + 1) k'
  end.
