(* Independent specification of integer arithmetic. *)
Require Import ZArith.
Open Scope Z_scope.

(* r is the representative of the mathematical integer x in the range of a signed
   64-bit integer. *)
Definition wraps_to (x r : Z) : Prop :=
  - 2^63 <= r < 2^63 /\ exists k, r = x + k * 2^64.

(* q is the floor of the exact quotient m / n, r the matching remainder (which
   has the sign of n). *)
Definition floor_quot_rem (m n q r : Z) : Prop :=
  m = q * n + r /\ (0 <= r < n \/ n < r <= 0).

(* Logical shift of the 64-bit pattern of x by n positions to the left (to the
   right when n is negative). *)
Definition shift_spec (x n r : Z) : Prop :=
  if 0 <=? n then wraps_to (x * 2^n) r
  else wraps_to ((x mod 2^64) / 2^(-n)) r.
