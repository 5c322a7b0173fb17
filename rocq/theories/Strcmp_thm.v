(* C28: the order of strings. *)
Require Import ZArith List Bool Lia.
From Verif Require Import Base Str Strcmp_model Strcmp_spec Strcmp_proofs.
Import ListNotations.
Open Scope Z_scope.

(* comparison is segment-wise, segments being separated by zero bytes, for every collation which
   is an order whose equivalence is equality *)
Theorem C28_order_partial : forall coll, collation coll -> forall s t, slen s <= maxint -> slen t <= maxint ->
  exists c, l_strcmp coll s t = Ok c /\
  (c < 0 <-> lex (collt coll) (segs s) (segs t)) /\ (c = 0 <-> s = t) /\ (0 < c <-> lex (collt coll) (segs t) (segs s)).
Proof. exact strcmp_spec. Qed.
Print Assumptions C28_order_partial.

(* < and <= on strings: a strict total order, and <= its reflexive closure *)
Theorem C28_total_partial : forall coll, collation coll -> forall s t u, slen s <= maxint -> slen t <= maxint -> slen u <= maxint ->
  exists st ts le tu su, str_lt coll s t = Ok st /\ str_lt coll t s = Ok ts /\ str_le coll s t = Ok le /\ str_lt coll t u = Ok tu /\ str_lt coll s u = Ok su /\
  (st = true /\ ts = false /\ s <> t \/ st = false /\ ts = false /\ s = t \/ st = false /\ ts = true /\ s <> t) /\
  (le = true <-> st = true \/ s = t) /\
  (st = true -> tu = true -> su = true).
Proof. exact str_order. Qed.
Print Assumptions C28_total_partial.

(* in the C locale strings are compared byte by byte, zeros included *)
Theorem C28_c_locale : forall s t, wf_str s -> wf_str t -> slen s <= maxint -> slen t <= maxint ->
  exists b, str_lt strcmp s t = Ok b /\ (b = true <-> lex Z.lt s t).
Proof. exact c_locale. Qed.
Print Assumptions C28_c_locale.

(* with a collation for which different strings are equal (an order in all other respects), two strings can each be less than the other, and the loop reads outside the strings *)
Theorem C28_collation_refuted : (forall a b, ignoring a b < 0 <-> 0 < ignoring b a) /\
  (forall a b c, ignoring a b < 0 -> ignoring b c < 0 -> ignoring a c < 0) /\
  str_lt ignoring [97; 1] [97] = Ok true /\ str_lt ignoring [97] [97; 1] = Ok true /\
  l_strcmp ignoring [97; 1; 0; 98] [97] = UB.
Proof. exact collation_needed. Qed.
Print Assumptions C28_collation_refuted.

Example C28_witness : collation strcmp /\ l_strcmp strcmp [97; 0; 98] [97; 0; 99] = Ok (-1) /\ l_strcmp strcmp [97; 0] [97] = Ok 1 /\
  l_strcmp strcmp [97; 0; 98] [97; 0; 98] = Ok 0 /\ segs [97; 0; 0; 98] = [[97]; []; [98]].
Proof. split; [exact strcmp_collation|]. vm_compute. repeat split; reflexivity. Qed.
