(* Properties C11 (typed arrays), C12 (slices), C53 (iteration over typed arrays). *)
Require Import ZArith List Bool Lia.
From Verif Require Import Base Base_facts RArray_model RArray_spec RArray_proofs RArray_proofs2.
Import ListNotations.
Open Scope Z_scope.

(* ------------------------------------------------------------------ C11 *)
(* Every history of operations whose outcome the specification promises gives that outcome;
   in particular no access outside the storage, to freed or uninitialised cells occurs.
   Missing for the full property: indices of magnitude 2^32 and more (see C11_index_refuted). *)
Theorem C11_refines_partial : forall V (zero : V) l xs,
  srun V zero (empty_state V) l = Ok xs -> arun V zero (empty_heap V) l = Ok xs.
Proof. exact run_refines. Qed.
Print Assumptions C11_refines_partial.

(* ... and the specification promises an outcome for every operation in scope *)
Theorem C11_promised : forall V (zero : V) l A o, sstate V zero (empty_state V) l = Ok A ->
  in_scope V A o -> exists r, sstep V zero A o = Ok r.
Proof. exact promised. Qed.
Print Assumptions C11_promised.

(* index 2^32+1 of a one-element array reads element 1 instead of raising an error *)
Theorem C11_index_refuted : arun Z 0 (empty_heap Z)
  [OFixed Z 1 7; OGet Z 0 (2^32 + 1); OSet Z 0 (2^32 + 1) 8; OGet Z 0 1] =
  Ok [RHandle Z 0; RVal Z 7; RUnit Z; RVal Z 8].
Proof. reflexivity. Qed.
Print Assumptions C11_index_refuted.

(* a fixed-size array of 3 elements accepts a fourth *)
Theorem C11_fixed_refuted : arun Z 0 (empty_heap Z)
  [OFixed Z 3 5; OLen Z 0; OSet Z 0 4 9; OLen Z 0; OGet Z 0 4] =
  Ok [RHandle Z 0; RInt Z 3; RUnit Z; RInt Z 4; RVal Z 9].
Proof. reflexivity. Qed.
Print Assumptions C11_fixed_refuted.

(* table.intarray(2^32+1) succeeds and has one element *)
Theorem C11_size_refuted : arun Z 0 (empty_heap Z) [OFixed Z (2^32 + 1) 5; OLen Z 0] = Ok [RHandle Z 0; RInt Z 1].
Proof. reflexivity. Qed.
Print Assumptions C11_size_refuted.

Example C11_witness : srun Z 0 (empty_state Z)
  [ONew Z; OSet Z 0 1 10; OSet Z 0 2 20; OSet Z 0 3 30; OSet Z 0 4 40; OSet Z 0 6 60; OGet Z 0 3; OGet Z 0 5; OGet Z 0 (-1); OLen Z 0;
   OFixed Z 20 1; OSet Z 1 21 3; OFixed Z (-1) 3] =
  Ok [RHandle Z 0; RUnit Z; RUnit Z; RUnit Z; RUnit Z; RErr Z EBounds; RVal Z 30; RErr Z EBounds; RErr Z EBounds; RInt Z 4;
      RHandle Z 1; RErr Z EResize; RErr Z ELength].
Proof. reflexivity. Qed.

(* ------------------------------------------------------------------ C12 *)
(* Whatever happens after the slice was made (writes through the slice, the parent, other
   slices, growth of the parent within its capacity), element i of the slice and element
   s+i-1 of the parent are the same.  That nothing else is changed by a write is part of
   C11_refines_partial.  Missing: arguments outside the range of int are truncated. *)
Theorem C12_alias_partial : forall V (zero : V) pre p s n mid h i xs,
  srun V zero (empty_state V) (pre ++ OSlice V p s n :: mid ++ [OGet V h i; OGet V p (s + i - 1)]) = Ok xs ->
  nth_error xs (length pre) = Some (RHandle V h) -> 1 <= i <= n ->
  arun V zero (empty_heap V) (pre ++ OSlice V p s n :: mid ++ [OGet V h i; OGet V p (s + i - 1)]) = Ok xs /\
  exists ys v, xs = ys ++ [RVal V v; RVal V v].
Proof. exact alias_get. Qed.
Print Assumptions C12_alias_partial.

(* a sliced array can still grow (its capacity is at least 12) *)
Theorem C12_parent_fixed_refuted : arun Z 0 (empty_heap Z)
  [OFixed Z 3 5; OSlice Z 0 1 3; OSet Z 0 4 9; OLen Z 0; OLen Z 1] =
  Ok [RHandle Z 0; RHandle Z 1; RUnit Z; RInt Z 4; RInt Z 3].
Proof. reflexivity. Qed.
Print Assumptions C12_parent_fixed_refuted.

(* table.slice(a, 2^32+1, 1) succeeds *)
Theorem C12_range_refuted : arun Z 0 (empty_heap Z) [OFixed Z 3 5; OSlice Z 0 (2^32 + 1) 1] =
  Ok [RHandle Z 0; RHandle Z 1].
Proof. reflexivity. Qed.
Print Assumptions C12_range_refuted.

Example C12_witness : srun Z 0 (empty_state Z)
  [OFixed Z 5 0; OSlice Z 0 2 3; OSlice Z 1 2 2; OSet Z 2 1 7; OSet Z 0 4 8; OGet Z 0 3; OGet Z 1 2; OGet Z 2 2; OSet Z 1 4 1;
   OSlice Z 0 4 3; OSlice Z 0 0 3; OSlice Z 0 2 (-1); ONew Z; OSet Z 3 1 5; OSlice Z 3 1 1; OGet Z 2 2; OGet Z 1 (2 + 2 - 1)] =
  Ok [RHandle Z 0; RHandle Z 1; RHandle Z 2; RUnit Z; RUnit Z; RVal Z 7; RVal Z 7; RVal Z 8; RErr Z EResize;
      RErr Z EArg; RErr Z EArg; RErr Z EArg; RHandle Z 3; RUnit Z; RErr Z EResize; RVal Z 8; RVal Z 8].
Proof. reflexivity. Qed.

(* ------------------------------------------------------------------ C53 *)
(* Traversing an array with next visits 1..n in order, with the right elements, and stops. *)
Theorem C53_traversal : forall V (zero : V) l A h d, sstate V zero (empty_state V) l = Ok A ->
  nth_error (hnds V A) h = Some d ->
  exists vs xs, length vs = Z.to_nat (hn d) /\
   (forall j, (j < length vs)%nat -> elem V A d (Z.of_nat j + 1) = Ok (nth j vs zero)) /\
   arun V zero (empty_heap V) (l ++ visits V h 0 (Z.to_nat (hn d))) =
     Ok (xs ++ map (fun '(j, v) => RPair V (Some (1 + Z.of_nat j, v))) (combine (seq 0 (length vs)) vs) ++ [RPair V None]).
Proof. exact visits_all. Qed.
Print Assumptions C53_traversal.

Example C53_witness : arun Z 0 (empty_heap Z) ([OFixed Z 3 5; OSet Z 0 2 6; OSlice Z 0 2 2] ++ visits Z 1 0 2) =
  Ok [RHandle Z 0; RUnit Z; RHandle Z 1; RPair Z (Some (1, 6)); RPair Z (Some (2, 5)); RPair Z None].
Proof. reflexivity. Qed.

(* next(a, -1) exposes the reserved element 0, next(a, math.maxinteger) overflows *)
Theorem C53_next_refuted : arun Z 0 (empty_heap Z) [OFixed Z 1 5; ONext Z 0 (Some (-1))] =
    Ok [RHandle Z 0; RPair Z (Some (0, 0))] /\
  arun Z 0 (empty_heap Z) [OFixed Z 1 5; ONext Z 0 (Some maxint)] = UB.
Proof. split; reflexivity. Qed.
Print Assumptions C53_next_refuted.
