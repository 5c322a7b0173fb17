(* C06-C10: tables, traversal, length and the size of the array part. *)
Require Import ZArith List Bool Lia.
From Verif Require Import Base Float_model Float_spec Table_model Table_spec Table_proofs.
Import ListNotations.
Open Scope Z_scope.

From Coq Require Import Floats.SpecFloat.
Open Scope Z_scope.

(* whatever the hash function, initial sizes and history of assignments, enlargements and collections, no operation fails and t[k] is the value last assigned *)
Theorem C06_map : forall V mainpos narr nrec h, hash_ok mainpos -> 0 <= narr <= MAXASIZE -> 0 <= nrec <= 2 ^ 30 -> Z.of_nat (length h) <= 2 ^ 30 -> Forall (wfop V) h ->
  exists t0 t, createtable V mainpos narr nrec = Ok t0 /\ run V mainpos t0 h = Ok t /\
  (forall k v, wfkey k -> after V h k v -> get V mainpos t (Some k) = Ok v) /\ get V mainpos t None = Ok None.
Proof. exact table_map. Qed.
Print Assumptions C06_map.

(* one assignment: t[k] is the new value and every other entry is as before *)
Theorem C06_set : forall V mainpos h t k v, hash_ok mainpos -> Forall (wfop V) h -> reachable V mainpos h t -> wfkey k -> ~ is_nan k -> Z.of_nat (length h) < 2 ^ 30 ->
  exists t', set V mainpos t (Some k) v = Ok t' /\ get V mainpos t' (Some k) = Ok v /\
  forall k', wfkey k' -> ~ keq k' k -> get V mainpos t' (Some k') = get V mainpos t (Some k').
Proof. exact table_set. Qed.
Print Assumptions C06_set.

(* every history determines the value of every key, so C06_map covers all keys *)
Theorem C06_after_total : forall V h k, Forall (wfop V) h -> wfkey k -> exists v, after V h k v /\ forall v', after V h k v' -> v' = v.
Proof. exact after_exists. Qed.
Print Assumptions C06_after_total.

(* the hash functions of ltable.c give positions in range *)
Theorem C06_hash : forall hash pow2, hash_ok (mainposition hash pow2).
Proof. exact mainposition_ok. Qed.
Print Assumptions C06_hash.

(* all keys collide; integers, floats, strings and booleans; deletion, reinsertion and several rehashes *)
Definition h6 : list (op nat) :=
  [OSet nat (Some (KO 1)) (Some 15%nat); OSet nat (Some (KI 3)) None; OKill nat 2; OSet nat (Some (KO 2)) None; OSet nat (Some (KI 1)) (Some 14%nat);
   OSet nat (Some (KF (S754_infinity true))) (Some 13%nat); OSet nat (Some (KB 1)) (Some 12%nat); OSet nat (Some (KI 3)) (Some 11%nat);
   OSet nat (Some (KI (-5))) (Some 10%nat); OSet nat (Some (KO 2)) (Some 9%nat); OSet nat (Some (KO 1)) (Some 8%nat)].
Definition at6 (mainpos : Z -> key -> Z) (k : key) : outcome (option nat) :=
  bind (createtable nat mainpos 0 0) (fun t => bind (run nat mainpos t h6) (fun t => get nat mainpos t (Some k))).
Example C06_witness : map (at6 (fun _ _ => 0)) [KO 1; KO 2; KI 1; KI 3; KI (-5); KB 1; KB 0; KF (S754_infinity true); KF S754_nan]
    = [Ok (Some 15%nat); Ok None; Ok (Some 14%nat); Ok None; Ok (Some 10%nat); Ok (Some 12%nat); Ok None; Ok (Some 13%nat); Ok None] /\
  map (at6 (mainposition (fun k => match k with KO z => z | _ => 0 end) (fun _ => true))) [KO 1; KO 2; KI 1; KI 3; KI (-5); KB 1]
    = [Ok (Some 15%nat); Ok None; Ok (Some 14%nat); Ok None; Ok (Some 10%nat); Ok (Some 12%nat)].
Proof. vm_compute. split; reflexivity. Qed.

(* a float with an integer value is the same key as the integer, for reading and writing *)
Theorem C07_same : forall V mainpos t f i v, valid f -> is_exact f i -> is_s64 i ->
  get V mainpos t (Some (KF f)) = get V mainpos t (Some (KI i)) /\ set V mainpos t (Some (KF f)) v = set V mainpos t (Some (KI i)) v.
Proof. exact float_key. Qed.
Print Assumptions C07_same.

(* a float and an integer of different value are different keys *)
Theorem C07_distinct : forall V mainpos h t f v i, hash_ok mainpos -> Forall (wfop V) h -> reachable V mainpos h t -> Z.of_nat (length h) < 2 ^ 30 ->
  valid f -> f <> S754_nan -> is_s64 i -> ~ is_exact f i ->
  exists t', set V mainpos t (Some (KF f)) v = Ok t' /\ get V mainpos t' (Some (KF f)) = Ok v /\ get V mainpos t' (Some (KI i)) = get V mainpos t (Some (KI i)).
Proof. exact float_distinct. Qed.
Print Assumptions C07_distinct.

(* assignments to nil and NaN raise an error, reads give nil *)
Theorem C07_bad : forall V mainpos h t v, hash_ok mainpos -> Forall (wfop V) h -> reachable V mainpos h t ->
  set V mainpos t None v = Err EIndexNil /\ set V mainpos t (Some (KF S754_nan)) v = Err EIndexNaN /\
  get V mainpos t None = Ok None /\ get V mainpos t (Some (KF S754_nan)) = Ok None.
Proof. exact bad_keys. Qed.
Print Assumptions C07_bad.

Definition f0_5 : flt := S754_finite false 4503599627370496 (-53).
Definition get7 (k v : key) : outcome (option nat) :=
  bind (set nat (fun _ _ => 0) (luaH_new nat) (Some k) (Some 5%nat)) (fun t => get nat (fun _ _ => 0) t (Some v)).
Example C07_witness : get7 (KF f1_0) (KI 1) = Ok (Some 5%nat) /\ get7 (KI 1) (KF f1_0) = Ok (Some 5%nat) /\ get7 (KF f0_5) (KI 0) = Ok None /\ get7 (KF f0_5) (KF f0_5) = Ok (Some 5%nat) /\
  get7 (KF S754_nan) (KI 1) = Err EIndexNaN /\ get7 (KF (S754_zero true)) (KI 0) = Ok (Some 5%nat).
Proof. vm_compute. repeat split; reflexivity. Qed.

(* a traversal with assignments to existing fields and collections in between never fails, delivers no key twice, delivers current values of fields of the table, and at its end has delivered every key present throughout *)
Theorem C08_next : forall V mainpos h t0 l t c, hash_ok mainpos -> Forall (wfop V) h -> reachable V mainpos h t0 -> walk V mainpos t0 None l t c ->
  (exists r, luaH_next V mainpos t c = Ok r) /\
  ForallOrdPairs (fun a b => ~ keq a b) (visited V l) /\
  (forall ti k v, In (ti, k, v) l -> get V mainpos ti (Some k) = Ok (Some v) /\ exists w, get V mainpos t0 (Some k) = Ok (Some w)) /\
  (luaH_next V mainpos t c = Ok None -> forall k, wfkey k -> (exists w, get V mainpos t (Some k) = Ok (Some w)) ->
     (forall ti ki vi, In (ti, ki, vi) l -> exists w, get V mainpos ti (Some k) = Ok (Some w)) -> exists k', In k' (visited V l) /\ keq k k').
Proof. exact traversal. Qed.
Print Assumptions C08_next.

(* every traversal ends *)
Theorem C08_ends : forall V mainpos h t0, hash_ok mainpos -> Forall (wfop V) h -> reachable V mainpos h t0 ->
  exists N, forall l t c, walk V mainpos t0 None l t c -> (length l <= N)%nat.
Proof. exact traversal_ends. Qed.
Print Assumptions C08_ends.

(* next is an error for a float key in the array part although the entry exists; such keys are not delivered by next *)
Theorem C08_float_key_refuted : exists h t, Forall (wfop nat) h /\ reachable nat (mainposition (fun _ => 0) (fun _ => true)) h t /\
  get nat (mainposition (fun _ => 0) (fun _ => true)) t (Some (KF f1_0)) = Ok (Some 7%nat) /\
  luaH_next nat (mainposition (fun _ => 0) (fun _ => true)) t (Some (KI 1)) = Ok None /\
  luaH_next nat (mainposition (fun _ => 0) (fun _ => true)) t (Some (KF f1_0)) = Err EInvalidNext.
Proof. exact next_float_refuted. Qed.
Print Assumptions C08_float_key_refuted.

Fixpoint walk8 (n : nat) (t : table nat) (c : option key) : list (key * nat) :=
  match n with
  | O => []
  | S n => match luaH_next nat (fun _ _ => 0) t c with
           | Ok (Some (k, v)) => (k, v) :: match set nat (fun _ _ => 0) t (Some k) None with Ok t => walk8 n t (Some k) | _ => [] end
           | _ => [] end
  end.
(* a traversal that clears every field it visits, with an array part and collisions *)
Example C08_witness : match bind (createtable nat (fun _ _ => 0) 0 0) (fun t => run nat (fun _ _ => 0) t (map (fun k => OSet nat (Some k) (Some 9%nat)) [KO 1; KB 1; KI 3; KI 2; KI 1])) with
  | Ok t => sizearray nat t = 4 /\ walk8 20 t None = [(KI 1, 9%nat); (KI 2, 9%nat); (KI 3, 9%nat); (KB 1, 9%nat); (KO 1, 9%nat)] | _ => False end.
Proof. vm_compute. split; reflexivity. Qed.

(* the length operator returns a border *)
Theorem C09_border : forall V mainpos h t f lfuel, hash_ok mainpos -> Forall (wfop V) h -> reachable V mainpos h t -> (forall i, is_s64 i -> after V h (KI i) (f i)) ->
  2 ^ 30 < Z.of_nat lfuel -> exists n, luaH_getn V mainpos lfuel t = Ok n /\ border V f n.
Proof. exact length_border. Qed.
Print Assumptions C09_border.

(* the only border of a sequence is its number of elements *)
Theorem C09_sequence : forall V (f : Z -> option V) N n, 0 <= N <= maxint -> (forall i, 1 <= i <= maxint -> (f i <> None <-> i <= N)) -> border V f n -> n = N.
Proof. exact border_sequence. Qed.
Print Assumptions C09_sequence.

Definition len9 (h : list (op nat)) : outcome Z := bind (createtable nat (fun _ _ => 0) 4 0) (fun t => bind (run nat (fun _ _ => 0) t h) (fun t => luaH_getn nat (fun _ _ => 0) 99 t)).
Example C09_witness : len9 (map (fun i => OSet nat (Some (KI i)) (Some 1%nat)) [7; 6; 5; 4; 3; 2; 1]) = Ok 7 /\
  len9 (map (fun i => OSet nat (Some (KI i)) (Some 1%nat)) [1; 2]) = Ok 2 /\ len9 (map (fun i => OSet nat (Some (KI i)) (Some 1%nat)) [4; 2; 1]) = Ok 4 /\
  len9 (map (fun i => OSet nat (Some (KI i)) (Some 1%nat)) [5; 2; 1]) = Ok 2 /\ len9 [] = Ok 0.
Proof. vm_compute. repeat split; reflexivity. Qed.

(* an assignment leaves the array part, changes one slot of it, or gives it the optimal size for the keys in use and the new key; C06_set: the entries are preserved *)
Theorem C10_optimal : forall V mainpos h t k v, hash_ok mainpos -> Forall (wfop V) h -> reachable V mainpos h t -> wfkey k -> ~ is_nan k -> Z.of_nat (length h) < 2 ^ 30 ->
  exists t', set V mainpos t (Some k) v = Ok t' /\
  (arr V t' = arr V t \/ (exists i, arr V t' = upd (arr V t) i v) \/
   optimal (fun i => keq (KI i) k \/ exists w, get V mainpos t (Some (KI i)) = Ok (Some w)) (sizearray V t')).
Proof. exact rehash_optimal. Qed.
Print Assumptions C10_optimal.

Definition size10 (h : list Z) : outcome Z := bind (createtable nat (fun _ _ => 0) 0 0) (fun t => bind (run nat (fun _ _ => 0) t (map (fun i => OSet nat (Some (KI i)) (Some 1%nat)) h)) (fun t => Ok (sizearray nat t))).
Example C10_witness : size10 [5; 4; 3; 2; 1] = Ok 8 /\ size10 [3; 2; 1] = Ok 4 /\ size10 [10; 20; 30; 40; 50] = Ok 0 /\ size10 [9; 8; 7; 6; 5] = Ok 0.
Proof. vm_compute. repeat split; reflexivity. Qed.
