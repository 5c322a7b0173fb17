(* Model of ravicomp/src/hash_table.c; ravicomp/src/set.c is the same code without the data field
   (take D := unit). Keys are compared by an arbitrary function and hashed to 32 bits. Allocation
   succeeds. *)
Require Import ZArith List Bool.
From Verif Require Import Base.
Import ListNotations.
Open Scope Z_scope.

(* hash_table.c:53-85, set.c:55-89: max_entries, size, rehash *)
Definition hash_sizes : list (Z * Z * Z) :=
  [(2, 5, 3); (4, 7, 5); (8, 13, 11); (16, 19, 17); (32, 43, 41); (64, 73, 71); (128, 151, 149); (256, 283, 281); (512, 571, 569);
   (1024, 1153, 1151); (2048, 2269, 2267); (4096, 4519, 4517); (8192, 9013, 9011); (16384, 18043, 18041); (32768, 36109, 36107);
   (65536, 72091, 72089); (131072, 144409, 144407); (262144, 288361, 288359); (524288, 576883, 576881); (1048576, 1153459, 1153457);
   (2097152, 2307163, 2307161); (4194304, 4613893, 4613891); (8388608, 9227641, 9227639); (16777216, 18455029, 18455027);
   (33554432, 36911011, 36911009); (67108864, 73819861, 73819859); (134217728, 147639589, 147639587); (268435456, 295279081, 295279079);
   (536870912, 590559793, 590559791); (1073741824, 1181116273, 1181116271); (2147483648, 2362232233, 2362232231)].
Definition hs (i : nat) : Z * Z * Z := nth i hash_sizes (0, 0, 0).
Definition max_of (i : nat) : Z := fst (fst (hs i)).
Definition size_of (i : nat) : Z := snd (fst (hs i)).
Definition rehash_of (i : nat) : Z := snd (hs i).

Section HT.
Variables K D : Type.
Variable key_equals : K -> K -> bool.
Variable hash_function : K -> Z.

Inductive entry := Free | Deleted | Present (h : Z) (k : K) (d : D).
Record ht := mkHt { idx : nat; table : list entry; entries : Z; deleted : Z }.
Definition get (t : list entry) (a : Z) : entry := nth (Z.to_nat a) t Free.
(* hash_table.c:105-129 *)
Definition create : ht := mkHt 0 (repeat Free (Z.to_nat (size_of 0))) 0 0.

(* hash_table.c:177, 278: the next address; sums are of type uint32_t *)
Definition next_address (i : nat) (h a : Z) : Z := u32 (a + (1 + h mod rehash_of i)) mod size_of i.
(* hash_table.c:157-183; the position of the entry *)
Fixpoint search_loop (fuel : nat) (t : ht) (h : Z) (k : K) (a : Z) : outcome (option Z) :=
  match fuel with
  | O => OutOfFuel
  | S f =>
    let continue :=
      let a := next_address (idx t) h a in
      if a =? h mod size_of (idx t) then Ok None else search_loop f t h k a in
    match get (table t) a with
    | Free => Ok None
    | Present h' k' _ => if (h' =? h) && key_equals k k' then Ok (Some a) else continue
    | Deleted => continue
    end
  end.
Definition search (t : ht) (k : K) : outcome (option Z) :=
  let h := hash_function k in
  search_loop (Z.to_nat (size_of (idx t))) t h k (h mod size_of (idx t)).

(* hash_table.c:250-281: where to put the key; avail is available_entry. Found: an equal key *)
Inductive spot := Found (a : Z) | Avail (a : option Z).
Fixpoint insert_loop (fuel : nat) (t : ht) (h : Z) (k : K) (a : Z) (avail : option Z) : outcome spot :=
  match fuel with
  | O => OutOfFuel
  | S f =>
    let stash := match avail with None => Some a | x => x end in
    let continue av :=
      let a := next_address (idx t) h a in
      if a =? h mod size_of (idx t) then Ok (Avail av) else insert_loop f t h k a av in
    match get (table t) a with
    | Free => Ok (Avail stash)
    | Deleted => continue stash
    | Present h' k' _ => if (h' =? h) && key_equals k k' then Ok (Found a) else continue avail
    end
  end.
(* hash_table.c:266-297; None: there is no room *)
Definition put_entry (t : ht) (h : Z) (k : K) (d : D) : outcome (option ht) :=
  bind (insert_loop (Z.to_nat (size_of (idx t))) t h k (h mod size_of (idx t)) None) (fun s =>
  match s with
  | Found a => Ok (Some (mkHt (idx t) (upd (table t) (Z.to_nat a) (Present h k d)) (entries t) (deleted t)))
  | Avail (Some a) =>
    let del := match get (table t) a with Deleted => deleted t - 1 | _ => deleted t end in
    Ok (Some (mkHt (idx t) (upd (table t) (Z.to_nat a) (Present h k d)) (entries t + 1) del))
  | Avail None => Ok None
  end).
(* hash_table.c:185-213 and 242-297. Rehashing inserts the old entries with the same function, which
   could rehash again: depth bounds this recursion. A failed insertion while rehashing is not noticed. *)
Fixpoint insert_pre_hashed (depth : nat) (t : ht) (h : Z) (k : K) (d : D) : outcome (option ht) :=
  match depth with
  | O => OutOfFuel
  | S dp =>
    let rehash (new_index : nat) : outcome ht :=
      if (length hash_sizes <=? new_index)%nat then Ok t
      else fold_left (fun r e =>
             bind r (fun t' => match e with
                               | Present h k d => bind (insert_pre_hashed dp t' h k d) (fun o => Ok (match o with Some t' => t' | None => t' end))
                               | _ => Ok t'
                               end))
             (table t) (Ok (mkHt new_index (repeat Free (Z.to_nat (size_of new_index))) 0 0)) in
    bind (if max_of (idx t) <=? entries t then rehash (S (idx t))
          else if max_of (idx t) <=? deleted t + entries t then rehash (idx t)
          else Ok t) (fun t => put_entry t h k d)
  end.
(* hash_table.c:222-236 *)
Definition insert (t : ht) (k : K) (d : D) : outcome (option ht) := insert_pre_hashed 40 t (hash_function k) k d.
(* hash_table.c:306-332 *)
Definition remove (t : ht) (k : K) : outcome ht :=
  bind (search t k) (fun r =>
  match r with
  | None => Ok t
  | Some a => Ok (mkHt (idx t) (upd (table t) (Z.to_nat a) Deleted) (entries t - 1) (deleted t + 1))
  end).
(* hash_table_foreach with raviX_hash_table_next_entry, 340-357 *)
Definition foreach (t : ht) : list (K * D) := flat_map (fun e => match e with Present _ k d => [(k, d)] | _ => [] end) (table t).

Inductive hop := HInsert (k : K) (d : D) | HRemove (k : K) | HSearch (k : K) | HList | HCount.
Inductive hans := HNone | HFound (r : option (K * D)) | HEntries (l : list (K * D)) | HNum (n : Z).
Definition hstep (t : ht) (o : hop) : outcome (ht * hans) :=
  match o with
  | HInsert k d => bind (insert t k d) (fun r => match r with Some t => Ok (t, HNone) | None => Err EOverflow end)
  | HRemove k => bind (remove t k) (fun t => Ok (t, HNone))
  | HSearch k => bind (search t k) (fun r => Ok (t, HFound (match r with
                   | Some a => match get (table t) a with Present _ k d => Some (k, d) | _ => None end
                   | None => None end)))
  | HList => Ok (t, HEntries (foreach t))
  | HCount => Ok (t, HNum (entries t))
  end.
Fixpoint hrun (t : ht) (l : list hop) : outcome (list hans) :=
  match l with
  | [] => Ok []
  | o :: l => bind (hstep t o) (fun '(t, a) => bind (hrun t l) (fun r => Ok (a :: r)))
  end.
End HT.
