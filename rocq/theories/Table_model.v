(* Model of Lua tables: src/ltable.c (and the macros of ltable.h).
   Keys: integers, floats, other values without storage of their own (booleans, light userdata,
   C functions) and collectable objects (strings, tables, ...), the last two given by a number:
   equal numbers stand for raw-equal values. Long strings of equal contents are one key.
   nil is None, both as key and as value. The position a key hashes to is a parameter. *)
Require Import ZArith List Bool.
From Coq Require Import Floats.SpecFloat.
From Verif Require Import Base Float_model Size_model.
Import ListNotations.
Open Scope Z_scope.

Inductive key := KI (i : Z) | KF (f : flt) | KB (b : Z) | KO (o : Z).

(* ltable.c:42,53: limits of the two parts *)
Definition MAXABITS : Z := 31.
Definition MAXASIZE : Z := 2 ^ MAXABITS.
Definition MAXHBITS : Z := MAXABITS - 1.

(* ltable.c:133-157 equalkey, for two keys of live nodes; floats compare with == *)
Definition key_eqb (a b : key) : bool :=
  match a, b with
  | KI i, KI j => i =? j
  | KF f, KF g => flt_eq f g
  | KB i, KB j => i =? j
  | KO i, KO j => i =? j
  | _, _ => false
  end.
(* luaV_rawequalobj (lvm.c:731ff): integers and floats compare by value *)
Definition raw_eq (a b : key) : outcome bool :=
  match a, b with
  | KI i, KF g => EQnum (NInt i) (NFlt g)
  | KF f, KI j => EQnum (NFlt f) (NInt j)
  | _, _ => Ok (key_eqb a b)
  end.

(* a key as found in a node: nil, a value, or a dead key (lobject.h:808 setdeadvalue), which
   keeps the address *)
Inductive nodekey := NoKey | Live (k : key) | Dead (k : key).
Definition is_live (k : key) (n : nodekey) : bool :=
  match n with Live k' => key_eqb k k' | _ => false end.
Definition collectable (k : key) : bool := match k with KO _ => true | _ => false end.

Section TABLE.
Variable V : Type.
(* ltable.c:102-123 mainposition: an arbitrary function of the size and the key *)
Variable mainpos : Z -> key -> Z.

(* lobject.h:744-763 Node; next is relative *)
Record node := mkNode { nkey : nodekey; nval : option V; nnext : Z }.
(* lobject.h:768-782 Table: the array, the nodes, lsizenode, lastfree (an index; None for NULL) *)
Record table := mkTable { arr : list (option V); nodes : list node; lsize : Z; lastfree : option Z }.
Definition sizearray (t : table) : Z := Z.of_nat (length (arr t)).
Definition isdummy (t : table) : bool := match lastfree t with None => true | _ => false end.
(* a place a value is stored in; CNil is luaO_nilobject *)
Inductive cell := CNil | CArr (i : Z) | CNode (i : Z).

Definition blank : node := mkNode NoKey None 0.
Definition getnode (ns : list node) (i : Z) : outcome node :=
  if i <? 0 then UB else match nth_error ns (Z.to_nat i) with Some n => Ok n | None => UB end.
Definition setnode (ns : list node) (i : Z) (n : node) : list node := upd ns (Z.to_nat i) n.
Definition readcell (t : table) (c : cell) : option V :=
  match c with
  | CNil => None
  | CArr i => nth (Z.to_nat i) (arr t) None
  | CNode i => nval (nth (Z.to_nat i) (nodes t) blank)
  end.
Definition writecell (t : table) (c : cell) (v : option V) : table :=
  match c with
  | CNil => t
  | CArr i => mkTable (upd (arr t) (Z.to_nat i) v) (nodes t) (lsize t) (lastfree t)
  | CNode i => let n := nth (Z.to_nat i) (nodes t) blank in
               mkTable (arr t) (setnode (nodes t) i (mkNode (nkey n) v (nnext n))) (lsize t) (lastfree t)
  end.

(* the search loop of getgeneric (161-173), luaH_getint (637-645), luaH_getshortstr (ltable.h:87-108,
   ltable.c:677-688): follow the chain until p holds of the key *)
Fixpoint search (fuel : nat) (p : nodekey -> bool) (ns : list node) (i : Z) : outcome (option Z) :=
  match fuel with
  | O => OutOfFuel
  | S f =>
    bind (getnode ns i) (fun n =>
    if p (nkey n) then Ok (Some i)
    else if nnext n =? 0 then Ok None
    else search f p ns (i + nnext n))
  end.
Definition cell_of (o : option Z) : cell := match o with Some i => CNode i | None => CNil end.
(* ltable.c:161-173 *)
Definition getgeneric (t : table) (k : key) : outcome cell :=
  bind (search (length (nodes t)) (is_live k) (nodes t) (mainpos (lsize t) k)) (fun o => Ok (cell_of o)).
(* ltable.c:630-646; the comparison is unsigned *)
Definition luaH_getint (t : table) (k : Z) : outcome cell :=
  if u64 (u64 k - 1) <? sizearray t then Ok (CArr (k - 1)) else getgeneric t (KI k).
(* ltable.c:705-721 *)
Definition luaH_get (t : table) (k : option key) : outcome cell :=
  match k with
  | None => Ok CNil
  | Some (KI i) => luaH_getint t i
  | Some (KF f) =>
    bind (flttointeger f F2Ieq) (fun o =>
    match o with Some i => luaH_getint t i | None => getgeneric t (KF f) end)
  | Some k => getgeneric t k
  end.
Definition get (t : table) (k : option key) : outcome (option V) :=
  bind (luaH_get t k) (fun c => Ok (readcell t c)).

(* ltable.c:181-188 *)
Definition arrayindex (k : key) : Z :=
  match k with KI i => if (0 <? i) && (u64 i <=? MAXASIZE) then i else 0 | _ => 0 end.

(* ---- 291-358: counting integer keys ---- *)
(* computesizes; nums are the counters from nums[i] on and twotoi = 2^i. Counters and sums do not
   exceed the number of entries, so they do not wrap (see rehash). *)
Fixpoint computesizes (nums : list Z) (twotoi a na optimal pna : Z) : Z * Z :=
  match nums with
  | [] => (optimal, na)
  | c :: r =>
    if twotoi / 2 <? pna then
      if 0 <? c then
        let a := a + c in
        if twotoi / 2 <? a then computesizes r (twotoi * 2) a a twotoi pna
        else computesizes r (twotoi * 2) a na optimal pna
      else computesizes r (twotoi * 2) a na optimal pna
    else (optimal, na)
  end.
(* countint *)
Definition countint (k : key) (nums : list Z) : outcome (list Z * Z) :=
  let i := arrayindex k in
  if i =? 0 then Ok (nums, 0)
  else bind (luaO_ceillog2 i) (fun l =>
       if Z.of_nat (length nums) <=? l then UB
       else Ok (upd nums (Z.to_nat l) (nth (Z.to_nat l) nums 0 + 1), 1)).
Definition nonnil (v : option V) : bool := match v with Some _ => true | None => false end.
(* the inner loop of numusearray: the non-nil elements with indices i..lim *)
Definition count_range (a : list (option V)) (i lim : Z) : Z :=
  Z.of_nat (length (filter nonnil (firstn (Z.to_nat (lim - i + 1)) (skipn (Z.to_nat (i - 1)) a)))).
(* numusearray: the counters of n slices, from the one with upper limit ttlg on *)
Fixpoint numusearray (n : nat) (a : list (option V)) (ttlg i : Z) : list Z :=
  match n with
  | O => []
  | S n' =>
    if Z.of_nat (length a) <? ttlg then
      let lim := Z.of_nat (length a) in
      if lim <? i then repeat 0 n
      else count_range a i lim :: numusearray n' a (ttlg * 2) (lim + 1)
    else count_range a i ttlg :: numusearray n' a (ttlg * 2) (ttlg + 1)
  end.
Definition sum (l : list Z) : Z := fold_right Z.add 0 l.
(* numusehash: counters, integer keys and all keys; the nodes are visited from the last to the first *)
Fixpoint numusehash (rev_ns : list node) (nums : list Z) : outcome (list Z * Z * Z) :=
  match rev_ns with
  | [] => Ok (nums, 0, 0)
  | n :: r =>
    match nval n with
    | None => numusehash r nums
    | Some _ =>
      match nkey n with
      | Live k => bind (countint k nums) (fun '(nums, c) =>
                  bind (numusehash r nums) (fun '(nums, na, tot) => Ok (nums, c + na, tot + 1)))
      | _ => UB
      end
    end
  end.

(* ---- 369-457: resizing ---- *)
(* setnodevector *)
Definition setnodevector (a : list (option V)) (size : Z) : outcome table :=
  if size =? 0 then Ok (mkTable a [blank] 0 None)
  else bind (luaO_ceillog2 size) (fun l =>
       if MAXHBITS <? l then Err EOverflow
       else Ok (mkTable a (repeat blank (Z.to_nat (2 ^ l))) l (Some (2 ^ l)))).

(* getfreepos (551-560): the free position and the new lastfree *)
Fixpoint free_below (ns : list node) (n : nat) : option nat :=
  match n with
  | O => None
  | S m => match nkey (nth m ns blank) with NoKey => Some m | _ => free_below ns m end
  end.
Definition getfreepos (t : table) : option Z * table :=
  match lastfree t with
  | None => (None, t)
  | Some l =>
    match free_below (nodes t) (Z.to_nat l) with
    | Some m => (Some (Z.of_nat m), mkTable (arr t) (nodes t) (lsize t) (Some (Z.of_nat m)))
    | None => (None, mkTable (arr t) (nodes t) (lsize t) (Some 0))
    end
  end.
(* 596-597: the node before mp in the chain from othern *)
Fixpoint findprev (fuel : nat) (ns : list node) (o mp : Z) : outcome Z :=
  match fuel with
  | O => OutOfFuel
  | S f => bind (getnode ns o) (fun n =>
           if o + nnext n =? mp then Ok o else findprev f ns (o + nnext n) mp)
  end.

(* the functions below insert through luaH_newkey, which is passed as nk *)
Section REC.
Variable nk : table -> key -> outcome (table * cell).
(* luaH_set (751-756) for keys as newkey passes them on *)
Definition setk (t : table) (k : key) : outcome (table * cell) :=
  bind (luaH_get t (Some k)) (fun c => match c with CNil => nk t k | _ => Ok (t, c) end).
(* luaH_setint (759-770) and the assignments at 452 *)
Definition insert (t : table) (k : key) (v : option V) : outcome table :=
  bind (setk t k) (fun '(t, c) => Ok (writecell t c v)).
(* 437-442: elements from the vanishing slice, first index i *)
Fixpoint reinsert_arr (t : table) (vs : list (option V)) (i : Z) : outcome table :=
  match vs with
  | [] => Ok t
  | None :: r => reinsert_arr t r (i + 1)
  | Some v :: r => bind (insert t (KI i) (Some v)) (fun t => reinsert_arr t r (i + 1))
  end.
(* 447-454: elements from the old hash part, last node first *)
Fixpoint reinsert_hash (t : table) (rev_ns : list node) : outcome table :=
  match rev_ns with
  | [] => Ok t
  | n :: r =>
    match nval n with
    | None => reinsert_hash t r
    | Some v => match nkey n with
                | Live k => bind (insert t k (Some v)) (fun t => reinsert_hash t r)
                | _ => UB
                end
    end
  end.
(* luaH_resize (421-458); on a memory error or overflow the table is as before *)
Definition resize (t : table) (nasize nhsize : Z) : outcome table :=
  let old := if isdummy t then [] else nodes t in
  let a := arr t ++ repeat None (Z.to_nat (nasize - sizearray t)) in
  bind (setnodevector (firstn (Z.to_nat nasize) a) nhsize) (fun t1 =>
  bind (reinsert_arr t1 (skipn (Z.to_nat nasize) a) (nasize + 1)) (fun t2 =>
  reinsert_hash t2 (rev old))).
(* rehash (467-486); totaluse is an int *)
Definition rehash (t : table) (ek : key) : outcome table :=
  let nums := numusearray 32 (arr t) 1 1 in
  let na := sum nums in
  bind (numusehash (rev (nodes t)) nums) (fun '(nums, nah, tot) =>
  bind (countint ek nums) (fun '(nums, c) =>
  let totaluse := na + tot + 1 in
  if two31 <=? totaluse then UB
  else let '(asize, na) := computesizes nums 1 0 0 0 (na + nah + c) in
       resize t asize (totaluse - na))).
End REC.

(* luaH_newkey (572-620) for a key that is not nil and not a float with an integer value; nested
   calls through rehash are counted by the fuel *)
Fixpoint newkey (fuel : nat) (t : table) (k : key) : outcome (table * cell) :=
  let mp := mainpos (lsize t) k in
  bind (getnode (nodes t) mp) (fun mpn =>
  if nonnil (nval mpn) || isdummy t then
    let '(fr, t) := getfreepos t in
    match fr with
    | None =>
      match fuel with
      | O => OutOfFuel
      | S f => bind (rehash (newkey f) t k) (fun t => setk (newkey f) t k)
      end
    | Some f =>
      match nkey mpn with
      | Live mk =>
        let ns := nodes t in
        let othern := mainpos (lsize t) mk in
        if othern =? mp then
          (* the colliding node is in its own main position *)
          bind (getnode ns f) (fun fn =>
          let fnext := if nnext mpn =? 0 then nnext fn else mp + nnext mpn - f in
          let ns := setnode ns f (mkNode (Live k) (nval fn) fnext) in
          let ns := setnode ns mp (mkNode (nkey mpn) (nval mpn) (f - mp)) in
          Ok (mkTable (arr t) ns (lsize t) (lastfree t), CNode f))
        else
          (* move the colliding node to the free position *)
          bind (findprev (length ns) ns othern mp) (fun prev =>
          bind (getnode ns prev) (fun pn =>
          let ns := setnode ns prev (mkNode (nkey pn) (nval pn) (f - prev)) in
          let ns := setnode ns f (mkNode (nkey mpn) (nval mpn) (if nnext mpn =? 0 then 0 else nnext mpn + (mp - f))) in
          let ns := setnode ns mp (mkNode (Live k) None 0) in
          Ok (mkTable (arr t) ns (lsize t) (lastfree t), CNode mp)))
      | _ => UB
      end
    end
  else Ok (mkTable (arr t) (setnode (nodes t) mp (mkNode (Live k) (nval mpn) (nnext mpn))) (lsize t) (lastfree t), CNode mp)).

(* luaH_newkey: the checks on the key, 574-584 *)
Definition luaH_newkey (t : table) (k : option key) : outcome (table * cell) :=
  match k with
  | None => Err EIndexNil
  | Some (KF f) =>
    bind (flttointeger f F2Ieq) (fun o =>
    match o with
    | Some i => newkey 2 t (KI i)
    | None => if negb (flt_eq f f) then Err EIndexNaN else newkey 2 t (KF f)
    end)
  | Some k => newkey 2 t k
  end.
(* luaH_set (751-756) followed by the assignment; also lvm.c:259-270 luaV_finishset without metamethod *)
Definition set (t : table) (k : option key) (v : option V) : outcome table :=
  bind (luaH_get t k) (fun c =>
  match c with
  | CNil => bind (luaH_newkey t k) (fun '(t, c) => Ok (writecell t c v))
  | _ => Ok (writecell t c v)
  end).
(* luaH_new (496-505) and lua_createtable (lapi.c:800-810), OP_NEWTABLE *)
Definition luaH_new : table := mkTable [] [blank] 0 None.
Definition createtable (narr nrec : Z) : outcome table :=
  if (0 <? narr) || (0 <? nrec) then resize (newkey 2) luaH_new narr nrec else Ok luaH_new.
(* luaH_resizearray (461-464) *)
Definition resizearray (t : table) (n : Z) : outcome table :=
  resize (newkey 2) t n (if isdummy t then 0 else Z.of_nat (length (nodes t))).
(* lgc.c:165-172 removeentry: the collector marks the key of an empty entry dead *)
Definition kill (t : table) (i : Z) : outcome table :=
  bind (getnode (nodes t) i) (fun n =>
  match nkey n, nval n with
  | Live k, None =>
    if collectable k then Ok (mkTable (arr t) (setnode (nodes t) i (mkNode (Dead k) None (nnext n))) (lsize t) (lastfree t))
    else Ok t
  | _, _ => Ok t
  end).

(* ---- 196-246: traversal ---- *)
Definition match_next (k : key) (n : nodekey) : outcome bool :=
  match n with
  | NoKey => Ok false
  | Live k' => raw_eq k' k
  | Dead k' => Ok (collectable k && key_eqb k k')
  end.
Fixpoint search_next (fuel : nat) (k : key) (ns : list node) (i : Z) : outcome Z :=
  match fuel with
  | O => OutOfFuel
  | S f =>
    bind (getnode ns i) (fun n =>
    bind (match_next k (nkey n)) (fun m =>
    if m : bool then Ok i
    else if nnext n =? 0 then Err EInvalidNext
    else search_next f k ns (i + nnext n)))
  end.
(* findindex *)
Definition findindex (t : table) (k : option key) : outcome Z :=
  match k with
  | None => Ok 0
  | Some k =>
    let i := arrayindex k in
    if negb (i =? 0) && (i <=? sizearray t) then Ok i
    else bind (search_next (length (nodes t)) k (nodes t) (mainpos (lsize t) k)) (fun i => Ok (i + 1 + sizearray t))
  end.
(* luaH_next: the array part from index i on, then the nodes *)
Fixpoint next_arr (vs : list (option V)) (i : Z) : option (key * V) :=
  match vs with
  | [] => None
  | Some v :: _ => Some (KI (i + 1), v)
  | None :: r => next_arr r (i + 1)
  end.
Fixpoint next_hash (ns : list node) : outcome (option (key * V)) :=
  match ns with
  | [] => Ok None
  | n :: r =>
    match nval n with
    | None => next_hash r
    | Some v => match nkey n with Live k => Ok (Some (k, v)) | _ => UB end
    end
  end.
Definition luaH_next (t : table) (k : option key) : outcome (option (key * V)) :=
  bind (findindex t k) (fun i =>
  match next_arr (skipn (Z.to_nat i) (arr t)) i with
  | Some r => Ok (Some r)
  | None => next_hash (skipn (Z.to_nat (Z.max i (sizearray t) - sizearray t)) (nodes t))
  end).

(* ---- 774-823: the length ---- *)
Definition present (t : table) (i : Z) : outcome bool :=
  bind (luaH_getint t (s64 i)) (fun c => Ok (nonnil (readcell t c))).
(* 785-787: linear search; lua_Unsigned indices *)
Fixpoint linear (fuel : nat) (t : table) (i : Z) : outcome Z :=
  match fuel with
  | O => OutOfFuel
  | S f => bind (present t i) (fun p => if p : bool then linear f t (u64 (i + 1)) else Ok (u64 (i - 1)))
  end.
(* 790-796 *)
Fixpoint bsearch (fuel : nat) (t : table) (i j : Z) : outcome Z :=
  if u64 (j - i) <=? 1 then Ok i
  else match fuel with
       | O => OutOfFuel
       | S f => let m := u64 (i + j) / 2 in
                bind (present t m) (fun p => if p : bool then bsearch f t m j else bsearch f t i m)
       end.
(* 778-789 *)
Fixpoint unbound (fuel lfuel : nat) (t : table) (i j : Z) : outcome Z :=
  match fuel with
  | O => OutOfFuel
  | S f =>
    bind (present t j) (fun p =>
    if p : bool then
      if maxint / 2 <? j then linear lfuel t 1
      else unbound f lfuel t j (u64 (j * 2))
    else bsearch 64 t i j)
  end.
Definition unbound_search (lfuel : nat) (t : table) (j : Z) : outcome Z := unbound 65 lfuel t j (u64 (j + 1)).
(* 806-815: search in the array part, unsigned int *)
Fixpoint bsearch_arr (fuel : nat) (a : list (option V)) (i j : Z) : outcome Z :=
  if u32 (j - i) <=? 1 then Ok i
  else match fuel with
       | O => OutOfFuel
       | S f => let m := u32 (i + j) / 2 in
                match nth_error a (Z.to_nat (m - 1)) with
                | None => UB
                | Some None => bsearch_arr f a i m
                | Some (Some _) => bsearch_arr f a m j
                end
       end.
(* luaH_getn *)
Definition luaH_getn (lfuel : nat) (t : table) : outcome Z :=
  let j := sizearray t in
  if (0 <? j) && negb (nonnil (nth (Z.to_nat (j - 1)) (arr t) None)) then bsearch_arr 32 (arr t) 0 j
  else if isdummy t then Ok j
  else unbound_search lfuel t j.
End TABLE.

(* ---- a concrete main position ---- *)
(* ltable.h:54,62 hashpow2 and hashmod as indices, with hmask = 2^l - 1 (ltable.c:382-403) *)
Definition hashpow2 (l h : Z) : Z := Z.land h (2 ^ l - 1).
Definition hashmod (l n : Z) : Z := u32 n mod Z.lor (2 ^ l - 1) 1.
(* ltable.c:82-95 l_hashfloat. The float is m * 2^e with d digits in m: frexp gives m * 2^-d and
   e + d, and the product with 2^31 is truncated *)
Definition l_hashfloat (f : flt) : Z :=
  match f with
  | S754_finite s m e =>
    let d := Z.log2 (Z.pos m) + 1 in
    let n := Z.shiftl (Z.pos m) (31 - d) in
    let u := u32 (e + d + (if s then - n else n)) in
    if u <=? 2147483647 then u else 4294967295 - u
  | _ => 0
  end.
(* ltable.c:102-123 mainposition. hash is the hash of a string, the number of a boolean or the
   low bits of an address; pow2 tells the types hashed by hashpow2 *)
Definition mainposition (hash : key -> Z) (pow2 : key -> bool) (l : Z) (k : key) : Z :=
  match k with
  | KI i => hashpow2 l i
  | KF f => hashmod l (l_hashfloat f)
  | _ => if pow2 k then hashpow2 l (hash k) else hashmod l (hash k)
  end.
