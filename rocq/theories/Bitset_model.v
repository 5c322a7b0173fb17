(* Model of ravicomp/src/bitset.c and bitset.h. Sizes are unbounded (size_t overflow would need more memory
   than there is); allocation succeeds. *)
Require Import ZArith List Bool.
From Verif Require Import Base.
Import ListNotations.
Open Scope Z_scope.

(* bitset.h:47-51: els_num, and varr of which size is the length *)
Record bs := mkBs { els : nat; varr : list Z }.
Definition W : Z := 64.                              (* bitset.c:59 *)
Definition words (bits : Z) : nat := Z.to_nat ((bits + W - 1) / W).
Definition rd (a : list Z) (i : Z) : outcome Z := match nth_error a (Z.to_nat i) with Some x => Ok x | None => UB end.
Definition wr (a : list Z) (i : Z) (x : Z) : outcome (list Z) := if (Z.to_nat i <? length a)%nat then Ok (upd a (Z.to_nat i) x) else UB.

(* bitset.c:61-65 *)
Definition create2 (bits : Z) : bs := mkBs 0 (repeat 0 (words bits)).
(* bitset.c:72-81; raviX_realloc_array (allocate.c:58-75) zeroes what it adds *)
Definition bitset_expand (b : bs) (nb : Z) : bs :=
  let new_len := words nb in
  if (els b <? new_len)%nat then mkBs new_len (varr b ++ repeat 0 (new_len - length (varr b))) else b.
(* bitset.h:58-61 *)
Definition clear (b : bs) : bs := mkBs 0 (varr b).
(* bitset.c:83-91 *)
Definition bit_p (b : bs) (nb : Z) : outcome bool :=
  if W * Z.of_nat (els b) <=? nb then Ok false
  else bind (rd (varr b) (nb / W)) (fun x => Ok (Z.testbit x (nb mod W))).
(* bitset.c:96-109 *)
Definition set_bit (b : bs) (bit : Z) : outcome (bs * bool) :=
  let b := bitset_expand b (bit + 1) in
  bind (rd (varr b) (bit / W)) (fun x =>
  bind (wr (varr b) (bit / W) (Z.lor x (Z.shiftl 1 (bit mod W)))) (fun a =>
  Ok (mkBs (els b) a, negb (Z.testbit x (bit mod W))))).
(* bitset.c:111-122 *)
Definition clear_bit (b : bs) (nb : Z) : outcome (bs * bool) :=
  if W * Z.of_nat (els b) <=? nb then Ok (b, false)
  else
    bind (rd (varr b) (nb / W)) (fun x =>
    bind (wr (varr b) (nb / W) (Z.land x (u64 (Z.lnot (u64 (Z.shiftl 1 (nb mod W))))))) (fun a =>
    Ok (mkBs (els b) a, Z.testbit x (nb mod W)))).
(* bitset.c:124-149 *)
Fixpoint range_loop (fuel : nat) (a : list Z) (nb len : Z) (set_p res : bool) : outcome (list Z * bool) :=
  match fuel with
  | O => OutOfFuel
  | S k =>
    if len <=? 0 then Ok (a, res)
    else
      let nw := nb / W in
      let lsh := nb mod W in
      let rsh := if W - lsh <=? len then 0 else W - (nb + len) mod W in
      let mask := u64 (Z.shiftl (Z.shiftr (two64 - 1) (rsh + lsh)) lsh) in
      bind (rd a nw) (fun x =>
      let changed := negb (Z.land (if set_p then u64 (Z.lnot x) else x) mask =? 0) in
      bind (wr a nw (if set_p then Z.lor x mask else Z.land x (u64 (Z.lnot mask)))) (fun a =>
      let range_len := W - rsh - lsh in
      range_loop k a (nb + range_len) (len - range_len) set_p (res || changed)))
  end.
Definition set_or_clear_range (b : bs) (nb len : Z) (set_p : bool) : outcome (bs * bool) :=
  let b := bitset_expand b (nb + len) in
  bind (range_loop (S (Z.to_nat len)) (varr b) nb len set_p false) (fun '(a, r) => Ok (mkBs (els b) a, r)).
(* bitset.c:151-162; memcpy of the used words of src *)
Definition copy (dst src : bs) : outcome bs :=
  let d := if (els src <=? els dst)%nat then mkBs (els src) (varr dst) else bitset_expand dst (Z.of_nat (els src) * W) in
  if (els src <=? length (varr src))%nat && (els src <=? length (varr d))%nat
  then Ok (mkBs (els d) (firstn (els src) (varr src) ++ skipn (els src) (varr d))) else UB.
(* bitset.c:164-185 *)
Fixpoint all_zero (k : nat) (a : list Z) (i : nat) : outcome bool :=
  match k with
  | O => Ok true
  | S k => bind (rd a (Z.of_nat i)) (fun x => if x =? 0 then all_zero k a (S i) else Ok false)
  end.
Definition memcmp (a b : list Z) (n : nat) : outcome bool :=
  if (n <=? length a)%nat && (n <=? length b)%nat then Ok (if list_eq_dec Z.eq_dec (firstn n a) (firstn n b) then true else false) else UB.
Definition equal_p (b1 b2 : bs) : outcome bool :=
  let '(b1, b2) := if (els b2 <? els b1)%nat then (b2, b1) else (b1, b2) in
  bind (memcmp (varr b1) (varr b2) (els b1)) (fun e => if e then all_zero (els b2 - els b1) (varr b2) (els b1) else Ok false).
(* bitset.c:187-197 *)
Fixpoint inter_loop (k : nat) (a b : list Z) (i : nat) : outcome bool :=
  match k with
  | O => Ok false
  | S k => bind (rd a (Z.of_nat i)) (fun x => bind (rd b (Z.of_nat i)) (fun y =>
           if Z.land x y =? 0 then inter_loop k a b (S i) else Ok true))
  end.
Definition intersect_p (b1 b2 : bs) : outcome bool := inter_loop (Nat.min (els b1) (els b2)) (varr b1) (varr b2) 0.
(* bitset.c:199-206 *)
Definition empty_p (b : bs) : outcome bool := all_zero (els b) (varr b) 0.
(* bitset.c:218-230 *)
Fixpoint count_word (fuel : nat) (el : Z) (count : Z) : Z :=
  match fuel with
  | O => count
  | S k => if el =? 0 then count else count_word k (Z.shiftr el 1) (if Z.odd el then count + 1 else count)
  end.
Fixpoint count_loop (k : nat) (a : list Z) (i : nat) (count : Z) : outcome Z :=
  match k with
  | O => Ok count
  | S k => bind (rd a (Z.of_nat i)) (fun x => count_loop k a (S i) (count_word 64 x count))
  end.
Definition bit_count (b : bs) : outcome Z := count_loop (els b) (varr b) 0 0.

(* several bit sets, by name; the same set may be the destination and a source *)
Definition store := Z -> bs.
Definition put (st : store) (d : Z) (b : bs) : store := fun x => if x =? d then b else st x.
(* the loop of bitset.c:245-252 and 272-280: f i a computes op on the words i of the sources, where a
   is the current contents of dst *)
Fixpoint op_loop (k : nat) (f : nat -> list Z -> outcome Z) (a : list Z) (i : nat) (bound : nat) (chg : bool) : outcome (list Z * nat * bool) :=
  match k with
  | O => Ok (a, bound, chg)
  | S k =>
    bind (rd a (Z.of_nat i)) (fun old =>
    bind (f i a) (fun x =>
    bind (wr a (Z.of_nat i) x) (fun a =>
    op_loop k f a (S i) (if x =? 0 then bound else S i) (chg || negb (old =? x)))))
  end.
(* word i of the source s while the destination d holds a; len is the els_num of s read before the loop *)
Definition src (st : store) (d s : Z) (len : nat) (i : nat) (a : list Z) : outcome Z :=
  if (len <=? i)%nat then Ok 0 else rd (if s =? d then a else varr (st s)) (Z.of_nat i).
(* bitset.c:208-210: the parameters are 64-bit words, so are these lengths *)
Definition max2 (a b : nat) : nat := if (a <? b)%nat then b else a.
(* bitset.c:212-215 *)
Definition max3 (a b c : nat) : nat := if (a <=? b)%nat then (if (b <? c)%nat then c else b) else (if (a <? c)%nat then c else a).
(* bitset.c:232-255 *)
Definition op2 (st : store) (d s1 s2 : Z) (op : Z -> Z -> Z) : outcome (store * bool) :=
  let l1 := els (st s1) in let l2 := els (st s2) in
  let len := max2 l1 l2 in
  let b := bitset_expand (st d) (Z.of_nat len * W) in
  bind (op_loop len (fun i a => bind (src st d s1 l1 i a) (fun x => bind (src st d s2 l2 i a) (fun y => Ok (op x y)))) (varr b) 0 0 false)
    (fun '(a, bound, chg) => Ok (put st d (mkBs bound a), chg)).
(* bitset.c:257-283 *)
Definition op3 (st : store) (d s1 s2 s3 : Z) (op : Z -> Z -> Z -> Z) : outcome (store * bool) :=
  let l1 := els (st s1) in let l2 := els (st s2) in let l3 := els (st s3) in
  let len := max3 l1 l2 l3 in
  let b := bitset_expand (st d) (Z.of_nat len * W) in
  bind (op_loop len (fun i a => bind (src st d s1 l1 i a) (fun x => bind (src st d s2 l2 i a) (fun y => bind (src st d s3 l3 i a) (fun z => Ok (op x y z))))) (varr b) 0 0 false)
    (fun '(a, bound, chg) => Ok (put st d (mkBs bound a), chg)).
(* bitset.h:79-111 *)
Definition el_and (x y : Z) : Z := Z.land x y.
Definition el_and_compl (x y : Z) : Z := Z.land x (u64 (Z.lnot y)).
Definition el_ior (x y : Z) : Z := Z.lor x y.
Definition el_ior_and (x y z : Z) : Z := Z.lor x (Z.land y z).
Definition el_ior_and_compl (x y z : Z) : Z := Z.lor x (Z.land y (u64 (Z.lnot z))).

(* bitset.c:285-299: the iterator; nbit is the position where it continues *)
Fixpoint iter_word (fuel : nat) (el nbit : Z) : option Z :=
  match fuel with
  | O => None
  | S k => if el =? 0 then None else if Z.odd el then Some nbit else iter_word k (Z.shiftr el 1) (nbit + 1)
  end.
Fixpoint iter_loop (k : nat) (a : list Z) (nel nbit : Z) : outcome (option Z) :=
  match k with
  | O => Ok None
  | S k =>
    bind (rd a nel) (fun el =>
    match (if el =? 0 then None else iter_word 65 (Z.shiftr el (nbit mod W)) nbit) with
    | Some n => Ok (Some n)
    | None => iter_loop k a (nel + 1) ((nel + 1) * W)
    end)
  end.
(* the bit found; the iterator continues after it *)
Definition iterator_next (b : bs) (nbit : Z) : outcome (option Z) :=
  iter_loop (els b - Z.to_nat (nbit / W)) (varr b) (nbit / W) nbit.
(* FOREACH_BITSET_BIT, bitset.h:123-125 *)
Fixpoint foreach (fuel : nat) (b : bs) (nbit : Z) : outcome (list Z) :=
  match fuel with
  | O => OutOfFuel
  | S k => bind (iterator_next b nbit) (fun r =>
           match r with None => Ok [] | Some n => bind (foreach k b (n + 1)) (fun l => Ok (n :: l)) end)
  end.
Definition bits (b : bs) : outcome (list Z) := foreach (S (els b * 64)) b 0.

(* operations on the store *)
Inductive op :=
| OCreate (d bits : Z) | OSet (d n : Z) | OClr (d n : Z) | ORange (d n len : Z) (set_p : bool) | OClear (d : Z) | OCopy (d s : Z)
| OAnd (d s1 s2 : Z) | OAndCompl (d s1 s2 : Z) | OIor (d s1 s2 : Z) | OIorAnd (d s1 s2 s3 : Z) | OIorAndCompl (d s1 s2 s3 : Z)
| OBit (d n : Z) | OEqual (d s : Z) | OIntersect (d s : Z) | OEmpty (d : Z) | OCount (d : Z) | OForeach (d : Z).
Inductive ans := ANone | ABool (b : bool) | ANum (n : Z) | AList (l : list Z).
Definition on (st : store) (d : Z) (r : outcome (bs * bool)) : outcome (store * ans) := bind r (fun '(b, c) => Ok (put st d b, ABool c)).
Definition ret (r : outcome (store * bool)) : outcome (store * ans) := bind r (fun '(st, c) => Ok (st, ABool c)).
Definition ask {A} (st : store) (f : A -> ans) (r : outcome A) : outcome (store * ans) := bind r (fun b => Ok (st, f b)).
Definition step (st : store) (o : op) : outcome (store * ans) :=
  match o with
  | OCreate d n => Ok (put st d (create2 n), ANone)
  | OSet d n => on st d (set_bit (st d) n)
  | OClr d n => on st d (clear_bit (st d) n)
  | ORange d n len s => on st d (set_or_clear_range (st d) n len s)
  | OClear d => Ok (put st d (clear (st d)), ANone)
  | OCopy d s => bind (copy (st d) (st s)) (fun b => Ok (put st d b, ANone))
  | OAnd d s1 s2 => ret (op2 st d s1 s2 el_and)
  | OAndCompl d s1 s2 => ret (op2 st d s1 s2 el_and_compl)
  | OIor d s1 s2 => ret (op2 st d s1 s2 el_ior)
  | OIorAnd d s1 s2 s3 => ret (op3 st d s1 s2 s3 el_ior_and)
  | OIorAndCompl d s1 s2 s3 => ret (op3 st d s1 s2 s3 el_ior_and_compl)
  | OBit d n => ask st ABool (bit_p (st d) n)
  | OEqual d s => ask st ABool (equal_p (st d) (st s))
  | OIntersect d s => ask st ABool (intersect_p (st d) (st s))
  | OEmpty d => ask st ABool (empty_p (st d))
  | OCount d => ask st ANum (bit_count (st d))
  | OForeach d => ask st AList (bits (st d))
  end.
Fixpoint run (st : store) (l : list op) : outcome (list ans) :=
  match l with
  | [] => Ok []
  | o :: r => bind (step st o) (fun '(st, a) => bind (run st r) (fun l => Ok (a :: l)))
  end.
Definition initial : store := fun _ => create2 0.
