(* Model of the Ravi arrays (integer[] and number[]) of ltable.c and of the functions of
   ltablib.c and lapi.c that create them.  The model is generic in the element type. *)
Require Import ZArith List Bool.
From Verif Require Import Base.
Import ListNotations.
Open Scope Z_scope.

Section RArray.
Variable V : Type.
Variable zero : V.

(* A block of memory: cells, None = not initialised.  A freed block is None. *)
Definition block := list (option V).

(* lobject.h:828-840 RaviArray; data is a position in a block.  The flags SLICE, FIXEDSIZE
   and ALLOCATED are kept, ISFLOAT only selects the element type; metatable left out. *)
Record rarr : Type := mkArr {
  alen : Z; asize : Z; is_slice : bool; is_fixed : bool; is_alloc : bool;
  blk : nat; boff : Z; parent : option nat }.

(* All the memory; an array is denoted by its index in arrs.  Collection of dead arrays is
   not part of this model. *)
Record heap : Type := mkHeap { blocks : list (option block); arrs : list rarr }.

Definition RAVI_ARRAY_MAX_INLINE : Z := 3.     (* lobject.h:821 *)

Definition load (H : heap) (b : nat) (i : Z) : outcome V :=
  if i <? 0 then UB else
  match nth_error (blocks H) b with
  | Some (Some c) => match nth_error c (Z.to_nat i) with Some (Some v) => Ok v | _ => UB end
  | _ => UB
  end.

Definition store (H : heap) (b : nat) (i : Z) (v : V) : outcome heap :=
  if i <? 0 then UB else
  match nth_error (blocks H) b with
  | Some (Some c) =>
      if Z.of_nat (length c) <=? i then UB
      else Ok (mkHeap (upd (blocks H) b (Some (upd c (Z.to_nat i) (Some v)))) (arrs H))
  | _ => UB
  end.

Definition set_arr (H : heap) (h : nat) (a : rarr) : heap :=
  mkHeap (blocks H) (upd (arrs H) h a).

(* ltable.c:805-857 ravi_resize_array for array number h; false = cannot resize.  A new
   block receives the old cells (luaM_reallocv, or memcpy from the inline storage); the old
   block is freed when it was allocated.  memset clears (size - oldsize) cells from len. *)
Definition ravi_resize_array (H : heap) (h : nat) (t : rarr) (new_size : Z) (initialize : bool)
  : outcome (heap * rarr * bool) :=
  if is_fixed t || is_slice t then Ok (H, t, false) else
  let next_size := asize t + 10 in
  let size := if new_size <? next_size
              then let s := u32 next_size in if negb (s =? next_size) then new_size else s
              else new_size in
  if size <=? asize t then Ok (H, t, false) else
  match nth_error (blocks H) (blk t) with
  | Some (Some old) =>
    let cells := firstn (Z.to_nat (asize t)) old ++ repeat None (Z.to_nat (size - asize t)) in
    let cnt := size - asize t in
    if initialize && (size <? alen t + cnt) then UB else
    let cells' := if initialize
                  then firstn (Z.to_nat (alen t)) cells ++ repeat (Some zero) (Z.to_nat cnt) ++
                       skipn (Z.to_nat (alen t + cnt)) cells
                  else cells in
    let bl := if is_alloc t then upd (blocks H) (blk t) None else blocks H in
    let t' := mkArr (alen t) size (is_slice t) (is_fixed t) true (length bl) 0 (parent t) in
    Ok (mkHeap (bl ++ [Some cells']) (upd (arrs H) h t'), t', true)
  | _ => UB
  end.

(* ltable.c:859-880 raviH_set_int, 882-903 raviH_set_float *)
Definition raviH_set (H : heap) (h : nat) (u1 : Z) (v : V) : outcome heap :=
  match nth_error (arrs H) h with
  | None => UB
  | Some t =>
    let u := u32 u1 in
    let incr_len H t := set_arr H h (mkArr (u32 (alen t + 1)) (asize t) (is_slice t) (is_fixed t)
                                           (is_alloc t) (blk t) (boff t) (parent t)) in
    if u <? alen t then store H (blk t) (boff t + u) v
    else if u =? alen t then
      if u <? asize t then store (incr_len H t) (blk t) (boff t + u) v
      else bind (ravi_resize_array H h t 0 true) (fun '(H1, t1, ok) =>
           if ok : bool then store (incr_len H1 t1) (blk t1) (boff t1 + u) v
           else Err EResize)
    else Err EBounds
  end.

(* ltable.h:187-206 raviH_set_int_inline / raviH_set_float_inline *)
Definition raviH_set_inline (H : heap) (h : nat) (key : Z) (v : V) : outcome heap :=
  match nth_error (arrs H) h with
  | None => UB
  | Some t =>
    let ukey := u32 key in
    if ukey <? alen t then store H (blk t) (boff t + ukey) v
    else raviH_set H h ukey v
  end.

(* ltable.h:165-184 raviH_get_int_inline / raviH_get_float_inline *)
Definition raviH_get_inline (H : heap) (h : nat) (key : Z) : outcome V :=
  match nth_error (arrs H) h with
  | None => UB
  | Some t =>
    let ukey := u32 key in
    if ukey <? alen t then load H (blk t) (boff t + ukey) else Err EBounds
  end.

(* ltable.h:140 raviH_getn (unsigned int) *)
Definition raviH_getn (t : rarr) : Z := u32 (alen t - 1).

(* ltable.c:506-529 raviH_new; the inline storage is a block of its own *)
Definition raviH_new (H : heap) (slice : bool) : outcome (heap * nat) :=
  let h := length (arrs H) in
  let H1 := mkHeap (blocks H ++ [Some (repeat None 3)])
              (arrs H ++ [mkArr 0 RAVI_ARRAY_MAX_INLINE slice slice false (length (blocks H)) 0 None]) in
  if slice then Ok (H1, h)
  else bind (raviH_set_inline H1 h 0 zero) (fun H2 => Ok (H2, h)).

(* ltable.c:914-916, the loop filling the array: for (i = 1; i < new_len; i++) *)
Fixpoint fill (H : heap) (b : nat) (off i : Z) (k : nat) (v : V) : outcome heap :=
  match k with
  | O => Ok H
  | S k' => bind (store H b (off + i) v) (fun H' => fill H' b off (i + 1) k' v)
  end.

(* ltable.c:905-923 raviH_new_integer_array, 925-943 raviH_new_number_array (len unsigned) *)
Definition raviH_new_array (H : heap) (len : Z) (init : V) : outcome (heap * nat) :=
  bind (raviH_new H false) (fun '(H1, h) =>
  let new_len := u32 (len + 1) in
  if new_len <? len then Err ELength else
  match nth_error (arrs H1) h with
  | None => UB
  | Some t =>
    bind (ravi_resize_array H1 h t new_len false) (fun '(H2, t2, ok) =>
    if negb ok then Err ELength else
    bind (store H2 (blk t2) (boff t2 + 0) zero) (fun H3 =>
    bind (fill H3 (blk t2) (boff t2) 1 (Z.to_nat (new_len - 1)) init) (fun H4 =>
    Ok (set_arr H4 h (mkArr new_len (asize t2) (is_slice t2) true (is_alloc t2) (blk t2) (boff t2) (parent t2)), h))))
  end).

(* lapi.c:887-922 ravi_create_slice and ltable.c:969-995 raviH_new_slice (start, len
   unsigned int) *)
Definition ravi_create_slice (H : heap) (p : nat) (start len : Z) : outcome (heap * nat) :=
  match nth_error (arrs H) p with
  | None => UB
  | Some orig =>
    let slice_len := u32 (start + len) in
    if (start <? 1) || (slice_len <=? start) || (alen orig <? slice_len) then Err EArg
    else if negb (is_fixed orig) then Err EResize
    else bind (raviH_new H true) (fun '(H1, h) =>
         let t := mkArr (u32 (len + 1)) (u32 (len + 1)) true true false
                        (blk orig) (boff orig + start - 1) (Some p) in
         Ok (set_arr H1 h t, h))
  end.

(* ltable.c:249-272 raviH_next; key None = nil.  Result None = end of the iteration. *)
Definition raviH_next (H : heap) (h : nat) (key : option Z) : outcome (option (Z * V)) :=
  match nth_error (arrs H) h with
  | None => UB
  | Some t =>
    bind (c_signed (match key with None => 0 | Some k => k end + 1)) (fun i =>
    if alen t <=? i then Ok None
    else bind (raviH_get_inline H h i) (fun v => Ok (Some (i, v))))
  end.

(* Library calls. ltablib.c:425-446: table.intarray, table.numarray and table.slice cast
   their lua_Integer arguments to int, then to unsigned int. *)
Definition create_array (H : heap) (n : Z) (init : V) : outcome (heap * nat) :=
  raviH_new_array H (u32 (s32 n)) init.
Definition create_slice (H : heap) (p : nat) (start len : Z) : outcome (heap * nat) :=
  ravi_create_slice H p (u32 (s32 start)) (u32 (s32 len)).

(* Operations a program can apply: {} typed as an array, table.intarray(n, v),
   table.slice(a, s, n), a[i], a[i] = v, #a, next(a, k). *)
Inductive aop : Type :=
| ONew
| OFixed (n : Z) (v : V)
| OSlice (h : nat) (start len : Z)
| OGet (h : nat) (i : Z)
| OSet (h : nat) (i : Z) (v : V)
| OLen (h : nat)
| ONext (h : nat) (k : option Z).
Inductive ares : Type :=
| RHandle (h : nat) | RVal (v : V) | RUnit | RInt (z : Z) | RPair (p : option (Z * V))
| RErr (e : error).

(* one operation, under pcall: an error leaves the heap as it was *)
Definition catch (H : heap) (x : outcome (heap * ares)) : outcome (heap * ares) :=
  match x with Err e => Ok (H, RErr e) | _ => x end.
Definition astep (H : heap) (o : aop) : outcome (heap * ares) :=
  catch H
  match o with
  | ONew => bind (raviH_new H false) (fun '(H', h) => Ok (H', RHandle h))
  | OFixed n v => bind (create_array H n v) (fun '(H', h) => Ok (H', RHandle h))
  | OSlice p s n => bind (create_slice H p s n) (fun '(H', h) => Ok (H', RHandle h))
  | OGet h i => bind (raviH_get_inline H h i) (fun v => Ok (H, RVal v))
  | OSet h i v => bind (raviH_set_inline H h i v) (fun H' => Ok (H', RUnit))
  | OLen h => match nth_error (arrs H) h with
              | Some t => Ok (H, RInt (raviH_getn t)) | None => UB end
  | ONext h k => bind (raviH_next H h k) (fun r => Ok (H, RPair r))
  end.
Fixpoint arun (H : heap) (l : list aop) : outcome (list ares) :=
  match l with
  | [] => Ok []
  | o :: r => bind (astep H o) (fun '(H', x) => bind (arun H' r) (fun xs => Ok (x :: xs)))
  end.
Definition empty_heap : heap := mkHeap [] [].
End RArray.
