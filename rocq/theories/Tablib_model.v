(* Model of table.insert, remove, move, concat, pack and unpack (ltablib.c) on tables without
   metamethods.  A table is a map from integer keys to values; n is the length luaL_len returns. *)
Require Import ZArith List Bool.
From Verif Require Import Base.
Import ListNotations.
Open Scope Z_scope.

Section TABLIB.
Variable V : Type.
Variable nil : V.
Definition tab := Z -> V.
Definition seti (t : tab) (i : Z) (v : V) : tab := fun x => if x =? i then v else t x.

(* 92-95: for (i = e; i > pos; i--) t[i] = t[i - 1] *)
Fixpoint shift_up (fuel : nat) (t : tab) (i pos : Z) : outcome tab :=
  if pos <? i then
    match fuel with
    | O => OutOfFuel
    | S f => bind (c_signed (i - 1)) (fun i1 => shift_up f (seti t i (t i1)) i1 pos)
    end
  else Ok t.
(* 79-104; pos is the optional second argument *)
Definition tinsert (fuel : nat) (t : tab) (n : Z) (pos : option Z) (v : V) : outcome tab :=
  bind (c_signed (n + 1)) (fun e =>
  match pos with
  | None => Ok (seti t e v)
  | Some pos =>
    if (1 <=? pos) && (pos <=? e) then bind (shift_up fuel t e pos) (fun t => Ok (seti t pos v))
    else Err EArg
  end).

(* 113-116: for ( ; pos < size; pos++) t[pos] = t[pos + 1] *)
Fixpoint shift_down (fuel : nat) (t : tab) (pos size : Z) : outcome (tab * Z) :=
  if pos <? size then
    match fuel with
    | O => OutOfFuel
    | S f => bind (c_signed (pos + 1)) (fun p1 => shift_down f (seti t pos (t p1)) p1 size)
    end
  else Ok (t, pos).
(* 107-120 *)
Definition tremove (fuel : nat) (t : tab) (n : Z) (pos : option Z) : outcome (V * tab) :=
  let pos := match pos with Some p => p | None => n end in
  bind (if pos =? n then Ok true
        else if 1 <=? pos then bind (c_signed (n + 1)) (fun e => Ok (pos <=? e)) else Ok false) (fun ok =>
  if ok : bool then
    let r := t pos in
    bind (shift_down fuel t pos n) (fun '(t, pos) => Ok (r, seti t pos nil))
  else Err EArg).

(* 146-149 and 152-155: the copies i = i0, i0+d, ... as long as c i *)
Fixpoint copy_up (fuel : nat) (src : option tab) (dst : tab) (f t n i : Z) : outcome tab :=
  if i <? n then
    match fuel with
    | O => OutOfFuel
    | S k => bind (c_signed (f + i)) (fun a => bind (c_signed (t + i)) (fun b =>
             let v := match src with Some s => s a | None => dst a end in
             copy_up k src (seti dst b v) f t n (i + 1)))
    end
  else Ok dst.
Fixpoint copy_down (fuel : nat) (src : option tab) (dst : tab) (f t i : Z) : outcome tab :=
  if 0 <=? i then
    match fuel with
    | O => OutOfFuel
    | S k => bind (c_signed (f + i)) (fun a => bind (c_signed (t + i)) (fun b =>
             let v := match src with Some s => s a | None => dst a end in
             copy_down k src (seti dst b v) f t (i - 1)))
    end
  else Ok dst.
(* 129-160.  src = None: source and destination are the same table dst.  other tells that the fifth
   argument was given, eq the answer of lua_compare for it. *)
Definition tmove (fuel : nat) (src : option tab) (dst : tab) (f e t : Z) (other eq : bool) : outcome tab :=
  if f <=? e then
    bind (if 0 <? f then Ok true else bind (c_signed (maxint + f)) (fun m => Ok (e <? m))) (fun ok =>
    if ok : bool then
      bind (c_signed (e - f)) (fun d => bind (c_signed (d + 1)) (fun n =>
      bind (c_signed (maxint - n)) (fun m => bind (c_signed (m + 1)) (fun m =>
      if t <=? m then
        if (e <? t) || (t <=? f) || (other && negb eq) then copy_up fuel src dst f t n 0
        else copy_down fuel src dst f t (n - 1)
      else Err EArg))))
    else Err EArg)
  else Ok dst.

(* 163-188; str gives the string of a string or number *)
Variable str : V -> option (list Z).
Definition addfield (t : tab) (b : list Z) (i : Z) : outcome (list Z) :=
  match str (t i) with Some s => Ok (b ++ s) | None => Err EType end.
Fixpoint concat_loop (fuel : nat) (t : tab) (sep b : list Z) (i last : Z) : outcome (list Z * Z) :=
  if i <? last then
    match fuel with
    | O => OutOfFuel
    | S f => bind (addfield t b i) (fun b => bind (c_signed (i + 1)) (fun i1 => concat_loop f t sep (b ++ sep) i1 last))
    end
  else Ok (b, i).
Definition tconcat (fuel : nat) (t : tab) (n : Z) (sep : list Z) (i last : option Z) : outcome (list Z) :=
  let last := match last with Some l => l | None => n end in
  let i := match i with Some i => i | None => 1 end in
  bind (concat_loop fuel t sep [] i last) (fun '(b, i) => if i =? last then addfield t b i else Ok b).

(* 198-208 pack: the elements 1..n, from the last to the first, and the field n *)
Fixpoint pack_loop (t : tab) (rev_args : list V) (i : Z) : tab :=
  match rev_args with [] => t | v :: r => pack_loop (seti t i v) r (i - 1) end.
Definition pack (args : list V) : tab * Z :=
  let n := Z.of_nat (length args) in (pack_loop (fun _ => nil) (rev args) n, n).

(* 211-225 unpack; room tells how many stack slots lua_checkstack grants *)
Fixpoint push_loop (fuel : nat) (t : tab) (acc : list V) (i e : Z) : outcome (list V) :=
  if i <? e then
    match fuel with
    | O => OutOfFuel
    | S f => bind (c_signed (i + 1)) (fun i1 => push_loop f t (acc ++ [t i]) i1 e)
    end
  else Ok acc.
Definition unpack (fuel : nat) (room : Z) (t : tab) (n : Z) (i e : option Z) : outcome (list V) :=
  let i := match i with Some i => i | None => 1 end in
  let e := match e with Some e => e | None => n end in
  if e <? i then Ok []
  else let k := u64 (u64 e - u64 i) in
       if (two31 - 1 <=? k) || (room <? k + 1) then Err ETooLong
       else bind (push_loop fuel t [] i e) (fun l => Ok (l ++ [t e])).
End TABLIB.
