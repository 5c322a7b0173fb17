(* Model of string interning: lstring.c, and the parts of lgc.c that colour, free and count strings.
   Strings are objects at addresses, chained through hnext; the string table is a vector of addresses,
   0 is NULL. Allocation succeeds and gives the address named in the operation. *)
Require Import ZArith List Bool.
From Verif Require Import Base Str.
Import ListNotations.
Open Scope Z_scope.

(* lstate.h, lobject.h TString: contents, hash, marked, u.hnext, and whether the tag is LUA_TLNGSTR *)
Record tstr := TStr { t_str : list Z; t_hash : Z; t_marked : Z; t_next : Z; t_lng : bool }.
Definition set_marked (m : Z) (t : tstr) : tstr := TStr (t_str t) (t_hash t) m (t_next t) (t_lng t).
Definition set_next (n : Z) (t : tstr) : tstr := TStr (t_str t) (t_hash t) (t_marked t) n (t_lng t).
Definition heap : Type := Z -> option tstr.
Definition put (h : heap) (a : Z) (o : option tstr) : heap := fun x => if x =? a then o else h x.
(* global_State: strt, currentwhite, strcache (STRCACHE_N rows of STRCACHE_M), memerrmsg *)
Record st := St { s_heap : heap; s_hash : list Z; s_nuse : Z; s_white : Z; s_cache : list (list Z); s_memerr : Z }.
Definition deref (h : heap) (a : Z) : outcome tstr := match h a with Some o => Ok o | None => UB end.
Definition update (h : heap) (a : Z) (f : tstr -> tstr) : outcome heap := bind (deref h a) (fun o => Ok (put h a (Some (f o)))).

Definition LUAI_MAXSHORTLEN : Z := 40.
Definition MINSTRTABSIZE : Z := 128.
Definition MAX_INT : Z := 2147483647.
Definition STRCACHE_N : Z := 53.
Definition STRCACHE_M : nat := 2.

(* lgc.h:72-117 *)
Definition WHITEBITS : Z := 24.
Definition BLACK : Z := 32.
Definition AGEBITS : Z := 7.
Definition maskcolors : Z := 56.
Definition maskgcbits : Z := 63.
Definition without (m bits : Z) : Z := Z.land m (255 - bits).       (* m & ~bits, a byte *)
Definition is_white (m : Z) : bool := negb (Z.land m WHITEBITS =? 0).
Definition otherwhite (w : Z) : Z := Z.lxor w WHITEBITS.
Definition isdead (w m : Z) : bool := negb (Z.land m (otherwhite w) =? 0).
Definition luaC_white (w : Z) : Z := Z.land w WHITEBITS.
Definition changewhite (m : Z) : Z := Z.lxor m WHITEBITS.
Definition set2gray (m : Z) : Z := without m maskcolors.
Definition set2black (m : Z) : Z := Z.lor (without m WHITEBITS) BLACK.
Definition getage (m : Z) : Z := Z.land m AGEBITS.
Definition setage (m a : Z) : Z := Z.lor (without m AGEBITS) a.
Definition G_OLD : Z := 4.

(* lstring.c:50-56 *)
Fixpoint hash_loop (fuel : nat) (s : list Z) (l step h : Z) : outcome Z :=
  match fuel with
  | O => OutOfFuel
  | S fuel =>
    if l <? step then Ok h
    else bind (sbyte s (l - 1)) (fun b => hash_loop fuel s (l - step) step (Z.lxor h (u32 (u32 (Z.shiftl h 5) + Z.shiftr h 2 + b))))
  end.
Definition luaS_hash (s : list Z) (seed : Z) : outcome Z :=
  hash_loop (S (length s)) s (slen s) (Z.shiftr (slen s) 5 + 1) (Z.lxor seed (u32 (slen s))).
(* lobject.h:850 *)
Definition lmod (s size : Z) : Z := Z.land s (size - 1).

(* the vector of chains *)
Definition vget (v : list Z) (i : Z) : outcome Z := if (0 <=? i) && (i <? Z.of_nat (length v)) then Ok (nth (Z.to_nat i) v 0) else UB.
Definition vset (v : list Z) (i x : Z) : outcome (list Z) :=
  if (0 <=? i) && (i <? Z.of_nat (length v)) then Ok (firstn (Z.to_nat i) v ++ x :: skipn (S (Z.to_nat i)) v) else UB.

(* 72-98 luaS_resize: the inner while over one chain *)
Fixpoint rehash_chain (fuel : nat) (h : heap) (v : list Z) (p newsize : Z) : outcome (heap * list Z) :=
  if p =? 0 then Ok (h, v)
  else match fuel with
       | O => OutOfFuel
       | S fuel =>
         bind (deref h p) (fun o =>
         let hnext := t_next o in
         let i := lmod (t_hash o) newsize in
         bind (vget v i) (fun q =>
         bind (update h p (set_next q)) (fun h =>
         bind (vset v i p) (fun v => rehash_chain fuel h v hnext newsize))))
       end.
(* k chains from chain i on; no chain is longer than fuel *)
Fixpoint rehash (k fuel : nat) (h : heap) (v : list Z) (i newsize : Z) : outcome (heap * list Z) :=
  match k with
  | O => Ok (h, v)
  | S k => bind (vget v i) (fun p => bind (vset v i 0) (fun v => bind (rehash_chain fuel h v p newsize) (fun '(h, v) => rehash k fuel h v (i + 1) newsize)))
  end.
Definition luaS_resize (s : st) (newsize : Z) : outcome st :=
  let size := Z.of_nat (length (s_hash s)) in
  let v := if size <? newsize then s_hash s ++ repeat 0 (Z.to_nat (newsize - size)) else s_hash s in
  bind (rehash (Z.to_nat size) (Z.to_nat (s_nuse s)) (s_heap s) v 0 newsize) (fun '(h, v) =>
  let v := if newsize <? size then firstn (Z.to_nat newsize) v else v in
  Ok (St h v (s_nuse s) (s_white s) (s_cache s) (s_memerr s))).

(* 133-151 createstrobj with luaC_newobj; the address is fresh *)
Definition createstrobj (s : st) (a : Z) (str : list Z) (lng : bool) (h next : Z) : st :=
  St (put (s_heap s) a (Some (TStr str h (luaC_white (s_white s)) next lng))) (s_hash s) (s_nuse s) (s_white s) (s_cache s) (s_memerr s).

Definition eq_str (a b : list Z) : bool := if list_eq_dec Z.eq_dec a b then true else false.
(* 172-193 internshrstr: the search; lengths are compared before memcmp *)
Fixpoint search_chain (fuel : nat) (h : heap) (str : list Z) (p : Z) : outcome Z :=
  if p =? 0 then Ok 0
  else match fuel with
       | O => OutOfFuel
       | S fuel => bind (deref h p) (fun o => if (slen str =? slen (t_str o)) && eq_str str (t_str o) then Ok p else search_chain fuel h str (t_next o))
       end.
Section SEED.
Variable seed : Z.
Definition internshrstr (s : st) (str : list Z) (a : Z) : outcome (Z * st) :=
  bind (luaS_hash str seed) (fun h =>
  let size := Z.of_nat (length (s_hash s)) in
  bind (vget (s_hash s) (lmod h size)) (fun list =>
  bind (search_chain (Z.to_nat (s_nuse s)) (s_heap s) str list) (fun ts =>
  if negb (ts =? 0) then
    bind (deref (s_heap s) ts) (fun o =>
    if isdead (s_white s) (t_marked o)
    then Ok (ts, St (put (s_heap s) ts (Some (set_marked (changewhite (t_marked o)) o))) (s_hash s) (s_nuse s) (s_white s) (s_cache s) (s_memerr s))
    else Ok (ts, s))
  else
    bind (if (size <=? s_nuse s) && (size <=? MAX_INT / 2) then luaS_resize s (size * 2) else Ok s) (fun s =>
    let i := lmod h (Z.of_nat (length (s_hash s))) in
    bind (vget (s_hash s) i) (fun first =>
    let s := createstrobj s a str false h first in
    bind (vset (s_hash s) i a) (fun v =>
    Ok (a, St (s_heap s) v (s_nuse s + 1) (s_white s) (s_cache s) (s_memerr s)))))))).
(* 202-213 *)
Definition luaS_newlstr (s : st) (str : list Z) (a : Z) : outcome (Z * st) :=
  if slen str <=? LUAI_MAXSHORTLEN then internshrstr s str a
  else Ok (a, createstrobj s a str true seed 0).

(* strcmp(a, b) == 0: up to the first zero *)
Fixpoint cstr (s : list Z) : list Z := match s with [] => [] | c :: s => if c =? 0 then [] else c :: cstr s end.
(* 222-237 luaS_new; ptr is the address of the text, which ends at its first zero *)
Fixpoint cache_hit (h : heap) (str : list Z) (row : list Z) : outcome (option Z) :=
  match row with
  | [] => Ok None
  | p :: row => bind (deref h p) (fun o => if eq_str (cstr str) (cstr (t_str o)) then Ok (Some p) else cache_hit h str row)
  end.
Definition set_row (c : list (list Z)) (i : Z) (row : list Z) : list (list Z) := firstn (Z.to_nat i) c ++ row :: skipn (S (Z.to_nat i)) c.
Definition luaS_new (s : st) (str : list Z) (ptr a : Z) : outcome (Z * st) :=
  let i := ptr mod STRCACHE_N in
  let row := nth (Z.to_nat i) (s_cache s) [] in
  bind (cache_hit (s_heap s) str row) (fun o =>
  match o with
  | Some p => Ok (p, s)
  | None =>
    bind (luaS_newlstr s (cstr str) a) (fun '(p, s) =>
    Ok (p, St (s_heap s) (s_hash s) (s_nuse s) (s_white s) (set_row (s_cache s) i (p :: removelast row)) (s_memerr s)))
  end).

(* 155-162 luaS_remove: follows the chain to ts; prev is the object whose hnext is looked at, 0 for the vector *)
Fixpoint remove_loop (fuel : nat) (h : heap) (prev p ts : Z) : outcome Z :=
  if p =? ts then Ok prev
  else match fuel with O => OutOfFuel | S fuel => bind (deref h p) (fun o => remove_loop fuel h p (t_next o) ts) end.
Definition luaS_remove (s : st) (ts : Z) : outcome st :=
  bind (deref (s_heap s) ts) (fun o =>
  let i := lmod (t_hash o) (Z.of_nat (length (s_hash s))) in
  bind (vget (s_hash s) i) (fun p =>
  bind (remove_loop (Z.to_nat (s_nuse s)) (s_heap s) 0 p ts) (fun prev =>
  if prev =? 0 then bind (vset (s_hash s) i (t_next o)) (fun v => Ok (St (s_heap s) v (s_nuse s - 1) (s_white s) (s_cache s) (s_memerr s)))
  else bind (update (s_heap s) prev (set_next (t_next o))) (fun h => Ok (St h (s_hash s) (s_nuse s - 1) (s_white s) (s_cache s) (s_memerr s)))))).
(* lgc.c:897-903 freeobj for strings *)
Definition freeobj (s : st) (a : Z) : outcome st :=
  bind (deref (s_heap s) a) (fun o =>
  bind (if t_lng o then Ok s else luaS_remove s a) (fun s =>
  Ok (St (put (s_heap s) a None) (s_hash s) (s_nuse s) (s_white s) (s_cache s) (s_memerr s)))).

Definition recolour (s : st) (a : Z) (f : Z -> Z) : outcome st :=
  bind (update (s_heap s) a (fun o => set_marked (f (t_marked o)) o)) (fun h => Ok (St h (s_hash s) (s_nuse s) (s_white s) (s_cache s) (s_memerr s))).
(* lgc.c sweeplist, one object *)
Definition sweep1 (s : st) (a : Z) : outcome st :=
  bind (deref (s_heap s) a) (fun o =>
  if isdead (s_white s) (t_marked o) then freeobj s a
  else recolour s a (fun m => Z.lor (without m maskgcbits) (luaC_white (s_white s)))).
(* lgc.c sweepgen, one object *)
Definition nextage (a : Z) : Z := nth (Z.to_nat a) [1; 3; 3; 4; 4; 5; 6] 0.          (* an array of 7 *)
Definition sweepgen1 (s : st) (a : Z) : outcome st :=
  bind (deref (s_heap s) a) (fun o =>
  if is_white (t_marked o) then freeobj s a
  else if 7 <=? getage (t_marked o) then UB
  else recolour s a (fun m => if getage m =? 0 then Z.lor (Z.lor (without m maskgcbits) 1) (luaC_white (s_white s)) else setage m (nextage (getage m)))).
(* 105-112 luaS_clearcache *)
Fixpoint clear_row (h : heap) (fixed : Z) (row : list Z) : outcome (list Z) :=
  match row with
  | [] => Ok []
  | p :: row => bind (deref h p) (fun o => bind (clear_row h fixed row) (fun r => Ok ((if is_white (t_marked o) then fixed else p) :: r)))
  end.
Fixpoint clear_rows (h : heap) (fixed : Z) (c : list (list Z)) : outcome (list (list Z)) :=
  match c with [] => Ok [] | r :: c => bind (clear_row h fixed r) (fun r => bind (clear_rows h fixed c) (fun c => Ok (r :: c))) end.
(* lgc.c:1651-1652, the end of atomic *)
Definition end_atomic (s : st) : outcome st :=
  bind (clear_rows (s_heap s) (s_memerr s) (s_cache s)) (fun c =>
  Ok (St (s_heap s) (s_hash s) (s_nuse s) (otherwhite (s_white s)) c (s_memerr s))).
(* lgc.c:963-971 *)
Definition checkSizes (s : st) : outcome st :=
  let size := Z.of_nat (length (s_hash s)) in
  if s_nuse s <? size / 4 then luaS_resize s (size / 2) else Ok s.

(* lstate.c:388, lstring.c:118-128 luaS_init and luaC_fix *)
Definition MEMERRMSG : list Z := [110; 111; 116; 32; 101; 110; 111; 117; 103; 104; 32; 109; 101; 109; 111; 114; 121].
Definition luaS_init (a : Z) : outcome st :=
  bind (luaS_resize (St (fun _ => None) [] 0 8 [] 0) MINSTRTABSIZE) (fun s =>
  bind (luaS_newlstr s MEMERRMSG a) (fun '(p, s) =>
  bind (recolour s p (fun m => setage (set2gray m) G_OLD)) (fun s =>
  Ok (St (s_heap s) (s_hash s) (s_nuse s) (s_white s) (repeat (repeat p STRCACHE_M) (Z.to_nat STRCACHE_N)) p)))).

(* what can happen to strings *)
Inductive op :=
| New (str : list Z) (a : Z)                (* luaS_newlstr *)
| NewC (str : list Z) (ptr a : Z)           (* luaS_new *)
| Gray (a : Z) | Black (a : Z)              (* marking, lgc.c *)
| Sweep (a : Z) | SweepGen (a : Z)          (* a step of the sweep of either mode *)
| Flip                                      (* the end of atomic *)
| CheckSizes.
Definition step (s : st) (o : op) : outcome st :=
  match o with
  | New str a => bind (luaS_newlstr s str a) (fun '(_, s) => Ok s)
  | NewC str ptr a => bind (luaS_new s str ptr a) (fun '(_, s) => Ok s)
  | Gray a => recolour s a set2gray
  | Black a => recolour s a set2black
  | Sweep a => sweep1 s a
  | SweepGen a => sweepgen1 s a
  | Flip => end_atomic s
  | CheckSizes => checkSizes s
  end.
Fixpoint run (s : st) (l : list op) : outcome st := match l with [] => Ok s | o :: l => bind (step s o) (fun s => run s l) end.
End SEED.

(* lstring.c:42-48 luaS_eqlngstr and lvm.c:751-752 luaV_equalobj for two strings *)
Definition eqlngstr (a : Z) (o : tstr) (b : Z) (q : tstr) : bool := (a =? b) || ((slen (t_str o) =? slen (t_str q)) && eq_str (t_str o) (t_str q)).
Definition equalobj (a : Z) (o : tstr) (b : Z) (q : tstr) : bool :=
  if negb (Bool.eqb (t_lng o) (t_lng q)) then false else if t_lng o then eqlngstr a o b q else a =? b.
