(* Model of the stack manipulation functions of lapi.c.  A call frame is the list of the
   values from ci->func+1 to top-1; V is the type of values. *)
Require Import ZArith List Bool.
From Verif Require Import Base.
Import ListNotations.
Open Scope Z_scope.

Section Api.
Variable V : Type.
Variable nil_v : V.

Definition LUAI_MAXSTACK : Z := 1000000.             (* luaconf.h:754 *)
Definition LUA_REGISTRYINDEX : Z := - LUAI_MAXSTACK - 1000.   (* lua.h:42 *)
Definition ispseudo (i : Z) : bool := i <=? LUA_REGISTRYINDEX.   (* lapi.c:50 *)
Definition top (st : list V) : Z := Z.of_nat (length st).

(* lapi.c:64-89 index2addr, stack indices only: None = NONVALIDVALUE; a violated
   api_check is undefined *)
Definition index2addr (st : list V) (idx : Z) : outcome (option Z) :=
  if 0 <? idx then Ok (if top st <? idx then None else Some (idx - 1))
  else if ispseudo idx then UB
  else if (idx =? 0) || (top st <? - idx) then UB
  else Ok (Some (top st + idx)).

(* lapi.c:160-164 lua_absindex *)
Definition lua_absindex (st : list V) (idx : Z) : Z :=
  if (0 <? idx) || ispseudo idx then idx else top st + 1 + idx.

Definition rd (st : list V) (p : Z) : outcome V :=
  if p <? 0 then UB else match nth_error st (Z.to_nat p) with Some v => Ok v | None => UB end.
Definition wr (st : list V) (p : Z) (v : V) : outcome (list V) :=
  if (p <? 0) || (top st <=? p) then UB else Ok (upd st (Z.to_nat p) v).

(* lapi.c:198-205 reverse *)
Fixpoint reverse (fuel : nat) (st : list V) (from to : Z) : outcome (list V) :=
  if negb (from <? to) then Ok st else
  match fuel with
  | O => OutOfFuel
  | S f =>
    bind (rd st from) (fun temp =>
    bind (rd st to) (fun b =>
    bind (wr st from b) (fun st1 =>
    bind (wr st1 to temp) (fun st2 => reverse f st2 (from + 1) (to - 1)))))
  end.

(* lapi.c:212-224 lua_rotate *)
Definition lua_rotate (st : list V) (idx n : Z) : outcome (list V) :=
  let t := top st - 1 in
  bind (index2addr st idx) (fun o =>
  match o with
  | None => UB
  | Some p =>
    if t - p + 1 <? Z.abs n then UB else
    let m := if 0 <=? n then t - n else p - n - 1 in
    bind (reverse (length st) st p m) (fun st1 =>
    bind (reverse (length st) st1 (m + 1) t) (fun st2 =>
    reverse (length st) st2 p t))
  end).

(* lapi.c:175-191 lua_settop; the stack limit is not modelled *)
Definition lua_settop (st : list V) (idx : Z) : outcome (list V) :=
  if 0 <=? idx then
    Ok (firstn (Z.to_nat idx) st ++ repeat nil_v (Z.to_nat (idx - top st)))
  else if top st <? - (idx + 1) then UB
  else Ok (firstn (Z.to_nat (top st + (idx + 1))) st).

(* lapi.c:227-241 lua_copy, stack indices *)
Definition lua_copy (st : list V) (fromidx toidx : Z) : outcome (list V) :=
  bind (index2addr st fromidx) (fun f =>
  bind (index2addr st toidx) (fun t =>
  match t with
  | None => UB
  | Some tp => bind (match f with None => Ok nil_v | Some fp => rd st fp end) (fun v => wr st tp v)
  end)).

(* lapi.c:244-249 lua_pushvalue *)
Definition lua_pushvalue (st : list V) (idx : Z) : outcome (list V) :=
  bind (index2addr st idx) (fun f =>
  bind (match f with None => Ok nil_v | Some fp => rd st fp end) (fun v => Ok (st ++ [v]))).

(* lua.h:438, 463-467 *)
Definition lua_pop (st : list V) (n : Z) : outcome (list V) := lua_settop st (- n - 1).
Definition lua_insert (st : list V) (idx : Z) : outcome (list V) := lua_rotate st idx 1.
Definition lua_remove (st : list V) (idx : Z) : outcome (list V) :=
  bind (lua_rotate st idx (-1)) (fun st' => lua_pop st' 1).
Definition lua_replace (st : list V) (idx : Z) : outcome (list V) :=
  bind (lua_copy st (-1) idx) (fun st' => lua_pop st' 1).

(* lapi.c:123-137 lua_xmove between two different threads *)
Fixpoint xmove_loop (from : list V) (p : Z) (k : nat) (to : list V) : outcome (list V) :=
  match k with
  | O => Ok to
  | S k' => bind (rd from p) (fun v => xmove_loop from (p + 1) k' (to ++ [v]))
  end.
Definition lua_xmove (from to : list V) (n : Z) : outcome (list V * list V) :=
  if (n <? 0) || (top from <? n) then UB else
  bind (xmove_loop from (top from - n) (Z.to_nat n) to) (fun to' =>
  Ok (firstn (Z.to_nat (top from - n)) from, to')).
End Api.
