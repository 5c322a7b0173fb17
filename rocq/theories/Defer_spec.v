(* The meaning of defer: every activation keeps its pending deferred functions, the newest first; leaving a block runs
   those of the block, returning or failing runs them all. *)
Require Import ZArith List Bool.
From Verif Require Import Base Defer_model.
Import ListNotations.
Open Scope Z_scope.

(* an error is its message; there are two fixed messages *)
Definition message (status : Z) (v : value) : value := if status =? LUA_ERRMEM then MEMERRMSG else if status =? LUA_ERRERR then ERRERRMSG else v.
Inductive dres := DRet (vs : list value) | DErr (v : value).
(* what running a function does: events, the number of functions registered so far, result *)
Definition den : Type := nat -> list event * nat * dres.
Inductive entry := EVal (v : value) (captured : bool) | EDef (k : nat) (f : den).

(* left by an error: all pending functions run and get its message, their own errors change nothing *)
Fixpoint close_err (es : list entry) (v : value) (n : nat) : list event * nat :=
  match es with
  | [] => ([], n)
  | EVal _ _ :: es => close_err es v n
  | EDef k f :: es => let '(t1, n1, _) := f n in let '(t2, n2) := close_err es v n1 in (Run k v :: t1 ++ t2, n2)
  end.
(* left normally: they get nil; if one fails the others run with its error, which is the outcome *)
Fixpoint close_ok (es : list entry) (n : nat) : list event * nat * option value :=
  match es with
  | [] => ([], n, None)
  | EVal _ _ :: es => close_ok es n
  | EDef k f :: es =>
    let '(t1, n1, r) := f n in
    match r with
    | DRet _ => let '(t2, n2, o) := close_ok es n1 in (Run k VNil :: t1 ++ t2, n2, o)
    | DErr v => let '(t2, n2) := close_err es v n1 in (Run k VNil :: t1 ++ t2, n2, Some v)
    end
  end.
(* the variable in register i; the list starts with the newest *)
Fixpoint at_ (es : list entry) (i : nat) : option entry := match es with [] => None | e :: es' => if Nat.eqb i (length es') then Some e else at_ es' i end.
Fixpoint set_at (es : list entry) (i : nat) (e : entry) : list entry := match es with [] => [] | x :: es' => if Nat.eqb i (length es') then e :: es' else x :: set_at es' i e end.
Definition val_at (es : list entry) (i : nat) : value := match at_ es i with Some (EVal v _) => v | _ => VNil end.
Definition cap_at (es : list entry) (i : nat) : bool := match at_ es i with Some (EVal _ c) => c | _ => false end.
Definition above (es : list entry) (lev : nat) : list entry := firstn (length es - lev) es.
Definition below (es : list entry) (lev : nat) : list entry := skipn (length es - lev) es.

Fixpoint D (c : code) (es : list entry) (n : nat) : list event * nat * dres :=
  match c with
  | Ret vs _ => let '(t, n, o) := close_ok es n in (t, n, match o with None => DRet vs | Some v => DErr v end)
  | Throw status v | DeferErr status v => let '(t, n) := close_err es (message status v) n in (t, n, DErr (message status v))
  | Print z k => let '(t, n, r) := D k es n in (Out z :: t, n, r)
  | Local v k => D k (EVal v false :: es) n
  | SetL i v k => D k (set_at es i (EVal v (cap_at es i))) n
  | Get i k => D (k (val_at es i)) es n
  | Capture i k => D k (set_at es i (EVal (val_at es i) true)) n
  | Defer _ f k => let '(t, n', r) := D k (EDef n (D f []) :: es) (S n) in (Reg n :: t, n', r)
  | Leave _ lev k =>
    let '(t, n, o) := close_ok (above es lev) n in
    match o with
    | None => let '(t', n, r) := D k (below es lev) n in (t ++ t', n, r)
    | Some v => let '(t', n) := close_err (below es lev) v n in (t ++ t', n, DErr v)
    end
  | Call _ _ f k =>
    let '(t, n, r) := D f [] n in
    match r with
    | DRet vs => let '(t', n, r) := D (k vs) es n in (t ++ t', n, r)
    | DErr v => let '(t', n) := close_err es v n in (t ++ t', n, DErr v)
    end
  | PCall _ f k =>
    let '(t, n, r) := D f [] n in
    let '(t', n, r) := D (k (match r with DRet vs => inl vs | DErr v => inr v end)) es n in (t ++ t', n, r)
  | Tail _ _ f => D f [] n
  end.

(* what the compiler guarantees: registers are in range, the variable of a defer has no name, a block is left without
   closing only if it has no captured variable and no defer, and there is no tail call in the scope of a defer (lparser.c:2391) *)
Inductive kind := KVal (captured : bool) | KDef.
Fixpoint kat (ks : list kind) (i : nat) : option kind := match ks with [] => None | e :: ks' => if Nat.eqb i (length ks') then Some e else kat ks' i end.
Fixpoint kset (ks : list kind) (i : nat) (e : kind) : list kind := match ks with [] => [] | x :: ks' => if Nat.eqb i (length ks') then e :: ks' else x :: kset ks' i e end.
Definition is_error (status : Z) : Prop := 2 <= status.
Fixpoint legal (ks : list kind) (size : Z) (c : code) : Prop :=
  let n := Z.of_nat (length ks) in
  match c with
  | Ret vs _ => n + Z.of_nat (length vs) <= size
  | Throw status _ => is_error status
  | DeferErr status _ => is_error status /\ n < size
  | Print _ k => legal ks size k
  | Local _ k => n < size /\ legal (KVal false :: ks) size k
  | SetL i _ k => (exists c, kat ks i = Some (KVal c)) /\ legal ks size k
  | Get i k => (exists c, kat ks i = Some (KVal c)) /\ forall v, legal ks size (k v)
  | Capture i k => (exists c, kat ks i = Some (KVal c)) /\ legal (kset ks i (KVal true)) size k
  | Defer sz f k => n < size /\ 0 <= sz /\ legal [] sz f /\ legal (KDef :: ks) size k
  | Leave close lev k => (lev <= length ks)%nat /\ (close = false -> Forall (fun e => e = KVal false) (firstn (length ks - lev) ks)) /\ legal (skipn (length ks - lev) ks) size k
  | Call d sz f k => 1 <= d /\ 0 <= sz /\ legal [] sz f /\ forall vs, legal ks size (k vs)
  | PCall sz f k => 0 <= sz /\ legal [] sz f /\ forall x, legal ks size (k x)
  | Tail d sz f => 1 <= d /\ 0 <= sz /\ Forall (fun e => e <> KDef) ks /\ legal [] sz f
  end.

(* what the property says of the events: pending functions are run newest first, and none is left *)
Fixpoint check (pending : list nat) (t : list event) : option (list nat) :=
  match t with
  | [] => Some pending
  | Reg k :: t => check (k :: pending) t
  | Run k _ :: t => match pending with k' :: p => if Nat.eqb k k' then check p t else None | [] => None end
  | Out _ :: t => check pending t
  end.
Definition registered (t : list event) : list nat := flat_map (fun e => match e with Reg k => [k] | _ => [] end) t.
Definition ran (t : list event) : list nat := flat_map (fun e => match e with Run k _ => [k] | _ => [] end) t.

(* the state in which an error or a yield left a thread: its slots from base on hold the entries, its open upvalues lie
   at the captured variables and the defers, those in rest below; a slot that is neither is an EVal that is not captured *)
Fixpoint stopped (s : st) (base : Z) (es : list entry) (O rest : list upv) : Prop :=
  match es with
  | [] => O = rest
  | EVal v cap :: es' => let i := base + Z.of_nat (length es') in s_stk s i = v /\
      (if cap then exists r O', O = UpV i false r :: O' /\ 0 < r /\ stopped s base es' O' rest else stopped s base es' O rest)
  | EDef k f :: es' => let i := base + Z.of_nat (length es') in s_stk s i = VFun k /\
      (exists sz c, nth_error (s_funs s) k = Some (sz, c) /\ 0 <= sz /\ legal [] sz c /\ f = D c []) /\ exists O', O = UpV i true 0 :: O' /\ stopped s base es' O' rest
  end.
(* the deferred functions among the entries *)
Definition ids (es : list entry) : list nat := flat_map (fun e => match e with EDef k _ => [k] | EVal _ _ => [] end) es.
