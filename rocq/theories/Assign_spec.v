(* What an assignment statement means (C64), without registers or code:
   first the tables and keys of the targets, from left to right, then the values,
   from left to right, then the values are given to the targets, the last target
   first.  There are as many values as targets: missing ones are nil, surplus
   ones are dropped, a call or '...' at the end gives all its values. *)

Require Import Verif.Base Verif.Assign_model.
From Coq Require Import List Arith.
Import ListNotations.
Local Open Scope outcome_scope.
Local Open Scope nat_scope.

Section S.
  Variables V W : Type.
  Variable nilv : V.
  Variable kval : nat -> V.
  Notation env := (env V W).
  Variable ev : nat -> env -> outcome (V * env).
  Variable evm : nat -> env -> outcome (list V * env).
  Variable settable : env -> V -> V -> V -> outcome env.

  (* a place to assign to, its table and key evaluated *)
  Inductive place := ALoc (r : nat) | AUp (u : nat) | AInd (t k : V).

  Definition locvar (e : env) (r : nat) : V := nth r (locs _ _ e) nilv.
  Definition upvar (e : env) (u : nat) : V := nth u (ups _ _ e) nilv.

  Definition table_of (e : env) (p : pre) : outcome (V * env) :=
    match p with PLoc r => Ok (locvar e r, e) | PUp u => Ok (upvar e u, e) | PExp i => ev i e end.

  Definition key_of (e : env) (k : key) : outcome (V * env) :=
    match k with KLoc r => Ok (locvar e r, e) | KCst n => Ok (kval n, e) | KExp i => ev i e end.

  Definition place_of (e : env) (t : target) : outcome (place * env) :=
    match t with
    | TLoc r => Ok (ALoc r, e)
    | TUp u => Ok (AUp u, e)
    | TInd p k =>
        do '(tv, e1) <- table_of e p;
        do '(kv, e2) <- key_of e1 k;
        Ok (AInd tv kv, e2)
    end.

  Fixpoint places (e : env) (ts : list target) : outcome (list place * env) :=
    match ts with
    | [] => Ok ([], e)
    | t :: ts' =>
        do '(p, e1) <- place_of e t;
        do '(ps, e2) <- places e1 ts';
        Ok (p :: ps, e2)
    end.

  (* all the values of an expression *)
  Definition values_of (e : env) (x : exp) : outcome (list V * env) :=
    match x with
    | ELoc r => Ok ([locvar e r], e)
    | ECst k => Ok ([kval k], e)
    | ERel i | ENon i => do '(v, e1) <- ev i e; Ok ([v], e1)
    | ECall i | EDots i => evm i e
    end.

  Definition first (vs : list V) : V := match vs with [] => nilv | v :: _ => v end.

  Fixpoint values (e : env) (x : exp) (xs : list exp) : outcome (list V * env) :=
    do '(vs, e1) <- values_of e x;
    match xs with
    | [] => Ok (vs, e1)
    | x' :: xs' =>
        do '(ws, e2) <- values e1 x' xs';
        Ok (first vs :: ws, e2)
    end.

  Fixpoint adjust (n : nat) (vs : list V) : list V :=
    match n with
    | 0 => []
    | S n' => match vs with [] => nilv :: adjust n' [] | v :: vs' => v :: adjust n' vs' end
    end.

  Fixpoint update (l : list V) (n : nat) (v : V) : list V :=
    match l, n with
    | [], _ => []
    | _ :: l', 0 => v :: l'
    | x :: l', S n' => x :: update l' n' v
    end.

  Definition assign1 (e : env) (p : place) (v : V) : outcome env :=
    match p with
    | ALoc r => Ok (Env _ _ (update (locs _ _ e) r v) (ups _ _ e) (wld _ _ e))
    | AUp u => Ok (Env _ _ (locs _ _ e) (update (ups _ _ e) u v) (wld _ _ e))
    | AInd t k => settable e t k v
    end.

  Fixpoint assign_all (e : env) (pvs : list (place * V)) : outcome env :=
    match pvs with
    | [] => Ok e
    | (p, v) :: pvs' => do e1 <- assign1 e p v; assign_all e1 pvs'
    end.

  Definition assignment_means (e : env) (ts : list target) (x : exp) (xs : list exp) : outcome env :=
    do '(ps, e1) <- places e ts;
    do '(vs, e2) <- values e1 x xs;
    assign_all e2 (rev (combine ps (adjust (length ts) vs))).

  (* the variables that occur as table or key of a target *)
  Inductive var := VL (r : nat) | VU (u : nat).

  Definition valof (e : env) (x : var) : V :=
    match x with VL r => locvar e r | VU u => upvar e u end.

  Definition operand (ts : list target) (x : var) : Prop :=
    exists p k, In (TInd p k) ts /\
      match x with
      | VL r => p = PLoc r \/ k = KLoc r
      | VU u => p = PUp u
      end.

  (* the evaluation of expressions, and the metamethods that run when the
     values are assigned, leave a variable alone *)
  Definition undisturbed (x : var) : Prop :=
    (forall i e v e', ev i e = Ok (v, e') -> valof e' x = valof e x) /\
    (forall i e vs e', evm i e = Ok (vs, e') -> valof e' x = valof e x) /\
    (forall e t k v e', settable e t k v = Ok e' -> valof e' x = valof e x).

  (* the registers named in the statement are those of active local variables *)
  Definition locals_ok (nact : nat) (ts : list target) (xs : list exp) : Prop :=
    (forall t, In t ts -> match t with
      | TLoc r => r < nact
      | TUp _ => True
      | TInd p k => match p with PLoc r => r < nact | _ => True end /\
                    match k with KLoc r => r < nact | _ => True end
      end) /\
    (forall x, In x xs -> match x with ELoc r => r < nact | _ => True end).

  (* the outcome of running the code, temporaries forgotten *)
  Definition result (o : outcome (state V W)) : outcome env :=
    match o with
    | Ok s => Ok (vars _ _ s)
    | Err x => Err x
    | UB => UB
    | OutOfFuel => OutOfFuel
    end.
End S.
