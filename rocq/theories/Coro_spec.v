(* What coroutines mean (C65), without stacks: a coroutine is suspended with the
   code that waits for the arguments of the next resume, or active, or finished. *)

Require Import Verif.Base Verif.Coro_model.
From Coq Require Import List Arith Bool.
Import ListNotations.
Local Open Scope outcome_scope.
Local Open Scope nat_scope.

Inductive costate :=
| Suspended (f : list value -> prog)
| Active (wrap : bool)       (* running, or waiting for a coroutine it has resumed; wrap: by
                                calling a function made by coroutine.wrap *)
| Finished.

(* number of coroutines (the main program is number 0) and their states *)
Record cos := C { num : nat; st : nat -> costate }.

Definition upd (c : cos) (i : nat) (a : costate) : cos :=
  C (num c) (fun j => if j =? i then a else st c j).

Inductive sres :=
| SRet (vs : list value)
| SThrow (v : value)
| SYields (vs : list value) (f : list value -> prog).

(* exactly n values *)
Fixpoint fit_n (n : nat) (vs : list value) : list value :=
  match n with
  | 0 => []
  | S n' => match vs with [] => Nil :: fit_n n' [] | v :: vs' => v :: fit_n n' vs' end
  end.

Definition fit (w : option nat) (vs : list value) : list value :=
  match w with None => vs | Some n => fit_n n vs end.

Section S.
  Variable bodies : nat -> list value -> prog.
  Variable maxdepth : nat.
  Variable where_ : value -> value.
  Variable as_coded : bool.      (* false: the error messages are always the right ones *)

  (* coroutine i, at depth d, resumes co with vs: success and the values *)
  Definition sresume (run : nat -> nat -> prog -> cos -> outcome (sres * cos))
      (d i co : nat) (vs : list value) (c : cos) : outcome (bool * list value * cos) :=
    match st c co with
    | Finished => Ok (false, [Str MDead], c)
    | Active wrap =>
        let wrong := as_coded && wrap && (if co =? i then match vs with [] => true | _ => false end else true) in
        Ok (false, [Str (if wrong then MDead else MNonsuspended)], c)
    | Suspended f =>
        if maxdepth <=? S d then Ok (false, [Str MCstack], c)
        else
          do '(r, c1) <- run (S d) co (f vs) (upd c co (Active false));
          match r with
          | SRet rs => Ok (true, rs, upd c1 co Finished)
          | SYields rs f' => Ok (true, rs, upd c1 co (Suspended f'))
          | SThrow v => Ok (false, [v], upd c1 co Finished)
          end
    end.

  Definition sstatus (i co : nat) (c : cos) : msg :=
    if i =? co then MSRunning
    else match st c co with
      | Suspended _ => MSSuspended
      | Active _ => MSNormal
      | Finished => MSDead
      end.

  Fixpoint run (fuel : nat) (d i : nat) (p : prog) (c : cos) : outcome (sres * cos) :=
    match fuel with
    | O => OutOfFuel
    | S fuel =>
        match p with
        | Ret vs => Ok (SRet vs, c)
        | Throw v => Ok (SThrow v, c)
        | Yield loc vs w k =>
            if i =? 0 then Ok (SThrow (Str MOutside), c)
            else Ok (SYields vs (fun args => k (loc ++ fit w args)), c)
        | Resume loc co vs w k =>
            if num c <=? co then Ok (SThrow (Str MThread), c)
            else
              do '(ok, rs, c1) <- sresume (run fuel) d i co vs (upd c i (Active false));
              run fuel d i (k (loc ++ fit w (Bool ok :: rs))) c1
        | Wrapped loc co vs w k =>
            if num c <=? co then Ok (SThrow (Str MThread), c)
            else
              do '(ok, rs, c1) <- sresume (run fuel) d i co vs (upd c i (Active true));
              if ok then run fuel d i (k (loc ++ fit w rs)) c1
              else Ok (SThrow (where_ (hd Nil rs)), c1)
        | Status loc co k =>
            if num c <=? co then Ok (SThrow (Str MThread), c)
            else run fuel d i (k (loc ++ [Str (sstatus i co c)])) c
        | Create loc f k =>
            let n := num c in
            run fuel d i (k (loc ++ [Thr n])) (upd (C (S n) (st c)) n (Suspended (bodies f)))
        | Running loc k => run fuel d i (k (loc ++ [Thr i; Bool (i =? 0)])) c
        | Yieldable loc k => run fuel d i (k (loc ++ [Bool (negb (i =? 0))])) c
        end
    end.

  (* the main program alone *)
  Definition alone : cos := C 1 (fun _ => Active false).
End S.

(* what the main program computes *)
Definition result (r : outcome (res * global)) : outcome (bool * list value) :=
  match r with
  | Ok (RDone, g) => Ok (true, frame (th g 0))
  | Ok (RThrow, g) => Ok (false, top (th g 0) 1)
  | Ok (RYield, _) => UB
  | Err e => Err e
  | UB => UB
  | OutOfFuel => OutOfFuel
  end.

Definition sresult (r : outcome (sres * cos)) : outcome (bool * list value) :=
  match r with
  | Ok (SRet vs, _) => Ok (true, vs)
  | Ok (SThrow v, _) => Ok (false, [v])
  | Ok (SYields _ _, _) => UB
  | Err e => Err e
  | UB => UB
  | OutOfFuel => OutOfFuel
  end.

(* programs that do not call functions made by coroutine.wrap *)
Inductive plain : prog -> Prop :=
| plain_ret : forall vs, plain (Ret vs)
| plain_throw : forall v, plain (Throw v)
| plain_yield : forall loc vs w k, (forall l, plain (k l)) -> plain (Yield loc vs w k)
| plain_resume : forall loc co vs w k, (forall l, plain (k l)) -> plain (Resume loc co vs w k)
| plain_status : forall loc co k, (forall l, plain (k l)) -> plain (Status loc co k)
| plain_create : forall loc f k, (forall l, plain (k l)) -> plain (Create loc f k)
| plain_running : forall loc k, (forall l, plain (k l)) -> plain (Running loc k)
| plain_yieldable : forall loc k, (forall l, plain (k l)) -> plain (Yieldable loc k).
