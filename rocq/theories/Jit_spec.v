(* What compiled code must do: what the interpreter does.  Here: the functions and the states for which
   that is claimed. *)
Require Import ZArith List Bool Arith.
From Coq Require Import Floats.SpecFloat.
From Verif Require Import Base Float_model Op_model Jit_model.
Import ListNotations.
Open Scope Z_scope.

(* constants: a minimum integer has no decimal literal in C, and -0.0 is printed as -0, an integer.
   (The folder never makes -0.0: lcode.c:1288.) *)
Definition const_ok (k : nat -> val) : Prop :=
  forall n, match k n with
            | Num (NInt z) => z <> minint
            | Num (NFlt f) => valid f /\ f <> S754_zero true
            | _ => True
            end.

(* the instructions that are compiled with the jump behind them *)
Definition is_test (i : instr) : bool := match i with CMP _ _ _ _ | TEST _ _ | TESTSET _ _ _ => true | _ => false end.
(* l is the beginning of a unit of the code: an instruction other than the jump that belongs to a test *)
Fixpoint unit_at (pc : nat) (code : list instr) (l : nat) : bool :=
  match code with
  | [] => false
  | i :: r =>
    Nat.eqb pc l ||
    (if is_test i then match r with [] => false | _ :: r' => unit_at (S (S pc)) r' l end else unit_at (S pc) r l)
  end.
(* the places that an instruction may go to *)
Definition goes (pc : nat) (i : instr) (l : nat) : Prop :=
  match i with
  | LOADBOOL _ _ true => l = (pc + 2)%nat
  | JMP _ s | FORPREP _ s | FORLOOP _ s | IFORPREP _ _ s | IFORLOOP _ _ s => l = Z.to_nat (Z.of_nat pc + 1 + s)
  | _ => False
  end.
(* tests are followed by jumps, and nothing jumps to the jump of a test *)
Definition well_formed (code : list instr) : Prop :=
  (forall pc i l, nth_error code pc = Some i -> goes pc i l -> unit_at 0 code l = true) /\
  (forall pc i, nth_error code pc = Some i -> is_test i = true -> exists a s, nth_error code (S pc) = Some (JMP a s)).

Definition in64 (z : Z) : Prop := minint <= z <= maxint.
Definition result (o : bop) (x y : Z) : option Z :=
  match o with Add => Some (x + y) | Sub => Some (x - y) | Mul => Some (x * y) | _ => None end.

Section spec.
Context {W : Type}.
Notation St := (state W).
Variable kst : nat -> val.
Variable alen : nat -> St -> Z.

Definition operand (m : St) (x : rk) : val := match x with RR n => fst m n | RK n => kst n end.
(* an index that the interpreter cuts to 32 bits and finds inside the array is inside it; if the range
   check is omitted every index is *)
Definition index_ok (op : options) (m : St) (a : nat) (k : Z) : Prop :=
  (k mod 2 ^ 32 < alen a m -> 0 <= k < alen a m) /\ (omit_range op = true -> 0 <= k < alen a m).
(* the states in which the instruction is claimed to do the same; numeric for loops are treated apart *)
Definition agree (op : options) (m : St) (i : instr) : Prop :=
  match i with
  | MOVEI _ b => forall f, fst m b <> F f
  | SET OP_IARRAY_SET _ _ c => forall f, operand m c <> F f
  | BIN (OP_G o) _ b c =>
    inline_arith op = true -> forall x y z, operand m b = I x -> operand m c = I y -> result o x y = Some z -> in64 z
  | GET OP_IARRAY_GET _ b c => forall a k, fst m b = IArr a -> operand m c = I k -> index_ok op m a k
  | GET OP_FARRAY_GET _ b c => forall a k, fst m b = FArr a -> operand m c = I k -> index_ok op m a k
  | FORPREP _ _ | FORLOOP _ _ | IFORPREP _ _ _ | IFORLOOP _ _ _ => False
  | _ => True
  end.
(* every instruction that is executed is in such a state; step: what one instruction does *)
Fixpoint along (step : nat -> St -> outcome next) (op : options) (code : list instr) (n pc : nat) (m : St) : Prop :=
  match n with
  | O => True
  | S n =>
    (forall i, nth_error code pc = Some i -> agree op m i) /\
    match step pc m with Ok (At pc m) => along step op code n pc m | _ => True end
  end.

(* numeric loops: the states agree on every register but the three of the loop *)
Definition off (a : nat) (m m' : St) : Prop :=
  snd m = snd m' /\ forall r, r <> a -> r <> (a + 1)%nat -> r <> (a + 2)%nat -> fst m r = fst m' r.
Definition same (a : nat) (x y : outcome St) : Prop :=
  match x, y with
  | UB, _ => True
  | Ok m, Ok m' => off a m m'
  | Err e, Err e' => e = e'
  | OutOfFuel, OutOfFuel => True
  | _, _ => False
  end.
(* a body that neither reads nor writes the three registers *)
Definition blind (a : nat) (body : St -> outcome St) : Prop :=
  (forall m m', off a m m' -> same a (body m) (body m')) /\
  (forall m m', body m = Ok m' -> forall k, (k < 3)%nat -> fst m' (a + k)%nat = fst m (a + k)%nat).
(* the bounds of a loop of integers do not lead outside the integers, and its limit is not a float *)
Definition bounds_ok (a : nat) (m : St) : Prop :=
  forall i s, fst m a = I i -> fst m (a + 2)%nat = I s ->
  match fst m (a + 1)%nat with Num (NInt l) => in64 (i - s) /\ in64 (l + s) | Num (NFlt _) => False | _ => True end.
Definition wide (a : nat) (m : St) : Prop :=
  forall k, (k < 3)%nat -> match fst m (a + k)%nat with Num (NInt z) => in64 z | _ => True end.

(* a loop executed by the interpreter (step: one instruction), and by the compiled code (exec: one piece) *)
Fixpoint iloop (step : St -> outcome next) (n : nat) (body : St -> outcome St) (m : St) : outcome St :=
  match n with
  | O => OutOfFuel
  | S n =>
    bind (step m) (fun x =>
    match x with
    | At O m => bind (body m) (iloop step n body)
    | At _ m => Ok m
    | Done _ _ _ => UB
    end)
  end.
Fixpoint cloop (exec : @cst W -> outcome flow) (n : nat) (body : St -> outcome St) (c : @cst W) : outcome St :=
  match n with
  | O => OutOfFuel
  | S n =>
    bind (exec c) (fun x =>
    match x with
    | Jump _ c => bind (body (mem c)) (fun m => cloop exec n body (setmem c m))
    | Fall c => Ok (mem c)
    | Ret _ _ _ => UB
    end)
  end.
End spec.

(* a loop with its preparation: prep and loop as in "prep; body; loop" where prep goes to loop and loop back
   to the body *)
Definition ifor {W} (L : lib W) kst sizep (prep loop : instr) (n : nat) (body : state W -> outcome (state W)) (m : state W) : outcome (state W) :=
  bind (istep L kst sizep [prep] 0 m) (fun x =>
  match x with At _ m => iloop (istep L kst sizep [loop] 0) n body m | Done _ _ _ => UB end).
Definition cfor {W} (L : lib W) kst sizep op (prep loop : instr) (n : nat) (body : state W -> outcome (state W)) (c : @cst W) : outcome (state W) :=
  bind (cexec L kst (emit1 kst sizep op 0 prep) c) (fun x =>
  match x with Jump _ c => cloop (cexec L kst (emit1 kst sizep op 0 loop)) n body c | _ => UB end).
