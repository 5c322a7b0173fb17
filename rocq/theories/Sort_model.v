(* Model of table.sort (ltablib.c:225-425).  The table is a map from indices to values; reading or
   writing an index outside 1..n is the outcome RUB.  The comparison (sort_comp, 287-300: a function
   or the operator <) is an arbitrary function of a state of its own, which may raise an error (None)
   but does not assign to the table; the clock read by l_randomizePivot is part of that state. *)
Require Import ZArith List Bool.
From Verif Require Import Base.
Import ListNotations.
Open Scope Z_scope.

Section SORT.
Variable V St : Type.
Variable cmp : St -> V -> V -> option (bool * St).
Variable rand : St -> Z * St.            (* l_randomizePivot, 256-267 *)
Variable n : Z.                          (* the length of the table *)

Definition array := Z -> V.
(* the result of a computation with the table and state after it; an error leaves the table *)
Inductive res (A : Type) : Type :=
| ROk (x : A) (a : array) (s : St) | RErr (e : error) (a : array) | RUB | RFuel.
Arguments ROk {A}. Arguments RErr {A}. Arguments RUB {A}. Arguments RFuel {A}.
Definition M (A : Type) := array -> St -> res A.
Definition ret {A} (x : A) : M A := fun a s => ROk x a s.
Definition mbind {A B} (m : M A) (f : A -> M B) : M B := fun a s =>
  match m a s with ROk x a s => f x a s | RErr e a => RErr e a | RUB => RUB | RFuel => RFuel end.
Notation "x <- m ;; f" := (mbind m (fun x => f)) (at level 61, m at next level, right associativity).
Definition fail {A} (e : error) : M A := fun a _ => RErr e a.
Definition nofuel {A} : M A := fun _ _ => RFuel.

(* lua_geti and lua_seti on argument 1 *)
Definition geti (i : Z) : M V := fun a s => if (1 <=? i) && (i <=? n) then ROk (a i) a s else RUB.
Definition seti (i : Z) (v : V) : M unit := fun a s =>
  if (1 <=? i) && (i <=? n) then ROk tt (fun x => if x =? i then v else a x) s else RUB.
(* 277-280: the top of the stack goes to i, the value below it to j *)
Definition set2 (i j : Z) (top below : V) : M unit := _ <- seti i top ;; seti j below.
Definition comp (x y : V) : M bool := fun a s =>
  match cmp s x y with Some (b, s) => ROk b a s | None => RErr EUser a end.
Definition randomize : M Z := fun a s => let '(r, s) := rand s in ROk (u32 r) a s.

(* 316-321: repeat ++i while a[i] < P *)
Fixpoint scan_up (fuel : nat) (up : Z) (P : V) (i : Z) : M (Z * V) :=
  match fuel with
  | O => nofuel
  | S f =>
    let i := u32 (i + 1) in
    x <- geti i ;;
    c <- comp x P ;;
    if c : bool then (if i =? u32 (up - 1) then fail EOrder else scan_up f up P i)
    else ret (i, x)
  end.
(* 324-328: repeat --j while P < a[j] *)
Fixpoint scan_down (fuel : nat) (i : Z) (P : V) (j : Z) : M (Z * V) :=
  match fuel with
  | O => nofuel
  | S f =>
    let j := u32 (j - 1) in
    y <- geti j ;;
    c <- comp P y ;;
    if c : bool then (if j <? i then fail EOrder else scan_down f i P j)
    else ret (j, y)
  end.
(* 315-338 *)
Fixpoint part_loop (fuel : nat) (up : Z) (P : V) (i j : Z) : M Z :=
  match fuel with
  | O => nofuel
  | S f =>
    ix <- scan_up fuel up P i ;;
    let '(i, x) := ix in
    jy <- scan_down fuel i P j ;;
    let '(j, y) := jy in
    if j <? i then (_ <- set2 (u32 (up - 1)) i x P ;; ret i)
    else (_ <- set2 i j y x ;; part_loop f up P i j)
  end.
(* 310-339; fuel is one more than the number of elements *)
Definition partition (lo up : Z) (P : V) : M Z :=
  part_loop (Z.to_nat (up - lo + 1)) up P lo (u32 (up - 1)).

Definition RANLIMIT : Z := 100.                        (* 274 *)
(* 346-351 *)
Definition choosePivot (lo up rnd : Z) : outcome Z :=
  let r4 := u32 (up - lo) / 4 in
  let m := u32 (r4 * 2) in
  if m =? 0 then UB else Ok (u32 (rnd mod m + u32 (lo + r4))).

(* 357-408 *)
Fixpoint auxsort (fuel : nat) (lo up rnd : Z) : M unit :=
  match fuel with
  | O => nofuel
  | S f =>
    if lo <? up then
      l <- geti lo ;; u <- geti up ;;
      c <- comp u l ;;
      _ <- (if c : bool then set2 lo up u l else ret tt) ;;
      if u32 (up - lo) =? 1 then ret tt else
      p <- (if (u32 (up - lo) <? RANLIMIT) || (rnd =? 0) then ret (u32 (lo + up) / 2)
            else match choosePivot lo up rnd with Ok p => ret p | _ => fun _ _ => RUB end) ;;
      m <- geti p ;; l <- geti lo ;;
      c <- comp m l ;;
      _ <- (if c : bool then set2 p lo l m
            else u <- geti up ;; c <- comp u m ;; if c : bool then set2 p up u m else ret tt) ;;
      if u32 (up - lo) =? 2 then ret tt else
      P <- geti p ;; w <- geti (u32 (up - 1)) ;;
      _ <- set2 p (u32 (up - 1)) w P ;;
      p <- partition lo up P ;;
      lun <- (if u32 (p - lo) <? u32 (up - p) then
                _ <- auxsort f lo (u32 (p - 1)) rnd ;; ret (u32 (p + 1), up, u32 (p - lo))
              else
                _ <- auxsort f (u32 (p + 1)) up rnd ;; ret (lo, u32 (p - 1), u32 (up - p))) ;;
      let '(lo, up, k) := lun in
      rnd <- (if k <? u32 (up - lo) / 128 then randomize else ret rnd) ;;
      auxsort f lo up rnd
    else ret tt
  end.

Definition INT_MAX : Z := two31 - 1.
(* 411-421 *)
Definition sort : M unit :=
  if 1 <? n then
    if n <? INT_MAX then auxsort (S (Z.to_nat n)) 1 n 0 else fail EArg
  else ret tt.
End SORT.
Arguments ROk {V St A}. Arguments RErr {V St A}. Arguments RUB {V St A}. Arguments RFuel {V St A}.
