(* Model of string comparison (lvm.c l_strcmp); strcoll is a parameter, applied to C strings
   (bytes up to the next zero). *)
Require Import ZArith List Bool.
From Verif Require Import Base Str.
Import ListNotations.
Open Scope Z_scope.

(* the C string at position p of s: scans to the next zero byte *)
Fixpoint cstr (fuel : nat) (s : list Z) (p : Z) : outcome (list Z) :=
  match fuel with
  | O => OutOfFuel
  | S f => bind (sbyte s p) (fun c => if c =? 0 then Ok [] else bind (cstr f s (p + 1)) (fun r => Ok (c :: r)))
  end.

Section Strcmp.
Variable strcoll : list Z -> list Z -> Z.

(* lvm.c:549-563: l and r are positions in ls and rs *)
Fixpoint strcmp_loop (fuel : nat) (ls rs : list Z) (l ll r lr : Z) : outcome Z :=
  match fuel with
  | O => OutOfFuel
  | S f =>
    bind (cstr (S (length ls)) ls l) (fun a =>
    bind (cstr (S (length rs)) rs r) (fun b =>
    let temp := strcoll a b in
    if negb (temp =? 0) then Ok temp
    else
      let len := slen a in
      if len =? lr then Ok (if len =? ll then 0 else 1)
      else if len =? ll then Ok (-1)
      else
        let len := len + 1 in
        strcmp_loop f ls rs (l + len) (u64 (ll - len)) (r + len) (u64 (lr - len))))
  end.
(* lvm.c:544-564 l_strcmp *)
Definition l_strcmp (ls rs : list Z) : outcome Z := strcmp_loop (S (length ls)) ls rs 0 (slen ls) 0 (slen rs).

(* lvm.c:694, 713: s < t and s <= t *)
Definition str_lt (ls rs : list Z) : outcome bool := bind (l_strcmp ls rs) (fun c => Ok (c <? 0)).
Definition str_le (ls rs : list Z) : outcome bool := bind (l_strcmp ls rs) (fun c => Ok (c <=? 0)).
End Strcmp.

(* strcmp, which is strcoll in the C locale: bytes compared as unsigned char *)
Fixpoint strcmp (a b : list Z) : Z :=
  match a, b with
  | [], [] => 0
  | [], _ :: _ => -1
  | _ :: _, [] => 1
  | x :: a', y :: b' => if x <? y then -1 else if y <? x then 1 else strcmp a' b'
  end.
