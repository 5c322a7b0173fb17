(* What format strings mean: spelling of options, alignment and the bytes of a value. *)
Require Import ZArith List Bool.
From Verif Require Import Base Str.
Import ListNotations.
Open Scope Z_scope.

(* the meaning of an option *)
Inductive opt :=
| OInt (signed : bool) (size : Z) | OFlt (size : Z) | OFix (size : Z) | OPre (size : Z) | OZ
| OPad | OAlign (size : Z) | OSpace | OEndian (little : option bool) | OMax (size : Z).
(* the size that decides about alignment *)
Definition asize (o : opt) : Z := match o with OInt _ n | OFlt n | OPre n | OAlign n => n | OPad => 1 | _ => 0 end.

Definition is_digits (l : list Z) : Prop := l <> [] /\ Forall (fun c => 48 <= c <= 57) l.
Definition decimal (l : list Z) : Z := fold_left (fun a c => 10 * a + (c - 48)) l 0.
(* options with an optional numeral *)
Definition numeral (df : Z) (ds : list Z) (n : Z) : Prop := (ds = [] /\ n = df) \/ (is_digits ds /\ decimal ds = n /\ 1 <= n <= 16).

(* string.pack formats, manual 6.4.2: option and spelling (ASCII) *)
Inductive spelled : opt -> list Z -> Prop :=
| sp_b : spelled (OInt true 1) [98] | sp_B : spelled (OInt false 1) [66]
| sp_h : spelled (OInt true 2) [104] | sp_H : spelled (OInt false 2) [72]
| sp_l : spelled (OInt true 8) [108] | sp_L : spelled (OInt false 8) [76]
| sp_j : spelled (OInt true 8) [106] | sp_J : spelled (OInt false 8) [74]
| sp_T : spelled (OInt false 8) [84]
| sp_f : spelled (OFlt 4) [102] | sp_d : spelled (OFlt 8) [100] | sp_n : spelled (OFlt 8) [110]
| sp_i : forall ds n, numeral 4 ds n -> spelled (OInt true n) (105 :: ds)
| sp_I : forall ds n, numeral 4 ds n -> spelled (OInt false n) (73 :: ds)
| sp_s : forall ds n, numeral 8 ds n -> spelled (OPre n) (115 :: ds)
| sp_c : forall ds n, is_digits ds -> decimal ds = n -> n <= 2147483639 -> spelled (OFix n) (99 :: ds)
| sp_z : spelled OZ [122] | sp_x : spelled OPad [120]
| sp_X : forall o t, spelled o t -> 0 < asize o -> (forall n, o <> OAlign n) -> spelled (OAlign (asize o)) (88 :: t)
| sp_space : spelled OSpace [32]
| sp_lt : spelled (OEndian (Some true)) [60] | sp_gt : spelled (OEndian (Some false)) [62] | sp_eq : spelled (OEndian None) [61]
| sp_bang : forall ds n, numeral 8 ds n -> spelled (OMax n) (33 :: ds).
(* no option starts with a digit, so numerals extend as far as possible *)
Inductive format : list opt -> list Z -> Prop :=
| fm_nil : format [] []
| fm_cons : forall o t l r, spelled o t -> format l r -> format (o :: l) (t ++ r).
(* a Lua string used as a C string ends at its first zero *)
Fixpoint c_string (s : list Z) : list Z := match s with [] => [] | c :: r => if c =? 0 then [] else c :: c_string r end.

(* k bytes of padding lead from pos to the next multiple of the alignment *)
Definition pow2 (n : Z) : Prop := exists k, 0 <= k /\ n = 2 ^ k.
Definition aligned (o : opt) (maxalign pos k : Z) : Prop :=
  if asize o <=? 1 then k = 0
  else let a := Z.min (asize o) maxalign in pow2 a /\ 0 <= k < a /\ (pos + k) mod a = 0.

(* bytes as a number *)
Fixpoint number (l : list Z) : Z := match l with [] => 0 | b :: l => b + 256 * number l end.
Definition num_of (little : bool) (l : list Z) : Z := number (if little then l else rev l).
(* the size bytes l stand for the Lua integer n; unsigned: modulo 2^64 *)
Definition int_bytes (signed little : bool) (size n : Z) (l : list Z) : Prop :=
  slen l = size /\ wf_str l /\ is_s64 n /\
  (if signed then - 2 ^ (8 * size - 1) <= n < 2 ^ (8 * size - 1) /\ num_of little l = n mod 2 ^ (8 * size) else num_of little l = n mod 2 ^ 64).
(* the bytes of a number that has size bytes in memory *)
Definition raw_bytes (little : bool) (size n : Z) (l : list Z) : Prop := slen l = size /\ wf_str l /\ num_of little l = n.

Inductive val := AInt (n : Z) | AFlt (bits : Z) | AStr (s : list Z).

Section S.
Variable native_little : bool.
Variables to_single of_single : Z -> Z.
(* the value v is written as the bytes l *)
Definition puts (little : bool) (o : opt) (v : val) (l : list Z) : Prop :=
  match o, v with
  | OInt sg size, AInt n => int_bytes sg little size n l
  | OFlt size, AFlt x => raw_bytes little size (if size =? 4 then to_single x else x) l
  | OFix size, AStr s => exists z, l = s ++ z /\ slen l = size /\ Forall (fun b => b = 0) z
  | OPre size, AStr s => exists p, l = p ++ s /\ int_bytes false little size (slen s) p
  | OZ, AStr s => ~ In 0 s /\ l = s ++ [0]
  | _, _ => False
  end.
(* the bytes l are read as the value v *)
Definition gets (little : bool) (o : opt) (l : list Z) (v : val) : Prop :=
  match o, v with
  | OInt sg size, AInt n => int_bytes sg little size n l
  | OFlt size, AFlt y => exists x, raw_bytes little size x l /\ y = (if size =? 4 then of_single x else x)
  | OFix size, AStr s => l = s /\ slen l = size
  | OPre size, AStr s => exists p, l = p ++ s /\ int_bytes false little size (slen s) p
  | OZ, AStr s => ~ In 0 s /\ l = s ++ [0]
  | _, _ => False
  end.
Definition takes_arg (o : opt) : bool := match o with OInt _ _ | OFlt _ | OFix _ | OPre _ | OZ => true | _ => false end.
(* (little, maxalign) after an option *)
Definition config (o : opt) (cfg : bool * Z) : bool * Z :=
  match o with
  | OEndian None => (native_little, snd cfg)
  | OEndian (Some b) => (b, snd cfg)
  | OMax n => (fst cfg, n)
  | _ => cfg
  end.
(* what is written from position pos on; want is what arguments give for an option, unused arguments are ignored *)
Section PUT.
Variable V : Type.
Variable arg : opt -> V -> option val.
Inductive written : bool * Z -> Z -> list opt -> list V -> list Z -> Prop :=
| w_nil : forall cfg pos args, written cfg pos [] args []
| w_arg : forall cfg pos o k v x l os args out, takes_arg o = true -> aligned o (snd cfg) pos k -> arg o v = Some x -> puts (fst cfg) o x l ->
    written cfg (pos + k + slen l) os args out -> written cfg pos (o :: os) (v :: args) (repeat 0 (Z.to_nat k) ++ l ++ out)
| w_other : forall cfg pos o k os args out, takes_arg o = false -> aligned o (snd cfg) pos k ->
    let l := match o with OPad => [0] | _ => [] end in
    written (config o cfg) (pos + k + slen l) os args out -> written cfg pos (o :: os) args (repeat 0 (Z.to_nat k) ++ l ++ out).
End PUT.
(* the n bytes of data at pos *)
Definition chunk (data : list Z) (pos : Z) (l : list Z) : Prop := 0 <= pos /\ exists r, skipn (Z.to_nat pos) data = l ++ r /\ pos <= slen data.
(* what is read from position pos on, and the final position *)
Inductive read : bool * Z -> list Z -> Z -> list opt -> list val -> Z -> Prop :=
| r_nil : forall cfg data pos, read cfg data pos [] [] pos
| r_arg : forall cfg data pos o k v l os vs pos', takes_arg o = true -> aligned o (snd cfg) pos k -> chunk data (pos + k) l -> gets (fst cfg) o l v ->
    read cfg data (pos + k + slen l) os vs pos' -> read cfg data pos (o :: os) (v :: vs) pos'
| r_other : forall cfg data pos o k os vs pos', takes_arg o = false -> aligned o (snd cfg) pos k ->
    let n := match o with OPad => 1 | _ => 0 end in
    pos + k + n <= slen data -> read (config o cfg) data (pos + k + n) os vs pos' -> read cfg data pos (o :: os) vs pos'.
(* the value read back from the bytes written for x *)
Definition returned (o : opt) (x : val) : val :=
  match o, x with
  | OFlt size, AFlt b => AFlt (if size =? 4 then of_single (to_single b) else b)
  | OFix size, AStr s => AStr (s ++ repeat 0 (Z.to_nat (size - slen s)))
  | _, _ => x
  end.
Inductive back {V : Type} (arg : opt -> V -> option val) : list opt -> list V -> list val -> Prop :=
| b_nil : forall args, back arg [] args []
| b_arg : forall o v x os args vs, takes_arg o = true -> arg o v = Some x -> back arg os args vs -> back arg (o :: os) (v :: args) (returned o x :: vs)
| b_other : forall o os args vs, takes_arg o = false -> back arg os args vs -> back arg (o :: os) args vs.
(* options whose size does not depend on the value *)
Definition fixed (o : opt) : option Z :=
  match o with OInt _ n | OFlt n | OFix n => Some n | OPre _ | OZ => None | OPad => Some 1 | _ => Some 0 end.
Inductive span : bool * Z -> Z -> list opt -> Z -> Prop :=
| sp_nil : forall cfg pos, span cfg pos [] pos
| sp_cons : forall cfg pos o n k os e, fixed o = Some n -> aligned o (snd cfg) pos k -> span (config o cfg) (pos + k + n) os e -> span cfg pos (o :: os) e.
End S.

(* arguments: how Lua values convert to integers, to the bits of floats and to strings *)
Section ARG.
Variable V : Type.
Variable toint : V -> option Z.
Variable tonum : V -> option Z.
Variable tostr : V -> option (list Z).
Variable to_single : Z -> Z.
Definition arg (o : opt) (v : V) : option val :=
  match o with OInt _ _ => option_map AInt (toint v) | OFlt _ => option_map AFlt (tonum v) | _ => option_map AStr (tostr v) end.
Definition conversions : Prop :=
  (forall v n, toint v = Some n -> is_s64 n) /\ (forall v x, tonum v = Some x -> is_u64 x) /\ (forall v s, tostr v = Some s -> slen s <= maxint /\ wf_str s) /\ (forall x, is_u32 (to_single x)).
End ARG.
