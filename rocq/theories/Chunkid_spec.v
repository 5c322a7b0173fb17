(* What the name of a chunk is (C69) *)

Require Import Verif.Base.
From Coq Require Import ZArith List Bool.
Import ListNotations.
Local Open Scope Z_scope.

Fixpoint first_line (s : list Z) : list Z :=
  match s with [] => [] | c :: s' => if c =? 10 then [] else c :: first_line s' end.

(* the last k bytes *)
Definition ending (k : nat) (s : list Z) : list Z := skipn (length s - k) s.

(* n: how many bytes there are for the name, without the zero byte *)
Definition chunk_name (s : list Z) (n : nat) : list Z :=
  match s with
  | 61 :: name => firstn n name
  | 64 :: file => if (length file <=? n)%nat then file else [46; 46; 46] ++ ending (n - 3) file
  | _ =>
      (* [string "..."]: the first line, or as much of it as there is room for *)
      let k := (n - 14)%nat in
      [91; 115; 116; 114; 105; 110; 103; 32; 34] ++
      (if (length s <? k)%nat && (length (first_line s) =? length s)%nat then s
       else firstn k (first_line s) ++ [46; 46; 46]) ++
      [34; 93]
  end.
