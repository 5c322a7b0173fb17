(* Model of the size encodings of lobject.c. *)
Require Import ZArith List Bool.
From Verif Require Import Base.
Import ListNotations.
Open Scope Z_scope.

(* lobject.c:42-45, loop "coarse steps" of luaO_int2fb; x is unsigned int. *)
Fixpoint fb_coarse (fuel : nat) (x e : Z) : outcome (Z * Z) :=
  match fuel with
  | O => OutOfFuel
  | S f => if Z.shiftl 8 4 <=? x then fb_coarse f (Z.shiftr (u32 (x + 15)) 4) (e + 4)
           else Ok (x, e)
  end.

(* lobject.c:46-49, loop "fine steps". *)
Fixpoint fb_fine (fuel : nat) (x e : Z) : outcome (Z * Z) :=
  match fuel with
  | O => OutOfFuel
  | S f => if Z.shiftl 8 1 <=? x then fb_fine f (Z.shiftr (u32 (x + 1)) 1) (e + 1)
           else Ok (x, e)
  end.

(* lobject.c:39-51 luaO_int2fb *)
Definition luaO_int2fb (x : Z) : outcome Z :=
  if x <? 8 then Ok x
  else bind (fb_coarse 33 x 0) (fun '(x, e) =>
       bind (fb_fine 33 x e) (fun '(x, e) =>
       Ok (Z.lor (Z.shiftl (e + 1) 3) (x - 8)))).

(* lobject.c:55-57 luaO_fb2int; the result is an int: a left shift that does not
   fit in 31 bits is undefined. *)
Definition luaO_fb2int (x : Z) : outcome Z :=
  if x <? 8 then Ok x
  else
    let r := Z.shiftl (Z.land x 7 + 8) (Z.shiftr x 3 - 1) in
    if r <? two31 then Ok r else UB.

(* lobject.c:64-73, the table log_2 *)
Definition log_2 : list Z :=
  [0;1;2;2;3;3;3;3;4;4;4;4;4;4;4;4;5;5;5;5;5;5;5;5;5;5;5;5;5;5;5;5;
   6;6;6;6;6;6;6;6;6;6;6;6;6;6;6;6;6;6;6;6;6;6;6;6;6;6;6;6;6;6;6;6;
   7;7;7;7;7;7;7;7;7;7;7;7;7;7;7;7;7;7;7;7;7;7;7;7;7;7;7;7;7;7;7;7;
   7;7;7;7;7;7;7;7;7;7;7;7;7;7;7;7;7;7;7;7;7;7;7;7;7;7;7;7;7;7;7;7;
   8;8;8;8;8;8;8;8;8;8;8;8;8;8;8;8;8;8;8;8;8;8;8;8;8;8;8;8;8;8;8;8;
   8;8;8;8;8;8;8;8;8;8;8;8;8;8;8;8;8;8;8;8;8;8;8;8;8;8;8;8;8;8;8;8;
   8;8;8;8;8;8;8;8;8;8;8;8;8;8;8;8;8;8;8;8;8;8;8;8;8;8;8;8;8;8;8;8;
   8;8;8;8;8;8;8;8;8;8;8;8;8;8;8;8;8;8;8;8;8;8;8;8;8;8;8;8;8;8;8;8].

(* lobject.c:76, the loop of luaO_ceillog2 *)
Fixpoint cl2_loop (fuel : nat) (x l : Z) : outcome Z :=
  match fuel with
  | O => OutOfFuel
  | S f => if 256 <=? x then cl2_loop f (Z.shiftr x 8) (l + 8)
           else Ok (l + nth (Z.to_nat x) log_2 0)
  end.

(* lobject.c:63-78 luaO_ceillog2 (unsigned int argument; x-- wraps for 0) *)
Definition luaO_ceillog2 (x : Z) : outcome Z := cl2_loop 5 (u32 (x - 1)) 0.
