(* Lua's own character classification (lctype.c, lctype.h). *)
Require Import ZArith List Bool.
From Verif Require Import Base.
Import ListNotations.
Open Scope Z_scope.

(* lctype.c:19-52 luai_ctype_: entry 0 is for EOZ (-1) *)
Definition luai_ctype : list Z := [
  0;
  0; 0; 0; 0; 0; 0; 0; 0; 0; 8; 8; 8; 8; 8; 0; 0;
  0; 0; 0; 0; 0; 0; 0; 0; 0; 0; 0; 0; 0; 0; 0; 0;
  12; 4; 4; 4; 4; 4; 4; 4; 4; 4; 4; 4; 4; 4; 4; 4;
  22; 22; 22; 22; 22; 22; 22; 22; 22; 22; 4; 4; 4; 4; 4; 4;
  4; 21; 21; 21; 21; 21; 21; 5; 5; 5; 5; 5; 5; 5; 5; 5;
  5; 5; 5; 5; 5; 5; 5; 5; 5; 5; 5; 4; 4; 4; 4; 5;
  4; 21; 21; 21; 21; 21; 21; 5; 5; 5; 5; 5; 5; 5; 5; 5;
  5; 5; 5; 5; 5; 5; 5; 5; 5; 5; 5; 4; 4; 4; 4; 0;
  0; 0; 0; 0; 0; 0; 0; 0; 0; 0; 0; 0; 0; 0; 0; 0;
  0; 0; 0; 0; 0; 0; 0; 0; 0; 0; 0; 0; 0; 0; 0; 0;
  0; 0; 0; 0; 0; 0; 0; 0; 0; 0; 0; 0; 0; 0; 0; 0;
  0; 0; 0; 0; 0; 0; 0; 0; 0; 0; 0; 0; 0; 0; 0; 0;
  0; 0; 0; 0; 0; 0; 0; 0; 0; 0; 0; 0; 0; 0; 0; 0;
  0; 0; 0; 0; 0; 0; 0; 0; 0; 0; 0; 0; 0; 0; 0; 0;
  0; 0; 0; 0; 0; 0; 0; 0; 0; 0; 0; 0; 0; 0; 0; 0;
  0; 0; 0; 0; 0; 0; 0; 0; 0; 0; 0; 0; 0; 0; 0; 0
].
(* lctype.h:47 testprop *)
Definition testprop (c mask : Z) : bool := negb (Z.land (nth (Z.to_nat (c + 1)) luai_ctype 0) mask =? 0).
(* lctype.h:36-40, 52-57 *)
Definition lislalpha (c : Z) : bool := testprop c 1.
Definition lislalnum (c : Z) : bool := testprop c 3.
Definition lisdigit (c : Z) : bool := testprop c 2.
Definition lisspace (c : Z) : bool := testprop c 8.
Definition lisprint (c : Z) : bool := testprop c 4.
Definition lisxdigit (c : Z) : bool := testprop c 16.
(* lctype.h:67 *)
Definition ltolower (c : Z) : Z := Z.lor c 32.
