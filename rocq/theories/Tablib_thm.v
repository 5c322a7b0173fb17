(* C26, C55: insert, remove, move, concat, pack and unpack. *)
Require Import ZArith List Bool Lia.
From Verif Require Import Base Tablib_model Tablib_spec Tablib_proofs.
Import ListNotations.
Open Scope Z_scope.

(* insert puts the value at its position, shifts the rest and changes nothing else; other positions are errors *)
Theorem C26_insert : forall V t (l : list V) n p v fuel, holds t l -> n = Z.of_nat (length l) -> n < maxint -> n <= Z.of_nat fuel ->
  let q := match p with Some p => p | None => n + 1 end in
  (1 <= q <= n + 1 -> exists t', tinsert V fuel t n p v = Ok t' /\
     holds t' (firstn (Z.to_nat (q - 1)) l ++ v :: skipn (Z.to_nat (q - 1)) l) /\ same_outside 1 (n + 1) t t') /\
  (~ 1 <= q <= n + 1 -> tinsert V fuel t n p v = Err EArg).
Proof. exact insert_ok. Qed.
Print Assumptions C26_insert.

(* remove takes the element out, shifts the rest, clears the last place and changes nothing else; it also accepts n+1, and 0 for an empty list *)
Theorem C26_remove : forall V nil t (l : list V) n p fuel, holds t l -> n = Z.of_nat (length l) -> n < maxint -> n <= Z.of_nat fuel ->
  let q := match p with Some p => p | None => n end in
  (1 <= q <= n -> exists t', tremove V nil fuel t n p = Ok (t q, t') /\
     holds t' (firstn (Z.to_nat (q - 1)) l ++ skipn (Z.to_nat q) l) /\ t' n = nil /\ same_outside 1 n t t') /\
  (q = n + 1 \/ n = 0 /\ q = 0 -> exists t', tremove V nil fuel t n p = Ok (t q, t') /\ t' q = nil /\ forall i, i <> q -> t' i = t i) /\
  (~ 1 <= q <= n + 1 -> q <> n -> tremove V nil fuel t n p = Err EArg).
Proof. exact remove_ok. Qed.
Print Assumptions C26_remove.

(* move copies as if through a temporary, also within one table; wrap-around is an error *)
Theorem C26_move : forall V src (dst : Z -> V) f e t other eq fuel, is_s64 f -> is_s64 e -> is_s64 t -> e - f < Z.of_nat fuel ->
  (src = None -> other = true -> eq = true) ->
  let from := match src with Some s => s | None => dst end in
  (e < f -> tmove V fuel src dst f e t other eq = Ok dst) /\
  (f <= e -> e - f + 1 <= maxint -> t + (e - f) <= maxint -> exists d', tmove V fuel src dst f e t other eq = Ok d' /\
     (forall k, 0 <= k <= e - f -> d' (t + k) = from (f + k)) /\ same_outside t (t + (e - f)) dst d') /\
  (f <= e -> ~ (e - f + 1 <= maxint /\ t + (e - f) <= maxint) -> tmove V fuel src dst f e t other eq = Err EArg).
Proof. exact move_ok. Qed.
Print Assumptions C26_move.

(* concat joins the elements of the interval, or one of them is not a string *)
Theorem C26_concat : forall V str (t : Z -> V) n sep i j fuel, is_s64 n ->
  let a := match i with Some i => i | None => 1 end in let b := match j with Some j => j | None => n end in
  is_s64 a -> is_s64 b -> b - a <= Z.of_nat fuel ->
  match tconcat V str fuel t n sep i j with
  | Ok r => exists l, map str (slice t a (Z.to_nat (b - a + 1))) = map Some l /\ r = join sep l
  | Err e => e = EType /\ exists k, a <= k <= b /\ str (t k) = None
  | _ => False
  end.
Proof. exact concat_ok. Qed.
Print Assumptions C26_concat.

Definition t26 (i : Z) : Z := if (1 <=? i) && (i <=? 5) then 10 * i else 0.
Example C26_witness : holds t26 [10; 20; 30; 40; 50] /\
  match tinsert Z 9 t26 5 (Some 2) 7 with Ok t => slice t 0 8 = [0; 10; 7; 20; 30; 40; 50; 0] | _ => False end /\
  match tremove Z 0 9 t26 5 (Some 2) with Ok (v, t) => v = 20 /\ slice t 0 8 = [0; 10; 30; 40; 50; 0; 0; 0] | _ => False end /\
  match tmove Z 9 None t26 1 4 3 false false with Ok t => slice t 0 8 = [0; 10; 20; 10; 20; 30; 40; 0] | _ => False end /\
  match tmove Z 9 None t26 2 5 1 true true with Ok t => slice t 0 8 = [0; 20; 30; 40; 50; 50; 0; 0] | _ => False end /\
  match tmove Z 9 (Some t26) (fun _ => 1) 2 4 3 true false with Ok t => slice t 0 8 = [1; 1; 1; 20; 30; 40; 1; 1] | _ => False end /\
  tmove Z 9 None t26 1 5 (maxint - 3) false false = Err EArg /\ tinsert Z 9 t26 5 (Some 7) 1 = Err EArg /\
  tconcat Z (fun x => if x =? 0 then None else Some [x]) 9 t26 5 [1; 2] (Some 2) (Some 4) = Ok [20; 1; 2; 30; 1; 2; 40] /\
  tconcat Z (fun x => if x =? 0 then None else Some [x]) 9 t26 5 [1; 2] (Some 2) (Some 7) = Err EType.
Proof.
  split.
  - intros [|[|[|[|[|i]]]]] v E; cbn in E; try (injection E as <-; reflexivity). destruct i; discriminate.
  - vm_compute. repeat split; reflexivity.
Qed.

(* pack stores the arguments at 1..n, with n as their number *)
Theorem C55_pack : forall V nil (args : list V), exists t, pack V nil args = (t, Z.of_nat (length args)) /\ holds t args /\ forall i, ~ 1 <= i <= Z.of_nat (length args) -> t i = nil.
Proof. exact pack_ok. Qed.
Print Assumptions C55_pack.

(* unpack returns exactly the values of the interval, for all 64-bit bounds, or refuses *)
Theorem C55_unpack : forall V (t : Z -> V) n i j room fuel, is_s64 n ->
  let a := match i with Some i => i | None => 1 end in let b := match j with Some j => j | None => n end in
  is_s64 a -> is_s64 b -> two31 <= Z.of_nat fuel ->
  unpack V fuel room t n i j = if b <? a then Ok [] else if (b - a + 1 <? two31) && (b - a + 1 <=? room) then Ok (slice t a (Z.to_nat (b - a + 1))) else Err ETooLong.
Proof. exact unpack_ok. Qed.
Print Assumptions C55_unpack.

(* unpack after pack gives the arguments back *)
Theorem C55_roundtrip : forall V nil (args : list V) room fuel, Z.of_nat (length args) < two31 -> Z.of_nat (length args) <= room -> two31 <= Z.of_nat fuel ->
  unpack V fuel room (fst (pack V nil args)) (snd (pack V nil args)) None None = Ok args.
Proof. exact unpack_pack. Qed.
Print Assumptions C55_roundtrip.

Example C55_witness : unpack Z 9 100 (fst (pack Z 0 [4; 0; 6])) (snd (pack Z 0 [4; 0; 6])) None None = Ok [4; 0; 6] /\
  unpack Z 9 100 t26 5 (Some (maxint - 1)) (Some maxint) = Ok [0; 0] /\ unpack Z 9 100 t26 5 (Some minint) (Some maxint) = Err ETooLong /\ unpack Z 9 2 t26 5 None None = Err ETooLong.
Proof. vm_compute. repeat split; reflexivity. Qed.
