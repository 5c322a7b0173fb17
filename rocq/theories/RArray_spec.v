(* What a program may expect of Ravi arrays: lists of elements, and windows on them. *)
Require Import ZArith List Bool.
From Verif Require Import Base RArray_model.
Import ListNotations.
Open Scope Z_scope.

Section Spec.
Variable V : Type.
Variable zero : V.

(* An array is a window on a list of elements (its storage): element i of the array, for
   0 <= i <= n, is element off + i of the storage.  (Index 0 is an extra element which the
   documentation reserves.)  A dynamic array may grow and cannot be sliced, a fixed-size one
   has room for cap elements, a slice never grows. *)
Inductive kind : Set := Dynamic | Fixed (cap : Z) | Slice.
Record hnd : Type := mkHnd { hroot : nat; hoff : Z; hn : Z; hkind : kind }.
Record astate : Type := mkA { roots : list (list V); hnds : list hnd }.

Definition MAXN : Z := 4294967292.     (* a growable array has at most so many elements *)

Definition room (d : hnd) : bool :=
  match hkind d with Dynamic => hn d <? MAXN | Fixed cap => hn d <? cap | Slice => false end.

Definition elem (A : astate) (d : hnd) (i : Z) : outcome V :=
  match nth_error (nth (hroot d) (roots A) []) (Z.to_nat (hoff d + i)) with
  | Some v => Ok v
  | None => UB
  end.

Definition sstep (A : astate) (o : aop V) : outcome (astate * ares V) :=
  match o with
  | ONew _ =>
      Ok (mkA (roots A ++ [[zero]]) (hnds A ++ [mkHnd (length (roots A)) 0 0 Dynamic]),
          RHandle V (length (hnds A)))
  | OFixed _ n v =>
      if (0 <=? n) && (n <? two31)
      then Ok (mkA (roots A ++ [zero :: repeat v (Z.to_nat n)])
                   (hnds A ++ [mkHnd (length (roots A)) 0 n (Fixed (Z.max 12 n))]),
               RHandle V (length (hnds A)))
      else if n =? -1 then Ok (A, RErr V ELength)
      else UB
  | OSlice _ p s n =>
      if (- two31 <=? s) && (s <? two31) && (- two31 <=? n) && (n <? two31) then
        match nth_error (hnds A) p with
        | None => UB
        | Some d =>
            if (1 <=? s) && (1 <=? n) && (s + n - 1 <=? hn d) then
              match hkind d with
              | Dynamic => Ok (A, RErr V EResize)
              | _ => Ok (mkA (roots A) (hnds A ++ [mkHnd (hroot d) (hoff d + s - 1) n Slice]),
                         RHandle V (length (hnds A)))
              end
            else if hn d <? two31 then Ok (A, RErr V EArg) else UB
        end
      else UB
  | OGet _ h i =>
      match nth_error (hnds A) h with
      | None => UB
      | Some d =>
          if negb ((hn d + 1 - two32 <? i) && (i <? two32)) then UB
          else if (0 <=? i) && (i <=? hn d) then bind (elem A d i) (fun v => Ok (A, RVal V v))
          else Ok (A, RErr V EBounds)
      end
  | OSet _ h i v =>
      match nth_error (hnds A) h with
      | None => UB
      | Some d =>
          let r := nth (hroot d) (roots A) [] in
          if negb ((hn d + 1 - two32 <? i) && (i <? two32)) then UB
          else if (0 <=? i) && (i <=? hn d)
          then Ok (mkA (upd (roots A) (hroot d) (upd r (Z.to_nat (hoff d + i)) v)) (hnds A), RUnit V)
          else if i =? hn d + 1 then
            if room d
            then Ok (mkA (upd (roots A) (hroot d) (r ++ [v]))
                         (upd (hnds A) h (mkHnd (hroot d) (hoff d) (hn d + 1) (hkind d))), RUnit V)
            else Ok (A, RErr V EResize)
          else Ok (A, RErr V EBounds)
      end
  | OLen _ h => match nth_error (hnds A) h with
                | None => UB
                | Some d => Ok (A, RInt V (hn d))
                end
  | ONext _ h k =>
      match nth_error (hnds A) h with
      | None => UB
      | Some d =>
          let i := match k with None => 0 | Some k => k end + 1 in
          if negb ((1 <=? i) && (i <=? maxint)) then UB
          else if hn d <? i then Ok (A, RPair V None)
          else bind (elem A d i) (fun v => Ok (A, RPair V (Some (i, v))))
      end
  end.
(* UB here means: nothing is promised *)

Fixpoint srun (A : astate) (l : list (aop V)) : outcome (list (ares V)) :=
  match l with
  | [] => Ok []
  | o :: r => bind (sstep A o) (fun '(A', x) => bind (srun A' r) (fun xs => Ok (x :: xs)))
  end.
Definition empty_state : astate := mkA [] [].
(* the state reached by a history in the specification *)
Fixpoint sstate (A : astate) (l : list (aop V)) : outcome astate :=
  match l with
  | [] => Ok A
  | o :: r => bind (sstep A o) (fun '(A', _) => sstate A' r)
  end.


(* operations about which something is promised in state A *)
Definition in_scope (A : astate) (o : aop V) : Prop :=
  match o with
  | ONew _ => True
  | OFixed _ n _ => -1 <= n < two31
  | OSlice _ h s n => - two31 <= s < two31 /\ - two31 <= n < two31 /\
      exists d, nth_error (hnds A) h = Some d /\ hn d < two31
  | OGet _ h i | OSet _ h i _ => exists d, nth_error (hnds A) h = Some d /\ hn d + 1 - two32 < i < two32
  | OLen _ h => exists d, nth_error (hnds A) h = Some d
  | ONext _ h k => (exists d, nth_error (hnds A) h = Some d) /\
      match k with None => True | Some k => 0 <= k < maxint end
  end.


(* the calls a for-in loop over next makes on an array which is not changed meanwhile *)
Fixpoint visits (h : nat) (k : Z) (m : nat) : list (aop V) :=
  ONext V h (if k =? 0 then None else Some k) ::
  match m with O => [] | S m' => visits h (k + 1) m' end.

End Spec.
