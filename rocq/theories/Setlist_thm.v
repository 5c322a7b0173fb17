(* C13: constructors. *)
Require Import ZArith List Bool Lia.
From Verif Require Import Base Setlist_model Setlist_spec Setlist_proofs.
Import ListNotations.
Open Scope Z_scope.

(* list items, mixed with record fields, the last one possibly with several values: element i of the table is the i-th value, other integer keys keep what they had; whatever the registers held *)
Theorem C13_table : forall V l e regs (t : Z -> V), Z.of_nat (length (all_values l e)) < two31 -> count l e <= 50 * 16777215 ->
  exists t', make_table V l e regs t = Ok t' /\ (forall i v, nth_error (all_values l e) i = Some v -> t' (Z.of_nat i + 1) = v) /\
  (forall x, ~ 1 <= x <= Z.of_nat (length (all_values l e)) -> t' x = t x).
Proof. exact table_constructor. Qed.
Print Assumptions C13_table.

(* a typed array with up to 50 list expressions (the last may have any number of values) gets the converted values in order, or an error is raised and one of them cannot be converted; with more expressions the claim is false, see below *)
Theorem C13_array_partial : forall V E conv l e regs, Z.of_nat (length (all_values l e)) < two31 -> count l e <= 50 ->
  match make_array V E conv l e regs [] with
  | Ok a => map conv (all_values l e) = map Some a
  | Err x => x = EType /\ exists v, In v (all_values l e) /\ conv v = None
  | _ => False
  end.
Proof. exact array_constructor. Qed.
Print Assumptions C13_array_partial.

(* OP_SETLIST reads the values of the second batch of a typed array from registers beyond those of the batch: element 51 is whatever such a register holds (lvm.c:1990-2024: val = ra + i) *)
Theorem C13_array_refuted : forall junk, exists l, all_values l (Single Z) = map Z.of_nat (seq 1 51) /\
  exists a, make_array Z Z Some l (Single Z) (fun _ => 0) [] = Ok a /\ length a = 51%nat /\ nth_error a 50 = Some junk.
Proof. exact array_constructor_long. Qed.
Print Assumptions C13_array_refuted.

(* 120 items with a record field after every item, ending with a call that returns three values *)
Definition items13 : list (item Z) := flat_map (fun i => [Exp Z (Z.of_nat i * 7) (fun x => - x); Rec Z (fun x => 1000 + x)]) (seq 1 119).
Example C13_witness : count items13 (Multi Z [5; 6; 4] (fun _ => 3)) = 120 /\
  match make_table Z items13 (Multi Z [5; 6; 4] (fun _ => 3)) (fun _ => 9) (fun _ => -1) with
  | Ok t => t 0 = -1 /\ t 1 = 7 /\ t 50 = 350 /\ t 51 = 357 /\ t 119 = 833 /\ t 120 = 5 /\ t 122 = 4 /\ t 123 = -1
  | _ => False
  end /\
  make_array Z Z (fun x => if x <? 0 then None else Some (2 * x)) [Exp Z 4 (fun _ => 0)] (Multi Z [5; 6] (fun _ => 3)) (fun _ => 9) [] = Ok [8; 10; 12] /\
  make_array Z Z (fun x => if x <? 0 then None else Some (2 * x)) [Exp Z 4 (fun _ => 0); Exp Z (-1) (fun _ => 0)] (Single Z) (fun _ => 9) [] = Err EType.
Proof. vm_compute. repeat split; reflexivity. Qed.
