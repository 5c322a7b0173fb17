(* C25: table.sort. *)
Require Import ZArith List Bool Lia.
From Verif Require Import Base Sort_model Sort_spec Sort_proofs.
Import ListNotations.
Open Scope Z_scope.

(* for every comparison function, consistent or not, and every clock: the values at 1..n are rearranged, nothing else is read or written, also if an error is raised; sorting ends *)
Theorem C25_permutes : forall V St cmp rand n a s, 0 <= n -> match sort V St cmp rand n a s with
  | ROk _ a' _ => rearranged n a a'
  | RErr e a' => rearranged n a a' /\ (e = EArg /\ INT_MAX <= n \/ (e = EOrder \/ e = EUser) /\ 1 < n < INT_MAX)
  | _ => False
  end.
Proof. exact sort_any. Qed.
Print Assumptions C25_permutes.

(* if the comparison is a strict weak order no error is raised and the result is sorted *)
Theorem C25_sorts : forall V St cmp rand n lt a s, 0 <= n < INT_MAX -> answers cmp lt -> strict_weak_order lt ->
  exists a' s', sort V St cmp rand n a s = ROk tt a' s' /\ rearranged n a a' /\ sorted lt 1 n a'.
Proof. exact sort_sorts. Qed.
Print Assumptions C25_sorts.

Definition by_lt (s : unit) (x y : Z) := Some (x <? y, s).
Definition always (s : unit) (x y : Z) := Some (true, s).
Definition arr25 (i : Z) : Z := nth (Z.to_nat i) [0; 5; 3; 9; 3; 1; 8; 2] 77.
Definition show (r : res Z unit unit) : option (option error * list Z) :=
  match r with ROk _ a _ => Some (None, contents 7 a) | RErr e a => Some (Some e, contents 7 a) | _ => None end.
(* equal elements, and an inconsistent comparison *)
Example C25_witness : strict_weak_order Z.ltb /\ answers by_lt Z.ltb /\
  show (sort Z unit by_lt (fun s => (12345, s)) 7 arr25 tt) = Some (None, [1; 2; 3; 3; 5; 8; 9]) /\
  show (sort Z unit always (fun s => (12345, s)) 7 arr25 tt) = Some (Some EOrder, [3; 3; 9; 8; 1; 2; 5]).
Proof.
  split; [|split; [intros s x y; exists s; reflexivity|]].
  - split; [apply Z.ltb_irrefl|]. split; intros x y z; rewrite ?Z.ltb_lt; lia.
  - vm_compute. split; reflexivity.
Qed.
