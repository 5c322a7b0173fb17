(* C27: interned strings. *)
Require Import ZArith List Bool Lia.
From Verif Require Import Base Base_facts Str Intern_model Intern_spec Intern_proofs.
Import ListNotations.
Open Scope Z_scope.

(* the string table starts without error *)
Theorem C27_init : forall seed a, a <> 0 -> exists s, luaS_init seed a = Ok s.
Proof. exact intern_total_ok. Qed.
Print Assumptions C27_init.

(* from every state that can be reached creating, marking, sweeping and resizing never fail, never touch a freed string and always end; every string keeps its address and its contents, but the dead one that is swept *)
Theorem C27_step : forall seed s o, reachable seed s -> legal s o -> exists s', step seed s o = Ok s' /\ keeps s o s'.
Proof. exact intern_step_ok. Qed.
Print Assumptions C27_step.

(* a short string exists at one address only *)
Theorem C27_unique : forall seed s a b str, reachable seed s -> slen str <= 40 -> holds s a str -> holds s b str -> a = b.
Proof. exact intern_unique_ok. Qed.
Print Assumptions C27_unique.

(* comparing strings as luaV_equalobj does (by address when short) is comparing their contents *)
Theorem C27_equality : forall seed s a b o q, reachable seed s -> s_heap s a = Some o -> s_heap s b = Some q -> (equalobj a o b q = true <-> t_str o = t_str q).
Proof. exact intern_equality_ok. Qed.
Print Assumptions C27_equality.

(* luaS_newlstr gives a string with these contents that the collector will not free in this cycle; the existing one if it is short and exists, otherwise a new one *)
Theorem C27_new : forall seed s str a, reachable seed s -> free_at s a -> exists p s', luaS_newlstr seed s str a = Ok (p, s') /\ holds s' p str /\ ~ dead s' p /\
  (forall q, slen str <= 40 -> holds s q str -> p = q) /\ ((forall q, holds s q str -> 40 < slen str) -> p = a).
Proof. exact intern_new_ok. Qed.
Print Assumptions C27_new.

(* luaS_new, with its cache by address: the text may have changed since it was cached, the string given has the contents of the text now and is not dead *)
Theorem C27_new_c : forall seed s str ptr a, reachable seed s -> free_at s a -> exists p s', luaS_new seed s str ptr a = Ok (p, s') /\ holds s' p (cstr str) /\ ~ dead s' p /\ (p = a \/ holds s p (cstr str)).
Proof. exact intern_newc_ok. Qed.
Print Assumptions C27_new_c.

(* the preallocated message always exists *)
Theorem C27_memerr : forall seed s, reachable seed s -> exists str, holds s (s_memerr s) str /\ ~ dead s (s_memerr s).
Proof. exact intern_memerr_ok. Qed.
Print Assumptions C27_memerr.

(* 1000 + i in decimal: many short strings *)
Definition name (i : nat) : list Z := let n := 1000 + Z.of_nat i in [48 + n / 1000; 48 + n / 100 mod 10; 48 + n / 10 mod 10; 48 + n mod 10].
Definition fill (n : nat) : list op := map (fun i => New (name i) (100 + Z.of_nat i)) (seq 0 n).
Definition sweep_all (n : nat) : list op := map (fun i => Sweep (100 + Z.of_nat i)) (seq 0 n).
(* 200 strings, two collections: only three are marked, one is dead and found again *)
Definition history : list op := fill 200 ++ [NewC [104; 105; 0; 9] 7 500; Gray 103; Black 500; Flip; New (name 5) 600; NewC [104; 105] 7 601; New (repeat 65 41) 602; New (repeat 65 41) 603] ++ sweep_all 200 ++ [CheckSizes; CheckSizes; CheckSizes; New (name 150) 604; NewC [104; 106] 7 605].
Definition at_ (s : st) (a : Z) : option (list Z) := option_map t_str (s_heap s a).
Example C27_witness :
  match bind (luaS_init 12345 1) (fun s => run 12345 s history) with
  | Ok s => (length (s_hash s), s_nuse s) = (32%nat, 6) /\ at_ s 103 = Some (name 3) /\ at_ s 105 = Some (name 5) /\ at_ s 106 = None /\ at_ s 600 = None /\ at_ s 500 = Some [104; 105] /\ at_ s 601 = None /\
            at_ s 602 = at_ s 603 /\ at_ s 604 = Some (name 150) /\ nth 7 (s_cache s) [] = [605; 500] /\ at_ s 1 = Some MEMERRMSG
  | _ => False
  end /\
  match bind (luaS_init 12345 1) (fun s => run 12345 s (fill 200)) with Ok s => (length (s_hash s), s_nuse s) = (256%nat, 201) | _ => False end.
Proof. vm_compute. repeat split; reflexivity. Qed.
