(* C66: moving the stack changes nothing. *)
Require Import ZArith List Bool Lia.
From Verif Require Import Base Stack_model Stack_spec Stack_proofs.
Import ListNotations.
Open Scope Z_scope.

(* a reallocated stack has the old values, nil in the new slots, and every pointer into it points to the same slot *)
Theorem C66_realloc : forall V nil s newsize nb junk, proper V s -> 10 <= newsize ->
  exists s', luaD_reallocstack V nil s newsize (Some (nb, junk)) = Some s' /\
    same_view V (Z.min (stacksize V s) newsize) s s' /\
    (forall i, stacksize V s <= i < newsize -> get V s' (stack V s' + i) = Some nil) /\
    stacksize V s' = newsize.
Proof. exact realloc_ok. Qed.
Print Assumptions C66_realloc.

(* luaD_growstack makes room for n values without going over the limit, at least doubling the stack unless at the limit; it reports an overflow exactly when there is no room within the limit and then leaves room for the error handler; nothing is lost in either case *)
Theorem C66_grow : forall V nil s n ans, proper V s -> 0 <= n <= 1000000 ->
  exists s' e, luaD_growstack V nil s n ans = Ok (s', e) /\
    same_view V (stacksize V s) s s' /\ proper V s' /\
    (forall i, stacksize V s <= i < stacksize V s' -> get V s' (stack V s' + i) = Some nil) /\
    match e with
    | None => n <= free_slots V s' /\ Z.min (2 * stacksize V s) 1000000 <= stacksize V s' <= 1000000
    | Some EOverflow => top V s - stack V s + n + 5 > 1000000 /\ stacksize V s <= 1000000 /\
        200 <= free_slots V s'
    | Some EErrErr => stacksize V s > 1000000 /\ s' = s
    | Some EMemory => ans = None /\ s' = s
    end.
Proof. exact grow_ok. Qed.
Print Assumptions C66_grow.

(* lua_checkstack never throws and never overflows, whatever n; if it says yes there are n slots, within the frame; it says no only if the limit, an overflow being handled or memory forbids it *)
Theorem C66_checkstack : forall V nil s n ans, proper V s -> 0 <= n <= 2147483647 ->
  (exists c cs, cis V s = c :: cs) ->
  exists s' res, lua_checkstack V nil s n ans = Ok (s', res) /\ proper V s' /\
    (exists s1, same_view V (stacksize V s) s s1 /\ stack V s1 = stack V s' /\ top V s1 = top V s' /\
       openupval V s1 = openupval V s' /\ tl (cis V s1) = tl (cis V s') /\ mem V s1 = mem V s' /\
       stacksize V s1 = stacksize V s') /\
    (if res then n <= free_slots V s' /\ exists c cs, cis V s' = c :: cs /\ top V s' + n <= ci_top c
     else top V s - stack V s + n + 5 > 1000000 \/ stacksize V s > 1000000 \/ ans = None).
Proof. exact check_ok. Qed.
Print Assumptions C66_checkstack.

(* luaD_shrinkstack keeps every slot below the top and below the top of every active function *)
Theorem C66_shrink : forall V nil s ans, proper V s ->
  exists r, luaD_shrinkstack V nil s ans = Ok r /\
    match r with
    | None => ans = None
    | Some s' => proper V s' /\ stacksize V s' <= stacksize V s /\
        forall k, (k <= top V s - stack V s \/ exists c, In c (cis V s) /\ k <= ci_top c - stack V s) ->
          same_view V k s s'
    end.
Proof. exact shrink_ok. Qed.
Print Assumptions C66_shrink.

(* so whatever pointer is followed afterwards, the value is the old one *)
Theorem C66_reads : forall V k s s' p p', same_view V k s s' -> same_place V s s' p p' ->
  stack V s <= p < stack V s + k -> get V s' p' = get V s p.
Proof. exact reads_ok. Qed.
Print Assumptions C66_reads.

(* a C function that called a Lua function; the continuation of the C function is the
   word 107, which is also an address in the old stack *)
Definition stack0 : state Z := St Z 100 40 135 112 [104; 110]
  [CI 120 108 true 109; CI 125 101 false 107] (fun a => a * a).

Example C66_witness :
  proper Z stack0 /\
  match luaD_growstack Z 0 stack0 50 (Some (5000, fun _ => 7)) with
  | Ok (s, None) => Some ((stack Z s, stacksize Z s, stack_last Z s, top Z s), openupval Z s, cis Z s,
      [get Z s 5010; get Z s 5079; get Z s 5080],
      match luaD_shrinkstack Z 0 s (Some (300, fun _ => 8)) with
      | Ok (Some s2) => Some (stack Z s2, stacksize Z s2, top Z s2, get Z s2 310)
      | _ => None
      end)
  | _ => None
  end = Some ((5000, 80, 5075, 5012), [5004; 5010], [CI 5020 5008 true 5009; CI 5025 5001 false 107],
      [Some (110 * 110); Some 0; None], Some (300, 39, 312, Some (110 * 110))) /\
  match lua_checkstack Z 0 stack0 2147483647 None with Ok (_, r) => Some r | _ => None end = Some false.
Proof.
  split; [|split; vm_compute; reflexivity].
  unfold proper, stack0; simpl. split; [lia|]. split; [lia|]. split; [lia|]. split; [lia|].
  split; [discriminate|]. split; repeat constructor; simpl; try lia; intros; try discriminate; lia.
Qed.
