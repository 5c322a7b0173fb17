(* C60: names denote the innermost visible declaration. *)
Require Import ZArith List Bool Lia.
From Verif Require Import Base Names_model Names_spec Names_proofs.
Import ListNotations.
Open Scope nat_scope.

(* for every sequence of declarations, scopes, functions and uses of names: a use of a name is compiled to the register or the upvalue that holds the variable of the innermost visible declaration, with the declared type; through any number of enclosing functions. A name that is not declared is compiled to a field of the variable that _ENV stands for *)
Theorem C60_names : forall envn os s p n p' ev, ssteps envn sinit os = Some s -> steps envn (init envn) os = Ok p ->
  step envn p (Use n) = Ok (p', ev) ->
  match ev with
  | Variable_ e t =>
    (lookup (sfuns s) n <> None \/ n = envn) /\ denotes (sfuns s) (upvals p') e = Some (fst (stands_for (sfuns s) n)) /\ t = snd (stands_for (sfuns s) n)
  | Global_ e => lookup (sfuns s) n = None /\ n <> envn /\ denotes (sfuns s) (upvals p') e = Some (fst (stands_for (sfuns s) envn))
  | _ => False
  end.
Proof. exact names_resolved. Qed.
Print Assumptions C60_names.

(* the parser rejects such a text only for the limits on variables and upvalues, and touches nothing outside its tables *)
Theorem C60_total : forall envn os s, ssteps envn sinit os = Some s ->
  steps envn (init envn) os = Err ETooLong \/ exists p, steps envn (init envn) os = Ok p.
Proof. exact parser_total. Qed.
Print Assumptions C60_total.

(* the closure made when the function is finished has, in the upvalue a use in the function was compiled to, the variable that was meant, whatever was declared or used in between *)
Theorem C60_closures : forall envn os s p n s0 p0 i t os' s1 p1 s2 p2 us, ssteps envn sinit os = Some s -> steps envn (init envn) os = Ok p ->
  sstep envn s (Use n) = Some s0 -> step envn p (Use n) = Ok (p0, Variable_ (VUpval i) t) ->
  stays envn (depth s) s0 os' -> ssteps envn s0 os' = Some s1 -> steps envn p0 os' = Ok p1 -> depth s1 = depth s ->
  sstep envn s1 Finish = Some s2 -> step envn p1 Finish = Ok (p2, Proto_ us) ->
  forall f, upval_target (f :: sfuns s2) (us :: upvals p2) i = Some (fst (stands_for (sfuns s) n)).
Proof. exact closure_right. Qed.
Print Assumptions C60_closures.

(* the variable an upvalue of an open function refers to never changes *)
Theorem C60_stable : forall envn os os' s p s' p' d i t, ssteps envn sinit os = Some s -> steps envn (init envn) os = Ok p ->
  stays envn d s os' -> ssteps envn s os' = Some s' -> steps envn p os' = Ok p' -> 1 <= d ->
  upval_target (lastn d (sfuns s)) (lastn d (upvals p)) i = Some t -> upval_target (lastn d (sfuns s')) (lastn d (upvals p')) i = Some t.
Proof. exact upvalue_stable. Qed.
Print Assumptions C60_stable.

(* the end of a block closes the upvalues from its first variable on, if an inner function uses a variable of the block or a function is deferred in it, and otherwise emits no jump; so every execution of the block has variables of its own *)
Theorem C60_blocks : forall envn os s p s' p' l, ssteps envn sinit os = Some s -> steps envn (init envn) os = Ok p ->
  sstep envn s Leave = Some s' -> step envn p Leave = Ok (p', CloseAt l) ->
  (block_captured s -> l = Some (block_base s)) /\ (~ block_captured s -> l = None).
Proof. exact block_closed. Qed.
Print Assumptions C60_blocks.

(* local x, y: integer; do local x; function() local z = x; y(); function() return x + z + _ENV.g end end end *)
Definition text : list op :=
  [New 1%Z T_ANY; New 2%Z 3%Z; Activate 2; Enter; New 1%Z T_ANY; Activate 1; Open; New 3%Z T_ANY; Use 1%Z; Activate 1; Use 2%Z; Open; Use 1%Z; Use 3%Z].
Example C60_witness :
  exists s p p' p'' q, ssteps 0%Z sinit text = Some s /\ steps 0%Z (init 0%Z) text = Ok p /\ depth s = 3 /\
  (* x is the variable in register 2 of the main function, through upvalue 0 of both functions *)
  step 0%Z p (Use 1%Z) = Ok (p', Variable_ (VUpval 0) T_ANY) /\ stands_for (sfuns s) 1%Z = (TDecl 2, T_ANY) /\
  upvals p' = [[mkU 1%Z false 0 T_ANY; mkU 3%Z true 0 T_ANY]; [mkU 1%Z true 2 T_ANY; mkU 2%Z true 1 3%Z]; [mkU 0%Z true 0 T_ANY]] /\
  (* y is typed *)
  (exists q, step 0%Z p (Use 2%Z) = Ok (q, Variable_ (VUpval 2) 3%Z)) /\
  (* a global: _ENV comes through all functions *)
  step 0%Z p (Use 9%Z) = Ok (p'', Global_ (VUpval 2)) /\ nth_error (upvals p'') 1 = Some [mkU 1%Z true 2 T_ANY; mkU 2%Z true 1 3%Z; mkU 0%Z false 0 T_ANY] /\
  (* at the end of the block: close from register 2 *)
  steps 0%Z p [Finish; Finish] = Ok q /\ (exists q', step 0%Z q Leave = Ok (q', CloseAt (Some 2))).
Proof.
  eexists. eexists. eexists. eexists. eexists. split; [vm_compute; reflexivity|]. split; [vm_compute; reflexivity|]. split; [vm_compute; reflexivity|]. split; [vm_compute; reflexivity|].
  split; [vm_compute; reflexivity|]. split; [vm_compute; reflexivity|]. split; [eexists; vm_compute; reflexivity|]. split; [vm_compute; reflexivity|]. split; [vm_compute; reflexivity|]. split; [vm_compute; reflexivity|]. eexists. vm_compute. reflexivity.
Qed.
