(* What statements do, without jumps: a loop is run at most as often as the fuel says. *)
Require Import ZArith List Bool Arith.
From Verif Require Import Base Float_model Op_model Op_spec Gen_model Gen_spec Stat_model.
Import ListNotations.
Local Open Scope nat_scope.

(* the scope after a statement: the number of variables and their types *)
Definition scope := (nat * (nat -> tmap))%type.
Definition adds (c : scope) (t : tmap) : scope := (S (fst c), fun r => if r =? fst c then t else snd c r).
Definition after1 (c : scope) (s : stat) : scope := match s with SLocal t _ => adds c t | _ => c end.
Fixpoint after (c : scope) (b : block) : scope := match b with BNil => c | BCons s b => after (after1 c s) b end.

Section meaning.
Variable W : Type.
Variable E : env W.
Variable ut : nat -> tmap.
Definition locals := nat -> val.
Definition set (l : locals) (r : nat) (v : val) : locals := fun x => if x =? r then v else l x.
(* how a statement ends: it is done, or a break leaves the loop *)
Inductive ending := Done | Broken.
(* None: a loop has been run as often as the fuel says and is not at its end *)
Definition sresult := option (outcome ((ending * locals) * W)).
Definition done (l : locals) (w : W) : sresult := Some (Ok ((Done, l), w)).
Definition broken (l : locals) (w : W) : sresult := Some (Ok ((Broken, l), w)).
Definition value (o : outcome (val * W)) (f : val -> W -> sresult) : sresult :=
  match o with Ok (v, w) => f v w | Err e => Some (Err e) | UB => Some UB | OutOfFuel => Some OutOfFuel end.
Definition next (o : sresult) (f : locals -> W -> sresult) : sresult :=
  match o with Some (Ok ((Done, l), w)) => f l w | _ => o end.
(* the end of a loop body: a break ends the loop *)
Definition body (o : sresult) (f : locals -> W -> sresult) : sresult :=
  match o with Some (Ok ((Done, l), w)) => f l w | Some (Ok ((Broken, l), w)) => done l w | _ => o end.
Fixpoint loop (f : (locals -> W -> sresult) -> locals -> W -> sresult) (k : nat) (l : locals) (w : W) : sresult :=
  match k with O => None | S k => f (loop f k) l w end.
Definition evalc (c : scope) (x : expr) (l : locals) (w : W) : outcome (val * W) := eval W E (fst c) (snd c) ut x l w.
Variable fuel : nat.
Fixpoint exec (c : scope) (s : stat) (l : locals) (w : W) : sresult :=
  match s with
  | SAssign r x => value (evalc c x l w) (fun v w => value (bind (coerce (snd c r) v) (fun v => Ok (v, w))) (fun v w => done (set l r v) w))
  | SCall f a => value (evalc c (ECall f a) l w) (fun _ w => done l w)
  | SLocal t x => value (evalc c x l w) (fun v w => value (bind (coerce t v) (fun v => Ok (v, w))) (fun v w => done (set l (fst c) v) w))
  | SDo b => execb c b l w
  | SWhile x b =>
    loop (fun again l w => value (evalc c x l w) (fun v w => if truthy v then body (execb c b l w) again else done l w)) fuel l w
  | SRepeat b x =>
    loop (fun again l w => body (execb c b l w) (fun l w => value (evalc (after c b) x l w) (fun v w => if truthy v then done l w else again l w))) fuel l w
  | SIf cl => execc c cl l w
  | SBreak => broken l w
  end
with execb (c : scope) (b : block) (l : locals) (w : W) : sresult :=
  match b with
  | BNil => done l w
  | BCons s b => next (exec c s l w) (execb (after1 c s) b)
  end
with execc (c : scope) (cl : clauses) (l : locals) (w : W) : sresult :=
  match cl with
  | CEnd => done l w
  | CElse b => execb c b l w
  | CThen x b cl => value (evalc c x l w) (fun v w => if truthy v then execb c b l w else execc c cl l w)
  end.
End meaning.

(* the statements for which the code generator is right: their expressions are tame, tests are not left
   out, variables are in scope and of types that can be declared; a variable that is not dynamically
   typed is not assigned an 'and', 'or', comparison or dynamically typed variable *)
Section tame.
Variable ut : nat -> tmap.
Definition tamec (c : scope) (x : expr) : bool := tame (fst c) (snd c) ut x.
Definition testedc (c : scope) (x : expr) (m : tmap) : bool := tested (fst c) (snd c) ut x m.
Definition declarable (t : tmap) : bool := Z.eqb t T_ANY || match conv_of t with Some _ => true | None => false end.
Definition assignable (c : scope) (r : nat) (x : expr) : bool :=
  Z.eqb (snd c r) T_ANY ||
  (simple x && match shape_of x with Jump => false | _ => true end && match x with ELocal q => negb (Z.eqb (snd c q) T_ANY) | _ => true end).
Fixpoint stame (c : scope) (s : stat) : bool :=
  match s with
  | SAssign r x => (r <? fst c) && declarable (snd c r) && tamec c x && assignable c r x
  | SCall f a => tamec c (ECall f a)
  | SLocal t x => declarable t && tamec c x
  | SDo b => btame c b
  | SWhile x b => tamec c x && testedc c x T_FALSISH && btame c b
  | SRepeat b x => btame c b && tamec (after c b) x && testedc (after c b) x T_FALSISH
  | SIf cl => ctame c cl
  | SBreak => true
  end
with btame (c : scope) (b : block) : bool :=
  match b with BNil => true | BCons s b => stame c s && btame (after1 c s) b end
with ctame (c : scope) (cl : clauses) : bool :=
  match cl with
  | CEnd => true
  | CElse b => btame c b
  | CThen x b cl => tamec c x && testedc c x (match b with BCons SBreak _ => T_TRUISH | _ => T_FALSISH end) && btame c b && ctame c cl
  end.
End tame.

(* the machine can make m steps *)
Fixpoint can_run (W : Type) (E : env W) (P : prog) (m : nat) (c : config W) : Prop :=
  match m with O => True | S m => exists c1, step W E P c = Ok c1 /\ can_run W E P m c1 end.
