(* Variables as the language has them: every slot of a stack holds an instance of a variable, an instance
   is named by the slot and a number, and closures refer to instances. *)
Require Import ZArith List Bool.
From Verif Require Import Base Upval_model.
Import ListNotations.
Open Scope Z_scope.

Definition cell : Type := (Z * Z * Z)%type.                         (* thread, index, instance *)
Record ast := Ast { a_cur : Z -> Z -> Z; a_val : Z -> Z -> Z -> value; a_clos : list (option (list cell)) }.
Definition var (A : ast) (t i : Z) : cell := (t, i, a_cur A t i).
Definition val (A : ast) (c : cell) : value := let '(t, i, g) := c in a_val A t i g.
Definition write (A : ast) (c : cell) (v : value) : ast :=
  let '(t, i, g) := c in
  Ast (a_cur A) (fun t' i' g' => if (t' =? t) && (i' =? i) && (g' =? g) then v else a_val A t' i' g') (a_clos A).
(* the slots chosen by f get new instances, which start with the value in the slot *)
Definition renew (A : ast) (f : Z -> Z -> bool) : ast :=
  Ast (fun t i => if f t i then a_cur A t i + 1 else a_cur A t i)
      (fun t i g => if f t i && (g =? a_cur A t i + 1) then a_val A t i (a_cur A t i) else a_val A t i g) (a_clos A).
Definition slot (t i : Z) : Z -> Z -> bool := fun t' i' => (t' =? t) && (i' =? i).
Definition from (t level : Z) : Z -> Z -> bool := fun t' i' => (t' =? t) && (level <=? i').
Definition captured (A : ast) (t base : Z) (enc : list cell) (ds : list desc) : list (option cell) :=
  map (fun d => if d_instack d then Some (var A t (base + d_idx d)) else nth_error enc (Z.to_nat (d_idx d))) ds.
Fixpoint update {X} (l : list X) (k : nat) (x : X) : list X := match l, k with [], _ => [] | _ :: l, O => x :: l | y :: l, S k => y :: update l k x end.
Definition with_clos (A : ast) (c : list (option (list cell))) : ast := Ast (a_cur A) (a_val A) c.
Definition clos (A : ast) (k : nat) (c : list cell) : Prop := nth_error (a_clos A) k = Some (Some c).
Definition at_ (c : list cell) (n : Z) (x : cell) : Prop := 0 <= n /\ nth_error c (Z.to_nat n) = Some x.

(* what every operation does and gives *)
Inductive astep (A : ast) : op -> option value -> ast -> Prop :=
| S_set : forall t i v, astep A (SetReg t i v) None (write A (var A t i) v)
| S_get : forall t i, astep A (GetReg t i) (Some (val A (var A t i))) A
| S_getup : forall k n c x, clos A k c -> at_ c n x -> astep A (GetUp k n) (Some (val A x)) A
| S_setup : forall k n v c x, clos A k c -> at_ c n x -> astep A (SetUp k n v) None (write A x v)
(* a closure is new, or one that exists and has the same variables *)
| S_closure : forall p enc t base ds fresh b e c, clos A enc e -> captured A t base e ds = map Some c ->
    astep A (Closure p enc t base ds fresh b) (Some (VFun (Z.of_nat (length (a_clos A))))) (with_clos A (a_clos A ++ [Some c]))
| S_reuse : forall p enc t base ds fresh b e c k, clos A enc e -> captured A t base e ds = map Some c -> clos A k c ->
    astep A (Closure p enc t base ds fresh b) (Some (VFun (Z.of_nat k))) A
| S_defer : forall t i a, astep A (Defer t i a) None (let B := renew A (slot t i) in write B (var B t i) VNil)
| S_close : forall t level, astep A (Close t level) None (renew A (from t level))
| S_free : forall k c, clos A k c -> astep A (Free k) None (with_clos A (update (a_clos A) k None))
| S_join : forall k1 n1 k2 n2 c1 c2 x y, clos A k1 c1 -> at_ c1 n1 x -> clos A k2 c2 -> at_ c2 n2 y ->
    astep A (Join k1 n1 k2 n2) None (with_clos A (update (a_clos A) k1 (Some (update c1 (Z.to_nat n1) y))))
| S_new : forall t i v, astep A (NewVar t i v) None (let B := renew A (slot t i) in write B (var B t i) v).

(* what compiled code does: it uses closures that exist and upvalues they have; a register is taken for a new
   variable only when the last one is captured by no closure (otherwise its block closed it);
   a prototype always asks for the same variables; allocation gives unused addresses *)
Definition uncaptured (A : ast) (t i : Z) : Prop := forall k c, clos A k c -> ~ In (var A t i) c.
Definition legal (protos : Z -> list desc) (s : st) (A : ast) (o : op) : Prop :=
  match o with
  | SetReg _ _ _ | GetReg _ _ | Close _ _ => True
  | NewVar t i _ => uncaptured A t i
  | Defer t i a => uncaptured A t i /\ s_up s a = None
  | GetUp k n | SetUp k n _ => exists c x, clos A k c /\ at_ c n x
  | Closure p enc t base ds fresh _ => ds = protos p /\ (exists e, clos A enc e /\ forall d, In d ds -> d_instack d = false -> exists x, at_ e (d_idx d) x) /\
      length fresh = length ds /\ NoDup fresh /\ forall a, In a fresh -> s_up s a = None
  | Free k => exists c, clos A k c
  | Join k1 n1 k2 n2 => (exists c x, clos A k1 c /\ at_ c n1 x) /\ exists c x, clos A k2 c /\ at_ c n2 x
  end.
(* the start: one closure without upvalues; then any operations, in the implementation and in the language *)
Definition start (stk : Z -> Z -> value) : st := St stk (fun _ => []) (fun _ => None) [Some []] (fun _ => None).
Definition astart (stk : Z -> Z -> value) : ast := Ast (fun _ _ => 0) (fun t i _ => stk t i) [Some []].
Inductive runs (protos : Z -> list desc) : st -> ast -> Prop :=
| runs_start : forall stk, runs protos (start stk) (astart stk)
| runs_step : forall s A o s' r A', runs protos s A -> legal protos s A o -> step s o = Ok (s', r) -> astep A o r A' -> runs protos s' A'.
