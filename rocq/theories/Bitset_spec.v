(* Sets of natural numbers. *)
Require Import ZArith List Bool Sorted.
From Verif Require Import Base Bitset_model.
Import ListNotations.
Open Scope Z_scope.

Definition nset := Z -> bool.
Definition sets := Z -> nset.
Definition put_set (S : sets) (d : Z) (s : nset) : sets := fun x => if x =? d then s else S x.
Definition none : nset := fun _ => false.
(* the elements of a set in ascending order *)
Definition elements (s : nset) (l : list Z) : Prop := StronglySorted Z.lt l /\ forall n, In n l <-> 0 <= n /\ s n = true.
Definition same (s t : nset) : Prop := forall n, 0 <= n -> s n = t n.
Definition subset (s t : nset) : Prop := forall n, 0 <= n -> s n = true -> t n = true.

(* what an operation does to the sets *)
Definition effect (S : sets) (o : op) : sets :=
  match o with
  | OCreate d _ | OClear d => put_set S d none
  | OSet d n => put_set S d (fun x => (x =? n) || S d x)
  | OClr d n => put_set S d (fun x => negb (x =? n) && S d x)
  | ORange d n len true => put_set S d (fun x => ((n <=? x) && (x <? n + len)) || S d x)
  | ORange d n len false => put_set S d (fun x => negb ((n <=? x) && (x <? n + len)) && S d x)
  | OCopy d s => put_set S d (S s)
  | OAnd d a b => put_set S d (fun x => S a x && S b x)
  | OAndCompl d a b => put_set S d (fun x => S a x && negb (S b x))
  | OIor d a b => put_set S d (fun x => S a x || S b x)
  | OIorAnd d a b c => put_set S d (fun x => S a x || S b x && S c x)
  | OIorAndCompl d a b c => put_set S d (fun x => S a x || S b x && negb (S c x))
  | _ => S
  end.
(* what it answers: whether anything changed, or the question's answer *)
Definition changed (S : sets) (o : op) (d : Z) (r : bool) : Prop := r = false <-> same (S d) (effect S o d).
Definition answer (S : sets) (o : op) (r : ans) : Prop :=
  match o, r with
  | OCreate _ _, ANone | OClear _, ANone | OCopy _ _, ANone => True
  | OSet d _, ABool r | OClr d _, ABool r | ORange d _ _ _, ABool r | OAnd d _ _, ABool r | OAndCompl d _ _, ABool r
  | OIor d _ _, ABool r | OIorAnd d _ _ _, ABool r | OIorAndCompl d _ _ _, ABool r => changed S o d r
  | OBit d n, ABool r => r = S d n
  | OEqual d s, ABool r => r = true <-> same (S d) (S s)
  | OIntersect d s, ABool r => r = true <-> exists n, 0 <= n /\ S d n = true /\ S s n = true
  | OEmpty d, ABool r => r = true <-> same (S d) none
  | OCount d, ANum n => exists l, elements (S d) l /\ n = Z.of_nat (length l)
  | OForeach d, AList l => elements (S d) l
  | _, _ => False
  end.
Fixpoint answers (S : sets) (l : list op) (r : list ans) : Prop :=
  match l, r with
  | [], [] => True
  | o :: l, a :: r => answer S o a /\ answers (effect S o) l r
  | _, _ => False
  end.
(* arguments are natural numbers *)
Definition nats (o : op) : Prop :=
  match o with OCreate _ n | OSet _ n | OClr _ n | OBit _ n => 0 <= n | ORange _ n len _ => 0 <= n /\ 0 <= len | _ => True end.
(* the operations that replace a whole set only replace it by a larger one *)
Definition grows (S : sets) (o : op) : Prop :=
  match o with
  | OClear d | OCopy d _ | OAnd d _ _ | OAndCompl d _ _ | OIor d _ _ | OIorAnd d _ _ _ | OIorAndCompl d _ _ _ => subset (S d) (effect S o d)
  | _ => True
  end.
Fixpoint all_grow (S : sets) (l : list op) : Prop := match l with [] => True | o :: r => grows S o /\ all_grow (effect S o) r end.
(* the operations which overwrite their destination, and those which only ask *)
Definition whole_op (o : op) : bool :=
  match o with OClear _ | OCopy _ _ | OAnd _ _ _ | OAndCompl _ _ _ | OIor _ _ _ | OIorAnd _ _ _ _ | OIorAndCompl _ _ _ _ | OCreate _ _ => true | _ => false end.
Definition query_op (o : op) : bool := match o with OBit _ _ | OEqual _ _ | OIntersect _ _ | OEmpty _ | OCount _ | OForeach _ => true | _ => false end.
(* the sets as seen through bit_p *)
Definition contents (st : store) : sets := fun x n => match bit_p (st x) n with Ok b => b | _ => false end.
Inductive reachable : store -> Prop :=
| reach_init : reachable initial
| reach_step : forall st o st' a, reachable st -> nats o -> step st o = Ok (st', a) -> reachable st'.
