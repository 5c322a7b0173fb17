(* Indexing as the manual describes it: there is no cache and no limit; n counts the metamethods looked up. *)
Require Import ZArith List Bool.
From Verif Require Import Base Meta_model.
Import ListNotations.
Open Scope Z_scope.

(* a heap without the cache *)
Record aheap := AHeap { a_raw : nat -> Z -> option value; a_meta : value -> option nat }.
(* what has a metatable: tables, arrays and userdata each, other values by type *)
Definition owner (o : value) : value := match o with VFun _ => VFun 0 | VOther ty _ => VOther ty 0 | _ => o end.
Definition rawat (A : aheap) (r : nat) (k : key) : value := match k with K z => match a_raw A r z with Some v => v | None => VNil end | _ => VNil end.
(* the metamethod of a value; nil if there is none *)
Definition event (A : aheap) (o : value) (e : Z) : value := match a_meta A (owner o) with Some m => rawat A m (K e) | None => VNil end.
Definition nofun (v : value) : Prop := v <> VNil /\ forall f, v <> VFun f.
Definition other (v : value) : Prop := (forall r, v <> VTab r) /\ forall a, v <> VArr a.

Inductive gets (A : aheap) (k : key) : value -> nat -> res -> Prop :=
| G_arr : forall a, gets A k (VArr a) 0 (RArr a k)
| G_hit : forall r, rawat A r k <> VNil -> gets A k (VTab r) 0 (RVal (rawat A r k))
| G_nil : forall r, rawat A r k = VNil -> event A (VTab r) TM_INDEX = VNil -> gets A k (VTab r) 1 (RVal VNil)
| G_err : forall t, other t -> event A t TM_INDEX = VNil -> gets A k t 1 (RErr EType)
| G_call : forall t f, (other t \/ exists r, t = VTab r /\ rawat A r k = VNil) -> event A t TM_INDEX = VFun f -> gets A k t 1 (RCall f [t] k)
| G_next : forall t n r, (other t \/ exists r, t = VTab r /\ rawat A r k = VNil) -> nofun (event A t TM_INDEX) -> gets A k (event A t TM_INDEX) n r -> gets A k t (S n) r.

(* where an assignment ends *)
Inductive target := TStore (r : nat) | TRes (r : res).
Inductive sets (A : aheap) (k : key) (v : value) : value -> nat -> target -> Prop :=
| S_arr : forall a, sets A k v (VArr a) 0 (TRes (RArr a k))
| S_hit : forall r, rawat A r k <> VNil -> sets A k v (VTab r) 0 (TStore r)
| S_new : forall r, rawat A r k = VNil -> event A (VTab r) TM_NEWINDEX = VNil -> sets A k v (VTab r) 1 (TStore r)
| S_err : forall t, other t -> event A t TM_NEWINDEX = VNil -> sets A k v t 1 (TRes (RErr EType))
| S_call : forall t f, (other t \/ exists r, t = VTab r /\ rawat A r k = VNil) -> event A t TM_NEWINDEX = VFun f -> sets A k v t 1 (TRes (RCall f [t; v] k))
| S_next : forall t n r, (other t \/ exists r, t = VTab r /\ rawat A r k = VNil) -> nofun (event A t TM_NEWINDEX) -> sets A k v (event A t TM_NEWINDEX) n r -> sets A k v t (S n) r.
(* the same heap *)
Definition same (A B : aheap) : Prop := (forall r z, a_raw A r z = a_raw B r z) /\ forall o, a_meta A o = a_meta B o.
(* a store in a table is refused for two keys *)
Inductive store (A : aheap) (r : nat) (v : value) : key -> aheap -> res -> Prop :=
| St_nil : forall A', same A A' -> store A r v KNil A' (RErr EIndexNil)
| St_nan : forall A', same A A' -> store A r v KNaN A' (RErr EIndexNaN)
| St_ok : forall z A', (forall r' z', a_raw A' r' z' = if Nat.eqb r' r && (z' =? z) then Some v else a_raw A r' z') -> (forall o, a_meta A' o = a_meta A o) -> store A r v (K z) A' RDone.

Definition limit : nat := 2000.
(* what an operation may do; astep says nothing for what the interpreter cannot do without undefined behaviour *)
Inductive astep (A : aheap) : op -> aheap -> res -> Prop :=
| A_get : forall t k n r B, gets A k t n r -> (n <= limit)%nat -> same A B -> astep A (OGet t k) B r
| A_getfield : forall t k n r B, gets A k t n r -> (n <= limit)%nat -> same A B -> astep A (OGetField t k) B r
| A_getloop : forall t k B, (forall n r, gets A k t n r -> (limit < n)%nat) -> same A B -> astep A (OGet t k) B (RErr ELoop)
| A_getfieldloop : forall t k B, (forall n r, gets A k t n r -> (limit < n)%nat) -> same A B -> astep A (OGetField t k) B (RErr ELoop)
| A_set : forall t k v n r B o, sets A k v t n (TStore r) -> (n <= limit)%nat -> store A r v k B o -> astep A (OSet t k v) B o
| A_setfield : forall t k v n r B o, sets A k v t n (TStore r) -> (n <= limit)%nat -> store A r v k B o -> astep A (OSetField t k v) B o
| A_setres : forall t k v n o B, sets A k v t n (TRes o) -> (n <= limit)%nat -> same A B -> astep A (OSet t k v) B o
| A_setfieldres : forall t k v n o B, sets A k v t n (TRes o) -> (n <= limit)%nat -> same A B -> astep A (OSetField t k v) B o
| A_setloop : forall t k v B, (forall n r, sets A k v t n r -> (limit < n)%nat) -> same A B -> astep A (OSet t k v) B (RErr ELoop)
| A_setfieldloop : forall t k v B, (forall n r, sets A k v t n r -> (limit < n)%nat) -> same A B -> astep A (OSetField t k v) B (RErr ELoop)
| A_rawset : forall r k v B o, store A r v k B o -> astep A (ORawSet r k v) B o
| A_rawseti : forall r z v B, store A r v (K z) B RDone -> astep A (ORawSeti r z v) B RDone
| A_setmeta : forall o m B, (forall r z, a_raw B r z = a_raw A r z) -> a_meta B (owner o) = m -> (forall x, x <> owner o -> a_meta B x = a_meta A x) -> astep A (OSetMeta o m) B RDone
| A_event : forall r e B, same A B -> astep A (OEvent r e) B (RVal (event A (VTab r) e))
| A_new : forall r B, (forall r' z, a_raw B r' z = if Nat.eqb r' r then None else a_raw A r' z) -> a_meta B (VTab r) = None -> (forall x, x <> VTab r -> a_meta B x = a_meta A x) -> astep A (ONew r) B (RVal (VTab r)).
(* an array is met where the interpreter takes it for a table: as a metamethod, or as the object of lua_getfield *)
Definition meets_array (A : aheap) (o : op) : Prop :=
  match o with
  | OGet t k => exists n a, (1 <= n <= limit)%nat /\ gets A k t n (RArr a k)
  | OGetField t k => exists n a, (n <= limit)%nat /\ gets A k t n (RArr a k)
  | OSet t k v => exists n a, (1 <= n <= limit)%nat /\ sets A k v t n (TRes (RArr a k))
  | OSetField t k v => exists n a, (n <= limit)%nat /\ sets A k v t n (TRes (RArr a k))
  | _ => False
  end.
(* raw integer and pointer stores do not name a metamethod; only the first six events are cached *)
Definition wellformed (o : op) : Prop :=
  match o with ORawSeti _ z _ => ~ 0 <= z <= 5 | OEvent _ e => 0 <= e <= 5 | _ => True end.

(* what a heap stands for, and the heaps that can arise *)
Definition abs (h : heap) : aheap := AHeap (fun r z => t_raw (h_tab h r) z) (fun o => match o with
  | VTab r => t_meta (h_tab h r) | VArr r => h_ameta h r | VUser r => h_umeta h r
  | VFun 0 => h_base h 1 | VFun _ => None | VNil => h_base h 0 | VOther ty z => if z =? 0 then h_base h (S (S ty)) else None end).
Definition empty : heap := Heap (fun _ => Tab (fun _ => None) None (fun _ => false)) (fun _ => None) (fun _ => None) (fun _ => None).
Inductive runs : heap -> Prop :=
| R_empty : runs empty
| R_step : forall h o h' r, runs h -> wellformed o -> step h o = Ok (h', r) -> runs h'.
