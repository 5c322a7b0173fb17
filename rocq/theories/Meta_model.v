(* Model of indexing with metatables: luaV_finishget and luaV_finishset (lvm.c:206-291), the fast paths in front of
   them (lvm.h:83-110, lvm.c:293-500, lapi.c:636-1080) and the cache of absent metamethods (ltm.c:59-87, ltm.h:52-55,
   ltable.h:27). *)
Require Import ZArith List Bool.
From Verif Require Import Base.
Import ListNotations.
Open Scope Z_scope.

(* VArr: integer[] and number[]; VOther ty: a value whose metatable belongs to its type *)
Inductive value := VNil | VTab (r : nat) | VArr (r : nat) | VUser (r : nat) | VFun (f : nat) | VOther (ty : nat) (z : Z).
(* the names of the events with fast access are the keys K 0 .. K 5, in the order of ltm.h:18-24 *)
Inductive key := KNil | KNaN | K (z : Z).
Definition TM_INDEX : Z := 0.
Definition TM_NEWINDEX : Z := 1.
Definition TM_EQ : Z := 5.
Definition MAXTAGLOOP : nat := 2000.                                 (* lvm.c *)

Definition is_nil (v : value) : bool := match v with VNil => true | _ => false end.
Definition ttisfunction (v : value) : bool := match v with VFun _ => true | _ => false end.
Definition ttistable (v : value) : bool := match v with VTab _ | VArr _ => true | _ => false end.  (* lobject.h:710 *)

(* None: no entry, luaH_get gives luaO_nilobject; Some VNil: an entry with value nil *)
Record table := Tab { t_raw : Z -> option value; t_meta : option nat; t_flags : Z -> bool }.
Record heap := Heap { h_tab : nat -> table; h_ameta : nat -> option nat; h_umeta : nat -> option nat; h_base : nat -> option nat }.
Definition set_tab (h : heap) (r : nat) (t : table) : heap := Heap (fun i => if Nat.eqb i r then t else h_tab h i) (h_ameta h) (h_umeta h) (h_base h).
(* the pointer that luaH_get returns, as what it points to *)
Definition luaH_get (t : table) (k : key) : option value := match k with K z => t_raw t z | _ => None end.
Definition contents (s : option value) : value := match s with Some v => v | None => VNil end.

(* ltm.h:52-55 fasttm and ltm.c:59-67 luaT_gettm; None is the null pointer *)
Definition fasttm (h : heap) (et : option nat) (e : Z) : heap * option value :=
  match et with
  | None => (h, None)
  | Some r =>
    let t := h_tab h r in
    if t_flags t e then (h, None) else
    let tm := contents (luaH_get t (K e)) in
    if is_nil tm then (set_tab h r (Tab (t_raw t) (t_meta t) (fun b => if b =? e then true else t_flags t b)), None)
    else (h, Some tm)
  end.
(* ltm.c:70-87 *)
Definition luaT_gettmbyobj (h : heap) (o : value) (e : Z) : value :=
  let mt := match o with
    | VArr r => h_ameta h r
    | VTab r => t_meta (h_tab h r)
    | VUser r => h_umeta h r
    | VFun _ => h_base h 1
    | VNil => h_base h 0
    | VOther ty _ => h_base h (S (S ty))
    end in
  match mt with Some m => contents (luaH_get (h_tab h m) (K e)) | None => VNil end.

(* what an operation ends with; RCall: the metamethod is called with these arguments, what it does are further operations *)
Inductive res := RVal (v : value) | RCall (f : nat) (args : list value) (k : key) | RErr (e : error) | RDone | RArr (a : nat) (k : key).
(* lvm.h:83-87 luaV_fastget: the slot, or None when t is not a table; hvalue of an array is the wrong type of object *)
Definition luaV_fastget (h : heap) (t : value) (k : key) : outcome (option (nat * option value)) :=
  if ttistable t then match t with VTab r => Ok (Some (r, luaH_get (h_tab h r) k)) | _ => UB end else Ok None.

(* lvm.c:211-244; the loop counter counts down *)
Fixpoint luaV_finishget (loop : nat) (h : heap) (t : value) (k : key) (slot : option (nat * option value)) : outcome (heap * res) :=
  match loop with
  | O => Ok (h, RErr ELoop)
  | S loop =>
    let rest h tm :=
      if ttisfunction tm then match tm with VFun f => Ok (h, RCall f [t] k) | _ => UB end else
      bind (luaV_fastget h tm k) (fun slot =>
      match slot with
      | Some (r, s) => if is_nil (contents s) then luaV_finishget loop h tm k slot else Ok (h, RVal (contents s))
      | None => luaV_finishget loop h tm k slot
      end) in
    match slot with
    | None => let tm := luaT_gettmbyobj h t TM_INDEX in if is_nil tm then Ok (h, RErr EType) else rest h tm
    | Some (r, _) =>
      let '(h, tm) := fasttm h (t_meta (h_tab h r)) TM_INDEX in
      match tm with None => Ok (h, RVal VNil) | Some tm => rest h tm end
    end
  end.
(* luaH_newkey, as far as it can be refused, and the store *)
Definition put (h : heap) (r : nat) (k : key) (v : value) : heap :=
  match k with K z => let t := h_tab h r in set_tab h r (Tab (fun i => if i =? z then Some v else t_raw t i) (t_meta t) (t_flags t)) | _ => h end.
Definition invalidateTMcache (h : heap) (r : nat) : heap := let t := h_tab h r in set_tab h r (Tab (t_raw t) (t_meta t) (fun _ => false)).
Definition newkey_err (k : key) : option error := match k with KNil => Some EIndexNil | KNaN => Some EIndexNaN | K _ => None end.
(* lvm.c:254-291 *)
Fixpoint luaV_finishset (loop : nat) (h : heap) (t : value) (k : key) (v : value) (slot : option (nat * option value)) : outcome (heap * res) :=
  match loop with
  | O => Ok (h, RErr ELoop)
  | S loop =>
    let rest h tm :=
      if ttisfunction tm then match tm with VFun f => Ok (h, RCall f [t; v] k) | _ => UB end else
      bind (luaV_fastget h tm k) (fun slot =>
      match slot with
      | Some (r, s) => if is_nil (contents s) then luaV_finishset loop h tm k v slot else Ok (put h r k v, RDone)
      | None => luaV_finishset loop h tm k v slot
      end) in
    match slot with
    | Some (r, s) =>
      let '(h, tm) := fasttm h (t_meta (h_tab h r)) TM_NEWINDEX in
      match tm with
      | None => match s, newkey_err k with
                | None, Some e => Ok (h, RErr e)
                | _, _ => Ok (invalidateTMcache (put h r k v) r, RDone)
                end
      | Some tm => rest h tm
      end
    | None => let tm := luaT_gettmbyobj h t TM_NEWINDEX in if is_nil tm then Ok (h, RErr EType) else rest h tm
    end
  end.
(* lvm.c:293-320 GETTABLE_INLINE: an array is handled before *)
Definition gettable (h : heap) (t : value) (k : key) : outcome (heap * res) :=
  match t with
  | VArr a => Ok (h, RArr a k)
  | VTab r => let s := luaH_get (h_tab h r) k in if is_nil (contents s) then luaV_finishget MAXTAGLOOP h t k (Some (r, s)) else Ok (h, RVal (contents s))
  | _ => luaV_finishget MAXTAGLOOP h t k None
  end.
(* lvm.c:372-430 SETTABLE_INLINE *)
Definition settable (h : heap) (t : value) (k : key) (v : value) : outcome (heap * res) :=
  match t with
  | VArr a => Ok (h, RArr a k)
  | VTab r => let s := luaH_get (h_tab h r) k in if is_nil (contents s) then luaV_finishset MAXTAGLOOP h t k v (Some (r, s)) else Ok (put h r k v, RDone)
  | _ => luaV_finishset MAXTAGLOOP h t k v None
  end.
(* lapi.c:637-650 auxgetstr (lua_getfield, lua_getglobal), lvm.c:1499-1510 OP_SELF *)
Definition getfield (h : heap) (t : value) (k : key) : outcome (heap * res) :=
  bind (luaV_fastget h t k) (fun slot =>
  match slot with
  | Some (_, s) => if is_nil (contents s) then luaV_finishget MAXTAGLOOP h t k slot else Ok (h, RVal (contents s))
  | None => luaV_finishget MAXTAGLOOP h t k slot
  end).
(* lapi.c:974-989 auxsetstr *)
Definition setfield (h : heap) (t : value) (k : key) (v : value) : outcome (heap * res) :=
  bind (luaV_fastget h t k) (fun slot =>
  match slot with
  | Some (r, s) => if is_nil (contents s) then luaV_finishset MAXTAGLOOP h t k v slot else Ok (put h r k v, RDone)
  | None => luaV_finishset MAXTAGLOOP h t k v slot
  end).
(* lapi.c:1063-1077 lua_rawset on a table *)
Definition rawset (h : heap) (r : nat) (k : key) (v : value) : outcome (heap * res) :=
  match luaH_get (h_tab h r) k, newkey_err k with
  | None, Some e => Ok (h, RErr e)
  | _, _ => Ok (invalidateTMcache (put h r k v) r, RDone)
  end.
(* lapi.c:1122-1128 lua_rawseti, lapi.c:1160-1172 lua_rawsetp, lvm.c:1985 OP_SETLIST: the key is no string *)
Definition rawseti (h : heap) (r : nat) (z : Z) (v : value) : outcome (heap * res) := Ok (put h r (K z) v, RDone).
(* lapi.c:1177-1221 *)
Definition setmetatable (h : heap) (o : value) (m : option nat) : heap :=
  let upd (f : nat -> option nat) i := fun j => if Nat.eqb j i then m else f j in
  match o with
  | VTab r => let t := h_tab h r in set_tab h r (Tab (t_raw t) m (t_flags t))
  | VArr r => Heap (h_tab h) (upd (h_ameta h) r) (h_umeta h) (h_base h)
  | VUser r => Heap (h_tab h) (h_ameta h) (upd (h_umeta h) r) (h_base h)
  | VFun _ => Heap (h_tab h) (h_ameta h) (h_umeta h) (upd (h_base h) 1%nat)
  | VNil => Heap (h_tab h) (h_ameta h) (h_umeta h) (upd (h_base h) 0%nat)
  | VOther ty _ => Heap (h_tab h) (h_ameta h) (h_umeta h) (upd (h_base h) (S (S ty)))
  end.
(* a test for one of the other cached events (luaV_equalobj, luaV_objlen, the collector) *)
Definition hasevent (h : heap) (r : nat) (e : Z) : heap * option value := fasttm h (t_meta (h_tab h r)) e.

Inductive op :=
| OGet (t : value) (k : key) | OSet (t : value) (k : key) (v : value)
| OGetField (t : value) (k : key) | OSetField (t : value) (k : key) (v : value)
| ORawSet (r : nat) (k : key) (v : value) | ORawSeti (r : nat) (z : Z) (v : value)
| OSetMeta (o : value) (m : option nat) | OEvent (r : nat) (e : Z) | ONew (r : nat).
Definition step (h : heap) (o : op) : outcome (heap * res) :=
  match o with
  | OGet t k => gettable h t k
  | OSet t k v => settable h t k v
  | OGetField t k => getfield h t k
  | OSetField t k v => setfield h t k v
  | ORawSet r k v => rawset h r k v
  | ORawSeti r z v => rawseti h r z v
  | OSetMeta o m => Ok (setmetatable h o m, RDone)
  | OEvent r e => let '(h, tm) := hasevent h r e in Ok (h, RVal (contents tm))
  | ONew r => Ok (set_tab h r (Tab (fun _ => None) None (fun e => (0 <=? e) && (e <=? 5))), RVal (VTab r))  (* ltable.c:494-504 luaH_new: the flags are ~0 *)
  end.
