(** What a program can reach, and what it may do between collector steps;
    independent of how the collector works. *)
From Coq Require Import ZArith List Bool Arith Lia.
From Verif Require Import Base Gc_model.
Import ListNotations.
Local Open Scope nat_scope.

(** [edge st a b]: object [a] holds a reference through which the program can get
    at [b].  References held weakly count: until the collector removes them the
    program can read them.  All slots of a stack count, also those above its top. *)
Inductive edge (st : gst) (a b : id) : Prop :=
  | e_meta : forall ob, heap st a = Some ob -> o_meta ob = Some b -> edge st a b
  | e_val : forall ob, heap st a = Some ob -> In (VObj b) (o_vals ob) -> edge st a b
  | e_key : forall ob v, heap st a = Some ob -> In (KyObj b, v) (o_hash ob) -> edge st a b
  | e_hval : forall ob k, heap st a = Some ob -> In (k, VObj b) (o_hash ob) -> edge st a b
  | e_cache : forall ob, heap st a = Some ob -> o_cache ob = Some b -> edge st a b
  | e_closed : forall ob u, heap st a = Some ob -> In u (o_upv ob) ->
      uvs st u = Some (UClosed (VObj b)) -> edge st a b
  | e_open : forall ob u th i t tb, heap st a = Some ob -> In u (o_upv ob) ->
      uvs st u = Some (UOpen th i t) -> heap st th = Some tb ->
      nth_error (o_vals tb) i = Some (VObj b) -> edge st a b.

(** Where the program starts from. *)
Inductive root (st : gst) (o : id) : Prop :=
  | r_main : o = mainth st -> root st o
  | r_cur : o = curth st -> root st o
  | r_reg : registry st = VObj o -> root st o
  | r_mt : In (Some o) (mts st) -> root st o
  | r_fin : In o (tobefnz st) -> root st o
  | r_cache : In o (strcache st) -> root st o
  | r_fixed : In o (fixedgc st) -> root st o
  | r_memerr : o = memerr st -> root st o.

Inductive reach (st : gst) : id -> Prop :=
  | reach_root : forall o, root st o -> reach st o
  | reach_edge : forall a b, reach st a -> edge st a b -> reach st b.

Definition reach_val (st : gst) (v : val) : Prop := match v with VObj o => reach st o | _ => True end.
Definition reach_key (st : gst) (k : key) : Prop := match k with KyObj o => reach st o | KyPrim _ => True | KyDead _ => False end.

(** An upvalue the program can get at: through a closure, or open on a thread. *)
Definition reach_upv (st : gst) (u : nat) : Prop :=
  uvs st u <> None /\
  ((exists cl ob, reach st cl /\ heap st cl = Some ob /\ In u (o_upv ob)) \/
   (exists th ob, reach st th /\ heap st th = Some ob /\ In u (o_open ob))).

Definition has_kind (st : gst) (o : id) (l : list kind) : Prop :=
  exists k, kind_of st o = Some k /\ In k l.

(** What the interpreter may do.  It can only use objects it can reach; an
    existing string can also be found through the table of interned strings. *)
Definition legal (st : gst) (e : event) : Prop :=
  match e with
  | GStep _ | GAbort | GHurry => True
  | MNew k vs us =>
      Forall (reach_val st) vs /\ Forall (reach_upv st) us /\
      match k with
      | KStr => vs = [] /\ us = []
      | KUdata => vs = [VNil] /\ us = []
      | KArray => (vs = [] \/ exists p, vs = [VObj p]) /\ us = []
      | KLcl => True
      | KCcl => us = []
      | KTable | KProto | KThread => vs = nils (length vs) /\ us = []
      end
  | MSlot th i v => reach st th /\ has_kind st th [KThread] /\ reach_val st v
  | MTop th n => reach st th /\ has_kind st th [KThread] /\
      (forall ob, heap st th = Some ob -> n <= length (o_vals ob))
  | MVal o i v => reach st o /\ reach_val st v
  | MGrow o n => reach st o /\ has_kind st o [KTable; KProto; KThread]
  | MHash t k v => reach st t /\ has_kind st t [KTable] /\ reach_key st k /\ reach_val st v
  | MRebuild t vs h => reach st t /\ has_kind st t [KTable] /\
      (forall ob, heap st t = Some ob ->
         (forall b, In (VObj b) vs \/ (exists k, In (k, VObj b) h) ->
            In (VObj b) (o_vals ob) \/ exists k, In (k, VObj b) (o_hash ob)) /\
         (forall b v, In (KyObj b, v) h -> exists v', In (KyObj b, v') (o_hash ob)))
  | MMeta o mt => reach st o /\ has_kind st o [KTable; KUdata; KArray] /\
      match mt with Some m => reach st m /\ has_kind st m [KTable] | None => True end
  | MMode mt _ _ => reach st mt /\ has_kind st mt [KTable]
  | MCache p cl => reach st p /\ has_kind st p [KProto] /\ reach st cl /\ has_kind st cl [KLcl]
  | MFindUpv th i => reach st th /\ has_kind st th [KThread] /\
      (forall ob, heap st th = Some ob -> i < length (o_vals ob))
  | MSetUpv u v => reach_upv st u /\ reach_val st v
  | MClose th us => reach st th /\ has_kind st th [KThread] /\
      (forall ob, heap st th = Some ob -> incl us (o_open ob))
  | MJoin cl i u => reach st cl /\ has_kind st cl [KLcl] /\ reach_upv st u
  | MCur th => reach st th /\ has_kind st th [KThread]
  | MReg v => reach_val st v
  | MMt i m => match m with Some m => reach st m /\ has_kind st m [KTable] | None => True end
  | MIntern s => kind_of st s = Some KStr
  | MStrCache i s => reach st s /\ has_kind st s [KStr]
  | MUndump p v => reach st p /\ has_kind st p [KProto] /\ reach_val st v
  end.

(** The two stores that no barrier covers, for which the property fails (see the
    refutations): giving a metatable to a table that waits, gray, in 'allweak'
    while marking is under way; and loading an unmarked value into a prototype
    that has been traversed. *)
Definition covered (st : gst) (e : event) : Prop :=
  match e with
  | MMeta o (Some m) => keepinvariant st = true -> In o (allweak st) -> iswhite st m = false
  | MUndump p (VObj x) => keepinvariant st = true -> isblack st p = true -> iswhite st x = false
  | _ => True
  end.

(** Executions: any interleaving of legal events. *)
Inductive exec (ok : gst -> event -> Prop) : gst -> gst -> Prop :=
  | exec_nil : forall st, exec ok st st
  | exec_cons : forall st e st', legal st e -> ok st e -> exec ok (step st e) st' -> exec ok st st'.

Definition any (st : gst) (e : event) : Prop := True.
