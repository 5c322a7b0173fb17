(** Incremental garbage collector: src/lgc.c, src/lgc.h.

    Objects are numbered; the heap maps a number to the object or to [None]
    once it has been freed.  Numbers are never reused, so a reference to a freed
    object stays recognisable.  One record describes every kind of object; the
    kind says which fields are in use.

    Modelled: the incremental collector (KGC_INC), function by function, with
    weak tables, ephemerons, finalisers, threads and their upvalues, the string
    cache, the per-prototype closure cache, and the write barriers; and the
    stores the interpreter performs between collector steps.

    Not modelled: the generational collector, object ages (in incremental mode
    an age only makes an object be traversed once more), debt and step sizes
    (the collector may be run one 'singlestep' at a time at any point), memory
    of the UpVal records themselves, string bytes, stack reallocation. *)
From Coq Require Import ZArith List Bool Arith Lia.
From Verif Require Import Base.
Import ListNotations.
Local Open Scope nat_scope.

Definition id := nat.

(** Tags that matter to the collector (lobject.h): strings, full userdata, Ravi
    arrays, tables, Lua closures, C closures, prototypes, threads. *)
Inductive kind := KStr | KUdata | KArray | KTable | KLcl | KCcl | KProto | KThread.

(** Colour bits of 'marked' (lgc.h 72-102): the two whites, neither, black. *)
Inductive color := White (w : bool) | Gray | Black.

(** A TValue: nil, another value that is not collectable, or a collectable object. *)
Inductive val := VNil | VPrim (n : Z) | VObj (o : id).

(** A table key (lobject.h Node): not collectable, collectable, or dead
    (setdeadvalue, lgc.c removeentry). *)
Inductive key := KyPrim (n : Z) | KyObj (o : id) | KyDead (o : id).

Record obj := mkobj {
  o_kind : kind;
  o_col : color;
  o_fin : bool;                 (* FINALIZEDBIT *)
  o_meta : option id;           (* metatable: tables, userdata, arrays *)
  o_mode : bool * bool;         (* tables: what '__mode' in this (meta)table says: weak keys, weak values *)
  o_gc : bool;                  (* tables: does this (meta)table have '__gc' *)
  o_vals : list val;            (* array part; uservalue; slice parent; C upvalues; constants, names and nested prototypes; prototype of a closure; stack *)
  o_hash : list (key * val);    (* hash part *)
  o_upv : list nat;             (* upvalues of a Lua closure *)
  o_cache : option id;          (* prototypes: cached closure *)
  o_top : nat;                  (* threads: live part of the stack *)
  o_open : list nat             (* threads: open upvalues *)
}.

(** UpVal (lfunc.h 26-38): open on slot [i] of thread [th], or closed. *)
Inductive upv := UOpen (th : id) (i : nat) (touched : bool) | UClosed (v : val).

(** gcstate (lgc.h 31-39). *)
Inductive gcstate :=
  | GCSpropagate | GCSenteratomic | GCSatomic
  | GCSswpallgc | GCSswpfinobj | GCSswptobefnz | GCSswpend | GCScallfin | GCSpause.

(** 'sweepgc' (lstate.h): the address of a list header or of a 'next' field. *)
Inductive ptr := PHead | PNext (o : id).

(** The parts of global_State (lstate.h) the collector uses. *)
Record gst := mkgst {
  heap : id -> option obj;
  nextid : id;
  uvs : nat -> option upv;
  nextuv : nat;
  cw : bool;                    (* currentwhite *)
  gcs : gcstate;
  allgc : list id; finobj : list id; tobefnz : list id; fixedgc : list id;
  gray : list id; grayagain : list id; weak : list id; allweak : list id; ephemeron : list id;
  sweepgc : option ptr;
  twups : list id;
  mainth : id;
  curth : id;                   (* the running thread *)
  registry : val;
  mts : list (option id);       (* g->mt *)
  strcache : list id;
  memerr : id                   (* g->memerrmsg *)
}.

(** ** Field updates *)

Definition set_heap (st : gst) h := mkgst h (nextid st) (uvs st) (nextuv st) (cw st) (gcs st) (allgc st) (finobj st) (tobefnz st) (fixedgc st) (gray st) (grayagain st) (weak st) (allweak st) (ephemeron st) (sweepgc st) (twups st) (mainth st) (curth st) (registry st) (mts st) (strcache st) (memerr st).
Definition set_nextid (st : gst) x := mkgst (heap st) x (uvs st) (nextuv st) (cw st) (gcs st) (allgc st) (finobj st) (tobefnz st) (fixedgc st) (gray st) (grayagain st) (weak st) (allweak st) (ephemeron st) (sweepgc st) (twups st) (mainth st) (curth st) (registry st) (mts st) (strcache st) (memerr st).
Definition set_uvs (st : gst) u n := mkgst (heap st) (nextid st) u n (cw st) (gcs st) (allgc st) (finobj st) (tobefnz st) (fixedgc st) (gray st) (grayagain st) (weak st) (allweak st) (ephemeron st) (sweepgc st) (twups st) (mainth st) (curth st) (registry st) (mts st) (strcache st) (memerr st).
Definition set_cw (st : gst) x := mkgst (heap st) (nextid st) (uvs st) (nextuv st) x (gcs st) (allgc st) (finobj st) (tobefnz st) (fixedgc st) (gray st) (grayagain st) (weak st) (allweak st) (ephemeron st) (sweepgc st) (twups st) (mainth st) (curth st) (registry st) (mts st) (strcache st) (memerr st).
Definition set_gcs (st : gst) x := mkgst (heap st) (nextid st) (uvs st) (nextuv st) (cw st) x (allgc st) (finobj st) (tobefnz st) (fixedgc st) (gray st) (grayagain st) (weak st) (allweak st) (ephemeron st) (sweepgc st) (twups st) (mainth st) (curth st) (registry st) (mts st) (strcache st) (memerr st).
Definition set_objs (st : gst) a f t := mkgst (heap st) (nextid st) (uvs st) (nextuv st) (cw st) (gcs st) a f t (fixedgc st) (gray st) (grayagain st) (weak st) (allweak st) (ephemeron st) (sweepgc st) (twups st) (mainth st) (curth st) (registry st) (mts st) (strcache st) (memerr st).
Definition set_lists (st : gst) g ga w a e := mkgst (heap st) (nextid st) (uvs st) (nextuv st) (cw st) (gcs st) (allgc st) (finobj st) (tobefnz st) (fixedgc st) g ga w a e (sweepgc st) (twups st) (mainth st) (curth st) (registry st) (mts st) (strcache st) (memerr st).
Definition set_sweepgc (st : gst) x := mkgst (heap st) (nextid st) (uvs st) (nextuv st) (cw st) (gcs st) (allgc st) (finobj st) (tobefnz st) (fixedgc st) (gray st) (grayagain st) (weak st) (allweak st) (ephemeron st) x (twups st) (mainth st) (curth st) (registry st) (mts st) (strcache st) (memerr st).
Definition set_twups (st : gst) x := mkgst (heap st) (nextid st) (uvs st) (nextuv st) (cw st) (gcs st) (allgc st) (finobj st) (tobefnz st) (fixedgc st) (gray st) (grayagain st) (weak st) (allweak st) (ephemeron st) (sweepgc st) x (mainth st) (curth st) (registry st) (mts st) (strcache st) (memerr st).
Definition set_roots (st : gst) c r m s := mkgst (heap st) (nextid st) (uvs st) (nextuv st) (cw st) (gcs st) (allgc st) (finobj st) (tobefnz st) (fixedgc st) (gray st) (grayagain st) (weak st) (allweak st) (ephemeron st) (sweepgc st) (twups st) (mainth st) c r m s (memerr st).

Definition set_gray st g := set_lists st g (grayagain st) (weak st) (allweak st) (ephemeron st).
Definition set_grayagain st g := set_lists st (gray st) g (weak st) (allweak st) (ephemeron st).
Definition set_weak st g := set_lists st (gray st) (grayagain st) g (allweak st) (ephemeron st).
Definition set_allweak st g := set_lists st (gray st) (grayagain st) (weak st) g (ephemeron st).
Definition set_ephemeron st g := set_lists st (gray st) (grayagain st) (weak st) (allweak st) g.

Definition with_col (ob : obj) c := mkobj (o_kind ob) c (o_fin ob) (o_meta ob) (o_mode ob) (o_gc ob) (o_vals ob) (o_hash ob) (o_upv ob) (o_cache ob) (o_top ob) (o_open ob).
Definition with_fin (ob : obj) b := mkobj (o_kind ob) (o_col ob) b (o_meta ob) (o_mode ob) (o_gc ob) (o_vals ob) (o_hash ob) (o_upv ob) (o_cache ob) (o_top ob) (o_open ob).
Definition with_meta (ob : obj) m := mkobj (o_kind ob) (o_col ob) (o_fin ob) m (o_mode ob) (o_gc ob) (o_vals ob) (o_hash ob) (o_upv ob) (o_cache ob) (o_top ob) (o_open ob).
Definition with_mode (ob : obj) m g := mkobj (o_kind ob) (o_col ob) (o_fin ob) (o_meta ob) m g (o_vals ob) (o_hash ob) (o_upv ob) (o_cache ob) (o_top ob) (o_open ob).
Definition with_vals (ob : obj) v := mkobj (o_kind ob) (o_col ob) (o_fin ob) (o_meta ob) (o_mode ob) (o_gc ob) v (o_hash ob) (o_upv ob) (o_cache ob) (o_top ob) (o_open ob).
Definition with_hash (ob : obj) h := mkobj (o_kind ob) (o_col ob) (o_fin ob) (o_meta ob) (o_mode ob) (o_gc ob) (o_vals ob) h (o_upv ob) (o_cache ob) (o_top ob) (o_open ob).
Definition with_upv (ob : obj) u := mkobj (o_kind ob) (o_col ob) (o_fin ob) (o_meta ob) (o_mode ob) (o_gc ob) (o_vals ob) (o_hash ob) u (o_cache ob) (o_top ob) (o_open ob).
Definition with_cache (ob : obj) c := mkobj (o_kind ob) (o_col ob) (o_fin ob) (o_meta ob) (o_mode ob) (o_gc ob) (o_vals ob) (o_hash ob) (o_upv ob) c (o_top ob) (o_open ob).
Definition with_top (ob : obj) t := mkobj (o_kind ob) (o_col ob) (o_fin ob) (o_meta ob) (o_mode ob) (o_gc ob) (o_vals ob) (o_hash ob) (o_upv ob) (o_cache ob) t (o_open ob).
Definition with_open (ob : obj) l := mkobj (o_kind ob) (o_col ob) (o_fin ob) (o_meta ob) (o_mode ob) (o_gc ob) (o_vals ob) (o_hash ob) (o_upv ob) (o_cache ob) (o_top ob) l.

(** Replace object [o] by [f] of it. *)
Definition modify (st : gst) (o : id) (f : obj -> obj) : gst :=
  match heap st o with
  | Some ob => set_heap st (fun x => if Nat.eqb x o then Some (f ob) else heap st x)
  | None => st
  end.

Definition is_whitec (c : color) : bool := match c with White _ => true | _ => false end.

(** iswhite, isblack (lgc.h 87-88). *)
Definition iswhite (st : gst) (o : id) : bool :=
  match heap st o with Some ob => is_whitec (o_col ob) | None => false end.
Definition isblack (st : gst) (o : id) : bool :=
  match heap st o with Some ob => match o_col ob with Black => true | _ => false end | None => false end.

(** isdead (lgc.h 94-96): carries the white that is not the current one. *)
Definition isdead (st : gst) (o : id) : bool :=
  match heap st o with
  | Some ob => match o_col ob with White w => negb (Bool.eqb w (cw st)) | _ => false end
  | None => false
  end.

(** set2black / nw2black, set2gray, makewhite (lgc.c 69-80). *)
Definition setcol (st : gst) (o : id) (c : color) : gst := modify st o (fun ob => with_col ob c).
Definition set2black st o := setcol st o Black.
Definition makewhite (st : gst) (o : id) : gst := setcol st o (White (cw st)).

(** linkgclist_ (lgc.c 144-149) into the five gray lists. *)
Definition link_gray st o := setcol (set_gray st (o :: gray st)) o Gray.
Definition link_grayagain st o := setcol (set_grayagain st (o :: grayagain st)) o Gray.
Definition link_weak st o := setcol (set_weak st (o :: weak st)) o Gray.
Definition link_allweak st o := setcol (set_allweak st (o :: allweak st)) o Gray.
Definition link_ephemeron st o := setcol (set_ephemeron st (o :: ephemeron st)) o Gray.

Definition kind_of (st : gst) (o : id) : option kind :=
  match heap st o with Some ob => Some (o_kind ob) | None => None end.

(** markobjectN on a metatable (lgc.c 95-106): a metatable is a Table, so
    reallymarkobject links it into 'gray'. *)
Definition mark_meta (st : gst) (m : option id) : gst :=
  match m with Some t => if iswhite st t then link_gray st t else st | None => st end.

(** reallymarkobject (lgc.c 377-421); called on a white object.  The 'goto
    reentry' chain through uservalues and slice parents is the recursion; each
    round paints one white object, so [nextid] rounds are enough. *)
Fixpoint mark_obj (fuel : nat) (st : gst) (o : id) : gst :=
  match fuel with
  | O => st
  | S fuel =>
    match heap st o with
    | None => st
    | Some ob =>
      match o_kind ob with
      | KStr => set2black st o
      | KUdata | KArray =>
          let st1 := set2black (mark_meta st (o_meta ob)) o in
          match o_vals ob with
          | VObj u :: _ => if iswhite st1 u then mark_obj fuel st1 u else st1
          | _ => st1
          end
      | KTable | KLcl | KCcl | KProto | KThread => link_gray st o
      end
    end
  end.

(** markobject, markvalue (lgc.c 95-106). *)
Definition mark (st : gst) (o : id) : gst := if iswhite st o then mark_obj (nextid st) st o else st.
Definition mark_val (st : gst) (v : val) : gst := match v with VObj o => mark st o | _ => st end.
Definition mark_opt (st : gst) (o : option id) : gst := match o with Some o => mark st o | None => st end.
Definition mark_key (st : gst) (k : key) : gst := match k with KyObj o => mark st o | _ => st end.
Definition mark_vals (st : gst) (l : list val) : gst := fold_left mark_val l st.

(** The value an upvalue denotes ('uv->v'). *)
Definition uv_val (st : gst) (u : nat) : val :=
  match uvs st u with
  | Some (UClosed v) => v
  | Some (UOpen th i _) => match heap st th with Some ob => nth i (o_vals ob) VNil | None => VNil end
  | None => VNil
  end.

(** removeentry (lgc.c 168-172): the key of an empty entry becomes dead. *)
Definition isnil (v : val) : bool := match v with VNil => true | _ => false end.
Definition removeentry (e : key * val) : key * val :=
  match e with
  | (KyObj o, VNil) => (KyDead o, VNil)
  | _ => e
  end.
Definition clean (h : list (key * val)) : list (key * val) := map removeentry h.

(** iscleared (lgc.c 182-189): strings are marked instead of being cleared. *)
Definition iscleared (st : gst) (o : option id) : gst * bool :=
  match o with
  | None => (st, false)
  | Some o => match kind_of st o with
              | Some KStr => (mark st o, false)
              | _ => (st, iswhite st o)
              end
  end.
Definition kobj (k : key) : option id := match k with KyObj o => Some o | _ => None end.
Definition vobj (v : val) : option id := match v with VObj o => Some o | _ => None end.

(** traverseweakvalue (lgc.c 531-552): the loop over the hash part.  (An empty
    entry is turned dead by [clean] afterwards; marking does not read it.) *)
Fixpoint weakvalue_loop (st : gst) (h : list (key * val)) (hasclears : bool) : gst * bool :=
  match h with
  | [] => (st, hasclears)
  | (k, v) :: h =>
      if isnil v then weakvalue_loop st h hasclears
      else let st := mark_key st k in
           if hasclears then weakvalue_loop st h hasclears
           else let '(st, c) := iscleared st (vobj v) in weakvalue_loop st h c
  end.

Definition is_atomic (g : gcstate) : bool := match g with GCSatomic => true | _ => false end.
Definition is_propagate (g : gcstate) : bool := match g with GCSpropagate => true | _ => false end.

Definition sethash st o h := modify st o (fun ob => with_hash ob h).

Definition traverseweakvalue (st : gst) (o : id) (ob : obj) : gst :=
  let '(st, hasclears) := weakvalue_loop st (o_hash ob) (negb (Nat.eqb (length (o_vals ob)) 0)) in
  let st := sethash st o (clean (o_hash ob)) in
  if is_atomic (gcs st) && hasclears then link_weak st o else link_grayagain st o.

(** traverseephemeron (lgc.c 566-603): array part, then hash part; the flags are
    'marked', 'hasclears' and 'hasww'. *)
Fixpoint eph_arr (st : gst) (l : list val) (marked : bool) : gst * bool :=
  match l with
  | [] => (st, marked)
  | v :: l => match v with
              | VObj o => if iswhite st o then eph_arr (mark st o) l true else eph_arr st l marked
              | _ => eph_arr st l marked
              end
  end.

Definition valiswhite (st : gst) (v : val) : bool := match v with VObj o => iswhite st o | _ => false end.

Fixpoint eph_hash (st : gst) (h : list (key * val)) (marked hasclears hasww : bool)
  : gst * bool * bool * bool :=
  match h with
  | [] => (st, marked, hasclears, hasww)
  | (k, v) :: h =>
      if isnil v then eph_hash st h marked hasclears hasww
      else let '(st, c) := iscleared st (kobj k) in
           if c then eph_hash st h marked true (hasww || valiswhite st v)
           else if valiswhite st v then eph_hash (mark_val st v) h true hasclears hasww
           else eph_hash st h marked hasclears hasww
  end.

Definition traverseephemeron (st : gst) (o : id) (ob : obj) : gst * bool :=
  let '(st, m1) := eph_arr st (o_vals ob) false in
  let '(st, marked, hasclears, hasww) := eph_hash st (o_hash ob) m1 false false in
  let st := sethash st o (clean (o_hash ob)) in
  let st :=
    if is_propagate (gcs st) then link_grayagain st o
    else if hasww then link_ephemeron st o
    else if hasclears then link_allweak st o
    else st in
  (st, marked).

(** traversestrongtable (lgc.c 606-621). *)
Definition mark_entry (st : gst) (e : key * val) : gst :=
  if isnil (snd e) then st else mark_val (mark_key st (fst e)) (snd e).

Definition traversestrongtable (st : gst) (o : id) (ob : obj) : gst :=
  let st := mark_vals st (o_vals ob) in
  let st := fold_left mark_entry (o_hash ob) st in
  sethash st o (clean (o_hash ob)).

(** The '__mode' of a table's metatable (lgc.c 624-645). *)
Definition weakmode (st : gst) (ob : obj) : bool * bool :=
  match o_meta ob with
  | Some m => match heap st m with Some mb => o_mode mb | None => (false, false) end
  | None => (false, false)
  end.

(** traversetable (lgc.c 624-645). *)
Definition traversetable (st : gst) (o : id) (ob : obj) : gst :=
  let md := weakmode st ob in
  let st := mark_meta st (o_meta ob) in
  match md with
  | (false, true) => traverseweakvalue st o ob
  | (true, false) => fst (traverseephemeron st o ob)
  | (true, true) => link_allweak st o
  | (false, false) => traversestrongtable st o ob
  end.

(** traverseproto (lgc.c 652-670): a white cached closure is dropped. *)
Definition traverseproto (st : gst) (o : id) (ob : obj) : gst :=
  let st := match o_cache ob with
            | Some c => if iswhite st c then modify st o (fun b => with_cache b None) else st
            | None => st
            end in
  mark_vals st (o_vals ob).

(** traverseCclosure (lgc.c 673-679). *)
Definition traverseCclosure (st : gst) (o : id) (ob : obj) : gst := mark_vals st (o_vals ob).

(** traverseLclosure (lgc.c 686-699). *)
Definition trav_upv (st : gst) (u : nat) : gst :=
  match uvs st u with
  | Some (UOpen th i t) =>
      if is_atomic (gcs st) then mark_val st (uv_val st u)
      else set_uvs st (fun x => if Nat.eqb x u then Some (UOpen th i true) else uvs st x) (nextuv st)
  | Some (UClosed v) => mark_val st v
  | None => st
  end.

Definition traverseLclosure (st : gst) (o : id) (ob : obj) : gst :=
  fold_left trav_upv (o_upv ob) (mark_vals st (o_vals ob)).

(** traversethread (lgc.c 714-741). *)
Definition nils (n : nat) : list val := repeat VNil n.

Definition traversethread (st : gst) (o : id) (ob : obj) : gst :=
  let st := if is_propagate (gcs st) then link_grayagain st o else st in
  let st := mark_vals st (firstn (o_top ob) (o_vals ob)) in
  let st := fold_left (fun s u => mark_val s (uv_val s u)) (o_open ob) st in
  if is_atomic (gcs st) then
    let st := modify st o (fun b => with_vals b (firstn (o_top b) (o_vals b) ++ nils (length (o_vals b) - o_top b))) in
    if existsb (Nat.eqb o) (twups st) then st
    else match o_open ob with [] => st | _ => set_twups st (o :: twups st) end
  else st.

(** propagatemark (lgc.c 746-758): the first gray object becomes black and is
    traversed. *)
Definition propagatemark (st : gst) : gst :=
  match gray st with
  | [] => st
  | o :: g =>
      let st := set2black (set_gray st g) o in
      match heap st o with
      | None => st
      | Some ob =>
        match o_kind ob with
        | KTable => traversetable st o ob
        | KLcl => traverseLclosure st o ob
        | KCcl => traverseCclosure st o ob
        | KProto => traverseproto st o ob
        | KThread => traversethread st o ob
        | _ => st
        end
      end
  end.

(** propagateall (lgc.c 761-766).  An object enters 'gray' only when it stops
    being white, so [nextid] rounds empty the list (proved). *)
Fixpoint propagate_n (n : nat) (st : gst) : gst :=
  match n with
  | O => st
  | S n => match gray st with [] => st | _ => propagate_n n (propagatemark st) end
  end.
Definition propagateall (st : gst) : gst := propagate_n (nextid st) st.

(** convergeephemerons (lgc.c 776-796). *)
Fixpoint converge_pass (st : gst) (l : list id) (changed : bool) : gst * bool :=
  match l with
  | [] => (st, changed)
  | o :: l =>
      let st := set2black st o in
      match heap st o with
      | None => converge_pass st l changed
      | Some ob =>
          let '(st, m) := traverseephemeron st o ob in
          if m then converge_pass (propagateall st) l true else converge_pass st l changed
      end
  end.

Fixpoint converge_n (n : nat) (st : gst) : gst :=
  match n with
  | O => st
  | S n =>
      let '(st, changed) := converge_pass (set_ephemeron st []) (ephemeron st) false in
      if changed then converge_n n st else st
  end.
Definition convergeephemerons (st : gst) : gst := converge_n (S (nextid st)) st.

(** clearbykeys (lgc.c 810-823) on one table, then on a list. *)
Fixpoint ck_loop (st : gst) (h : list (key * val)) : gst * list (key * val) :=
  match h with
  | [] => (st, [])
  | (k, v) :: h =>
      let '(st, c) := if isnil v then (st, false) else iscleared st (kobj k) in
      let e := removeentry (k, if c then VNil else v) in
      let '(st, h) := ck_loop st h in
      (st, e :: h)
  end.

Definition clearkeys1 (st : gst) (o : id) : gst :=
  match heap st o with
  | None => st
  | Some ob => let '(st, h) := ck_loop st (o_hash ob) in sethash st o h
  end.
Definition clearbykeys (st : gst) (l : list id) : gst := fold_left clearkeys1 l st.

(** clearbyvalues (lgc.c 829-846). *)
Fixpoint cv_arr (st : gst) (l : list val) : gst * list val :=
  match l with
  | [] => (st, [])
  | v :: l =>
      let '(st, c) := iscleared st (vobj v) in
      let '(st, l) := cv_arr st l in
      (st, (if c then VNil else v) :: l)
  end.
Fixpoint cv_loop (st : gst) (h : list (key * val)) : gst * list (key * val) :=
  match h with
  | [] => (st, [])
  | (k, v) :: h =>
      let '(st, c) := iscleared st (vobj v) in
      let e := removeentry (k, if c then VNil else v) in
      let '(st, h) := cv_loop st h in
      (st, e :: h)
  end.

Definition clearvals1 (st : gst) (o : id) : gst :=
  match heap st o with
  | None => st
  | Some ob =>
      let '(st, a) := cv_arr st (o_vals ob) in
      let '(st, h) := cv_loop st (o_hash ob) in
      modify st o (fun b => with_hash (with_vals b a) h)
  end.
(** The list runs "up to element [f]": the elements added in front of [f]. *)
Definition clearbyvalues (st : gst) (l : list id) : gst := fold_left clearvals1 l st.
Definition upto (l orig : list id) : list id := firstn (length l - length orig) l.

(** remarkupvals (lgc.c 453-476). *)
Definition remark_upv (st : gst) (u : nat) : gst :=
  match uvs st u with
  | Some (UOpen th i true) =>
      let st := mark_val st (uv_val st u) in
      set_uvs st (fun x => if Nat.eqb x u then Some (UOpen th i false) else uvs st x) (nextuv st)
  | _ => st
  end.

Fixpoint remark_loop (st : gst) (l : list id) : gst * list id :=
  match l with
  | [] => (st, [])
  | t :: l =>
      match heap st t with
      | None => remark_loop st l
      | Some ob =>
          if negb (iswhite st t) && negb (Nat.eqb (length (o_open ob)) 0)
          then let '(st, r) := remark_loop st l in (st, t :: r)
          else remark_loop (fold_left remark_upv (o_open ob) st) l
      end
  end.
Definition remarkupvals (st : gst) : gst :=
  let '(st, l) := remark_loop st (twups st) in set_twups st l.

(** separatetobefnz(g, 0) (lgc.c 1066-1086): white finalisable objects go to the
    end of 'tobefnz'. *)
Definition separatetobefnz (st : gst) : gst :=
  set_objs st (allgc st)
    (filter (fun o => negb (iswhite st o)) (finobj st))
    (tobefnz st ++ filter (fun o => iswhite st o) (finobj st)).

(** markbeingfnz, markmt (lgc.c 426-441). *)
Definition markbeingfnz (st : gst) : gst := fold_left mark (tobefnz st) st.
Definition markmt (st : gst) : gst := fold_left mark_opt (mts st) st.

(** luaS_clearcache (lstring.c 103-110). *)
Definition clearcache (st : gst) : gst :=
  set_roots st (curth st) (registry st) (mts st)
    (map (fun s => if iswhite st s then memerr st else s) (strcache st)).

(** restartcollection (lgc.c 488-494). *)
Definition restartcollection (st : gst) : gst :=
  let st := set_lists st [] [] [] [] [] in
  let st := mark st (mainth st) in
  let st := mark_val st (registry st) in
  let st := markmt st in
  markbeingfnz st.

(** atomic (lgc.c 1615-1655). *)
Definition atomic_mark (st : gst) : gst :=
  let saved := grayagain st in
  let st := set_gcs (set_grayagain st []) GCSatomic in
  let st := mark st (curth st) in
  let st := mark_val st (registry st) in
  let st := markmt st in
  let st := propagateall st in
  let st := remarkupvals st in
  let st := propagateall st in
  let st := propagateall (set_gray st saved) in
  convergeephemerons st.

Definition atomic_fin (st : gst) : gst :=
  let st := clearbyvalues st (weak st) in
  let st := clearbyvalues st (allweak st) in
  let origweak := weak st in
  let origall := allweak st in
  let st := separatetobefnz st in
  let st := markbeingfnz st in
  let st := propagateall st in
  let st := convergeephemerons st in
  let st := clearbykeys st (ephemeron st) in
  let st := clearbykeys st (allweak st) in
  let st := clearbyvalues st (upto (weak st) origweak) in
  let st := clearbyvalues st (upto (allweak st) origall) in
  clearcache st.

Definition atomic (st : gst) : gst :=
  let st := atomic_fin (atomic_mark st) in
  set_cw st (negb (cw st)).

(** ** Sweep *)

(** luaE_freethread / luaF_close(L1, L1->stack, NOCLOSINGMETH) (lstate.c 311-322,
    lfunc.c 156-178): every open upvalue keeps its value. *)
Definition close_upv (st : gst) (u : nat) : gst :=
  set_uvs st (fun x => if Nat.eqb x u then Some (UClosed (uv_val st u)) else uvs st x) (nextuv st).

(** freeobj (lgc.c 871-909). *)
Definition freeobj (st : gst) (o : id) : gst :=
  match heap st o with
  | None => st
  | Some ob =>
      let st := match o_kind ob with KThread => fold_left close_upv (o_open ob) st | _ => st end in
      set_heap st (fun x => if Nat.eqb x o then None else heap st x)
  end.

(** sweeplist (lgc.c 916-937) on the part of a list behind 'sweepgc': the
    surviving elements that were visited, and the rest. *)
Fixpoint sweeplist (n : nat) (st : gst) (l : list id) : gst * list id * list id :=
  match n, l with
  | S n, o :: l =>
      if isdead st o then sweeplist n (freeobj st o) l
      else let '(st, kept, rest) := sweeplist n (makewhite st o) l in (st, o :: kept, rest)
  | _, _ => (st, [], l)
  end.

(** sweeptolive (lgc.c 943-949). *)
Fixpoint sweeptolive (st : gst) (l : list id) : gst * list id * list id :=
  match l with
  | [] => (st, [], [])
  | o :: l => if isdead st o then sweeptolive (freeobj st o) l else (makewhite st o, [o], l)
  end.

(** Split a list at 'sweepgc': what has been passed, what is still to be swept. *)
Fixpoint split_after (o : id) (l : list id) : list id * list id :=
  match l with
  | [] => ([], [])
  | x :: l => if Nat.eqb x o then ([x], l) else let '(a, b) := split_after o l in (x :: a, b)
  end.
Definition split_ptr (p : ptr) (l : list id) : list id * list id :=
  match p with PHead => ([], l) | PNext o => split_after o l end.

(** Where 'sweepgc' stands after visiting [kept], with [rest] still ahead. *)
Definition next_ptr (p : ptr) (kept rest : list id) : option ptr :=
  match rest with
  | [] => None
  | _ => match rev kept with [] => Some p | o :: _ => Some (PNext o) end
  end.

(** entersweep (lgc.c 1576-1583). *)
Definition entersweep (st : gst) : gst :=
  let st := set_gcs st GCSswpallgc in
  let '(st, kept, rest) := sweeptolive st (allgc st) in
  set_sweepgc (set_objs st (kept ++ rest) (finobj st) (tobefnz st)) (next_ptr PHead kept rest).

Definition GCSWEEPMAX : nat := 100.

(** The list swept in each state, and how to put it back. *)
Definition swlist (st : gst) : list id :=
  match gcs st with GCSswpallgc => allgc st | GCSswpfinobj => finobj st | GCSswptobefnz => tobefnz st | _ => [] end.
Definition set_swlist (st : gst) (l : list id) : gst :=
  match gcs st with
  | GCSswpallgc => set_objs st l (finobj st) (tobefnz st)
  | GCSswpfinobj => set_objs st (allgc st) l (tobefnz st)
  | GCSswptobefnz => set_objs st (allgc st) (finobj st) l
  | _ => st
  end.

(** sweepstep (lgc.c 1658-1672). *)
Definition sweepstep (st : gst) (next : gcstate) (nextlist : option ptr) : gst :=
  match sweepgc st with
  | Some p =>
      let '(pre, suf) := split_ptr p (swlist st) in
      let '(st, kept, rest) := sweeplist GCSWEEPMAX st suf in
      set_sweepgc (set_swlist st (pre ++ kept ++ rest)) (next_ptr p kept rest)
  | None => set_sweepgc (set_gcs st next) nextlist
  end.

(** ** Finalisers *)

(** issweepphase, keepinvariant (lgc.h 42-54). *)
Definition issweepphase (st : gst) : bool :=
  match gcs st with GCSswpallgc | GCSswpfinobj | GCSswptobefnz | GCSswpend => true | _ => false end.
Definition keepinvariant (st : gst) : bool :=
  match gcs st with GCSpropagate | GCSenteratomic | GCSatomic => true | _ => false end.

(** A push on the stack of the running thread. *)
Definition push (st : gst) (v : val) : gst :=
  modify st (curth st) (fun b =>
    with_top (with_vals b (firstn (o_top b) (o_vals b) ++ v :: skipn (S (o_top b)) (o_vals b))) (S (o_top b))).

Definition gcfield (st : gst) (ob : obj) : bool :=
  match o_meta ob with
  | Some m => match heap st m with Some mb => o_gc mb | None => false end
  | None => false
  end.

(** GCTM with udata2finalize (lgc.c 978-1025).  The finaliser itself is
    interpreter code: it is whatever events follow. *)
Definition gctm (st : gst) : gst :=
  match tobefnz st with
  | [] => st
  | o :: l =>
      let st := set_objs st (o :: allgc st) (finobj st) l in
      let st := modify st o (fun b => with_fin b false) in
      let st := if issweepphase st then makewhite st o else st in
      match heap st o with
      | Some ob => if gcfield st ob then push st (VObj o) else st
      | None => st
      end
  end.

(** singlestep (lgc.c 1675-1735); [emergency] is g->gcemergency.  'checkSizes'
    only resizes the string table. *)
Definition singlestep (emergency : bool) (st : gst) : gst :=
  match gcs st with
  | GCSpause => set_gcs (restartcollection st) GCSpropagate
  | GCSpropagate =>
      match gray st with [] => set_gcs st GCSenteratomic | _ => propagatemark st end
  | GCSenteratomic => entersweep (atomic st)
  | GCSswpallgc => sweepstep st GCSswpfinobj (Some PHead)
  | GCSswpfinobj => sweepstep st GCSswptobefnz (Some PHead)
  | GCSswptobefnz => sweepstep st GCSswpend None
  | GCSswpend => set_gcs st GCScallfin
  | GCScallfin =>
      match tobefnz st with
      | [] => set_gcs st GCSpause
      | _ => if emergency then set_gcs st GCSpause else gctm st
      end
  | GCSatomic => st
  end.

(** ** Barriers *)

(** luaC_barrier_ (lgc.c 275-290) with the test of luaC_barrier (lgc.h 175-177). *)
Definition barrier (st : gst) (o v : id) : gst :=
  if isblack st o && iswhite st v then
    if keepinvariant st then mark_obj (nextid st) st v else makewhite st o
  else st.
Definition barrier_val (st : gst) (o : id) (v : val) : gst := match v with VObj x => barrier st o x | _ => st end.

(** luaC_barrierback_ (lgc.c 317-327) with the test of luaC_barrierback. *)
Definition barrierback (st : gst) (o v : id) : gst :=
  if isblack st o && iswhite st v then link_grayagain st o else st.
Definition barrierback_val (st : gst) (o : id) (v : val) : gst := match v with VObj x => barrierback st o x | _ => st end.
Definition barrierback_key (st : gst) (o : id) (k : key) : gst := match k with KyObj x => barrierback st o x | _ => st end.

(** luaC_upvalbarrier_ (lgc.c 298-306) with the test of luaC_upvalbarrier. *)
Definition upvalbarrier (st : gst) (u : nat) : gst :=
  match uvs st u with
  | Some (UClosed (VObj x)) => if keepinvariant st then mark st x else st
  | _ => st
  end.

(** luaC_checkfinalizer (lgc.c 1111-1138). *)
Fixpoint remove1 (o : id) (l : list id) : list id :=
  match l with [] => [] | x :: l => if Nat.eqb x o then l else x :: remove1 o l end.

Definition checkfinalizer (st : gst) (o mt : id) : gst :=
  match heap st o, heap st mt with
  | Some ob, Some mb =>
      if o_fin ob || negb (o_gc mb) then st
      else
        let st :=
          if issweepphase st then
            let st := makewhite st o in
            match sweepgc st, gcs st with
            | Some (PNext x), GCSswpallgc =>
                if Nat.eqb x o then
                  let '(pre, suf) := split_after o (allgc st) in
                  let '(st, kept, rest) := sweeptolive st suf in
                  set_sweepgc (set_objs st (pre ++ kept ++ rest) (finobj st) (tobefnz st)) (next_ptr (PNext o) kept rest)
                else st
            | _, _ => st
            end
          else st in
        let st := set_objs st (remove1 o (allgc st)) (o :: finobj st) (tobefnz st) in
        modify st o (fun b => with_fin b true)
  | _, _ => st
  end.

(** ** Stores and allocations made by the interpreter *)

Inductive event :=
  | GStep (emergency : bool)                    (* singlestep *)
  | GAbort                                      (* fullinc, first line: sweep everything back to white *)
  | GHurry                                      (* fullinc: go straight to the atomic phase *)
  | MNew (k : kind) (vs : list val) (us : list nat)   (* luaC_newobj, and push the object *)
  | MSlot (th : id) (i : nat) (v : val)         (* store into a stack slot *)
  | MTop (th : id) (n : nat)                    (* move the top of a stack *)
  | MVal (o : id) (i : nat) (v : val)           (* array slot, uservalue, C upvalue, constant *)
  | MGrow (o : id) (n : nat)                    (* more array slots, stack slots or constants *)
  | MHash (t : id) (k : key) (v : val)          (* t[k] = v in the hash part *)
  | MRebuild (t : id) (vs : list val) (h : list (key * val))  (* luaH_resize *)
  | MMeta (o : id) (mt : option id)             (* lua_setmetatable *)
  | MMode (mt : id) (md : bool * bool) (g : bool)     (* '__mode' and '__gc' of a metatable *)
  | MCache (p cl : id)                          (* pushclosure: p->cache = ncl *)
  | MFindUpv (th : id) (i : nat)                (* luaF_findupval *)
  | MSetUpv (u : nat) (v : val)                 (* OP_SETUPVAL *)
  | MClose (th : id) (us : list nat)            (* luaF_close *)
  | MJoin (cl : id) (i : nat) (u : nat)         (* lua_upvaluejoin *)
  | MCur (th : id)                              (* resume or yield *)
  | MReg (v : val)
  | MMt (i : nat) (m : option id)               (* lua_setmetatable on a basic type *)
  | MIntern (s : id)                            (* internshrstr finds an existing string *)
  | MStrCache (i : nat) (s : id)                (* luaS_new fills the cache *)
  | MUndump (p : id) (v : val).                 (* LoadConstants, LoadProtos, LoadDebug: no barrier *)

Definition list_set {A} (l : list A) (i : nat) (x : A) : list A :=
  if Nat.ltb i (length l) then firstn i l ++ x :: skipn (S i) l else l.

Definition key_eqb (a b : key) : bool :=
  match a, b with
  | KyPrim x, KyPrim y => Z.eqb x y
  | KyObj x, KyObj y => Nat.eqb x y
  | _, _ => false
  end.

Fixpoint hash_set (h : list (key * val)) (k : key) (v : val) : list (key * val) :=
  match h with
  | [] => []
  | (k', v') :: h => if key_eqb k k' then (k', v) :: h else (k', v') :: hash_set h k v
  end.

Definition blank (k : kind) (w : bool) (vs : list val) (us : list nat) : obj :=
  mkobj k (White w) false None (false, false) false vs [] us None 0 [].

(** luaC_newobj (lgc.c 345-355), then the value is pushed. *)
Definition newobj (st : gst) (k : kind) (vs : list val) (us : list nat) : gst :=
  let o := nextid st in
  let st := set_heap st (fun x => if Nat.eqb x o then Some (blank k (cw st) vs us) else heap st x) in
  let st := set_nextid st (S o) in
  let st := set_objs st (o :: allgc st) (finobj st) (tobefnz st) in
  push st (VObj o).

(** The store that fits the kind: tables use the backward barrier (lvm.c 389,
    lapi.c 1077), userdata (lapi.c 1235), C closures (lapi.c 235) and prototypes
    (lcode.c 462, lparser.c 414, 549, 955) the forward one. *)
Definition store_val (st : gst) (o : id) (i : nat) (v : val) : gst :=
  match kind_of st o with
  | Some KTable => barrierback_val (modify st o (fun b => with_vals b (list_set (o_vals b) i v))) o v
  | Some KUdata | Some KCcl | Some KProto =>
      barrier_val (modify st o (fun b => with_vals b (list_set (o_vals b) i v))) o v
  | _ => st
  end.

(** luaV_finishset / luaH_newkey (lvm.c 255-275, ltable.c 571-623). *)
Definition store_hash (st : gst) (t : id) (k : key) (v : val) : gst :=
  match heap st t with
  | None => st
  | Some ob =>
      if existsb (fun e => key_eqb k (fst e)) (o_hash ob) then
        barrierback_val (sethash st t (hash_set (o_hash ob) k v)) t v
      else
        let st := sethash st t ((k, VNil) :: o_hash ob) in
        let st := barrierback_key st t k in
        barrierback_val (sethash st t ((k, v) :: o_hash ob)) t v
  end.

(** luaH_resize (ltable.c 421-459): the entries are inserted again; only the keys
    meet a barrier. *)
Definition rebuild (st : gst) (t : id) (vs : list val) (h : list (key * val)) : gst :=
  fold_left (fun s e => barrierback_key s t (fst e)) h
    (modify st t (fun b => with_hash (with_vals b vs) h)).

(** lua_setmetatable (lapi.c 1177-1224). *)
Definition setmeta (st : gst) (o : id) (mt : option id) : gst :=
  let st := modify st o (fun b => with_meta b mt) in
  match mt with
  | None => st
  | Some m => checkfinalizer (barrier st o m) o m
  end.

(** luaF_findupval (lfunc.c 64-97), when no upvalue exists for the slot. *)
Definition findupval (st : gst) (th : id) (i : nat) : gst :=
  let u := nextuv st in
  let st := set_uvs st (fun x => if Nat.eqb x u then Some (UOpen th i true) else uvs st x) (S u) in
  let st := modify st th (fun b => with_open b (u :: o_open b)) in
  if existsb (Nat.eqb th) (twups st) then st else set_twups st (th :: twups st).

(** OP_SETUPVAL (lvm.c 1443-1448). *)
Definition setupval (st : gst) (u : nat) (v : val) : gst :=
  match uvs st u with
  | Some (UOpen th i _) => modify st th (fun b => with_vals b (list_set (o_vals b) i v))
  | Some (UClosed _) =>
      upvalbarrier (set_uvs st (fun x => if Nat.eqb x u then Some (UClosed v) else uvs st x) (nextuv st)) u
  | None => st
  end.

(** luaF_close (lfunc.c 156-178) for the upvalues [us] of a thread. *)
Definition close_upvs (st : gst) (th : id) (us : list nat) : gst :=
  let st := modify st th (fun b => with_open b (filter (fun u => negb (existsb (Nat.eqb u) us)) (o_open b))) in
  fold_left (fun s u => upvalbarrier (close_upv s u) u) us st.

(** lua_upvaluejoin (lapi.c 1682-1695). *)
Definition joinupv (st : gst) (cl : id) (i u : nat) : gst :=
  let st := modify st cl (fun b => with_upv b (list_set (o_upv b) i u)) in
  let st := match uvs st u with
            | Some (UOpen th j _) => set_uvs st (fun x => if Nat.eqb x u then Some (UOpen th j true) else uvs st x) (nextuv st)
            | _ => st
            end in
  upvalbarrier st u.

(** internshrstr (lstring.c 190-196): a dead string that is found again is
    resurrected by changing its white; the caller pushes it. *)
Definition intern (st : gst) (s : id) : gst :=
  push (if isdead st s then makewhite st s else st) (VObj s).

(** One event.  An event that does not apply to the state changes nothing. *)
Definition step (st : gst) (e : event) : gst :=
  match e with
  | GStep em => singlestep em st
  | GAbort => if keepinvariant st then entersweep st else st
  | GHurry => if is_propagate (gcs st) then set_gcs st GCSenteratomic else st
  | MNew k vs us => newobj st k vs us
  | MSlot th i v => modify st th (fun b => with_vals b (list_set (o_vals b) i v))
  | MTop th n => modify st th (fun b => with_top b n)
  | MVal o i v => store_val st o i v
  | MGrow o n => modify st o (fun b => with_vals b (o_vals b ++ nils n))
  | MHash t k v => store_hash st t k v
  | MRebuild t vs h => rebuild st t vs h
  | MMeta o mt => setmeta st o mt
  | MMode mt md g => modify st mt (fun b => with_mode b md g)
  | MCache p cl => if isblack st p then st else modify st p (fun b => with_cache b (Some cl))
  | MFindUpv th i => findupval st th i
  | MSetUpv u v => setupval st u v
  | MClose th us => close_upvs st th us
  | MJoin cl i u => joinupv st cl i u
  | MCur th => set_roots st th (registry st) (mts st) (strcache st)
  | MReg v => set_roots st (curth st) v (mts st) (strcache st)
  | MMt i m => set_roots st (curth st) (registry st) (list_set (mts st) i m) (strcache st)
  | MIntern s => intern st s
  | MStrCache i s => set_roots st (curth st) (registry st) (mts st) (list_set (strcache st) i s)
  | MUndump p v => modify st p (fun b => with_vals b (o_vals b ++ [v]))
  end.

(** lua_newstate (lstate.c 363-442): a main thread, the registry table, and the
    fixed message string; the collector is at rest.  The string cache holds the
    message everywhere (lstring.c 117-121). *)
Definition init_state : gst :=
  mkgst (fun o => match o with
                  | 0 => Some (mkobj KThread (White false) false None (false, false) false [] [] [] None 0 [])
                  | 1 => Some (blank KTable false [] [])
                  | 2 => Some (mkobj KStr Gray false None (false, false) false [] [] [] None 0 [])
                  | _ => None
                  end)
    3 (fun _ => None) 0 false GCSpause
    [1; 0] [] [] [2] [] [] [] [] [] None [] 0 0 (VObj 1) (repeat None 9) (repeat 2 106) 2.
