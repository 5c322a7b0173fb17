(** What a weak table holds on to; independent of how the collector works. *)
From Coq Require Import List Bool Arith.
From Verif Require Import Base Gc_model Gc_spec Gc_free_spec.
Import ListNotations.
Local Open Scope nat_scope.

(** [weakkeys st ob], [weakvals st ob]: what '__mode' of the table's metatable says. *)
Definition wmode (st : gst) (ob : obj) (get : bool * bool -> bool) : bool :=
  match o_meta ob with
  | Some m => match heap st m with Some mb => get (o_mode mb) | None => false end
  | None => false
  end.
Definition weakkeys (st : gst) (ob : obj) : bool := wmode st ob fst.
Definition weakvals (st : gst) (ob : obj) : bool := wmode st ob snd.

(** [strong vs R st o]: [o] is held without the help of weak references, starting
    from the objects in [R]; [vs] are the slots of an object that count.  In a table
    with weak keys and strong values an entry holds its value only when its key is
    held from elsewhere, or is not an object, or is a string (strings count as
    values, not as objects: lgc.c 177-189). *)
Inductive strong (vs : obj -> list val) (R : id -> Prop) (st : gst) : id -> Prop :=
  | s_root : forall o, R o -> strong vs R st o
  | s_meta : forall a ob b, strong vs R st a -> heap st a = Some ob -> o_meta ob = Some b -> strong vs R st b
  | s_val : forall a ob b, strong vs R st a -> heap st a = Some ob -> In (VObj b) (vs ob) ->
      (o_kind ob = KTable -> weakvals st ob = false) -> strong vs R st b
  | s_key : forall a ob b v, strong vs R st a -> heap st a = Some ob -> In (KyObj b, v) (o_hash ob) -> v <> VNil ->
      weakkeys st ob = false -> strong vs R st b
  | s_hval : forall a ob k b, strong vs R st a -> heap st a = Some ob -> In (k, VObj b) (o_hash ob) ->
      weakvals st ob = false ->
      (weakkeys st ob = true -> forall x kx, k = KyObj x -> kind_of st x = Some kx -> kx <> KStr -> strong vs R st x) ->
      strong vs R st b
  | s_closed : forall a ob u b, strong vs R st a -> heap st a = Some ob -> In u (o_upv ob) ->
      uvs st u = Some (UClosed (VObj b)) -> strong vs R st b
  | s_open : forall a ob u th i t tb b, strong vs R st a -> heap st a = Some ob -> In u (o_upv ob) ->
      uvs st u = Some (UOpen th i t) -> heap st th = Some tb -> nth_error (vs tb) i = Some (VObj b) -> strong vs R st b.

(** Held at most: every slot counts, and a cycle starts from the roots, the objects
    with finalisers and the values of touched upvalues. *)
Inductive base (st : gst) (o : id) : Prop :=
  | b_root : root st o -> base st o
  | b_fin : In o (finobj st) -> base st o
  | b_touch : forall u th i tb, uvs st u = Some (UOpen th i true) -> heap st th = Some tb ->
      nth_error (o_vals tb) i = Some (VObj o) -> base st o.
Definition maybe_held (st : gst) : id -> Prop := strong o_vals (base st) st.

(** Held for certain: a stack counts up to its top; the cache of C strings, which a
    collection clears, does not count. *)
Definition live (ob : obj) : list val := match o_kind ob with KThread => firstn (o_top ob) (o_vals ob) | _ => o_vals ob end.
Inductive firm (st : gst) (o : id) : Prop :=
  | f_main : o = mainth st -> firm st o
  | f_cur : o = curth st -> firm st o
  | f_reg : registry st = VObj o -> firm st o
  | f_mt : In (Some o) (mts st) -> firm st o
  | f_fin : In o (tobefnz st) -> firm st o.
Definition surely_held (st : gst) : id -> Prop := strong live (firm st) st.

(** A key or value that no collection may remove. *)
Definition lasting (st : gst) (o : option id) : Prop :=
  match o with Some x => kind_of st x = Some KStr \/ surely_held st x | None => True end.
Definition key_id (k : key) : option id := match k with KyObj o => Some o | _ => None end.
Definition val_id (v : val) : option id := match v with VObj o => Some o | _ => None end.
