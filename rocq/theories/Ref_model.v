(* Model of the reference system of lauxlib.c over an abstract table with integer keys. *)
Require Import ZArith List Bool.
From Verif Require Import Base.
Import ListNotations.
Open Scope Z_scope.

Section Ref.
Variable V : Type.
(* values: nil, integers and everything else *)
Inductive val : Type := VNil | VInt (z : Z) | VOther (v : V).
Definition table := Z -> val.
Definition tset (t : table) (k : Z) (v : val) : table := fun x => if x =? k then v else t x.

Definition freelist : Z := 0.          (* lauxlib.c:592 *)
Definition LUA_REFNIL : Z := -1.       (* lauxlib.h:55 *)

(* lua_tointeger on the free-list link: only nil and integers are ever stored there *)
Definition tointeger (v : val) : Z := match v with VInt z => z | _ => 0 end.

(* lauxlib.c:595-614 luaL_ref; [rawlen] is the result of lua_rawlen(L, t) *)
Definition luaL_ref (rawlen : Z) (t : table) (v : val) : table * Z :=
  match v with
  | VNil => (t, LUA_REFNIL)
  | _ =>
    let ref := s32 (tointeger (t freelist)) in
    if negb (ref =? 0) then
      let t1 := tset t freelist (t ref) in (tset t1 ref v, ref)
    else
      let ref := s32 (s32 rawlen + 1) in (tset t ref v, ref)
  end.

(* lauxlib.c:617-625 luaL_unref *)
Definition luaL_unref (t : table) (ref : Z) : table :=
  if 0 <=? ref then tset (tset t ref (t freelist)) freelist (VInt ref) else t.
End Ref.
Arguments VNil {V}.
Arguments VInt {V} z.
Arguments VOther {V} v.
