(* What a binary chunk preserves. *)
Require Import ZArith List Bool.
From Verif Require Import Base Str Dump_model.
Import ListNotations.
Open Scope Z_scope.

(* prototypes without the information about shared pointers *)
Fixpoint erased (f : proto) : proto :=
  let (s, _, line, lastline, np, va, ms, code, k, ups, ps, li, lv) := f in
  Proto s true line lastline np va ms code k ups (map erased ps) li lv.
(* what remains without debug information: names, sources and lines are lost, and the local variables
   behind the last one with a type *)
Fixpoint typed_part (l : list locv) : list locv :=
  match l with
  | [] => []
  | v :: l => match typed_part l with [] => if l_type v =? ANY then [] else [v] | r => v :: r end
  end.
Definition unnamed_loc (v : locv) : locv := mkLoc None (l_user v) (l_start v) (l_end v) (l_type v).
Definition unnamed_up (u : upv) : upv := mkUp None (u_user u) (u_type u) (u_instack u) (u_idx u).
Fixpoint stripped (f : proto) : proto :=
  let (_, _, line, lastline, np, va, ms, code, k, ups, ps, _, lv) := f in
  Proto None true line lastline np va ms code k (map unnamed_up ups) (map stripped ps) [] (map unnamed_loc (typed_part lv)).

(* values that fit their C types *)
Definition str_ok (s : list Z) : Prop := wf_str s /\ slen s < maxint.
Definition ostr_ok (s : option (list Z)) : Prop := match s with None => True | Some s => str_ok s end.
Definition len_ok {A} (l : list A) : Prop := num l < two31.
Definition is_s32 (n : Z) : Prop := - two31 <= n < two31.
Definition byte_ok (b : Z) : Prop := 0 <= b < 256.
Definition const_ok (c : const) : Prop :=
  match c with KNil => True | KBool b => b = 0 \/ b = 1 | KFlt x => is_u64 x | KInt n => is_s64 n | KStr s => str_ok s end.
(* types with a name are not "any" *)
Definition up_ok (u : upv) : Prop := ostr_ok (u_name u) /\ ostr_ok (u_user u) /\ is_u32 (u_type u) /\ byte_ok (u_instack u) /\ byte_ok (u_idx u) /\ (u_type u = ANY -> u_user u = None).
Definition loc_ok (v : locv) : Prop := ostr_ok (l_name v) /\ ostr_ok (l_user v) /\ is_s32 (l_start v) /\ is_s32 (l_end v) /\ is_u32 (l_type v).
(* equal pointers have equal contents; a function has a source if the enclosing one has one *)
Fixpoint proto_ok (parent : option (list Z)) (f : proto) : Prop :=
  let (s, same, line, lastline, np, va, ms, code, k, ups, ps, li, lv) := f in
  ostr_ok s /\ (same = true -> s = parent) /\ (s = None -> parent = None) /\
  is_s32 line /\ is_s32 lastline /\ byte_ok np /\ byte_ok va /\ byte_ok ms /\
  (len_ok code /\ Forall is_u32 code) /\ (len_ok k /\ Forall const_ok k) /\ (len_ok ups /\ Forall up_ok ups) /\
  (len_ok li /\ Forall is_s32 li) /\ (len_ok lv /\ Forall loc_ok lv) /\ len_ok ps /\
  (fix all l := match l with [] => True | p :: l => proto_ok s p /\ all l end) ps.
(* a main function: at most 255 upvalues *)
Definition main_ok (f : proto) : Prop := proto_ok None f /\ num (pupvalues f) <= 255.
(* the bytes a reader delivers: its pieces up to the first empty one *)
Fixpoint live (pieces : list (list Z)) : list Z := match pieces with [] => [] | [] :: _ => [] | p :: ps => p ++ live ps end.
(* a writer was called on the blocks in order, each call succeeding *)
Fixpoint written {W} (writer : W -> list Z -> W * Z) (w : W) (bs : list (list Z)) (w' : W) : Prop :=
  match bs with [] => w' = w | b :: bs => exists w1, writer w b = (w1, 0) /\ written writer w1 bs w' end.
(* the first bytes of every chunk that may be loaded; the format is 0 or 1 *)
Definition header (nl : bool) (format : Z) : list Z :=
  let order l := if nl then l else rev l in
  [27; 82; 97; 118; 105; 83; format; 25; 147; 13; 10; 26; 10; 4; 8; 4; 8; 8] ++ order [120; 86; 0; 0; 0; 0; 0; 0] ++ order [0; 0; 0; 0; 0; 40; 119; 64].
