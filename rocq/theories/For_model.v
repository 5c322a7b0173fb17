(* Model of the numeric for loop over integers: lparser.c fornum/forbody (choice of the
   instructions) and the instructions FORPREP/FORLOOP and their Ravi variants of lvm.c. *)
Require Import ZArith List Bool.
From Coq Require Import Floats.SpecFloat.
From Verif Require Import Base Float_model.
Import ListNotations.
Open Scope Z_scope.

Inductive variant := Generic | IP | I1.

(* lparser.c:2044-2070 exp1: what is known about one of the three expressions: whether its static
   type is integer, whether it is an integer literal (VKINT), whether its first token is '#' *)
Record expinfo := mkExp { st_int : bool; literal : option Z; starts_hash : bool }.
(* exp1's type_map is INTEGER: by type, or because a TOINT was emitted *)
Definition exp1_int (x : expinfo) : bool := starts_hash x || st_int x.
(* the value left in the register: OP_RAVI_TOINT (lvm.c:2558-2563) when emitted *)
Definition exp1_value (x : expinfo) (v : num) : outcome num :=
  if starts_hash x && negb (st_int x)
  then bind (tointegerns v F2Ieq) (fun o => match o with Some i => Ok (NInt i) | None => Err EType end)
  else Ok v.
(* lparser.c:2038: int_value is an int *)
Definition int_value (x : expinfo) : Z := match literal x with Some v => s32 v | None => 0 end.
Definition is_constant (x : expinfo) : bool := match literal x with Some _ => true | None => false end.

(* lparser.c:2148-2152 and 2083-2092: the variant; default step: literal 1 *)
Definition fornum_variant (init limit step : expinfo) : variant :=
  if exp1_int init && exp1_int limit && exp1_int step && is_constant step then
    if 1 <? int_value step then IP else if int_value step =? 1 then I1 else Generic
  else Generic.

(* lvm.c:182-205 luaV_forlimit, for numeric limits *)
Definition forlimit (lim : num) (step : Z) : outcome (Z * bool) :=
  match lim with
  | NInt i => Ok (i, false)
  | NFlt f =>
    bind (flttointeger f (if step <? 0 then F2Iceil else F2Ifloor)) (fun o =>
    match o with
    | Some p => Ok (p, false)
    | None => if flt_lt fzero f then Ok (maxint, step <? 0) else Ok (minint, 0 <=? step)
    end)
  end.

(* lvm.c:1910-1923 OP_FORPREP (integer case), 2193-2206 OP_RAVI_FORPREP_IP/I1:
   the internal index and the limit *)
Definition forprep (v : variant) (init : Z) (lim : num) (step : Z) : outcome (Z * Z) :=
  match v with
  | Generic =>
    bind (forlimit lim step) (fun '(ilimit, stopnow) =>
    let initv := if stopnow : bool then 0 else init in
    Ok (s64 (u64 initv - u64 step), ilimit))
  | IP => match lim with NInt l => bind (c_signed (init - step)) (fun i => Ok (i, l)) | NFlt _ => UB end
  | I1 => match lim with NInt l => bind (c_signed (init - 1)) (fun i => Ok (i, l)) | NFlt _ => UB end
  end.

(* lvm.c:1886-1896 OP_FORLOOP (integer case), 2181-2191 OP_RAVI_FORLOOP_IP/I1:
   the next index, or None when the loop ends *)
Definition forloop (v : variant) (idx limit step : Z) : outcome (option Z) :=
  match v with
  | Generic =>
    let idx := s64 (u64 idx + u64 step) in
    if (if 0 <? step then idx <=? limit else limit <=? idx) then Ok (Some idx) else Ok None
  | IP => bind (c_signed (idx + step)) (fun idx => if idx <=? limit then Ok (Some idx) else Ok None)
  | I1 => bind (c_signed (idx + 1)) (fun idx => if idx <=? limit then Ok (Some idx) else Ok None)
  end.

(* the values of the loop variable, in order; the body does not change the internal registers *)
Fixpoint visits (fuel : nat) (v : variant) (idx limit step : Z) : outcome (list Z) :=
  match fuel with
  | O => OutOfFuel
  | S f =>
    bind (forloop v idx limit step) (fun o =>
    match o with
    | None => Ok []
    | Some i => bind (visits f v i limit step) (fun r => Ok (i :: r))
    end)
  end.
Definition run_for (fuel : nat) (v : variant) (init : Z) (lim : num) (step : Z) : outcome (list Z) :=
  bind (forprep v init lim step) (fun '(idx, limit) => visits fuel v idx limit step).
