(* Lexical scoping: a name means the innermost declaration whose scope is open. *)
Require Import ZArith List Bool Arith.
From Verif Require Import Base Names_model.
Import ListNotations.
Local Open Scope nat_scope.

(* a declared variable; every declaration has its own number *)
Record decl := mkD { did : nat; dname : name; dtype : typ }.
(* the declarations of a block, the last one first *)
Record sblock := mkSB { decls : list decl; deferred : bool }.
(* the open blocks of a function, the innermost first, and the variables declared but not yet in scope *)
Record sfun := mkSF { blocks : list sblock; pend : list decl }.
(* the open functions, the innermost first; the next number; the variables used by inner functions *)
Record sstate := mkS { sfuns : list sfun; next : nat; capt : list nat }.

Definition find_name (n : name) (ds : list decl) : option decl := find (fun d => Z.eqb (dname d) n) ds.
Definition visible (f : sfun) : list decl := flat_map decls (blocks f).
(* the declaration and how many functions out it is *)
Fixpoint lookup (fs : list sfun) (n : name) : option (nat * decl) :=
  match fs with
  | [] => None
  | f :: r => match find_name n (visible f) with Some d => Some (0, d) | None => match lookup r n with Some (k, d) => Some (S k, d) | None => None end end
  end.
Definition captures (s : sstate) (n : name) : list nat := match lookup (sfuns s) n with Some (S _, d) => [did d] | _ => [] end.

Section scoping.
Variable envn : name.
Definition sstep (s : sstate) (o : op) : option sstate :=
  match o, sfuns s with
  | New n t, f :: r => Some (mkS (mkSF (blocks f) (pend f ++ [mkD (next s) n t]) :: r) (S (next s)) (capt s))
  | Activate k, mkSF (b :: bs) p :: r =>
    if k <=? length p then Some (mkS (mkSF (mkSB (rev (firstn k p) ++ decls b) (deferred b) :: bs) (skipn k p) :: r) (next s) (capt s)) else None
  | Enter, f :: r => Some (mkS (mkSF (mkSB [] false :: blocks f) (pend f) :: r) (next s) (capt s))
  | Leave, mkSF (_ :: b :: bs) [] :: r => Some (mkS (mkSF (b :: bs) [] :: r) (next s) (capt s))
  | Open, _ => Some (mkS (mkSF [mkSB [] false] [] :: sfuns s) (next s) (capt s))
  | Finish, mkSF [_] [] :: f :: r => Some (mkS (f :: r) (next s) (capt s))
  | Defer, mkSF (b :: bs) p :: r => Some (mkS (mkSF (mkSB (decls b) true :: bs) p :: r) (next s) (capt s))
  | Use n, _ => 
    (* a name that is not declared is a field of _ENV *)
    Some (mkS (sfuns s) (next s) (captures s (match lookup (sfuns s) n with Some _ => n | None => envn end) ++ capt s))
  | _, _ => None
  end.
(* the sequences of events of source texts: scopes are closed in the order in which they were opened *)
Fixpoint ssteps (s : sstate) (os : list op) : option sstate :=
  match os with [] => Some s | o :: os => match sstep s o with Some s => ssteps s os | None => None end end.
Definition sinit : sstate := mkS [mkSF [mkSB [] false] []] 0 [].
End scoping.

(* Which variable the operands in the code denote when it runs. The variables of a function are in its
   registers in the order in which they came into scope. OP_CLOSURE takes an upvalue from a register or
   from an upvalue of the function it is in (lvm.c:979-997 pushclosure); the main function gets _ENV
   (lapi.c lua_load). *)
Inductive target := TDecl (id : nat) | TEnv.
Definition frame (f : sfun) : list nat := rev (map did (visible f)).
Fixpoint upval_target (sf : list sfun) (us : list (list upvd)) (i : nat) : option target :=
  match sf, us with
  | [_], [_] => if i =? 0 then Some TEnv else None
  | _ :: ((g :: _) as sf), u :: us =>
    match nth_error u i with
    | Some u => if uinstack u then option_map TDecl (nth_error (frame g) (uidx u)) else upval_target sf us (uidx u)
    | None => None
    end
  | _, _ => None
  end.
Definition denotes (sf : list sfun) (us : list (list upvd)) (e : expk) : option target :=
  match e, sf with
  | VLocal r, f :: _ => option_map TDecl (nth_error (frame f) r)
  | VUpval i, _ => upval_target sf us i
  | _, _ => None
  end.
(* what the name stands for: a declaration with its type, or the variable _ENV every chunk has *)
Definition stands_for (sf : list sfun) (n : name) : target * typ :=
  match lookup sf n with Some (_, d) => (TDecl (did d), dtype d) | None => (TEnv, T_ANY) end.
Definition upvals (p : pstate) : list (list upvd) := map ups (funs p).
(* the block a Leave ends declares a variable that an inner function uses, or has a deferred function *)
Definition block_captured (s : sstate) : Prop :=
  match sfuns s with
  | f :: _ => match blocks f with b :: _ => deferred b = true \/ exists d, In d (decls b) /\ In (did d) (capt s) | [] => False end
  | [] => False
  end.
(* the level of the first register of the block *)
Definition block_base (s : sstate) : nat :=
  match sfuns s with f :: _ => length (flat_map decls (tl (blocks f))) | [] => 0 end.
(* events in a function: there are never less than d open functions; the function is the innermost of
   the d outer ones *)
Definition depth (s : sstate) : nat := length (sfuns s).
Fixpoint stays (envn : name) (d : nat) (s : sstate) (os : list op) : Prop :=
  d <= depth s /\ match os with [] => True | o :: os => match sstep envn s o with Some s => stays envn d s os | None => False end end.
Definition lastn {A} (k : nat) (l : list A) : list A := skipn (length l - k) l.
