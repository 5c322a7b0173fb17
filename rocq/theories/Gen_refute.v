(* Programs for which the code generator is wrong, and programs that witness the theorems. *)
Require Import ZArith List Bool Arith Lia.
From Coq Require Import Floats.SpecFloat.
From Verif Require Import Base Float_model Op_model Op_spec Gen_model Gen_spec.
Import ListNotations.
Local Open Scope nat_scope.

(* the world counts calls; calls return their first argument, or 5; everything else fails or is fixed *)
Definition E0 : env nat := mkenv nat (fun _ _ => fzero) (fun _ _ => fzero)
  (fun _ _ _ _ => Err EType) (fun _ _ _ => Err EType) (fun _ _ _ _ => Err EType)
  (fun _ _ w => Ok (I 1, w)) (fun _ _ _ => Ok 2%Z) (fun _ _ _ => Ok fzero) (fun _ _ _ => Err EType)
  (fun _ u => Tab u)
  (fun v w => match v with Str l => Ok (I (Z.of_nat (length l)), w) | IArr _ | FArr _ | Tab _ => Ok (I 3, w) | _ => Err EType end)
  (fun a b w => match a, b with Str a, Str b => Ok (Str (a ++ b), w) | _, _ => Err EType end)
  (fun _ l w => Ok (match l with v :: _ => v | [] => I 5 end, S w))
  (fun _ _ => Nil).
Definition ut0 (_ : nat) : tmap := T_ANY.
Lemma plain0 : plain nat E0 ut0.
Proof.
  split; [split; cbn; discriminate|]. split; [intros w u; reflexivity|]. split.
  - intros v w r w' H Q. destruct v as [|[|]|[x|x]| | | | | | |]; cbn in Q; try discriminate Q; injection Q as <- <-; reflexivity.
  - intros a b w r w' Ha Hb Q. destruct a; try discriminate Q. destruct b; try discriminate Q. injection Q as <- <-. reflexivity.
Qed.
(* local variables of types l; a function that begins *)
Definition lt0 (l : list tmap) (r : nat) : tmap := nth r l T_ANY.
Definition fs0 (l : list tmap) : fstate := mkfs [] [] [] (length l) (length l) (lt0 l) ut0.
Lemma starts0 l : starts (length l) (lt0 l) ut0 (fs0 l).
Proof.
  split; [reflexivity|]. split; [cbn; lia|]. split; [reflexivity|]. split; [reflexivity|]. split; [reflexivity|]. split; [intros f []|intros q a b c Q; discriminate Q].
Qed.
Definition st0 (l : list val) : state nat := mkst (fun r => nth r l Nil) 0.
Fixpoint go (n : nat) (P : prog) (c : config nat) : outcome (config nat) :=
  match n with O => Ok c | S n => bind (step nat E0 P c) (go n P) end.
Lemma go_runs n P : forall c c', go n P c = Ok c' -> runs nat E0 P c c'.
Proof.
  induction n as [|n IH]; intros c c' H; [injection H as <-; constructor|]. cbn in H. destruct (step nat E0 P c) as [c1| | |] eqn:Sp; cbn in H; try discriminate H. econstructor; eauto.
Qed.
Definition g0 := gen (fmod E0) (fpow E0).
Lemma types0 l : forallb (fun r => negb (Z.eqb (lt0 l r) 0)) (seq 0 (length l)) = true -> types_ok (length l) (lt0 l) ut0.
Proof.
  intros H. split; [|discriminate]. intros r L Q. rewrite forallb_forall in H. specialize (H r ltac:(apply in_seq; lia)). rewrite Q in H. discriminate H.
Qed.
Lemma locals0 l vs : forallb (fun r => Z.testbit (lt0 l r) (tag (nth r vs Nil))) (seq 0 (length l)) = true -> forall r, r < length l -> hast (lt0 l r) (reg (st0 vs) r).
Proof. intros H r L. rewrite forallb_forall in H. apply (H r). apply in_seq. lia. Qed.
Ltac typed_locals := apply (locals0 _ _); reflexivity.
Ltac nonzero := apply (types0 _); reflexivity.

(* if i + 1 then ..   with i: integer.  The test is left out because integers are true; the addition
   stays, its target register is not chosen, and it goes to register 0 *)
Lemma cond_omitted : exists n lt x fs fs1 e fs2 l P s s', types_ok n lt ut0 /\ tame n lt ut0 x = true /\ starts n lt ut0 fs /\
  gen (fmod E0) (fpow E0) fs x = Ok (fs1, e) /\ cond fs1 e = (fs2, l) /\ goes_on fs2 P /\ (forall r, r < n -> hast (lt r) (reg s r)) /\
  runs nat E0 P (pc fs, s) (pc fs2, s') /\ exists r, r < n /\ reg s' r <> reg s r.
Proof.
  set (L := [T_INT]). set (x := EBin (BArith Add) (ELocal 0) (EInt 1)).
  exists (length L), (lt0 L), x, (fs0 L). eexists. eexists. eexists. eexists. exists (mkprog [Val None (OBin (ADDII) (R 0) (K 0))] [I 1]), (st0 [I 7]). eexists.
  split; [nonzero|]. split; [vm_compute; reflexivity|]. split; [exact (starts0 L)|]. split; [vm_compute; reflexivity|]. split; [vm_compute; reflexivity|].
  split; [split; [exists []; reflexivity|exists []; reflexivity]|]. split; [typed_locals|].
  split; [apply (go_runs 1); vm_compute; reflexivity|]. exists 0. split; [cbn; lia|]. vm_compute; discriminate.
Qed.
(* local x = @integer(f()) and 7.  The test is left out and the register of f() is not freed, so that
   the value does not come to the register the new variable has *)
Lemma value_leaked : exists n lt x fs fs1 e fs2 e2 P s s' v w, types_ok n lt ut0 /\ starts n lt ut0 fs /\
  gen (fmod E0) (fpow E0) fs x = Ok (fs1, e) /\ exp2nextreg fs1 e = (fs2, e2) /\ goes_on fs2 P /\ (forall r, r < n -> hast (lt r) (reg s r)) /\
  eval nat E0 n lt ut0 x (reg s) (world s) = Ok (v, w) /\ runs nat E0 P (pc fs, s) (pc fs2, s') /\ reg s' (freereg fs) <> v.
Proof.
  set (L := [T_ANY]). set (x := EBin BAnd (EUn (UAssert CInt) (ECall (ELocal 0) ANil)) (EInt 7)).
  exists (length L), (lt0 L), x, (fs0 L). eexists. eexists. eexists. eexists. eexists (mkprog _ _), (st0 [Fun 0]). eexists. exists (I 7), 1.
  split; [nonzero|]. split; [exact (starts0 L)|]. split; [vm_compute; reflexivity|]. split; [vm_compute; reflexivity|].
  split; [split; [exists []; rewrite app_nil_r; vm_compute; reflexivity|exists []; rewrite app_nil_r; vm_compute; reflexivity]|]. split; [typed_locals|].
  split; [vm_compute; reflexivity|]. split; [apply (go_runs 4); vm_compute; reflexivity|]. vm_compute; discriminate.
Qed.
(* @integer(a and b) with a = nil: the conversion is jumped over *)
Lemma assertion_skipped : exists n lt x fs fs1 e fs2 e2 P s s', types_ok n lt ut0 /\ starts n lt ut0 fs /\
  gen (fmod E0) (fpow E0) fs (EUn (UAssert CInt) x) = Ok (fs1, e) /\ exp2nextreg fs1 e = (fs2, e2) /\ goes_on fs2 P /\ (forall r, r < n -> hast (lt r) (reg s r)) /\
  runs nat E0 P (pc fs, s) (pc fs2, s') /\ e2 = mk (VNonreloc (freereg fs)) [] [] T_INT /\ ~ hast T_INT (reg s' (freereg fs)).
Proof.
  set (L := [T_ANY; T_ANY]). set (x := EParen (EBin BAnd (ELocal 0) (EBin (BArith Add) (ELocal 1) (EInt 1)))).
  exists (length L), (lt0 L), x, (fs0 L). eexists. eexists. eexists. eexists. eexists (mkprog _ _), (st0 [Nil; I 3]). eexists.
  split; [nonzero|]. split; [exact (starts0 L)|]. split; [vm_compute; reflexivity|]. split; [vm_compute; reflexivity|].
  split; [split; [exists []; rewrite app_nil_r; vm_compute; reflexivity|exists []; rewrite app_nil_r; vm_compute; reflexivity]|]. split; [typed_locals|].
  split; [apply (go_runs 2); vm_compute; reflexivity|]. split; [vm_compute; reflexivity|]. vm_compute; discriminate.
Qed.
(* local i: integer = 1; local f = @number i.  The variable i is converted in place *)
Lemma assertion_in_place : exists n lt x fs fs1 e fs2 e2 P s s', types_ok n lt ut0 /\ starts n lt ut0 fs /\
  gen (fmod E0) (fpow E0) fs x = Ok (fs1, e) /\ exp2nextreg fs1 e = (fs2, e2) /\ goes_on fs2 P /\ (forall r, r < n -> hast (lt r) (reg s r)) /\
  runs nat E0 P (pc fs, s) (pc fs2, s') /\ exists r, r < n /\ ~ hast (lt r) (reg s' r).
Proof.
  set (L := [T_INT]). set (x := EUn (UAssert CFlt) (ELocal 0)).
  exists (length L), (lt0 L), x, (fs0 L). eexists. eexists. eexists. eexists. eexists (mkprog _ _), (st0 [I 1]). eexists.
  split; [nonzero|]. split; [exact (starts0 L)|]. split; [vm_compute; reflexivity|]. split; [vm_compute; reflexivity|].
  split; [split; [exists []; rewrite app_nil_r; vm_compute; reflexivity|exists []; rewrite app_nil_r; vm_compute; reflexivity]|]. split; [typed_locals|].
  split; [apply (go_runs 2); vm_compute; reflexivity|]. exists 0. split; [cbn; lia|]. vm_compute. vm_compute; discriminate.
Qed.
(* local i: integer = 0; local x = 2.0; i = x.  The variable x becomes an integer *)
Lemma store_in_place : exists n lt x r fs fs1 e fs2 P s s', types_ok n lt ut0 /\ tame n lt ut0 x = true /\ starts n lt ut0 fs /\ r < n /\ declared (lt r) /\
  gen (fmod E0) (fpow E0) fs x = Ok (fs1, e) /\ storelocal fs1 r e = Ok fs2 /\ goes_on fs2 P /\ (forall r, r < n -> hast (lt r) (reg s r)) /\
  runs nat E0 P (pc fs, s) (pc fs2, s') /\ exists q, q < n /\ q <> r /\ reg s' q <> reg s q.
Proof.
  set (L := [T_INT; T_ANY]). set (x := ELocal 1).
  exists (length L), (lt0 L), x, 0, (fs0 L). eexists. eexists. eexists. eexists (mkprog _ _), (st0 [I 0; F (cast_num 2)]). eexists.
  split; [nonzero|]. split; [vm_compute; reflexivity|]. split; [exact (starts0 L)|]. split; [cbn; lia|]. split; [right; discriminate|]. split; [vm_compute; reflexivity|]. split; [vm_compute; reflexivity|].
  split; [split; [exists []; rewrite app_nil_r; vm_compute; reflexivity|exists []; rewrite app_nil_r; vm_compute; reflexivity]|]. split; [typed_locals|].
  split; [apply (go_runs 2); vm_compute; reflexivity|]. exists 1. split; [cbn; lia|]. split; [cbn; lia|]. vm_compute. vm_compute; discriminate.
Qed.
(* i = a and b, with i: integer and a = nil: nil is stored *)
Lemma store_unchecked : exists n lt x r fs fs1 e fs2 P s s', types_ok n lt ut0 /\ tame n lt ut0 x = true /\ starts n lt ut0 fs /\ r < n /\ declared (lt r) /\
  gen (fmod E0) (fpow E0) fs x = Ok (fs1, e) /\ storelocal fs1 r e = Ok fs2 /\ goes_on fs2 P /\ (forall r, r < n -> hast (lt r) (reg s r)) /\
  runs nat E0 P (pc fs, s) (pc fs2, s') /\ ~ hast (lt r) (reg s' r).
Proof.
  set (L := [T_INT; T_ANY; T_ANY]). set (x := EBin BAnd (ELocal 1) (ELocal 2)).
  exists (length L), (lt0 L), x, 0, (fs0 L). eexists. eexists. eexists. eexists (mkprog _ _), (st0 [I 0; Nil; I 4]). eexists.
  split; [nonzero|]. split; [vm_compute; reflexivity|]. split; [exact (starts0 L)|]. split; [cbn; lia|]. split; [right; discriminate|]. split; [vm_compute; reflexivity|]. split; [vm_compute; reflexivity|].
  split; [split; [exists []; rewrite app_nil_r; vm_compute; reflexivity|exists []; rewrite app_nil_r; vm_compute; reflexivity]|]. split; [typed_locals|].
  split; [apply (go_runs 2); vm_compute; reflexivity|]. vm_compute; discriminate.
Qed.
(* s = (x) with s: string and x = 1: the value is stored before it is checked *)
Lemma store_too_early : exists n lt x r fs fs1 e fs2 P s p s' er, types_ok n lt ut0 /\ tame n lt ut0 x = true /\ starts n lt ut0 fs /\ r < n /\ declared (lt r) /\
  gen (fmod E0) (fpow E0) fs x = Ok (fs1, e) /\ storelocal fs1 r e = Ok fs2 /\ goes_on fs2 P /\ (forall r, r < n -> hast (lt r) (reg s r)) /\
  runs nat E0 P (pc fs, s) (p, s') /\ step nat E0 P (p, s') = Err er /\ ~ hast (lt r) (reg s' r).
Proof.
  set (L := [T_STR_NIL; T_ANY]). set (x := EParen (ELocal 1)).
  exists (length L), (lt0 L), x, 0, (fs0 L). eexists. eexists. eexists. eexists (mkprog _ _), (st0 [Nil; I 1]). exists 1. eexists. exists EType.
  split; [nonzero|]. split; [vm_compute; reflexivity|]. split; [exact (starts0 L)|]. split; [cbn; lia|]. split; [right; discriminate|]. split; [vm_compute; reflexivity|]. split; [vm_compute; reflexivity|].
  split; [split; [exists []; rewrite app_nil_r; vm_compute; reflexivity|exists []; rewrite app_nil_r; vm_compute; reflexivity]|]. split; [typed_locals|].
  split; [apply (go_runs 1); vm_compute; reflexivity|]. split; [vm_compute; reflexivity|]. vm_compute; discriminate.
Qed.
(* local function f() end; f = nil; if f then ..  The variable has the type of functions without nil; the
   assignment is not checked and the test of f is left out *)
Lemma function_true : exists n lt x fs fs1 e fs2 fs3 e3 fs4 l P s s', types_ok n lt ut0 /\ tame n lt ut0 x = true /\ starts n lt ut0 fs /\
  gen (fmod E0) (fpow E0) fs x = Ok (fs1, e) /\ storelocal fs1 0 e = Ok fs2 /\ gen (fmod E0) (fpow E0) fs2 (ELocal 0) = Ok (fs3, e3) /\ cond fs3 e3 = (fs4, l) /\
  goes_on fs4 P /\ (forall r, r < n -> hast (lt r) (reg s r)) /\ runs nat E0 P (pc fs, s) (pc fs4, s') /\ l = [] /\ truthy (reg s' 0) = false.
Proof.
  set (L := [T_FUN]). set (x := ENil).
  exists (length L), (lt0 L), x, (fs0 L). eexists. eexists. eexists. eexists. eexists. eexists. eexists. eexists (mkprog _ _), (st0 [Fun 3]). eexists.
  split; [nonzero|]. split; [vm_compute; reflexivity|]. split; [exact (starts0 L)|]. split; [vm_compute; reflexivity|]. split; [vm_compute; reflexivity|]. split; [vm_compute; reflexivity|]. split; [vm_compute; reflexivity|].
  split; [split; [exists []; rewrite app_nil_r; vm_compute; reflexivity|exists []; rewrite app_nil_r; vm_compute; reflexivity]|]. split; [typed_locals|].
  split; [apply (go_runs 1); vm_compute; reflexivity|]. split; reflexivity.
Qed.
