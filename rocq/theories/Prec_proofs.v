Require Import ZArith List Bool Lia Arith.
From Verif Require Import Base Base_facts Prec_model Prec_spec.
Import ListNotations.
Open Scope Z_scope.

(* 1. every function consumes tokens or fails with one of two errors *)
Definition fine {A} (n : nat) (o : outcome (A * list token)) : Prop :=
  match o with Ok (_, r) => (length r < n)%nat | Err EFormat => True | Err EOverflow => True | _ => False end.
Lemma fine_bind : forall A B n m (o : outcome (A * list token)) (f : A * list token -> outcome (B * list token)), fine n o -> (forall a r, (length r < n)%nat -> fine m (f (a, r))) -> fine m (bind o f).
Proof. intros A B n m o f F H. destruct o as [[a r]|e| |]; cbn [bind fine] in *; [apply H; exact F|destruct e; auto|contradiction|contradiction]. Qed.
Lemma fine_le : forall A n m (o : outcome (A * list token)), (n <= m)%nat -> fine n o -> fine m o.
Proof. intros A n m [[a r]|e| |] L F; cbn [fine] in *; auto. lia. Qed.
Lemma fine_check : forall A n p ts (f : list token -> outcome (A * list token)), (forall r, (length r < length ts)%nat -> fine n (f r)) -> fine n (bind (checknext p ts) f).
Proof. intros A n p ts f H. destruct ts as [|x r]; [exact I|]. cbn [checknext]. destruct (p x); [|exact I]. apply H. cbn [length]. lia. Qed.
Lemma fine_name : forall A n ts (f : name * list token -> outcome (A * list token)), (forall a r, (length r < length ts)%nat -> fine n (f (a, r))) -> fine n (bind (str_checkname ts) f).
Proof. intros A n ts f H. destruct ts as [|x r]; [exact I|]. destruct x; cbn [str_checkname]; try exact I. apply H. cbn [length]. lia. Qed.

Section fine.
Variable ex : list token -> outcome (tree * list token).
Variable X : forall ts, fine (length ts) (ex ts).
Lemma explist_fine : forall f ts, (length ts < f)%nat -> fine (length ts) (explist ex f ts).
Proof.
  induction f as [|f IH]; intros ts L; [lia|]. cbn [explist]. eapply fine_bind; [apply X|]. intros a r Lr. cbv beta iota. destruct r as [|x r]; [exact Lr|]. destruct x; try exact Lr. eapply fine_bind; [apply IH; cbn [length] in Lr; lia|]. intros l r' L'. cbn [fine]. cbn [length] in *. lia.
Qed.
Lemma yindex_fine : forall ts, fine (length ts) (yindex ex ts).
Proof. intros ts. unfold yindex. eapply fine_bind; [apply X|]. intros a r L. apply fine_check. intros r' L'. cbn [fine]. lia. Qed.
Lemma field_fine : forall ts, fine (length ts) (field ex ts).
Proof.
  intros ts. assert (D : fine (length ts) (bind (ex ts) (fun '(a, r) => Ok (Pos a, r)))) by (eapply fine_bind; [apply X|]; intros a r L; exact L).
  unfold field. destruct ts as [|x r]; [exact D|]. destruct x; try exact D.
  - destruct r as [|y r]; [exact D|]. destruct y; try exact D. eapply fine_bind; [apply X|]. intros a r' L. cbn [fine length]. lia.
  - eapply fine_bind; [apply yindex_fine|]. intros k r' L. apply fine_check. intros r2 L2. eapply fine_bind; [apply X|]. intros a r3 L3. cbn [fine length]. lia.
Qed.
Lemma fields_fine : forall f ts, (length ts < f)%nat -> fine (S (length ts)) (fields ex f ts).
Proof.
  induction f as [|f IH]; intros ts L; [lia|]. cbn [fields].
  assert (D : fine (S (length ts)) (bind (field ex ts) (fun '(g, r) => match r with x :: r' => if isSep x then bind (fields ex f r') (fun '(l, r) => Ok (Cons g l, r)) else Ok (Cons g Nil, r) | [] => Ok (Cons g Nil, r) end))).
  { eapply fine_bind; [apply field_fine|]. intros g r Lr. cbv beta iota. destruct r as [|x r]; [cbn [fine]; lia|]. destruct (isSep x); [|cbn [fine]; lia]. cbn [length] in Lr. eapply fine_bind; [apply IH; lia|]. intros l r' L'. cbn [fine]. lia. }
  destruct ts as [|x r]; [exact D|]. destruct x; try exact D. cbn [fine length]. lia.
Qed.
Lemma constructor_fine : forall ts, fine (length ts) (constructor ex ts).
Proof. intros ts. unfold constructor. eapply fine_bind; [apply fields_fine; lia|]. intros l r L. apply fine_check. intros r' L'. cbn [fine]. lia. Qed.
Lemma funcargs_fine : forall ts, fine (length ts) (funcargs ex ts).
Proof.
  intros ts. unfold funcargs. destruct ts as [|x r]; [exact I|].
  assert (D : fine (length (TLParen :: r)) (bind (explist ex (S (length r)) r) (fun '(l, r) => bind (checknext isRParen r) (fun r => Ok (l, r))))).
  { eapply fine_bind; [apply explist_fine; lia|]. intros l r' L. apply fine_check. intros r2 L2. cbn [fine length]. lia. }
  destruct x; try exact I.
  - cbn [fine length]. lia.
  - destruct r as [|y r]; [exact D|]. destruct y; try exact D. cbn [fine length]. lia.
  - eapply fine_le; [|apply constructor_fine]. cbn [length]. lia.
Qed.
Lemma primary_fine : forall ts, fine (length ts) (primaryexp ex ts).
Proof.
  intros ts. unfold primaryexp. destruct ts as [|x r]; [exact I|]. destruct x; try exact I.
  - cbn [fine length]. lia.
  - eapply fine_bind; [apply X|]. intros a r' L. apply fine_check. intros r2 L2. cbn [fine length]. lia.
Qed.
Lemma suffixes_fine : forall f v ts, (length ts < f)%nat -> fine (S (length ts)) (suffixes ex f v ts).
Proof.
  induction f as [|f IH]; intros v ts L; [lia|]. cbn [suffixes].
  assert (D : forall g, fine (S (length ts)) (bind (funcargs ex ts) (fun '(a, r) => suffixes ex f (g a) r))).
  { intros g. eapply fine_bind; [apply funcargs_fine|]. intros a r Lr. eapply fine_le; [|apply IH; lia]. lia. }
  destruct ts as [|x r]; [cbn [fine length]; lia|]. destruct x; try (cbn [fine length]; lia); try apply D.
  - eapply fine_bind; [apply yindex_fine|]. intros k r' L'. cbn [length] in *. eapply fine_le; [|apply IH; lia]. lia.
  - apply fine_name. intros n r' L'. cbn [length] in *. eapply fine_le; [|apply IH; lia]. lia.
  - apply fine_name. intros n r' L'. cbn [length] in *. eapply fine_bind; [apply funcargs_fine|]. intros a r2 L2. eapply fine_le; [|apply IH; lia]. lia.
Qed.
Lemma suffixes_fuel : forall f g v ts, (length ts < f)%nat -> (length ts < g)%nat -> suffixes ex f v ts = suffixes ex g v ts.
Proof.
  induction f as [|f IH]; intros g v ts L1 L2; [lia|]. destruct g as [|g]; [lia|]. cbn [suffixes].
  assert (D : forall h, bind (funcargs ex ts) (fun '(a, r) => suffixes ex f (h a) r) = bind (funcargs ex ts) (fun '(a, r) => suffixes ex g (h a) r)).
  { intros h. pose proof (funcargs_fine ts) as F. destruct (funcargs ex ts) as [[a r]| | |]; try reflexivity. cbn [bind fine] in *. apply IH; lia. }
  destruct ts as [|x r]; [reflexivity|]. destruct x; try reflexivity; try apply D.
  - pose proof (yindex_fine r) as F. destruct (yindex ex r) as [[a r']| | |]; try reflexivity. cbn [bind fine length] in *. apply IH; lia.
  - destruct r as [|y r]; [reflexivity|]. destruct y; try reflexivity. cbn [str_checkname bind length] in *. apply IH; lia.
  - destruct r as [|y r]; [reflexivity|]. destruct y; try reflexivity. cbn [str_checkname bind length] in *. pose proof (funcargs_fine r) as F. destruct (funcargs ex r) as [[a r']| | |]; try reflexivity. cbn [bind fine] in *. apply IH; lia.
Qed.
Lemma suffixed_fine : forall ts, fine (length ts) (suffixedexp ex ts).
Proof. intros ts. unfold suffixedexp. eapply fine_bind; [apply primary_fine|]. intros v r L. eapply fine_le; [|apply suffixes_fine; lia]. lia. Qed.
Lemma simple_fine : forall ts, fine (length ts) (simpleexp ex ts).
Proof.
  intros ts. pose proof (suffixed_fine ts) as D. unfold simpleexp. destruct ts as [|x r]; [exact D|]. destruct x; try exact D; try (cbn [fine length]; lia). eapply fine_le; [|apply constructor_fine]. cbn [length]. lia.
Qed.
Lemma explist_fuel : forall f g ts, (length ts < f)%nat -> (length ts < g)%nat -> explist ex f ts = explist ex g ts.
Proof.
  induction f as [|f IH]; intros g ts L1 L2; [lia|]. destruct g as [|g]; [lia|]. cbn [explist]. pose proof (X ts) as F. destruct (ex ts) as [[a r]| | |]; try reflexivity. cbn [bind fine] in *. destruct r as [|x r]; [reflexivity|]. destruct x; try reflexivity. cbn [length] in *. rewrite (IH g) by lia. reflexivity.
Qed.
Lemma fields_fuel : forall f g ts, (length ts < f)%nat -> (length ts < g)%nat -> fields ex f ts = fields ex g ts.
Proof.
  induction f as [|f IH]; intros g ts L1 L2; [lia|]. destruct g as [|g]; [lia|]. cbn [fields].
  assert (D : bind (field ex ts) (fun '(h, r) => match r with x :: r' => if isSep x then bind (fields ex f r') (fun '(l, r) => Ok (Cons h l, r)) else Ok (Cons h Nil, r) | [] => Ok (Cons h Nil, r) end)
    = bind (field ex ts) (fun '(h, r) => match r with x :: r' => if isSep x then bind (fields ex g r') (fun '(l, r) => Ok (Cons h l, r)) else Ok (Cons h Nil, r) | [] => Ok (Cons h Nil, r) end)).
  { pose proof (field_fine ts) as F. destruct (field ex ts) as [[a r]| | |]; try reflexivity. cbn [bind fine] in *. destruct r as [|x r]; [reflexivity|]. destruct (isSep x); [|reflexivity]. cbn [length] in *. rewrite (IH g) by lia. reflexivity. }
  destruct ts as [|x r]; [exact D|]. destruct x; try exact D. reflexivity.
Qed.
End fine.

Definition fine3 (n : nat) (o : outcome (option binop * tree * list token)) : Prop :=
  match o with Ok (op, _, r) => (length r < n)%nat /\ op = head_binopr r | Err EFormat => True | Err EOverflow => True | _ => False end.
Lemma binops_fine : forall sub, (forall l ts, fine3 (length ts) (sub l ts)) -> forall f limit v ts, (length ts < f)%nat -> fine3 (S (length ts)) (binops sub f limit (head_binopr ts) v ts).
Proof.
  intros sub X. induction f as [|f IH]; intros limit v ts L; [lia|]. cbn [binops]. destruct (head_binopr ts) as [o|] eqn:E; [|cbn [fine3]; rewrite E; split; [lia|reflexivity]].
  destruct (limit <? fst (priority o)); [|cbn [fine3]; rewrite E; split; [lia|reflexivity]]. destruct ts as [|x r]; [discriminate|]. cbn [tl length] in *. specialize (X (snd (priority o)) r). destruct (sub (snd (priority o)) r) as [[[op v2] r2]|e| |]; cbn [fine3 bind] in *; try contradiction; [|destruct e; auto].
  destruct X as (L2 & ->). specialize (IH limit (Bin o v v2) r2 ltac:(lia)). destruct (binops sub f limit (head_binopr r2) (Bin o v v2) r2) as [[[op' v'] r']|e| |]; cbn [fine3] in *; try contradiction; [split; [lia|tauto]|destruct e; auto].
Qed.
Lemma typename_fine : forall n ts len, (length ts <= n)%nat -> fine (S (length ts)) (typename_rest len ts).
Proof.
  induction n as [|n IH]; intros ts len L; (destruct ts as [|x r]; [cbn [typename_rest fine length]; lia|]); cbn [length] in L; [lia|]. cbn [typename_rest]. destruct x; try (cbn [fine length]; lia).
  destruct r as [|y r]; [exact I|]. destruct y; try exact I. destruct (128 <=? _); [exact I|]. cbn [length] in L. eapply fine_bind; [apply (IH r); lia|]. intros ns r' L'. cbn [fine length]. lia.
Qed.
Lemma subexpr_fine : forall lvl limit ts, fine3 (length ts) (subexpr lvl limit ts).
Proof.
  induction lvl as [|lvl IH]; intros limit ts; [exact I|]. cbn [subexpr].
  set (ex := fun ts => bind (subexpr lvl 0 ts) (fun '(_, a, r) => Ok (a, r))).
  assert (X : forall ts, fine (length ts) (ex ts)).
  { intros t. unfold ex. specialize (IH 0 t). destruct (subexpr lvl 0 t) as [[[op a] r]|e| |]; cbn [fine3 fine bind] in *; try contradiction; [tauto|destruct e; auto]. }
  assert (F : fine (length ts) (match ts with
      | [] => syntaxerror
      | t :: r => match getunopr t with
        | Some u => bind (match u with OPR_TO_TYPE n _ => bind (user_defined_type_name n r) (fun '(ns, r) => Ok (OPR_TO_TYPE n ns, r)) | _ => Ok (u, r) end) (fun '(u, r) => bind (subexpr lvl UNARY_PRIORITY r) (fun '(_, a, r) => Ok (Un u a, r)))
        | None => simpleexp ex ts end end)).
  { destruct ts as [|t r]; [exact I|]. destruct (getunopr t) as [u|]; [|apply simple_fine; exact X].
    assert (U : fine (S (length r)) (match u with OPR_TO_TYPE n _ => bind (user_defined_type_name n r) (fun '(ns, r) => Ok (OPR_TO_TYPE n ns, r)) | _ => Ok (u, r) end)).
    { destruct u; try (cbn [fine]; lia). eapply fine_bind with (n := S (length r)); [|intros ns' r' L; exact L]. unfold user_defined_type_name. destruct r as [|y r]; [cbn [fine length]; lia|]. destruct y; try (cbn [fine length]; lia). destruct (128 <=? _); [exact I|]. apply (typename_fine (length (TDot :: r))). lia. }
    eapply fine_bind; [exact U|]. intros u' r' L. cbv beta iota. specialize (IH UNARY_PRIORITY r'). destruct (subexpr lvl UNARY_PRIORITY r') as [[[op a] r2]|e| |]; cbn [fine3 fine bind length] in *; try contradiction; [lia|destruct e; auto]. }
  revert F. match goal with |- fine _ ?o -> _ => destruct o as [[v r]|e| |] end; cbn [fine bind]; intros F; try contradiction; [|destruct e; auto].
  pose proof (binops_fine (subexpr lvl) IH (S (length r)) limit v r (Nat.lt_succ_diag_r _)) as B. destruct (binops (subexpr lvl) (S (length r)) limit (head_binopr r) v r) as [[[op' v'] r']|e| |]; cbn [fine3] in *; try contradiction; [split; [lia|tauto]|destruct e; auto].
Qed.
Lemma expr_fine : forall lvl ts, fine (length ts) (expr lvl ts).
Proof.
  intros lvl t. unfold expr. pose proof (subexpr_fine lvl 0 t) as IH. destruct (subexpr lvl 0 t) as [[[op a] r]|e| |]; cbn [fine3 fine bind] in *; try contradiction; [tauto|destruct e; auto].
Qed.
Lemma binops_fuel : forall sub, (forall l ts, fine3 (length ts) (sub l ts)) -> forall f g limit v ts, (length ts < f)%nat -> (length ts < g)%nat -> binops sub f limit (head_binopr ts) v ts = binops sub g limit (head_binopr ts) v ts.
Proof.
  intros sub X. induction f as [|f IH]; intros g limit v ts L1 L2; [lia|]. destruct g as [|g]; [lia|]. cbn [binops]. destruct (head_binopr ts) as [o|] eqn:E; [|reflexivity]. destruct (limit <? fst (priority o)); [|reflexivity]. destruct ts as [|x r]; [discriminate|]. cbn [tl length] in *. specialize (X (snd (priority o)) r). destruct (sub (snd (priority o)) r) as [[[op v2] r2]|e| |]; cbn [fine3 bind] in *; try reflexivity. destruct X as (L & ->). apply IH; lia.
Qed.

(* 2. what the parser accepts is derived by the grammar *)
Definition nosuf (t : tree) (rest : list token) : Prop := open_ended t = true -> match rest with x :: _ => ~ suffix_token x | [] => True end.
Definition opprio (op : option binop) : Z := match op with Some o => fst (priority o) | None => 0 end.
Definition lev (l : Z) : nat := Z.to_nat (if l <=? 7 then l + 1 else if l =? 8 then 8 else if l =? 9 then 9 else if l =? 10 then 10 else 11).
Definition R (m : nat) : Z := match m with 8%nat => 8 | 9%nat => 10 | 10%nat => 11 | 11%nat => 12 | 12%nat => 12 | 13%nat => 100 | _ => Z.of_nat m end.
Definition GE (m : nat) (t : tree) (ts : list token) : Prop := if (m =? 13)%nat then G Simple t ts else G (E m) t ts.
Lemma GE_down : forall m, (1 <= m <= 13)%nat -> forall t ts, GE m t ts -> forall k, (1 <= k <= m)%nat -> GE k t ts.
Proof.
  intros m Bm t ts H k. induction m as [|m IH]; intros Bk; [lia|]. destruct (Nat.eq_dec k (S m)) as [->|NE]; [exact H|]. apply IH; [lia| |lia].
  unfold GE in *. destruct (Nat.eqb_spec (S m) 13) as [Q|Q].
  - injection Q as ->. cbn [Nat.eqb]. apply G_simple. exact H.
  - destruct (Nat.eqb_spec m 13) as [->|N]; [lia|]. apply G_up; [lia|exact H].
Qed.
Lemma written_opr : forall x o, getbinopr x = Some o -> x = written o.
Proof. intros x o H. destruct x; try discriminate; injection H as <-; reflexivity. Qed.
Lemma opr_written : forall o, getbinopr (written o) = Some o. Proof. destruct o; reflexivity. Qed.
Lemma written_nosuf : forall o, ~ suffix_token (written o). Proof. destruct o; exact (fun x => x). Qed.

Definition sound (lvl : nat) (ex : list token -> outcome (tree * list token)) : Prop :=
  forall ts a r, ex ts = Ok (a, r) -> exists t1, ts = t1 ++ r /\ G (E 1) a t1 /\ (S (nesting a) <= lvl)%nat /\ nosuf a r /\ head_binopr r = None.
Lemma E_shape : forall nt t ts, G nt t ts -> (exists k, nt = E k) \/ nt = Simple \/ nt = Suffixed -> match t with Pos _ | Named _ _ | Keyed _ _ | Nil | Cons _ _ => False | _ => True end.
Proof.
  intros nt t ts H. induction H; intros [(k' & Q)|[Q|Q]]; try discriminate Q; try exact I.
  - apply IHG. eauto.
  - apply IHG. eauto.
  - apply IHG. eauto.
Qed.
Lemma nest_cons : forall k a ta l, G (E k) a ta -> nesting (Cons a l) = Nat.max (S (nesting a)) (nesting l).
Proof. intros k a ta l H. pose proof (E_shape _ _ _ H (or_introl (ex_intro _ k eq_refl))) as S0. destruct a; try contradiction; reflexivity. Qed.
Lemma check_ok : forall p ts r, checknext p ts = Ok r -> exists x, ts = x :: r /\ p x = true.
Proof. intros p [|x ts] r H; [discriminate|]. cbn [checknext] in H. destruct (p x) eqn:P; [|discriminate]. injection H as <-. exists x. auto. Qed.
Ltac inv_bind H := match type of H with bind ?o _ = Ok _ => let E := fresh "E" in destruct o as [[? ?]| | |] eqn:E; try discriminate H; cbn [bind] in H end.
Ltac inv_check H := match type of H with bind (checknext ?p ?o) _ = Ok _ => let E := fresh "E" in destruct (checknext p o) as [?| | |] eqn:E; try discriminate H; cbn [bind] in H; apply check_ok in E; destruct E as (? & -> & E) end.
Section sound.
Variable lvl : nat.
Variable ex : list token -> outcome (tree * list token).
Variable X : sound lvl ex.
Lemma explist_sound : forall f ts l r, explist ex f ts = Ok (l, r) -> exists t1, ts = t1 ++ r /\ G ExpList l t1 /\ (nesting l <= lvl)%nat.
Proof.
  induction f as [|f IH]; intros ts l r H; [discriminate|]. cbn [explist] in H. inv_bind H. destruct (X _ _ _ E) as (t1 & -> & Ga & Na & _ & _).
  assert (D : Ok (Cons t Nil, l0) = Ok (l, r) -> exists t0, t1 ++ l0 = t0 ++ r /\ G ExpList l t0 /\ (nesting l <= lvl)%nat).
  { intros Q. injection Q as <- <-. exists t1. split; [reflexivity|]. split; [apply G_one; exact Ga|]. rewrite (nest_cons _ _ _ _ Ga). cbn [nesting]. lia. }
  destruct l0 as [|x l0]; [exact (D H)|]. destruct x; try exact (D H). inv_bind H. destruct (IH _ _ _ E0) as (t2 & -> & Gl & Nl). injection H as <- <-. exists (t1 ++ TComma :: t2). rewrite <- app_assoc. split; [reflexivity|]. split; [apply G_more; assumption|]. rewrite (nest_cons _ _ _ _ Ga). lia.
Qed.
Lemma yindex_sound : forall ts a r, yindex ex ts = Ok (a, r) -> exists t1, ts = t1 ++ TRBrack :: r /\ G (E 1) a t1 /\ (S (nesting a) <= lvl)%nat.
Proof.
  intros ts a r H. unfold yindex in H. inv_bind H. destruct (X _ _ _ E) as (t1 & -> & Ga & Na & _). inv_check H. destruct x; try discriminate E0. injection H as <- <-. exists t1. auto.
Qed.
Lemma field_sound : forall ts a r, field ex ts = Ok (a, r) -> exists t1, ts = t1 ++ r /\ G AField a t1 /\ (nesting a <= lvl)%nat /\ match a with Pos _ | Named _ _ | Keyed _ _ => True | _ => False end.
Proof.
  intros ts a r H.
  assert (D : bind (ex ts) (fun '(a, r) => Ok (Pos a, r)) = Ok (a, r) -> exists t1, ts = t1 ++ r /\ G AField a t1 /\ (nesting a <= lvl)%nat /\ match a with Pos _ | Named _ _ | Keyed _ _ => True | _ => False end).
  { intros Q. inv_bind Q. injection Q as <- <-. destruct (X _ _ _ E) as (t1 & -> & Ga & Na & _). exists t1. split; [reflexivity|]. split; [apply G_pos; exact Ga|]. split; [cbn [nesting]; lia|exact I]. }
  unfold field in H. destruct ts as [|x ts]; [exact (D H)|]. destruct x; try exact (D H).
  - destruct ts as [|y ts]; [exact (D H)|]. destruct y; try exact (D H). inv_bind H. injection H as <- <-. destruct (X _ _ _ E) as (t1 & -> & Ga & Na & _). exists (TName n :: TAssign :: t1). split; [reflexivity|]. split; [apply G_named; exact Ga|]. split; [cbn [nesting]; lia|exact I].
  - inv_bind H. destruct (yindex_sound _ _ _ E) as (t1 & -> & Gk & Nk). inv_check H. destruct x; try discriminate E0. inv_bind H. injection H as <- <-. destruct (X _ _ _ E1) as (t2 & -> & Ga & Na & _). exists (TLBrack :: t1 ++ TRBrack :: TAssign :: t2). split; [cbn [app]; rewrite <- app_assoc; reflexivity|]. split; [apply G_keyed; assumption|]. split; [cbn [nesting]; lia|exact I].
Qed.
Lemma nest_field : forall a l, match a with Pos _ | Named _ _ | Keyed _ _ => True | _ => False end -> nesting (Cons a l) = Nat.max (nesting a) (nesting l).
Proof. intros a l H. destruct a; try contradiction; reflexivity. Qed.
Lemma fields_sound : forall f ts l r, fields ex f ts = Ok (l, r) -> exists t1, ts = t1 ++ r /\ G FieldList l t1 /\ (nesting l <= lvl)%nat.
Proof.
  induction f as [|f IH]; intros ts l r H; [discriminate|]. cbn [fields] in H.
  assert (D : bind (field ex ts) (fun '(g, r) => match r with x :: r' => if isSep x then bind (fields ex f r') (fun '(l, r) => Ok (Cons g l, r)) else Ok (Cons g Nil, r) | [] => Ok (Cons g Nil, r) end) = Ok (l, r) -> exists t1, ts = t1 ++ r /\ G FieldList l t1 /\ (nesting l <= lvl)%nat).
  { intros Q. inv_bind Q. destruct (field_sound _ _ _ E) as (t1 & -> & Gf & Nf & Sf).
    assert (D : Ok (Cons t Nil, l0) = Ok (l, r) -> exists t0, t1 ++ l0 = t0 ++ r /\ G FieldList l t0 /\ (nesting l <= lvl)%nat).
    { intros W. injection W as <- <-. exists t1. split; [reflexivity|]. split; [apply G_lastfield; exact Gf|]. rewrite nest_field by exact Sf. cbn [nesting]. lia. }
    destruct l0 as [|x l0]; [exact (D Q)|]. destruct (isSep x) eqn:SX; [|exact (D Q)]. inv_bind Q. injection Q as <- <-. destruct (IH _ _ _ E0) as (t2 & -> & Gl & Nl). exists (t1 ++ x :: t2). rewrite <- app_assoc. split; [reflexivity|]. split; [apply G_fields; [exact Gf|destruct x; try discriminate SX; auto|exact Gl]|]. rewrite nest_field by exact Sf. lia. }
  destruct ts as [|x ts]; [exact (D H)|]. destruct x; try exact (D H). injection H as <- <-. exists []. split; [reflexivity|]. split; [apply G_nofields|cbn [nesting]; lia].
Qed.
Lemma constructor_sound : forall ts a r, constructor ex ts = Ok (a, r) -> exists l t1, a = Table l /\ ts = t1 ++ TRBrace :: r /\ G FieldList l t1 /\ (nesting l <= lvl)%nat.
Proof. intros ts a r H. unfold constructor in H. inv_bind H. destruct (fields_sound _ _ _ _ E) as (t1 & -> & Gl & Nl). inv_check H. destruct x; try discriminate E0. injection H as <- <-. exists t, t1. auto. Qed.
Lemma funcargs_sound : forall ts a r, funcargs ex ts = Ok (a, r) -> exists t1, ts = t1 ++ r /\ G Args a t1 /\ (nesting a <= lvl)%nat.
Proof.
  intros ts a r H. unfold funcargs in H. destruct ts as [|x ts]; [discriminate|].
  assert (D : bind (explist ex (S (length ts)) ts) (fun '(l, r) => bind (checknext isRParen r) (fun r => Ok (l, r))) = Ok (a, r) -> exists t1, TLParen :: ts = t1 ++ r /\ G Args a t1 /\ (nesting a <= lvl)%nat).
  { intros Q. inv_bind Q. destruct (explist_sound _ _ _ _ E) as (t1 & -> & Gl & Nl). inv_check Q. destruct x0; try discriminate E0. injection Q as <- <-. exists (TLParen :: t1 ++ [TRParen]). split; [cbn [app]; rewrite <- app_assoc; reflexivity|]. split; [apply G_args; exact Gl|exact Nl]. }
  destruct x; try discriminate.
  - injection H as <- <-. exists [TString s]. split; [reflexivity|]. split; [constructor|cbn [nesting]; lia].
  - destruct ts as [|y ts]; [exact (D H)|]. destruct y; try exact (D H). injection H as <- <-. exists [TLParen; TRParen]. split; [reflexivity|]. split; [constructor|cbn [nesting]; lia].
  - destruct (constructor_sound _ _ _ H) as (l & t1 & -> & -> & Gl & Nl). exists (TLBrace :: t1 ++ [TRBrace]). split; [cbn [app]; rewrite <- app_assoc; reflexivity|]. split; [apply G_tablearg; exact Gl|exact Nl].
Qed.
Lemma suffixes_sound : forall f v tv ts a r, G Suffixed v tv -> (nesting v <= lvl)%nat -> open_ended v = true -> suffixes ex f v ts = Ok (a, r) -> exists t1, ts = t1 ++ r /\ G Suffixed a (tv ++ t1) /\ (nesting a <= lvl)%nat /\ nosuf a r.
Proof.
  induction f as [|f IH]; intros v tv ts a r Gv Nv OV H; [discriminate|]. cbn [suffixes] in H.
  assert (D : bind (funcargs ex ts) (fun '(a, r) => suffixes ex f (Call v a) r) = Ok (a, r) -> exists t1, ts = t1 ++ r /\ G Suffixed a (tv ++ t1) /\ (nesting a <= lvl)%nat /\ nosuf a r).
  { intros Q. inv_bind Q. destruct (funcargs_sound _ _ _ E) as (t1 & -> & Gl & Nl). destruct (IH (Call v t) (tv ++ t1) _ _ _ (G_call _ _ _ _ Gv Gl) ltac:(cbn [nesting]; lia) eq_refl Q) as (t2 & -> & Ga & Na & Sa). exists (t1 ++ t2). rewrite <- app_assoc. rewrite <- app_assoc in Ga. auto. }
  assert (D0 : (match ts with x :: _ => ~ suffix_token x | [] => True end) -> Ok (v, ts) = Ok (a, r) -> exists t1, ts = t1 ++ r /\ G Suffixed a (tv ++ t1) /\ (nesting a <= lvl)%nat /\ nosuf a r).
  { intros NS Q. injection Q as <- <-. exists []. rewrite app_nil_r. split; [reflexivity|]. split; [exact Gv|]. split; [exact Nv|]. intros _. exact NS. }
  destruct ts as [|x ts]; [exact (D0 I H)|]. destruct x; try exact (D H); try exact (D0 (fun x => x) H).
  - inv_bind H. destruct (yindex_sound _ _ _ E) as (t1 & -> & Gk & Nk). destruct (IH (Index v t) (tv ++ TLBrack :: t1 ++ [TRBrack]) _ _ _ (G_index _ _ _ _ Gv Gk) ltac:(cbn [nesting]; lia) eq_refl H) as (t2 & -> & Ga & Na & Sa). exists (TLBrack :: t1 ++ TRBrack :: t2). split; [cbn [app]; rewrite <- app_assoc; reflexivity|]. split; [|auto]. replace (tv ++ TLBrack :: t1 ++ TRBrack :: t2) with ((tv ++ TLBrack :: t1 ++ [TRBrack]) ++ t2) by (rewrite <- app_assoc; cbn [app]; rewrite <- app_assoc; reflexivity). exact Ga.
  - destruct ts as [|y ts]; [discriminate H|]. destruct y; try discriminate H. cbn [str_checkname bind] in H. destruct (IH (Field v n) (tv ++ [TDot; TName n]) _ _ _ (G_field _ _ _ Gv) ltac:(cbn [nesting]; lia) eq_refl H) as (t2 & -> & Ga & Na & Sa). exists (TDot :: TName n :: t2). split; [reflexivity|]. rewrite <- app_assoc in Ga. auto.
  - destruct ts as [|y ts]; [discriminate H|]. destruct y; try discriminate H. cbn [str_checkname bind] in H. inv_bind H. destruct (funcargs_sound _ _ _ E) as (t1 & -> & Gl & Nl). destruct (IH (Method v n t) (tv ++ TColon :: TName n :: t1) _ _ _ (G_method _ _ _ _ _ Gv Gl) ltac:(cbn [nesting]; lia) eq_refl H) as (t2 & -> & Ga & Na & Sa). exists (TColon :: TName n :: t1 ++ t2). split; [cbn [app]; rewrite <- app_assoc; reflexivity|]. rewrite <- app_assoc in Ga. auto.
Qed.
Lemma suffixed_sound : forall ts a r, suffixedexp ex ts = Ok (a, r) -> exists t1, ts = t1 ++ r /\ G Suffixed a t1 /\ (nesting a <= lvl)%nat /\ nosuf a r.
Proof.
  intros ts a r H. unfold suffixedexp, primaryexp in H. destruct ts as [|x ts]; [discriminate|]. destruct x; try discriminate H.
  - cbn [bind] in H. destruct (suffixes_sound _ (Name n) [TName n] _ _ _ (G_name n) ltac:(cbn [nesting]; lia) eq_refl H) as (t1 & -> & Q). exists (TName n :: t1). split; [reflexivity|exact Q].
  - destruct (ex ts) as [[b r1]| | |] eqn:E1; try discriminate H. cbn [bind] in H. destruct (X _ _ _ E1) as (t1 & -> & Ga & Na & _). destruct (checknext isRParen r1) as [r2| | |] eqn:E2; try discriminate H. apply check_ok in E2. destruct E2 as (x & -> & E2). destruct x; try discriminate E2. cbn [bind] in H.
    destruct (suffixes_sound _ (Paren b) (TLParen :: t1 ++ [TRParen]) _ _ _ (G_paren _ _ Ga) ltac:(cbn [nesting]; lia) eq_refl H) as (t2 & -> & Gq & Q). exists (TLParen :: t1 ++ TRParen :: t2). split; [cbn [app]; rewrite <- app_assoc; reflexivity|]. split; [|exact Q]. cbn [app] in Gq. rewrite <- app_assoc in Gq. exact Gq.
Qed.
Lemma simple_sound : forall ts a r, simpleexp ex ts = Ok (a, r) -> exists t1, ts = t1 ++ r /\ G Simple a t1 /\ (nesting a <= lvl)%nat /\ nosuf a r.
Proof.
  intros ts a r H.
  assert (D : suffixedexp ex ts = Ok (a, r) -> exists t1, ts = t1 ++ r /\ G Simple a t1 /\ (nesting a <= lvl)%nat /\ nosuf a r).
  { intros Q. destruct (suffixed_sound _ _ _ Q) as (t1 & -> & Ga & Q'). exists t1. split; [reflexivity|]. split; [apply G_suffixed; exact Ga|exact Q']. }
  unfold simpleexp in H. destruct ts as [|x ts]; [exact (D H)|]. destruct x; try exact (D H).
  - injection H as <- <-. exists [TConst c]. split; [reflexivity|]. split; [constructor|]. split; [cbn [nesting]; lia|discriminate].
  - injection H as <- <-. exists [TString s]. split; [reflexivity|]. split; [constructor|]. split; [cbn [nesting]; lia|discriminate].
  - injection H as <- <-. exists [TFunction f]. split; [reflexivity|]. split; [constructor|]. split; [cbn [nesting]; lia|discriminate].
  - destruct (constructor_sound _ _ _ H) as (l & t1 & -> & -> & Gl & Nl). exists (TLBrace :: t1 ++ [TRBrace]). split; [cbn [app]; rewrite <- app_assoc; reflexivity|]. split; [apply G_table; exact Gl|]. split; [exact Nl|discriminate].
Qed.
End sound.

Definition sound3 (lvl : nat) (sub : Z -> list token -> outcome (option binop * tree * list token)) : Prop :=
  forall limit ts op a r, 0 <= limit <= 13 -> sub limit ts = Ok (op, a, r) -> exists t1, ts = t1 ++ r /\ G (E (lev limit)) a t1 /\ (S (nesting a) <= lvl)%nat /\ nosuf a r /\ op = head_binopr r /\ opprio op <= limit.
Lemma lev_next : forall o, right_associative o = false -> lev (snd (priority o)) = S (level o). Proof. destruct o; intros H; try discriminate H; reflexivity. Qed.
Lemma level_le : forall o m, (1 <= m <= 13)%nat -> fst (priority o) <= R m -> (level o <= m)%nat.
Proof. intros o m B L. do 14 (destruct m as [|m]; [destruct o; cbn [priority fst snd R level] in *; lia|]). lia. Qed.
Lemma lev_level : forall o l, 0 <= l -> l < fst (priority o) -> (lev l <= level o)%nat.
Proof. intros o l B L. unfold lev. destruct o; cbn [priority fst snd level] in *; destruct (Z.leb_spec l 7); destruct (Z.eqb_spec l 8); destruct (Z.eqb_spec l 9); destruct (Z.eqb_spec l 10); lia. Qed.
Lemma prio_R : forall o op, opprio op <= snd (priority o) -> opprio op <= R (level o).
Proof. intros o op H. destruct o; cbn [priority snd level R] in *; try lia. destruct op as [p|]; [|cbn; lia]. destruct p; cbn [opprio priority fst] in *; lia. Qed.
Lemma lev_bound : forall l, 0 <= l -> (1 <= lev l <= 11)%nat.
Proof. intros l B. unfold lev. destruct (Z.leb_spec l 7); destruct (Z.eqb_spec l 8); destruct (Z.eqb_spec l 9); destruct (Z.eqb_spec l 10); lia. Qed.
Lemma level_bound : forall o, (1 <= level o <= 12)%nat. Proof. destruct o; cbn [level]; lia. Qed.
Lemma right_bound : forall o, 0 <= snd (priority o) <= 13. Proof. destruct o; cbn [priority snd]; lia. Qed.
Lemma GE_bin : forall o m a ta b tb, (1 <= m <= 13)%nat -> GE m a ta -> fst (priority o) <= R m -> G (E (lev (snd (priority o)))) b tb -> GE (level o) (Bin o a b) (ta ++ written o :: tb).
Proof.
  intros o m a ta b tb Bm Ga L Gb. unfold GE. pose proof (level_bound o) as BL. replace (level o =? 13)%nat with false by (symmetry; apply Nat.eqb_neq; lia). destruct (right_associative o) eqn:RA.
  - destruct o; try discriminate RA; cbn [priority fst snd level written] in *.
    + apply G_pow; [|exact Gb]. assert (m = 13%nat) as -> by (do 14 (destruct m as [|m]; [cbn [R] in L; lia|]); lia). exact Ga.
    + apply G_concat; [|exact Gb]. assert (9 <= m)%nat by (do 9 (destruct m as [|m]; [cbn [R] in L; lia|]); lia). apply (GE_down m Bm a ta Ga 9). lia.
  - rewrite lev_next in Gb by exact RA. apply G_left; [exact RA| |exact Gb]. pose proof (level_le o m Bm L) as LL. pose proof (GE_down m Bm a ta Ga (level o) ltac:(lia)) as Q. unfold GE in Q. replace (level o =? 13)%nat with false in Q by (symmetry; apply Nat.eqb_neq; lia). exact Q.
Qed.
Lemma GE_final : forall l m a ta, 0 <= l -> (1 <= m <= 13)%nat -> (lev l <= m)%nat -> GE m a ta -> G (E (lev l)) a ta.
Proof. intros l m a ta B Bm L H. pose proof (lev_bound l B) as LB. pose proof (GE_down m Bm a ta H (lev l) ltac:(lia)) as Q. unfold GE in Q. replace (lev l =? 13)%nat with false in Q by (symmetry; apply Nat.eqb_neq; lia). exact Q. Qed.
Lemma binops_sound : forall lvl sub, sound3 lvl sub -> forall f limit m v tv ts op a r, 0 <= limit <= 13 -> (1 <= m <= 13)%nat -> (lev limit <= m)%nat -> GE m v tv -> (nesting v <= lvl)%nat -> nosuf v ts -> opprio (head_binopr ts) <= R m ->
  binops sub f limit (head_binopr ts) v ts = Ok (op, a, r) -> exists t1, ts = t1 ++ r /\ G (E (lev limit)) a (tv ++ t1) /\ (nesting a <= lvl)%nat /\ nosuf a r /\ op = head_binopr r /\ opprio op <= limit.
Proof.
  intros lvl sub X. induction f as [|f IH]; intros limit m v tv ts op a r B Bm Lm Gv Nv Sv P H; [discriminate|]. cbn [binops] in H.
  assert (D : opprio (head_binopr ts) <= limit -> Ok (head_binopr ts, v, ts) = Ok (op, a, r) -> exists t1, ts = t1 ++ r /\ G (E (lev limit)) a (tv ++ t1) /\ (nesting a <= lvl)%nat /\ nosuf a r /\ op = head_binopr r /\ opprio op <= limit).
  { intros LE Q. injection Q as <- <- <-. exists []. rewrite app_nil_r. split; [reflexivity|]. split; [apply (GE_final limit m); try assumption; lia|]. auto. }
  destruct (head_binopr ts) as [o|] eqn:HO; [|apply D; [cbn [opprio]; lia|exact H]]. destruct (Z.ltb_spec limit (fst (priority o))) as [L|L]; [|apply D; [exact L|exact H]].
  destruct ts as [|x ts]; [discriminate|]. cbn [tl head_binopr] in *. apply written_opr in HO as ->. destruct (sub (snd (priority o)) ts) as [[[op2 v2] r2]| | |] eqn:E2; try discriminate H. cbn [bind] in H. destruct (X _ _ _ _ _ (right_bound o) E2) as (t1 & -> & G2 & N2 & S2 & -> & P2).
  pose proof (level_bound o) as LB. destruct (IH limit (level o) (Bin o v v2) (tv ++ written o :: t1) r2 op a r B ltac:(lia) (lev_level o limit ltac:(lia) L) (GE_bin o m v tv v2 t1 Bm Gv P G2) ltac:(cbn [nesting]; lia) S2 (prio_R o _ P2) H) as (t2 & -> & Ga & Q).
  exists (written o :: t1 ++ t2). split; [cbn [app]; rewrite app_assoc; reflexivity|]. rewrite <- app_assoc in Ga. split; [exact Ga|exact Q].
Qed.
Lemma typename_sound : forall k ts, (length ts <= k)%nat -> forall len ns r, typename_rest (Z.of_nat len) ts = Ok (ns, r) -> ts = flat_map (fun x => [TDot; TName x]) ns ++ r /\ (ns = [] \/ fold_left (fun l x => l + length x + 1)%nat ns len < 128)%nat.
Proof.
  induction k as [|k IH]; intros ts L len ns r H; (destruct ts as [|x ts]; [injection H as <- <-; auto|]); cbn [length] in L; [lia|]. cbn [typename_rest] in H.
  assert (D : Ok ([], x :: ts) = Ok (ns, r) -> x :: ts = flat_map (fun x => [TDot; TName x]) ns ++ r /\ (ns = [] \/ fold_left (fun l x => l + length x + 1)%nat ns len < 128)%nat) by (intros Q; injection Q as <- <-; auto).
  destruct x; try exact (D H). destruct ts as [|y ts]; [discriminate H|]. destruct y; try discriminate H. destruct (Z.leb_spec 128 (Z.of_nat len + Z.of_nat (length n) + 1)) as [|LT]; [discriminate H|].
  replace (Z.of_nat len + Z.of_nat (length n) + 1) with (Z.of_nat (len + length n + 1)) in H by lia. inv_bind H. injection H as <- <-. cbn [length] in L. destruct (IH ts ltac:(lia) _ _ _ E) as (-> & B). split; [reflexivity|]. right. cbn [fold_left]. destruct B as [->|B]; [cbn [fold_left]; lia|exact B].
Qed.
Lemma subexpr_sound : forall lvl, sound3 lvl (subexpr lvl).
Proof.
  induction lvl as [|lvl IH]; intros limit ts op a r B H; [discriminate H|]. cbn [subexpr] in H.
  set (ex := fun ts => bind (subexpr lvl 0 ts) (fun '(_, a, r) => Ok (a, r))) in H.
  assert (X : sound lvl ex).
  { intros t1 a1 r1 Q. unfold ex in Q. destruct (subexpr lvl 0 t1) as [[[op1 b] r2]| | |] eqn:E; try discriminate Q. injection Q as <- <-. destruct (IH 0 _ _ _ _ ltac:(lia) E) as (t2 & -> & Gb & Nb & Sb & -> & P). exists t2. split; [reflexivity|]. split; [exact Gb|]. split; [exact Nb|]. split; [exact Sb|]. destruct (head_binopr r2) as [o|]; [|reflexivity]. cbn [opprio] in P. destruct o; cbn [priority fst] in P; lia. }
  destruct (match ts with
      | [] => syntaxerror
      | t :: r => match getunopr t with
        | Some u => bind (match u with OPR_TO_TYPE n _ => bind (user_defined_type_name n r) (fun '(ns, r) => Ok (OPR_TO_TYPE n ns, r)) | _ => Ok (u, r) end) (fun '(u, r) => bind (subexpr lvl UNARY_PRIORITY r) (fun '(_, a, r) => Ok (Un u a, r)))
        | None => simpleexp ex ts end end) as [[v r1]| | |] eqn:EF; try discriminate H. cbn [bind] in H.
  assert (F : exists tv m, ts = tv ++ r1 /\ GE m v tv /\ (11 <= m <= 13)%nat /\ (nesting v <= lvl)%nat /\ nosuf v r1 /\ opprio (head_binopr r1) <= R m).
  { destruct ts as [|t ts]; [discriminate EF|]. destruct (getunopr t) as [u|] eqn:EU.
    - assert (U : forall u' r', (match u with OPR_TO_TYPE n _ => bind (user_defined_type_name n ts) (fun '(ns, r) => Ok (OPR_TO_TYPE n ns, r)) | _ => Ok (u, ts) end) = Ok (u', r') -> exists tu, t :: ts = tu ++ r' /\ unary u' tu).
      { intros u' r' Q. destruct t; try discriminate EU; injection EU as <-; try (injection Q as <- <-; eexists; split; [|constructor]; reflexivity).
        inv_bind Q. injection Q as <- <-. unfold user_defined_type_name in E.
        assert (D0 : Ok ([], ts) = Ok (l, l0) -> exists tu, TAt n :: ts = tu ++ l0 /\ unary (OPR_TO_TYPE n l) tu).
        { intros W. injection W as <- <-. exists [TAt n]. split; [reflexivity|]. apply (U_type n []). intros W. elim W. reflexivity. }
        destruct ts as [|y ts]; [exact (D0 E)|]. destruct y; try exact (D0 E). destruct (Z.leb_spec 128 (Z.of_nat (length n))); [discriminate E|].
        destruct (typename_sound (length (TDot :: ts)) (TDot :: ts) (le_n _) _ _ _ E) as (EQ & TL). rewrite EQ. exists (TAt n :: flat_map (fun x => [TDot; TName x]) l). split; [reflexivity|]. constructor. intros NE. destruct TL as [->|TL]; [elim NE; reflexivity|exact TL]. }
      destruct (match u with OPR_TO_TYPE n _ => bind (user_defined_type_name n ts) (fun '(ns, r) => Ok (OPR_TO_TYPE n ns, r)) | _ => Ok (u, ts) end) as [[u' r']| | |] eqn:Q; try discriminate EF. cbn [bind] in EF. destruct (U _ _ eq_refl) as (tu & EQ & UN). rewrite EQ.
      destruct (subexpr lvl UNARY_PRIORITY r') as [[[op2 b] r2]| | |] eqn:E2; try discriminate EF. injection EF as <- <-. destruct (IH UNARY_PRIORITY _ _ _ _ ltac:(unfold UNARY_PRIORITY; lia) E2) as (t2 & -> & Gb & Nb & Sb & -> & P).
      exists (tu ++ t2), 11%nat. split; [apply app_assoc|]. split; [apply G_unary; assumption|]. split; [lia|]. split; [exact Nb|]. split; [exact Sb|]. exact P.
    - destruct (simple_sound lvl ex X _ _ _ EF) as (t1 & EQ & Gs & Ns & Ss). exists t1, 13%nat. split; [exact EQ|]. split; [exact Gs|]. split; [lia|]. split; [exact Ns|]. split; [exact Ss|]. destruct (head_binopr r1) as [o|]; [destruct o; cbn; lia|cbn; lia]. }
  destruct F as (tv & m & -> & Gv & Bm & Nv & Sv & P). pose proof (lev_bound limit ltac:(lia)) as LB.
  destruct (binops_sound lvl (subexpr lvl) IH _ limit m v tv r1 op a r B ltac:(lia) ltac:(lia) Gv Nv Sv P H) as (t1 & -> & Ga & Na & Q). exists (tv ++ t1). split; [apply app_assoc|]. split; [exact Ga|]. split; [lia|exact Q].
Qed.

(* 3. what the grammar derives is what the parser builds *)
Definition starts (nt : nonterminal) (ts : list token) : Prop :=
  match ts with
  | [] => False
  | x :: r => match nt with
    | Suffixed => match x with TName _ => match r with TAssign :: _ => False | _ => True end | TLParen => True | _ => False end
    | Simple => match x with TName _ => match r with TAssign :: _ => False | _ => True end | TLParen | TConst _ | TString _ | TFunction _ | TLBrace => True | _ => False end
    | E _ => match x with TName _ => match r with TAssign :: _ => False | _ => True end | TLParen | TConst _ | TString _ | TFunction _ | TLBrace => True | _ => getunopr x <> None end
    | Args => match x with TLParen | TLBrace | TString _ => True | _ => False end
    | _ => True
    end
  end.
Lemma starts_app : forall nt ts r, (match nt with E _ | Simple | Suffixed => True | _ => False end) -> starts nt ts -> (match r with TAssign :: _ => False | _ => True end) -> starts nt (ts ++ r).
Proof. intros nt ts r N H NA. destruct ts as [|x ts]; [destruct H|]. destruct nt; try contradiction; cbn [app starts] in *; destruct x; try exact H; destruct ts as [|y ts]; cbn [app]; auto. Qed.
Lemma starts_up : forall nt k ts, (match nt with E _ | Simple | Suffixed => True | _ => False end) -> starts nt ts -> starts (E k) ts.
Proof. intros nt k ts N H. destruct ts as [|x ts]; [destruct H|]. destruct nt; try contradiction; cbn [starts] in *; destruct x; try exact H; try contradiction. Qed.
Lemma starts_G : forall nt t ts, G nt t ts -> match nt with E _ | Simple | Suffixed | Args => starts nt ts | _ => True end.
Proof.
  intros nt t ts H. induction H; try exact I; try assumption.
  - apply starts_app; [exact I|assumption|destruct o; exact I].
  - apply starts_app; [exact I|assumption|exact I].
  - destruct H; try (cbn [app starts getunopr]; discriminate).
  - apply (starts_up Simple); [exact I|]. apply starts_app; [exact I|assumption|exact I].
  - apply (starts_up Simple); [exact I|assumption].
  - destruct ta as [|x ta]; [destruct IHG|]. cbn [starts] in *. destruct x; try contradiction; exact IHG.
  - apply starts_app; [exact I|assumption|exact I].
  - apply starts_app; [exact I|assumption|exact I].
  - apply starts_app; [exact I|assumption|]. destruct tl as [|y tl]; [destruct IHG2|]. destruct y; try exact I. exact IHG2.
  - apply starts_app; [exact I|assumption|exact I].
Qed.

Definition Lk (k : nat) : Z := match k with 8%nat => 9 | 9%nat => 10 | 10%nat => 11 | 11%nat => 14 | 12%nat => 14 | _ => Z.of_nat k end.
Definition cond (t : tree) (lvl : nat) {A} (o : outcome A) : outcome A := if (nesting t <=? lvl)%nat then o else Err EOverflow.
Definition P (nt : nonterminal) (t : tree) (ts : list token) : Prop :=
  match nt with
  | E k => forall lvl limit rest, limit < Lk k -> opprio (head_binopr rest) <= R k -> nosuf t rest ->
      subexpr (S lvl) limit (ts ++ rest) = cond t lvl (binops (subexpr lvl) (S (length rest)) limit (head_binopr rest) t rest)
  | Simple => forall lvl rest, nosuf t rest -> simpleexp (expr lvl) (ts ++ rest) = cond t lvl (Ok (t, rest))
  | Suffixed => open_ended t = true /\ forall lvl rest, suffixedexp (expr lvl) (ts ++ rest) = cond t lvl (suffixes (expr lvl) (S (length rest)) t rest)
  | Args => forall lvl rest, funcargs (expr lvl) (ts ++ rest) = cond t lvl (Ok (t, rest))
  | ExpList => forall lvl rest f, (length (ts ++ TRParen :: rest) < f)%nat -> explist (expr lvl) f (ts ++ TRParen :: rest) = cond t lvl (Ok (t, TRParen :: rest))
  | FieldList => forall lvl rest f, (length (ts ++ TRBrace :: rest) < f)%nat -> fields (expr lvl) f (ts ++ TRBrace :: rest) = cond t lvl (Ok (t, TRBrace :: rest))
  | AField => forall lvl x rest, isSep x = true \/ x = TRBrace -> field (expr lvl) (ts ++ x :: rest) = cond t lvl (Ok (t, x :: rest))
  end.
Lemma binops_stop : forall sub f limit v ts, opprio (head_binopr ts) <= limit -> binops sub (S f) limit (head_binopr ts) v ts = Ok (head_binopr ts, v, ts).
Proof. intros sub f limit v ts H. cbn [binops]. destruct (head_binopr ts) as [o|]; [|reflexivity]. destruct (Z.ltb_spec limit (fst (priority o))); [cbn [opprio] in H; lia|reflexivity]. Qed.
Lemma expr_ok : forall t ts, P (E 1) t ts -> forall lvl rest, nosuf t rest -> head_binopr rest = None -> expr lvl (ts ++ rest) = if (S (nesting t) <=? lvl)%nat then Ok (t, rest) else Err EOverflow.
Proof.
  intros t ts H lvl rest NS HN. unfold expr. destruct lvl as [|l]; [reflexivity|]. rewrite H by (rewrite ?HN; cbn [opprio Lk R]; try exact NS; lia). unfold cond. cbn [Nat.leb]. destruct (nesting t <=? l)%nat; [|reflexivity]. rewrite binops_stop by (rewrite HN; cbn; lia). reflexivity.
Qed.
Lemma bin_step : forall lvl limit o a b tb rest,
  (forall l, subexpr (S l) (snd (priority o)) (tb ++ rest) = cond b l (binops (subexpr l) (S (length rest)) (snd (priority o)) (head_binopr rest) b rest)) ->
  limit < fst (priority o) -> opprio (head_binopr rest) <= snd (priority o) ->
  cond a lvl (binops (subexpr lvl) (S (length (written o :: tb ++ rest))) limit (head_binopr (written o :: tb ++ rest)) a (written o :: tb ++ rest))
  = cond (Bin o a b) lvl (binops (subexpr lvl) (S (length rest)) limit (head_binopr rest) (Bin o a b) rest).
Proof.
  intros lvl limit o a b tb rest Hb L Q. unfold cond at 1 2. cbn [nesting]. cbn [head_binopr]. rewrite opr_written. cbn [binops tl]. rewrite (proj2 (Z.ltb_lt _ _) L).
  destruct lvl as [|l].
  - cbn [subexpr bind]. replace (Nat.max (nesting a) (S (nesting b)) <=? 0)%nat with false by (symmetry; apply Nat.leb_gt; lia). destruct (nesting a <=? 0)%nat; reflexivity.
  - rewrite Hb. unfold cond. rewrite binops_stop by exact Q. destruct (Nat.leb_spec (nesting b) l) as [B|B].
    + cbn [bind]. rewrite (binops_fuel (subexpr (S l)) (subexpr_fine (S l)) (length (written o :: tb ++ rest)) (S (length rest)) limit (Bin o a b) rest); [|cbn [length]; rewrite app_length; lia|lia].
      destruct (Nat.leb_spec (nesting a) (S l)) as [C|C]; destruct (Nat.leb_spec (Nat.max (nesting a) (S (nesting b))) (S l)) as [D|D]; try reflexivity; lia.
    + cbn [bind]. replace (Nat.max (nesting a) (S (nesting b)) <=? S l)%nat with false by (symmetry; apply Nat.leb_gt; lia). destruct (nesting a <=? S l)%nat; reflexivity.
Qed.
Lemma typename_complete : forall (ns : list name) len r, (fold_left (fun l (x : name) => l + length x + 1)%nat ns len < 128)%nat -> (match r with TDot :: _ => False | _ => True end) -> typename_rest (Z.of_nat len) (flat_map (fun x => [TDot; TName x]) ns ++ r) = Ok (ns, r).
Proof.
  assert (M : forall (ns : list name) len, (len <= fold_left (fun l (x : name) => l + length x + 1) ns len)%nat) by (induction ns as [|n ns IH]; intros len; cbn [fold_left]; [lia|specialize (IH (len + length n + 1)%nat); lia]).
  induction ns as [|n ns IH]; intros len r B D; cbn [flat_map app].
  - destruct r as [|x r]; [reflexivity|]. destruct x; try contradiction; reflexivity.
  - cbn [typename_rest]. cbn [fold_left] in B. specialize (M ns (len + length n + 1)%nat). destruct (Z.leb_spec 128 (Z.of_nat len + Z.of_nat (length n) + 1)) as [|LT]; [lia|]. replace (Z.of_nat len + Z.of_nat (length n) + 1) with (Z.of_nat (len + length n + 1)) by lia. rewrite IH by assumption. reflexivity.
Qed.
Lemma nest_pos : forall nt a ta l, G nt a ta -> match nt with E _ => True | _ => False end -> nesting (Cons a l) = Nat.max (S (nesting a)) (nesting l).
Proof. intros nt a ta l H N. destruct nt; try contradiction. apply (nest_cons k a ta l H). Qed.
Lemma opprio_written : forall o r, opprio (head_binopr (written o :: r)) = fst (priority o). Proof. intros o r. cbn [head_binopr]. rewrite opr_written. reflexivity. Qed.
Lemma nosuf_written : forall t o r, nosuf t (written o :: r). Proof. intros t o r _. apply written_nosuf. Qed.
Lemma left_facts : forall o, right_associative o = false -> fst (priority o) = R (level o) /\ snd (priority o) = R (level o) /\ Lk (level o) = fst (priority o) /\ snd (priority o) < Lk (S (level o)) /\ R (level o) <= R (S (level o)).
Proof. destruct o; intros H; try discriminate H; cbn [priority fst snd level R Lk]; lia. Qed.
Lemma cond_bind : forall A B t lvl (o : outcome A) (f : A -> outcome B), bind (cond t lvl o) f = cond t lvl (bind o f).
Proof. intros A B t lvl o f. unfold cond. destruct (nesting t <=? lvl)%nat; reflexivity. Qed.
Lemma cond_max : forall A t a b lvl (o : outcome A), nesting t = Nat.max (nesting a) (nesting b) -> cond a lvl (cond b lvl o) = cond t lvl o.
Proof. intros A t a b lvl o H. unfold cond. rewrite H. destruct (Nat.leb_spec (nesting a) lvl); destruct (Nat.leb_spec (nesting b) lvl); destruct (Nat.leb_spec (Nat.max (nesting a) (nesting b)) lvl); try reflexivity; lia. Qed.
Lemma cond_max' : forall A t a n lvl (o : outcome A), nesting t = Nat.max (nesting a) n -> cond a lvl (if (n <=? lvl)%nat then o else Err EOverflow) = cond t lvl o.
Proof. intros A t a n lvl o H. unfold cond. rewrite H. destruct (Nat.leb_spec (nesting a) lvl); destruct (Nat.leb_spec n lvl); destruct (Nat.leb_spec (Nat.max (nesting a) n) lvl); try reflexivity; lia. Qed.
Lemma cond_if : forall A t n lvl (o : outcome A), nesting t = n -> (if (n <=? lvl)%nat then o else Err EOverflow) = cond t lvl o.
Proof. intros A t n lvl o <-. reflexivity. Qed.
Lemma suffixes_end : forall ex f t rest, open_ended t = true -> nosuf t rest -> suffixes ex (S f) t rest = Ok (t, rest).
Proof. intros ex f t rest O NS. specialize (NS O). cbn [suffixes]. destruct rest as [|x r]; [reflexivity|]. destruct x; try reflexivity; elim NS; exact I. Qed.
Lemma suffixes_dot : forall ex f v n r, suffixes ex (S f) v (TDot :: TName n :: r) = suffixes ex f (Field v n) r. Proof. reflexivity. Qed.
Lemma suffixes_colon : forall ex f v n r, suffixes ex (S f) v (TColon :: TName n :: r) = bind (funcargs ex r) (fun '(a, r) => suffixes ex f (Method v n a) r). Proof. reflexivity. Qed.
Definition nounary (ts : list token) : Prop := match ts with x :: _ => getunopr x = None | [] => True end.
Lemma starts_nounary : forall ts r, starts Simple ts -> nounary (ts ++ r).
Proof. intros ts r H. destruct ts as [|x ts]; [destruct H|]. cbn [app nounary]. destruct x; try contradiction; reflexivity. Qed.
Lemma subexpr_simple : forall lvl limit ts, nounary ts -> subexpr (S lvl) limit ts = bind (simpleexp (expr lvl) ts) (fun '(v, r) => binops (subexpr lvl) (S (length r)) limit (head_binopr r) v r).
Proof. intros lvl limit ts H. cbn [subexpr]. destruct ts as [|x ts]; [reflexivity|]. cbn [nounary] in H. rewrite H. reflexivity. Qed.

Lemma complete : forall nt t ts, G nt t ts -> P nt t ts.
Proof.
  intros nt t ts H. induction H; cbn [P] in *.
  - (* left associative *) destruct (left_facts o H) as (F1 & F2 & F3 & F4 & F5). intros lvl limit rest L Q NS. rewrite <- app_assoc. cbn [app]. rewrite (IHG1 lvl limit (written o :: tb ++ rest) L); [|rewrite opprio_written; lia|apply nosuf_written].
    apply bin_step; [|lia|lia]. intros l. apply IHG2; [lia|lia|exact NS].
  - (* concat *) cbn [Lk R] in *. intros lvl limit rest L Q NS. rewrite <- app_assoc. cbn [app]. change TConcat with (written OPR_CONCAT). rewrite (IHG1 lvl limit (written OPR_CONCAT :: tb ++ rest)); [|lia|rewrite opprio_written; cbn; lia|apply nosuf_written].
    apply bin_step; [|cbn; lia|cbn; lia]. intros l. apply IHG2; [cbn; lia|lia|exact NS].
  - (* unary *) cbn [Lk R] in *. intros lvl limit rest L Q NS.
    assert (ST : match ta ++ rest with TDot :: _ => False | _ => True end) by (pose proof (starts_G _ _ _ H0) as SG; destruct ta as [|x ta]; [destruct SG|]; cbn [app starts] in *; destruct x; auto; apply SG; reflexivity).
    assert (U : match (tu ++ ta) ++ rest with [] => syntaxerror | t :: r => match getunopr t with
        | Some u => bind (match u with OPR_TO_TYPE n _ => bind (user_defined_type_name n r) (fun '(ns, r) => Ok (OPR_TO_TYPE n ns, r)) | _ => Ok (u, r) end) (fun '(u, r) => bind (subexpr lvl UNARY_PRIORITY r) (fun '(_, a, r) => Ok (Un u a, r)))
        | None => simpleexp (fun ts => bind (subexpr lvl 0 ts) (fun '(_, a, r) => Ok (a, r))) ((tu ++ ta) ++ rest) end end
      = bind (subexpr lvl UNARY_PRIORITY (ta ++ rest)) (fun '(_, a, r) => Ok (Un u a, r))).
    { rewrite <- app_assoc. destruct H; try reflexivity. cbn [app getunopr]. unfold user_defined_type_name. destruct ns as [|n0 ns].
      - cbn [flat_map app]. destruct (ta ++ rest) as [|y r]; [reflexivity|]. destruct y; try contradiction; reflexivity.
      - specialize (H ltac:(discriminate)). unfold type_length in H. pose proof (typename_complete (n0 :: ns) (length n) (ta ++ rest) H ST) as TC. cbn [flat_map app] in *. destruct (Z.leb_spec 128 (Z.of_nat (length n))) as [B|B]; [|rewrite TC; reflexivity].
        exfalso. assert (M : forall (ns : list name) len, (len <= fold_left (fun l (x : name) => l + length x + 1) ns len)%nat) by (induction ns0 as [|m ns0 IHn]; intros len; cbn [fold_left]; [lia|specialize (IHn (len + length m + 1)%nat); lia]). specialize (M (n0 :: ns) (length n)). pose proof (Nat.le_lt_trans _ _ _ M H) as M'. lia. }
    cbn [subexpr]. rewrite U. clear U. destruct lvl as [|l].
    + cbn [subexpr bind]. unfold cond. cbn [nesting]. reflexivity.
    + rewrite IHG; [|reflexivity|exact Q|exact NS]. rewrite cond_bind. rewrite binops_stop by (unfold UNARY_PRIORITY; exact Q). rewrite cond_bind. cbn [bind]. unfold cond. cbn [nesting Nat.leb]. reflexivity.
  - (* pow *) cbn [Lk R] in *. intros lvl limit rest L Q NS. rewrite <- app_assoc. cbn [app]. change TCaret with (written OPR_POW).
    rewrite subexpr_simple by (apply starts_nounary; exact (starts_G _ _ _ H)). rewrite IHG1 by apply nosuf_written. rewrite cond_bind. cbn [bind].
    apply bin_step; [|cbn; lia|cbn; lia]. intros l. apply IHG2; [cbn; lia|lia|exact NS].
  - intros lvl limit rest L Q NS. apply IHG; [| |exact NS]; do 12 (destruct k as [|k]; [cbn [Lk R] in *; lia|]); lia.
  - intros lvl limit rest L Q NS.
    rewrite subexpr_simple by (apply starts_nounary; exact (starts_G _ _ _ H)). rewrite IHG by exact NS. rewrite cond_bind. reflexivity.
  - intros lvl rest NS. reflexivity.
  - intros lvl rest NS. reflexivity.
  - intros lvl rest NS. reflexivity.
  - intros lvl rest NS. cbn [app simpleexp]. rewrite <- app_assoc. cbn [app]. unfold constructor. rewrite IHG by lia. rewrite cond_bind. cbn [bind checknext isRBrace]. reflexivity.
  - intros lvl rest NS. destruct IHG as (O & IHG). pose proof (starts_G _ _ _ H) as SG. assert (Q : simpleexp (expr lvl) (ta ++ rest) = suffixedexp (expr lvl) (ta ++ rest)) by (destruct ta as [|x ta]; [destruct SG|]; cbn [app starts] in *; destruct x; try contradiction; reflexivity).
    rewrite Q, IHG, suffixes_end by assumption. reflexivity.
  - split; [reflexivity|]. intros lvl rest. reflexivity.
  - split; [reflexivity|]. intros lvl rest. cbn [app]. rewrite <- app_assoc. unfold suffixedexp. cbn [primaryexp app]. rewrite (expr_ok a ta IHG) by (try reflexivity; intros _; exact (fun x => x)). rewrite (cond_if _ (Paren a)) by reflexivity. rewrite !cond_bind. reflexivity.
  - destruct IHG as (O & IHG). split; [reflexivity|]. intros lvl rest. rewrite <- app_assoc. rewrite IHG. cbn [app]. unfold cond. cbn [nesting]. destruct (nesting a <=? lvl)%nat; [|reflexivity]. rewrite suffixes_dot. apply suffixes_fuel; [apply expr_fine|cbn [length]; lia|lia].
  - destruct IHG1 as (O & IHG1). split; [reflexivity|]. intros lvl rest. rewrite <- app_assoc. rewrite IHG1. cbn [app]. rewrite <- app_assoc. cbn [app]. rewrite <- (cond_max' _ (Index a k) a (S (nesting k)) lvl) by reflexivity. unfold cond. destruct (nesting a <=? lvl)%nat; [|reflexivity]. change (suffixes (expr lvl) (S (length (TLBrack :: tk ++ TRBrack :: rest))) a (TLBrack :: tk ++ TRBrack :: rest)) with (bind (yindex (expr lvl) (tk ++ TRBrack :: rest)) (fun '(k, r) => suffixes (expr lvl) (length (TLBrack :: tk ++ TRBrack :: rest)) (Index a k) r)). unfold yindex. rewrite (expr_ok k tk IHG2) by (try reflexivity; intros _; exact (fun x => x)). destruct (S (nesting k) <=? lvl)%nat; [|reflexivity]. cbn [bind checknext isRBrack]. apply suffixes_fuel; [apply expr_fine|cbn [length]; rewrite app_length; cbn [length]; lia|lia].
  - destruct IHG1 as (O & IHG1). split; [reflexivity|]. intros lvl rest. rewrite <- app_assoc. rewrite IHG1. rewrite <- (cond_max _ (Call a l) a l lvl) by reflexivity. unfold cond at 1 2. destruct (nesting a <=? lvl)%nat; [|reflexivity].
    assert (SF : suffixes (expr lvl) (S (length (tl ++ rest))) a (tl ++ rest) = bind (funcargs (expr lvl) (tl ++ rest)) (fun '(x, r) => suffixes (expr lvl) (length (tl ++ rest)) (Call a x) r)) by (pose proof (starts_G _ _ _ H0) as SG; destruct tl as [|x tl]; [destruct SG|]; cbn [app starts] in *; destruct x; try contradiction; reflexivity).
    rewrite SF, IHG2, cond_bind. cbn [bind]. unfold cond. destruct (nesting l <=? lvl)%nat; [|reflexivity]. pose proof (starts_G _ _ _ H0) as SG. apply suffixes_fuel; [apply expr_fine| |lia]. destruct tl as [|x tl]; [destruct SG|]. cbn [app length]. rewrite app_length. lia.
  - destruct IHG1 as (O & IHG1). split; [reflexivity|]. intros lvl rest. rewrite <- app_assoc. rewrite IHG1. cbn [app]. rewrite <- (cond_max _ (Method a n l) a l lvl) by reflexivity. unfold cond at 1 2. destruct (nesting a <=? lvl)%nat; [|reflexivity].
    rewrite suffixes_colon, IHG2, cond_bind. cbn [bind]. unfold cond. destruct (nesting l <=? lvl)%nat; [|reflexivity]. apply suffixes_fuel; [apply expr_fine| |lia]. cbn [length]. rewrite app_length. lia.
  - intros lvl rest. reflexivity.
  - intros lvl rest. cbn [app]. rewrite <- app_assoc. cbn [app].
    assert (SF : funcargs (expr lvl) (TLParen :: tl ++ TRParen :: rest) = bind (explist (expr lvl) (S (length (tl ++ TRParen :: rest))) (tl ++ TRParen :: rest)) (fun '(l, r) => bind (checknext isRParen r) (fun r => Ok (l, r)))).
    { assert (NE : match tl with TRParen :: _ => False | [] => False | _ => True end). { inversion H; subst. - pose proof (starts_G _ _ _ H0) as SG. destruct tl as [|x tl]; [destruct SG|]. cbn [starts] in SG. destruct x; try exact I. apply SG. reflexivity. - pose proof (starts_G _ _ _ H0) as SG. destruct ta as [|x ta]; [destruct SG|]. cbn [starts app] in *. destruct x; try exact I. apply SG. reflexivity. }
      destruct tl as [|x tl]; [destruct NE|]. cbn [app funcargs]. destruct x; try contradiction; reflexivity. }
    rewrite SF, IHG by lia. rewrite cond_bind. reflexivity.
  - intros lvl rest. cbn [app funcargs]. rewrite <- app_assoc. cbn [app]. unfold constructor. rewrite IHG by lia. rewrite cond_bind. cbn [bind checknext isRBrace]. reflexivity.
  - intros lvl rest. reflexivity.
  - intros lvl rest f L. destruct f as [|f]; [lia|]. cbn [explist]. rewrite (expr_ok a ta IHG) by (try reflexivity; intros _; exact (fun x => x)). rewrite (cond_if _ (Cons a Nil)) by (rewrite (nest_cons _ _ _ _ H); cbn [nesting]; lia). rewrite cond_bind. reflexivity.
  - intros lvl rest f L. destruct f as [|f]; [lia|]. rewrite <- app_assoc in *. cbn [app explist] in *. rewrite (expr_ok a ta IHG1) by (try reflexivity; intros _; exact (fun x => x)). unfold cond at 1. rewrite (nest_cons _ _ _ _ H). destruct (Nat.leb_spec (S (nesting a)) lvl) as [B|B]; cbn [bind].
    + rewrite IHG2 by (rewrite app_length in L; cbn [length] in L; lia). unfold cond. destruct (Nat.leb_spec (nesting l) lvl); destruct (Nat.leb_spec (Nat.max (S (nesting a)) (nesting l)) lvl); try reflexivity; lia.
    + destruct (Nat.leb_spec (Nat.max (S (nesting a)) (nesting l)) lvl); [lia|reflexivity].
  - intros lvl rest f L. destruct f as [|f]; [lia|]. reflexivity.
  - intros lvl rest f0 L. destruct f0 as [|f0]; [lia|].
    assert (SF : fields (expr lvl) (S f0) (tf ++ TRBrace :: rest) = bind (field (expr lvl) (tf ++ TRBrace :: rest)) (fun '(g, r) => match r with x :: r' => if isSep x then bind (fields (expr lvl) f0 r') (fun '(l, r) => Ok (Cons g l, r)) else Ok (Cons g Nil, r) | [] => Ok (Cons g Nil, r) end)).
    { cbn [fields]. assert (NE : match tf with TRBrace :: _ => False | [] => False | _ => True end). { inversion H; subst; try exact I. pose proof (starts_G _ _ _ H0) as SG. destruct tf as [|x tf]; [destruct SG|]. cbn [starts] in SG. destruct x; try exact I. apply SG. reflexivity. } destruct tf as [|x tf]; [destruct NE|]. cbn [app]. destruct x; try contradiction; reflexivity. }
    rewrite SF. rewrite IHG by auto. rewrite cond_bind. cbn [bind isSep]. unfold cond. rewrite nest_field by (inversion H; exact I). cbn [nesting]. rewrite Nat.max_0_r. reflexivity.
  - intros lvl rest f0 L. destruct f0 as [|f0]; [lia|]. rewrite <- app_assoc in *. cbn [app] in *.
    assert (SF : fields (expr lvl) (S f0) (tf ++ sep :: tl ++ TRBrace :: rest) = bind (field (expr lvl) (tf ++ sep :: tl ++ TRBrace :: rest)) (fun '(g, r) => match r with x :: r' => if isSep x then bind (fields (expr lvl) f0 r') (fun '(l, r) => Ok (Cons g l, r)) else Ok (Cons g Nil, r) | [] => Ok (Cons g Nil, r) end)).
    { cbn [fields]. assert (NE : match tf with TRBrace :: _ => False | [] => False | _ => True end). { inversion H; subst; try exact I. match goal with Q : G (E 1) _ tf |- _ => pose proof (starts_G _ _ _ Q) as SG end. destruct tf as [|x tf]; [destruct SG|]. cbn [starts] in SG. destruct x; try exact I. apply SG. reflexivity. } destruct tf as [|x tf]; [destruct NE|]. cbn [app]. destruct x; try contradiction; reflexivity. }
    assert (SS : isSep sep = true) by (destruct H0; subst; reflexivity).
    rewrite SF. rewrite IHG1 by auto. rewrite cond_bind. cbn [bind]. rewrite SS. rewrite IHG2 by (rewrite app_length in L; cbn [length] in L; lia). rewrite cond_bind. cbn [bind]. apply cond_max. apply nest_field. inversion H; exact I.
  - intros lvl x rest SX.
    assert (SF : field (expr lvl) (ta ++ x :: rest) = bind (expr lvl (ta ++ x :: rest)) (fun '(a, r) => Ok (Pos a, r))).
    { pose proof (starts_G _ _ _ H) as SG. destruct ta as [|y ta]; [destruct SG|]. cbn [app starts field] in *. destruct y; try reflexivity; [|elim SG; reflexivity]. destruct ta as [|z ta]; cbn [app].
      - destruct x; try reflexivity. destruct SX as [SX|SX]; discriminate SX.
      - destruct z; try reflexivity. contradiction. }
    rewrite SF. rewrite (expr_ok a ta IHG); [|intros _; destruct x; try (exact (fun x => x)); destruct SX as [SX|SX]; discriminate SX|destruct x; try reflexivity; destruct SX as [SX|SX]; discriminate SX]. rewrite (cond_if _ (Pos a)) by reflexivity. rewrite cond_bind. reflexivity.
  - intros lvl x rest SX. cbn [app field]. rewrite (expr_ok a ta IHG); [|intros _; destruct x; try (exact (fun x => x)); destruct SX as [SX|SX]; discriminate SX|destruct x; try reflexivity; destruct SX as [SX|SX]; discriminate SX]. rewrite (cond_if _ (Named n a)) by reflexivity. rewrite cond_bind. reflexivity.
  - intros lvl x rest SX. cbn [app field]. rewrite <- app_assoc. cbn [app]. unfold yindex. rewrite (expr_ok k tk IHG1) by (try reflexivity; intros _; exact (fun x => x)). unfold cond. cbn [nesting]. destruct (Nat.leb_spec (S (nesting k)) lvl) as [B|B]; cbn [bind checknext isRBrack isAssign].
    + rewrite (expr_ok a ta IHG2); [|intros _; destruct x; try (exact (fun x => x)); destruct SX as [SX|SX]; discriminate SX|destruct x; try reflexivity; destruct SX as [SX|SX]; discriminate SX]. destruct (Nat.leb_spec (S (nesting a)) lvl); destruct (Nat.leb_spec (Nat.max (S (nesting k)) (S (nesting a))) lvl); try reflexivity; lia.
    + destruct (Nat.leb_spec (Nat.max (S (nesting k)) (S (nesting a))) lvl); [lia|reflexivity].
Qed.

Lemma ends_iff : forall t rest, ends t rest <-> head_binopr rest = None /\ nosuf t rest.
Proof.
  intros t rest. unfold ends, nosuf. destruct rest as [|x rest]; [cbn; tauto|]. cbn [head_binopr]. split; intros (A & B); (split; [|exact B]).
  - destruct (getbinopr x) as [o|] eqn:Q; [|reflexivity]. elim (A o). apply written_opr. exact Q.
  - intros o ->. rewrite opr_written in A. discriminate.
Qed.
Lemma accepted : forall lvl ts t rest, expr lvl ts = Ok (t, rest) <-> parses ts t rest /\ (nesting t < lvl)%nat.
Proof.
  intros lvl ts t rest. split.
  - intros H. unfold expr in H. destruct (subexpr lvl 0 ts) as [[[op b] r2]| | |] eqn:Q; try discriminate H. injection H as <- <-. destruct (subexpr_sound lvl 0 _ _ _ _ ltac:(lia) Q) as (t2 & -> & Gb & Nb & Sb & -> & L). split; [|lia]. exists t2. split; [reflexivity|]. split; [exact Gb|]. apply ends_iff. split; [|exact Sb]. destruct (head_binopr r2) as [o|]; [|reflexivity]. cbn [opprio] in L. destruct o; cbn [priority fst] in L; lia.
  - intros ((ts1 & -> & GG & EN) & N). apply ends_iff in EN. destruct EN as (HN & NS). rewrite (expr_ok t ts1 (complete _ _ _ GG) lvl rest NS HN). rewrite (proj2 (Nat.leb_le _ _)) by lia. reflexivity.
Qed.
Lemma too_deep : forall lvl ts t rest, parses ts t rest -> (lvl <= nesting t)%nat -> expr lvl ts = Err EOverflow.
Proof. intros lvl ts t rest (ts1 & -> & GG & EN) N. apply ends_iff in EN. destruct EN as (HN & NS). rewrite (expr_ok t ts1 (complete _ _ _ GG) lvl rest NS HN). rewrite (proj2 (Nat.leb_gt _ _)) by lia. reflexivity. Qed.
Lemma parse_unique : forall ts t rest t' rest', parses ts t rest -> parses ts t' rest' -> t = t' /\ rest = rest'.
Proof.
  intros ts t rest t' rest' A B. set (lvl := S (Nat.max (nesting t) (nesting t'))). assert (QA : expr lvl ts = Ok (t, rest)) by (apply accepted; split; [exact A|lia]). assert (QB : expr lvl ts = Ok (t', rest')) by (apply accepted; split; [exact B|lia]). rewrite QA in QB. injection QB. auto.
Qed.
Lemma tree_unique : forall ts t t', G (E 1) t ts -> G (E 1) t' ts -> t = t'.
Proof. intros ts t t' A B. apply (parse_unique ts t [] t' []); exists ts; rewrite app_nil_r; (split; [reflexivity|]; split; [assumption|exact I]). Qed.
Lemma rejected : forall lvl ts, (forall t rest, ~ parses ts t rest) -> expr lvl ts = Err EFormat \/ expr lvl ts = Err EOverflow.
Proof.
  intros lvl ts N. pose proof (expr_fine lvl ts) as F. destruct (expr lvl ts) as [[t r]|e| |] eqn:Q; cbn [fine] in F; try contradiction; [|destruct e; auto; contradiction]. exfalso. apply (N t r). apply accepted in Q. tauto.
Qed.
(* an input that is not too long for the levels left is refused only for its syntax *)
Definition shallow {A} (o : outcome A) : Prop := o <> Err EOverflow.
Lemma shallow_bind : forall A B (o : outcome A) (f : A -> outcome B), shallow o -> (forall a, o = Ok a -> shallow (f a)) -> shallow (bind o f).
Proof. intros A B o f S0 H. destruct o; cbn [bind] in *; auto; intros Q; (discriminate Q || (apply S0; injection Q as ->; reflexivity)). Qed.
Section shallow.
Variable ex : list token -> outcome (tree * list token).
Variable X : forall ts, fine (length ts) (ex ts).
Variable n : nat.
Variable Y : forall ts, (length ts <= n)%nat -> shallow (ex ts).
Lemma fine_len : forall A m (o : outcome (A * list token)) a r, fine m o -> o = Ok (a, r) -> (length r < m)%nat. Proof. intros A m o a r F ->. exact F. Qed.
Lemma sh_check : forall p ts, shallow (checknext p ts). Proof. intros p [|x ts]; cbn [checknext]; [discriminate|]. destruct (p x); discriminate. Qed.
Lemma sh_name : forall ts, shallow (str_checkname ts). Proof. intros [|x ts]; [discriminate|]. destruct x; discriminate. Qed.
Lemma check_len : forall p ts r, checknext p ts = Ok r -> (length r < length ts)%nat. Proof. intros p ts r H. apply check_ok in H. destruct H as (x & -> & _). cbn [length]. lia. Qed.
Lemma name_len : forall ts m r, str_checkname ts = Ok (m, r) -> (length r < length ts)%nat. Proof. intros [|x ts] m r H; [discriminate|]. destruct x; try discriminate. injection H as <- <-. cbn [length]. lia. Qed.
Lemma sh_explist : forall f ts, (length ts <= n)%nat -> shallow (explist ex f ts).
Proof.
  induction f as [|f IH]; intros ts L; [discriminate|]. cbn [explist]. apply shallow_bind; [apply Y; exact L|]. intros (a & r) Q. apply (fine_len _ _ _ _ _ (X ts)) in Q. destruct r as [|x r]; [discriminate|]. destruct x; try discriminate. cbn [length] in Q. apply shallow_bind; [apply IH; lia|]. intros (l & r') _. discriminate.
Qed.
Lemma sh_yindex : forall ts, (length ts <= n)%nat -> shallow (yindex ex ts).
Proof. intros ts L. apply shallow_bind; [apply Y; exact L|]. intros (a & r) _. apply shallow_bind; [apply sh_check|]. discriminate. Qed.
Lemma sh_field : forall ts, (length ts <= n)%nat -> shallow (field ex ts).
Proof.
  intros ts L. assert (D : shallow (bind (ex ts) (fun '(a, r) => Ok (Pos a, r)))) by (apply shallow_bind; [apply Y; exact L|intros (a & r) _; discriminate]). unfold field. destruct ts as [|x ts]; [exact D|]. destruct x; try exact D; cbn [length] in L.
  - destruct ts as [|y ts]; [exact D|]. destruct y; try exact D. cbn [length] in L. apply shallow_bind; [apply Y; lia|intros (a & r) _; discriminate].
  - apply shallow_bind; [apply sh_yindex; lia|]. intros (a & r) Q. apply (fine_len _ _ _ _ _ (yindex_fine ex X ts)) in Q. apply shallow_bind; [apply sh_check|]. intros r2 Q2. apply check_len in Q2. apply shallow_bind; [apply Y; lia|intros (b & r3) _; discriminate].
Qed.
Lemma sh_fields : forall f ts, (length ts <= n)%nat -> shallow (fields ex f ts).
Proof.
  induction f as [|f IH]; intros ts L; [discriminate|]. cbn [fields].
  assert (D : shallow (bind (field ex ts) (fun '(g, r) => match r with x :: r' => if isSep x then bind (fields ex f r') (fun '(l, r) => Ok (Cons g l, r)) else Ok (Cons g Nil, r) | [] => Ok (Cons g Nil, r) end))).
  { apply shallow_bind; [apply sh_field; exact L|]. intros (a & r) Q. apply (fine_len _ _ _ _ _ (field_fine ex X ts)) in Q. destruct r as [|x r]; [discriminate|]. cbn [length] in Q. destruct (isSep x); [|discriminate]. apply shallow_bind; [apply IH; lia|intros (b & r3) _; discriminate]. }
  destruct ts as [|x r]; [exact D|]. destruct x; try exact D. discriminate.
Qed.
Lemma sh_constructor : forall ts, (length ts <= n)%nat -> shallow (constructor ex ts).
Proof. intros ts L. apply shallow_bind; [apply sh_fields; exact L|]. intros (a & r) _. apply shallow_bind; [apply sh_check|]. discriminate. Qed.
Lemma sh_funcargs : forall ts, (length ts <= n)%nat -> shallow (funcargs ex ts).
Proof.
  intros ts L. unfold funcargs. destruct ts as [|x r]; [discriminate|]. cbn [length] in L.
  assert (D : shallow (bind (explist ex (S (length r)) r) (fun '(l, r) => bind (checknext isRParen r) (fun r => Ok (l, r))))) by (apply shallow_bind; [apply sh_explist; lia|]; intros (a & r') _; apply shallow_bind; [apply sh_check|]; discriminate).
  destruct x; try discriminate.
  - destruct r as [|y r]; [exact D|]. destruct y; try exact D. discriminate.
  - apply sh_constructor. lia.
Qed.
Lemma sh_suffixes : forall f v ts, (length ts <= n)%nat -> shallow (suffixes ex f v ts).
Proof.
  induction f as [|f IH]; intros v ts L; [discriminate|]. cbn [suffixes].
  assert (D : shallow (bind (funcargs ex ts) (fun '(a, r) => suffixes ex f (Call v a) r))) by (apply shallow_bind; [apply sh_funcargs; exact L|]; intros (a & r) Q; apply (fine_len _ _ _ _ _ (funcargs_fine ex X ts)) in Q; apply IH; lia).
  destruct ts as [|x r]; [discriminate|]. cbn [length] in L. destruct x; try discriminate; try exact D.
  - apply shallow_bind; [apply sh_yindex; lia|]. intros (a & r') Q. apply (fine_len _ _ _ _ _ (yindex_fine ex X r)) in Q. apply IH. lia.
  - apply shallow_bind; [apply sh_name|]. intros (a & r') Q. apply name_len in Q. apply IH. lia.
  - apply shallow_bind; [apply sh_name|]. intros (a & r') Q. apply name_len in Q. apply shallow_bind; [apply sh_funcargs; lia|]. intros (b & r2) Q2. apply (fine_len _ _ _ _ _ (funcargs_fine ex X r')) in Q2. apply IH. lia.
Qed.
End shallow.
Lemma sh_simple : forall ex (X : forall ts, fine (length ts) (ex ts)) n (Y : forall ts, (length ts <= n)%nat -> shallow (ex ts)) ts, (length ts <= S n)%nat -> shallow (simpleexp ex ts).
Proof.
  intros ex X n Y ts L. assert (D : shallow (suffixedexp ex ts)).
  { unfold suffixedexp. apply shallow_bind.
    - unfold primaryexp. destruct ts as [|x r]; [discriminate|]. cbn [length] in L. destruct x; try discriminate. apply shallow_bind; [apply Y; lia|]. intros (a & r') _. apply shallow_bind; [apply sh_check|]. discriminate.
    - intros (a & r) Q. apply (fine_len _ _ _ _ _ (primary_fine ex X ts)) in Q. apply (sh_suffixes ex X n Y). lia. }
  unfold simpleexp. destruct ts as [|x r]; [exact D|]. cbn [length] in L. destruct x; try exact D; try discriminate. apply (sh_constructor ex X n Y). lia.
Qed.
Lemma sh_typename : forall k ts, (length ts <= k)%nat -> forall len, shallow (typename_rest len ts).
Proof.
  induction k as [|k IH]; intros ts L len; (destruct ts as [|x ts]; [discriminate|]); cbn [length] in L; [lia|]. cbn [typename_rest]. destruct x; try discriminate. destruct ts as [|y ts]; [discriminate|]. destruct y; try discriminate. destruct (128 <=? _); [discriminate|]. cbn [length] in L. apply shallow_bind; [apply IH; lia|intros (a & r) _; discriminate].
Qed.
Lemma sh_subexpr : forall lvl limit ts, (length ts < lvl)%nat -> shallow (subexpr lvl limit ts).
Proof.
  induction lvl as [|lvl IH]; intros limit ts L; [lia|]. cbn [subexpr]. apply shallow_bind.
  - destruct ts as [|t r]; [discriminate|]. cbn [length] in L. destruct (getunopr t) as [u|] eqn:EU.
    + apply shallow_bind.
      * destruct u; try discriminate. apply shallow_bind; [|intros (a & r') _; discriminate]. unfold user_defined_type_name. destruct r as [|y r]; [discriminate|]. destruct y; try discriminate. destruct (128 <=? _); [discriminate|]. apply (sh_typename (length (TDot :: r))). lia.
      * intros (u' & r') Q. assert (LR : (length r' <= length r)%nat).
        { destruct u; try (injection Q as <- <-; lia). inv_bind Q. injection Q as <- <-. unfold user_defined_type_name in E. assert (D0 : Ok ([], r) = Ok (l, l0) -> (length l0 <= length r)%nat) by (intros W; injection W as <- <-; lia). destruct r as [|y r]; [exact (D0 E)|]. destruct y; try exact (D0 E). destruct (128 <=? _); [discriminate E|]. pose proof (fine_len _ _ _ _ _ (typename_fine (length (TDot :: r)) (TDot :: r) _ (le_n _)) E). lia. }
        apply shallow_bind; [apply IH; lia|]. intros ((op & a) & r2) _. discriminate.
    + apply (sh_simple _ (expr_fine lvl) (lvl - 1)%nat); [|cbn [length]; lia]. intros ts' L'. destruct lvl as [|l]; [lia|]. unfold expr. apply shallow_bind; [apply IH; lia|]. intros ((op & a) & r2) _. discriminate.
  - intros (v & r) Q.
    assert (LR : (length r < length ts)%nat). { pose proof (subexpr_fine (S lvl) (1000) ts) as F. cbn [subexpr] in F. rewrite Q in F. cbn [bind binops] in F. destruct (head_binopr r) as [o|]; [destruct (1000 <? fst (priority o)) eqn:W; [destruct o; discriminate W|]|]; cbn [fine3] in F; tauto. }
    clear Q. assert (K : forall f v r, (length r < lvl)%nat -> shallow (binops (subexpr lvl) f limit (head_binopr r) v r)).
    { induction f as [|f IHf]; intros v0 r0 L0; [discriminate|]. cbn [binops]. destruct (head_binopr r0) as [o|] eqn:HO; [|discriminate]. destruct (limit <? fst (priority o)); [|discriminate]. destruct r0 as [|x r0]; [discriminate|]. cbn [tl length] in *. apply shallow_bind; [apply IH; lia|]. intros ((op & a) & r2) Q. pose proof (subexpr_fine lvl (snd (priority o)) r0) as F. rewrite Q in F. destruct F as (F & ->). apply IHf. lia. }
    apply K. lia.
Qed.
Lemma syntax_error : forall lvl ts, (length ts < lvl)%nat -> (expr lvl ts = Err EFormat <-> forall t rest, ~ parses ts t rest).
Proof.
  intros lvl ts L. assert (SH : shallow (expr lvl ts)) by (unfold expr; apply shallow_bind; [apply sh_subexpr; exact L|]; intros ((op & a) & r2) _; discriminate). split.
  - intros Q t rest H. destruct (Nat.ltb_spec (nesting t) lvl) as [B|B].
    + assert (W : expr lvl ts = Ok (t, rest)) by (apply accepted; auto). congruence.
    + apply SH. apply (too_deep lvl ts t rest H B).
  - intros N. destruct (rejected lvl ts N) as [|Q]; [assumption|]. elim (SH Q).
Qed.
