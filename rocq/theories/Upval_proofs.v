Require Import ZArith List Bool Lia Sorted.
From Verif Require Import Base Base_facts Upval_model Upval_spec.
Import ListNotations.
Open Scope Z_scope.

Lemma put_eq : forall A (f : Z -> A) a x, put f a x a = x. Proof. intros. unfold put. rewrite Z.eqb_refl. reflexivity. Qed.
Lemma put_ne : forall A (f : Z -> A) a x y, y <> a -> put f a x y = f y. Proof. intros. unfold put. destruct (Z.eqb_spec y a); [contradiction|reflexivity]. Qed.
Lemma upd_len : forall X (l : list X) k x, length (update l k x) = length l. Proof. induction l as [|y l IH]; intros [|k] x; cbn; auto. Qed.
Lemma upd_nth : forall X (l : list X) k x j, nth_error (update l k x) j = if Nat.eqb j k then (match nth_error l j with Some _ => Some x | None => None end) else nth_error l j.
Proof. induction l as [|y l IH]; intros [|k] x [|j]; cbn; try reflexivity. - destruct (Nat.eqb j k); reflexivity. - apply IH. Qed.
Lemma replace_upd : forall l k x, replace l k x = update l k x. Proof. induction l as [|y l IH]; intros [|k] x; cbn; try reflexivity. rewrite IH. reflexivity. Qed.
Lemma replaceZ_upd : forall l k x, replaceZ l k x = update l k x. Proof. induction l as [|y l IH]; intros [|k] x; cbn; try reflexivity. rewrite IH. reflexivity. Qed.
Lemma map_upd : forall X Y (f : X -> Y) l k x, map f (update l k x) = update (map f l) k (f x). Proof. induction l as [|y l IH]; intros [|k] x; cbn; try reflexivity. rewrite IH. reflexivity. Qed.

(* ---- the relation between upvalues and instances ---- *)
Definition lev (up : Z -> option upv) (a : Z) : Z := match up a with Some u => match u_loc u with Open _ i => i | Closed _ => 0 end | None => 0 end.
Record core (s : st) (A : ast) (m : Z -> cell) (refs : Z -> nat) (pend : Z -> Z -> Z) : Prop := Core {
  c_slot : forall t i, s_stk s t i = val A (var A t i);
  c_nodup : forall t, NoDup (s_open s t);
  c_list : forall t a, In a (s_open s t) -> exists u i, s_up s a = Some u /\ u_loc u = Open t i;
  c_sort : forall t, StronglySorted (fun a b => lev (s_up s) b <= lev (s_up s) a) (s_open s t);
  c_in : forall a u t i, s_up s a = Some u -> u_loc u = Open t i -> In a (s_open s t);
  c_ref : forall a u, s_up s a = Some u -> u_ref u = Z.of_nat (refs a);
  c_none : forall a, s_up s a = None -> refs a = 0%nat;
  c_live : forall a u, s_up s a = Some u -> (0 < refs a)%nat -> match u_loc u with
    | Open t i => m a = (t, i, a_cur A t i - pend t i) /\ val A (m a) = s_stk s t i /\ u_flags u = false
    | Closed v => (let '(t, i, g) := m a in g < a_cur A t i) /\ val A (m a) = v end;
  c_closed : forall a u v, s_up s a = Some u -> u_loc u = Closed v -> (0 < refs a)%nat;
  c_uniq : forall a b u w t i, s_up s a = Some u -> s_up s b = Some w -> u_flags u = false -> u_flags w = false -> u_loc u = Open t i -> u_loc w = Open t i -> a = b;
  c_inj : forall a b, (0 < refs a)%nat -> (0 < refs b)%nat -> m a = m b -> a = b
}.
Definition none : Z -> Z -> Z := fun _ _ => 0.
Definition cells (m : Z -> cell) (c : list (option (list Z))) : list (option (list cell)) := map (option_map (map m)) c.
Definition count (c : list Z) (a : Z) : nat := count_occ Z.eq_dec c a.
Fixpoint counts (c : list (option (list Z))) (a : Z) : nat := match c with [] => 0%nat | Some l :: c => (count l a + counts c a)%nat | None :: c => counts c a end.
Definition rel (protos : Z -> list desc) (s : st) (A : ast) : Prop := exists m, core s A m (counts (s_clos s)) none /\ a_clos A = cells m (s_clos s) /\
  forall p k, s_cache s p = Some k -> exists c, nth_error (s_clos s) k = Some (Some c) /\ length c = length (protos p).
Lemma core_refs : forall s A m r r' p, (forall a, r a = r' a) -> core s A m r p -> core s A m r' p.
Proof.
  intros s A m r r' p E [C1 C2 C3 C4 C5 C6 C7 C8 C9 C10 C11]. constructor; try assumption.
  - intros a u U. rewrite <- E. apply C6; exact U.
  - intros a U. rewrite <- E. apply C7; exact U.
  - intros a u U R. rewrite <- E in R. apply C8; assumption.
  - intros a u v U V. rewrite <- E. apply (C9 a u v); assumption.
  - intros a b RA RB. rewrite <- E in RA, RB. apply C11; assumption.
Qed.
Lemma core_clos : forall s A m r p c1 k1 c2, core s A m r p -> core (St (s_stk s) (s_open s) (s_up s) c1 k1) (with_clos A c2) m r p.
Proof. intros s A m r p c1 k1 c2 [C1 C2 C3 C4 C5 C6 C7 C8 C9 C10 C11]. constructor; try assumption. Qed.
Lemma core_st : forall s s' A A' m r p, s_stk s = s_stk s' -> s_open s = s_open s' -> s_up s = s_up s' -> a_cur A = a_cur A' -> a_val A = a_val A' -> core s A m r p -> core s' A' m r p.
Proof.
  intros [x1 x2 x3 x4 x5] [y1 y2 y3 y4 y5] [z1 z2 z3] [w1 w2 w3] m r p E1 E2 E3 E4 E5 C. cbn in *. subst. destruct C as [C1 C2 C3 C4 C5 C6 C7 C8 C9 C10 C11]. constructor; assumption.
Qed.
(* ---- reading and writing ---- *)
Lemma val_write_eq : forall A c v, val (write A c v) c = v. Proof. intros A [[t i] g] v. cbn. rewrite !Z.eqb_refl. reflexivity. Qed.
Lemma val_write_ne : forall A c v d, d <> c -> val (write A c v) d = val A d.
Proof. intros A [[t i] g] v [[t' i'] g'] NE. cbn. destruct (Z.eqb_spec t' t), (Z.eqb_spec i' i), (Z.eqb_spec g' g); cbn; try reflexivity. exfalso. apply NE. congruence. Qed.
Lemma cur_write : forall A c v, a_cur (write A c v) = a_cur A. Proof. intros A [[t i] g] v. reflexivity. Qed.
Lemma core_set_slot : forall s A m r t i v, core s A m r none -> core (set_stk s t i v) (write A (var A t i) v) m r none.
Proof.
  intros s A m r t i v [C1 C2 C3 C4 C5 C6 C7 C8 C9 C10 C11].
  assert (SK : forall t' i', s_stk (set_stk s t i v) t' i' = if (t' =? t) && (i' =? i) then v else s_stk s t' i') by (intros t' i'; cbn; unfold put; destruct (t' =? t) eqn:E; [apply Z.eqb_eq in E; subst; destruct (i' =? i); reflexivity|reflexivity]).
  constructor; try assumption.
  - intros t' i'. rewrite SK. unfold var. rewrite cur_write. destruct (Z.eqb_spec t' t) as [->|N1], (Z.eqb_spec i' i) as [->|N2]; cbn [andb]; [symmetry; apply val_write_eq| | |]; rewrite val_write_ne by congruence; apply C1.
  - intros a u U R. specialize (C8 a u U R). rewrite cur_write. destruct (u_loc u) as [t' i'|w] eqn:L.
    + destruct C8 as (M & V & F). split; [exact M|]. split; [|exact F]. rewrite SK. unfold none in M. rewrite Z.sub_0_r in M. rewrite M. destruct (Z.eqb_spec t' t) as [->|N1], (Z.eqb_spec i' i) as [->|N2]; cbn [andb]; [apply val_write_eq| | |]; rewrite val_write_ne by (unfold var; congruence); rewrite <- M; exact V.
    + destruct C8 as (G & V). split; [exact G|]. rewrite val_write_ne; [exact V|]. intros E. rewrite E in G. unfold var in G. lia.
Qed.
Lemma core_set_closed : forall s A m r a u w v, core s A m r none -> s_up s a = Some u -> u_loc u = Closed w -> core (set_up s a (Some (UpV (u_ref u) (u_flags u) (Closed v)))) (write A (m a) v) m r none.
Proof.
  intros s A m r a u w v [C1 C2 C3 C4 C5 C6 C7 C8 C9 C10 C11] U L. set (u' := UpV (u_ref u) (u_flags u) (Closed v)).
  pose proof (C9 a u w U L) as RA. pose proof (C8 a u U RA) as X. rewrite L in X. destruct X as (G & V).
  assert (B : forall b x, put (s_up s) a (Some u') b = Some x -> (b = a /\ x = u') \/ (b <> a /\ s_up s b = Some x)) by (intros b x E; unfold put in E; destruct (Z.eqb_spec b a); [left; split; congruence|right; auto]).
  assert (NOPEN : forall t, ~ In a (s_open s t)) by (intros t IN; destruct (C3 t a IN) as (x & i & X1 & X2); congruence).
  constructor; cbn [set_up s_stk s_open s_up]; try assumption.
  - intros t i. rewrite C1. unfold var. rewrite cur_write. symmetry. apply val_write_ne. intros E. rewrite <- E in G. lia.
  - intros t b IN. destruct (C3 t b IN) as (x & i & X1 & X2). exists x, i. rewrite put_ne; [auto|]. intros ->. apply (NOPEN t IN).
  - intros t. specialize (C4 t). clear - C4 NOPEN. specialize (NOPEN t). revert C4 NOPEN. generalize (s_open s t). induction l as [|x l IH]; intros C4 NO; [constructor|]. apply StronglySorted_inv in C4; destruct C4 as [S F]. constructor; [apply IH; [exact S|intros IN; apply NO; right; exact IN]|].
    rewrite Forall_forall in *. intros y IN. specialize (F y IN). unfold lev in *. rewrite !put_ne; [exact F| |]; intros ->; apply NO; [left; reflexivity|right; exact IN].
  - intros b x t i E LO. destruct (B b x E) as [[-> ->]|[_ E']]; [discriminate|apply (C5 b x t i E' LO)].
  - intros b x E. destruct (B b x E) as [[-> ->]|[_ E']]; [apply (C6 a u U)|apply (C6 b x E')].
  - intros b E. apply C7. unfold put in E. destruct (b =? a); [discriminate|exact E].
  - intros b x E R. destruct (B b x E) as [[-> ->]|[NB E']].
    + cbn [u_loc u']. rewrite cur_write. split; [exact G|apply val_write_eq].
    + specialize (C8 b x E' R). rewrite cur_write. assert (NM : m b <> m a) by (intros EM; apply NB; apply (C11 b a R RA EM)). rewrite val_write_ne by exact NM. exact C8.
  - intros b x y E LO. destruct (B b x E) as [[-> ->]|[_ E']]; [exact RA|apply (C9 b x y E' LO)].
  - intros b c x y t i E1 E2 F1 F2 L1 L2. destruct (B b x E1) as [[-> ->]|[_ E1']]; [discriminate|]. destruct (B c y E2) as [[-> ->]|[_ E2']]; [discriminate|]. apply (C10 b c x y t i); assumption.
Qed.
Lemma write_idem_open : forall A c v, write A c v = write A c v. Proof. reflexivity. Qed.
Lemma put_up_ok : forall s A m r a v, core s A m r none -> (0 < r a)%nat -> exists s', put_up s a v = Ok s' /\ core s' (write A (m a) v) m r none /\ s_clos s' = s_clos s /\ s_cache s' = s_cache s.
Proof.
  intros s A m r a v C R. pose proof C as [C1 C2 C3 C4 C5 C6 C7 C8 C9 C10 C11]. unfold put_up, deref. destruct (s_up s a) as [u|] eqn:U; [|rewrite (C7 a U) in R; lia]. cbn [bind]. pose proof (C8 a u U R) as X. destruct (u_loc u) as [t i|w] eqn:L.
  - destruct X as (M & V & F). unfold none in M. rewrite Z.sub_0_r in M. eexists. split; [reflexivity|]. split; [|split; reflexivity]. rewrite M. apply core_set_slot. exact C.
  - eexists. split; [reflexivity|]. split; [|split; reflexivity]. apply (core_set_closed s A m r a u w v C U L).
Qed.
Lemma get_up_ok : forall s A m r p a, core s A m r p -> (0 < r a)%nat -> get_up s a = Ok (val A (m a)).
Proof.
  intros s A m r p a C R. pose proof C as [C1 C2 C3 C4 C5 C6 C7 C8 C9 C10 C11]. unfold get_up, deref. destruct (s_up s a) as [u|] eqn:U; [|rewrite (C7 a U) in R; lia]. cbn [bind]. pose proof (C8 a u U R) as X. destruct (u_loc u) as [t i|w]; f_equal; symmetry; apply X.
Qed.
(* ---- finding, counting ---- *)
Lemma find_loop_ok : forall s t level a l, (forall b, In b l -> exists u i, s_up s b = Some u /\ u_loc u = Open t i) -> StronglySorted (fun a b => lev (s_up s) b <= lev (s_up s) a) l ->
  (exists p u, find_loop s t level a l = Ok (inl p) /\ In p l /\ s_up s p = Some u /\ u_flags u = false /\ u_loc u = Open t level) \/
  (exists l1 l2, find_loop s t level a l = Ok (inr (l1 ++ a :: l2)) /\ l = l1 ++ l2 /\ (forall b, In b l1 -> level <= lev (s_up s) b) /\ (forall b, In b l2 -> lev (s_up s) b < level) /\
     forall b u, In b l -> s_up s b = Some u -> u_loc u = Open t level -> u_flags u = true).
Proof.
  intros s t level a. induction l as [|p l IH]; intros H SS; cbn [find_loop].
  - right. exists [], []. split; [reflexivity|]. split; [reflexivity|]. split; [intros b []|]. split; [intros b []|intros b u []].
  - destruct (H p (or_introl eq_refl)) as (u & i & U & L). unfold deref, level_of. rewrite U. cbn [bind]. rewrite L, Z.eqb_refl. cbn [bind]. apply StronglySorted_inv in SS; destruct SS as [SS' FA]. rewrite Forall_forall in FA. assert (LP : lev (s_up s) p = i) by (unfold lev; rewrite U, L; reflexivity).
    destruct (Z.leb_spec level i) as [LE|GT].
    + destruct ((i =? level) && negb (u_flags u)) eqn:E.
      * apply andb_true_iff in E. destruct E as [E1 E2]. apply Z.eqb_eq in E1. apply negb_true_iff in E2. left. exists p, u. split; [reflexivity|]. split; [left; reflexivity|]. rewrite <- E1. auto.
      * destruct (IH (fun b IN => H b (or_intror IN)) SS') as [(q & w & F1 & F2 & F3 & F4 & F5)|(l1 & l2 & F1 & F2 & F3 & F4 & F5)]; rewrite F1; cbn [bind].
        -- left. exists q, w. split; [reflexivity|]. split; [right; exact F2|]. auto.
        -- right. exists (p :: l1), l2. split; [reflexivity|]. split; [cbn; congruence|]. split; [intros b [<-|IN]; [lia|apply F3; exact IN]|]. split; [exact F4|].
           intros b w [<-|IN] U' L'; [|apply (F5 b w IN U' L')]. rewrite U in U'. injection U' as <-. rewrite L in L'. injection L' as ->. rewrite Z.eqb_refl in E. cbn [andb] in E. apply negb_false_iff in E. exact E.
    + right. exists [], (p :: l). split; [reflexivity|]. split; [reflexivity|]. split; [intros b []|]. split; [intros b [<-|IN]; [lia|specialize (FA b IN); lia]|].
      intros b w [<-|IN] U' L'; [rewrite U in U'; injection U' as <-; rewrite L in L'; injection L' as ->; lia|]. specialize (FA b IN). unfold lev in FA at 1. rewrite U', L' in FA. lia.
Qed.
Lemma sorted_insert : forall up a u t i l1 l2, up a = None -> (forall b, In b (l1 ++ l2) -> b <> a) -> StronglySorted (fun a b => lev up b <= lev up a) (l1 ++ l2) -> (forall b, In b l1 -> i <= lev up b) -> (forall b, In b l2 -> lev up b < i) -> u_loc u = Open t i ->
  StronglySorted (fun x b => lev (put up a (Some u)) b <= lev (put up a (Some u)) x) (l1 ++ a :: l2).
Proof.
  intros up a u t i. assert (LV : forall b, b <> a -> lev (put up a (Some u)) b = lev up b) by (intros b N; unfold lev; rewrite put_ne by exact N; reflexivity).
  induction l1 as [|x l1 IH]; intros l2 N NI SS H1 H2 L; assert (LA : lev (put up a (Some u)) a = i) by (unfold lev; rewrite put_eq, L; reflexivity).
  - cbn [app] in *. constructor.
    + clear - SS NI LV. induction l2 as [|y l2 IH]; [constructor|]. apply StronglySorted_inv in SS; destruct SS as [S F]. constructor; [apply IH; [intros b IN; apply NI; right; exact IN|exact S]|]. rewrite Forall_forall in *. intros b IN. rewrite !LV; [apply F; exact IN|apply NI; left; reflexivity|apply NI; right; exact IN].
    + apply Forall_forall. intros b IN. rewrite LA, LV by (apply NI; exact IN). specialize (H2 b IN). lia.
  - cbn [app] in *. apply StronglySorted_inv in SS; destruct SS as [S F]. constructor; [apply IH; auto; [intros b IN; apply NI; right; exact IN|intros b IN; apply H1; right; exact IN]|].
    rewrite Forall_forall in *. intros b IN. rewrite (LV x) by (apply NI; left; reflexivity). rewrite in_app_iff in IN. destruct IN as [IN|[<-|IN]].
    + rewrite LV by (apply NI; right; apply in_app_iff; left; exact IN). apply F. apply in_app_iff. left. exact IN.
    + rewrite LA. apply H1. left. reflexivity.
    + rewrite LV by (apply NI; right; apply in_app_iff; right; exact IN). apply F. apply in_app_iff. right. exact IN.
Qed.
Lemma core_map : forall s A m m' r p, (forall b, (0 < r b)%nat -> m' b = m b) -> core s A m r p -> core s A m' r p.
Proof.
  intros s A m m' r p E [C1 C2 C3 C4 C5 C6 C7 C8 C9 C10 C11]. constructor; try assumption.
  - intros a u U R. rewrite (E a R). apply (C8 a u U R).
  - intros a b RA RB EM. rewrite (E a RA), (E b RB) in EM. apply (C11 a b RA RB EM).
Qed.
Definition others_same (s s' : st) : Prop := s_stk s' = s_stk s /\ s_clos s' = s_clos s /\ s_cache s' = s_cache s.
Lemma findupval_ok : forall s A m r t i a, core s A m r none -> s_up s a = None -> exists p s', luaF_findupval s t i a = Ok (p, s') /\ core s' A m r none /\ others_same s s' /\
  (exists u, s_up s' p = Some u /\ u_flags u = false /\ u_loc u = Open t i) /\ (p = a \/ s' = s) /\ (forall b, b <> a -> s_up s' b = s_up s b).
Proof.
  intros s A m r t i a C N. pose proof C as [C1 C2 C3 C4 C5 C6 C7 C8 C9 C10 C11]. unfold luaF_findupval.
  destruct (find_loop_ok s t i a (s_open s t)) as [(p & u & F1 & F2 & F3 & F4 & F5)|(l1 & l2 & F1 & F2 & F3 & F4 & F5)]; [apply C3|apply C4| |]; rewrite F1; cbn [bind].
  - exists p, s. split; [reflexivity|]. split; [exact C|]. split; [repeat split|]. split; [exists u; auto|]. auto.
  - eexists a, _. split; [reflexivity|]. set (u := UpV 0 false (Open t i)).
    assert (NI : forall t' b, In b (s_open s t') -> b <> a) by (intros t' b IN ->; destruct (C3 t' a IN) as (x & j & X & _); congruence).
    assert (RA : r a = 0%nat) by (apply C7; exact N).
    assert (B : forall b x, put (s_up s) a (Some u) b = Some x -> (b = a /\ x = u) \/ (b <> a /\ s_up s b = Some x)) by (intros b x E; unfold put in E; destruct (Z.eqb_spec b a); [left; split; congruence|right; auto]).
    assert (OP : forall t', put (s_open s) t (l1 ++ a :: l2) t' = if t' =? t then l1 ++ a :: l2 else s_open s t') by reflexivity.
    split; [|split; [repeat split|split; [exists u; cbn [set_up s_up]; rewrite put_eq; auto|split; [left; reflexivity|intros b NB; cbn [set_up s_up set_open]; apply put_ne; exact NB]]]].
    constructor; cbn [set_up set_open s_stk s_open s_up]; try assumption.
    + intros t'. rewrite OP. destruct (Z.eqb_spec t' t) as [->|]; [|apply C2]. pose proof (C2 t) as ND. rewrite F2 in ND. apply NoDup_Add with (a := a) (l := l1 ++ l2); [apply Add_app|]. split; [exact ND|]. intros IN. rewrite <- F2 in IN. apply (NI t a IN). reflexivity.
    + intros t' b IN. rewrite OP in IN. destruct (Z.eqb_spec t' t) as [->|].
      * destruct (Z.eq_dec b a) as [->|NB]; [exists u, i; rewrite put_eq; auto|]. rewrite put_ne by exact NB. apply C3. rewrite F2. rewrite in_app_iff in *. destruct IN as [IN|[IN|IN]]; [auto|congruence|auto].
      * rewrite put_ne by (apply (NI t' b IN)). apply C3. exact IN.
    + intros t'. rewrite OP. destruct (Z.eqb_spec t' t) as [->|].
      * apply (sorted_insert (s_up s) a u t i); auto; [intros b IN; apply (NI t b); rewrite F2; exact IN|rewrite <- F2; apply C4].
      * specialize (C4 t'). assert (NI' : forall b, In b (s_open s t') -> b <> a) by (intros b IN; apply (NI t' b IN)). clear - C4 NI'. revert C4 NI'. generalize (s_open s t'). induction l as [|x l IH]; intros C4 NI; [constructor|]. apply StronglySorted_inv in C4; destruct C4 as [S F]. constructor; [apply IH; [exact S|intros b IN; apply NI; right; exact IN]|]. rewrite Forall_forall in *. intros b IN. unfold lev. rewrite !put_ne; [apply (F b IN)|apply NI; left; reflexivity|apply NI; right; exact IN].
    + intros b x t' j E L. rewrite OP. destruct (B b x E) as [[-> ->]|[NB E']].
      * cbn [u_loc u] in L. injection L as <- <-. rewrite Z.eqb_refl. apply in_app_iff. right. left. reflexivity.
      * pose proof (C5 b x t' j E' L) as IN. destruct (Z.eqb_spec t' t) as [->|]; [|exact IN]. rewrite F2, in_app_iff in IN. rewrite in_app_iff. cbn [In]. tauto.
    + intros b x E. destruct (B b x E) as [[-> ->]|[_ E']]; [rewrite RA; reflexivity|apply (C6 b x E')].
    + intros b E. apply C7. unfold put in E. destruct (b =? a); [discriminate|exact E].
    + intros b x E R. destruct (B b x E) as [[-> ->]|[_ E']]; [lia|apply (C8 b x E' R)].
    + intros b x y E L. destruct (B b x E) as [[-> ->]|[_ E']]; [discriminate|apply (C9 b x y E' L)].
    + intros b c x y t' j E1 E2 FA FB L1 L2. destruct (B b x E1) as [[-> ->]|[NB E1']], (B c y E2) as [[-> ->]|[NC E2']]; try reflexivity.
      * cbn [u_loc u] in L1. injection L1 as <- <-. rewrite (F5 c y (C5 c y t i E2' L2) E2' L2) in FB. discriminate.
      * cbn [u_loc u] in L2. injection L2 as <- <-. rewrite (F5 b x (C5 b x t i E1' L1) E1' L1) in FA. discriminate.
      * apply (C10 b c x y t' j); assumption.
Qed.
Definition bump (r : Z -> nat) (p : Z) : Z -> nat := fun b => if b =? p then S (r b) else r b.
(* an upvalue whose counter is changed *)
Lemma core_recount : forall s A m r r' a u n, core s A m r none -> s_up s a = Some u -> (forall b, b <> a -> r' b = r b) -> n = Z.of_nat (r' a) -> ((0 < r a)%nat \/ (exists t i, u_loc u = Open t i /\ u_flags u = false /\ m a = var A t i)) -> ((0 < r' a)%nat \/ exists t i, u_loc u = Open t i) ->
  core (set_up s a (Some (UpV n (u_flags u) (u_loc u)))) A m r' none.
Proof.
  intros s A m r r' a u n C U E NE LV LV'. pose proof C as [C1 C2 C3 C4 C5 C6 C7 C8 C9 C10 C11]. set (u' := UpV n (u_flags u) (u_loc u)).
  assert (B : forall b x, put (s_up s) a (Some u') b = Some x -> (b = a /\ x = u') \/ (b <> a /\ s_up s b = Some x)) by (intros b x X; unfold put in X; destruct (Z.eqb_spec b a); [left; split; congruence|right; auto]).
  assert (LL : forall b, lev (put (s_up s) a (Some u')) b = lev (s_up s) b) by (intros b; unfold lev, put; destruct (Z.eqb_spec b a) as [->|]; [rewrite U; reflexivity|reflexivity]).
  assert (OPN : forall t i, u_loc u = Open t i -> u_flags u = false -> m a = var A t i -> forall b, (0 < r b)%nat -> m b = m a -> b = a).
  { intros t i L F M b R EM. destruct (s_up s b) as [w|] eqn:W; [|rewrite (C7 b W) in R; lia]. specialize (C8 b w W R). destruct (u_loc w) as [t' i'|v] eqn:LW.
    - destruct C8 as (MB & _ & FW). rewrite EM, M in MB. unfold var in MB. injection MB as <- <- _. apply (C10 b a w u t i); assumption.
    - destruct C8 as (G & _). rewrite EM, M in G. unfold var in G. lia. }
  constructor; cbn [set_up s_stk s_open s_up]; try assumption.
  - intros t b IN. destruct (C3 t b IN) as (x & i & X & L). unfold put. destruct (Z.eqb_spec b a) as [->|]; [exists u', i; rewrite U in X; injection X as <-; auto|exists x, i; auto].
  - intros t. specialize (C4 t). revert C4. generalize (s_open s t). induction l as [|x l IH]; intros SS; [constructor|]. apply StronglySorted_inv in SS; destruct SS as [S F]. constructor; [apply IH; exact S|]. rewrite Forall_forall in *. intros b IN. rewrite !LL. apply F. exact IN.
  - intros b x t i X L. destruct (B b x X) as [[-> ->]|[_ X']]; [apply (C5 a u t i U L)|apply (C5 b x t i X' L)].
  - intros b x X. destruct (B b x X) as [[-> ->]|[NB X']]; [exact NE|rewrite (E b NB); apply (C6 b x X')].
  - intros b X. unfold put in X. destruct (Z.eqb_spec b a); [discriminate|]. rewrite E by assumption. apply C7. exact X.
  - intros b x X R. destruct (B b x X) as [[-> ->]|[NB X']].
    + cbn [u_loc u' u_flags]. destruct LV as [LV|(t & i & L & F & M)]; [apply (C8 a u U LV)|]. rewrite L. unfold none. rewrite Z.sub_0_r. split; [exact M|]. split; [rewrite M; symmetry; apply C1|exact F].
    + rewrite (E b NB) in R. apply (C8 b x X' R).
  - intros b x y X L. destruct (B b x X) as [[-> ->]|[NB X']]; [destruct LV' as [LV'|(t & i & L')]; [exact LV'|cbn [u_loc u'] in L; congruence]|rewrite (E b NB); apply (C9 b x y X' L)].
  - intros b c x y t i X Y F1 F2 L1 L2. destruct (B b x X) as [[-> ->]|[NB X']], (B c y Y) as [[-> ->]|[NC Y']]; try reflexivity; [apply (C10 a c u y t i)|apply (C10 b a x u t i)|apply (C10 b c x y t i)]; assumption.
  - intros b c R1 R2 EM. destruct (Z.eq_dec b a) as [->|NB], (Z.eq_dec c a) as [->|NC]; try reflexivity.
    + rewrite (E c NC) in R2. destruct LV as [LV|(t & i & L & F & M)]; [apply (C11 a c LV R2 EM)|]. symmetry. apply (OPN t i L F M c R2). congruence.
    + rewrite (E b NB) in R1. destruct LV as [LV|(t & i & L & F & M)]; [apply (C11 b a R1 LV EM)|]. apply (OPN t i L F M b R1 EM).
    + rewrite (E b NB) in R1. rewrite (E c NC) in R2. apply (C11 b c R1 R2 EM).
Qed.
Lemma incref_ok : forall s A m r a u, core s A m r none -> s_up s a = Some u -> ((0 < r a)%nat \/ exists t i, u_loc u = Open t i /\ u_flags u = false /\ m a = var A t i) ->
  exists s', incref s a = Ok s' /\ core s' A m (bump r a) none /\ others_same s s' /\ (forall b, (s_up s' b = None <-> s_up s b = None)).
Proof.
  intros s A m r a u C U LV. unfold incref, deref. rewrite U. cbn [bind]. eexists. split; [reflexivity|]. split.
  - apply (core_recount s A m r (bump r a) a u); try assumption.
    + intros b NB. unfold bump. destruct (Z.eqb_spec b a); [contradiction|reflexivity].
    + unfold bump. rewrite Z.eqb_refl. rewrite (c_ref _ _ _ _ _ C a u U). lia.
    + left. unfold bump. rewrite Z.eqb_refl. lia.
  - split; [repeat split|]. intros b. cbn [set_up s_up]. unfold put. destruct (Z.eqb_spec b a) as [->|]; [rewrite U; split; discriminate|tauto].
Qed.
Lemma core_free : forall s A m r a u, core s A m r none -> s_up s a = Some u -> (forall t i, u_loc u <> Open t i) -> forall r', (forall b, b <> a -> r' b = r b) -> r' a = 0%nat -> core (set_up s a None) A m r' none.
Proof.
  intros s A m r a u C U NO r' E Z0. pose proof C as [C1 C2 C3 C4 C5 C6 C7 C8 C9 C10 C11].
  assert (NI : forall t b, In b (s_open s t) -> b <> a) by (intros t b IN ->; destruct (C3 t a IN) as (x & j & X & L); rewrite U in X; injection X as <-; apply (NO t j L)).
  assert (B : forall b x, put (s_up s) a None b = Some x -> b <> a /\ s_up s b = Some x) by (intros b x X; unfold put in X; destruct (Z.eqb_spec b a); [discriminate|auto]).
  constructor; cbn [set_up s_stk s_open s_up]; try assumption.
  - intros t b IN. rewrite put_ne by (apply (NI t b IN)). apply C3. exact IN.
  - intros t. specialize (C4 t). assert (NI' : forall b, In b (s_open s t) -> b <> a) by (intros b IN; apply (NI t b IN)). clear - C4 NI'. revert C4 NI'. generalize (s_open s t). induction l as [|x l IH]; intros C4 NI; [constructor|]. apply StronglySorted_inv in C4; destruct C4 as [S F]. constructor; [apply IH; [exact S|intros b IN; apply NI; right; exact IN]|]. rewrite Forall_forall in *. intros b IN. unfold lev. rewrite !put_ne; [apply (F b IN)|apply NI; left; reflexivity|apply NI; right; exact IN].
  - intros b x t i X L. destruct (B b x X) as [_ X']. apply (C5 b x t i X' L).
  - intros b x X. destruct (B b x X) as [NB X']. rewrite (E b NB). apply (C6 b x X').
  - intros b X. destruct (Z.eq_dec b a) as [->|NB]; [exact Z0|]. rewrite (E b NB). apply C7. rewrite put_ne in X by exact NB. exact X.
  - intros b x X R. destruct (B b x X) as [NB X']. rewrite (E b NB) in R. apply (C8 b x X' R).
  - intros b x v X L. destruct (B b x X) as [NB X']. rewrite (E b NB). apply (C9 b x v X' L).
  - intros b c x y t i X Y F1 F2 L1 L2. destruct (B b x X) as [NB X'], (B c y Y) as [NC Y']. apply (C10 b c x y t i); assumption.
  - intros b c R1 R2 EM. assert (NB : b <> a) by (intros ->; lia). assert (NC : c <> a) by (intros ->; lia). rewrite (E b NB) in R1. rewrite (E c NC) in R2. apply (C11 b c R1 R2 EM).
Qed.
Definition drop (r : Z -> nat) (p : Z) : Z -> nat := fun b => if b =? p then pred (r b) else r b.
Lemma upvdec_ok : forall s A m r a, core s A m r none -> (0 < r a)%nat -> exists s', upvdeccount s a = Ok s' /\ core s' A m (drop r a) none /\ others_same s s' /\ (forall b, b <> a -> s_up s' b = s_up s b).
Proof.
  intros s A m r a C R. unfold upvdeccount, deref. destruct (s_up s a) as [u|] eqn:U; [|rewrite (c_none _ _ _ _ _ C a U) in R; lia]. cbn [bind]. pose proof (c_ref _ _ _ _ _ C a u U) as RF.
  assert (D1 : forall b, b <> a -> drop r a b = r b) by (intros b NB; unfold drop; destruct (Z.eqb_spec b a); [contradiction|reflexivity]). assert (D2 : drop r a a = pred (r a)) by (unfold drop; rewrite Z.eqb_refl; reflexivity).
  destruct ((u_ref u - 1 =? 0) && negb (match u_loc u with Open _ _ => true | Closed _ => false end)) eqn:E.
  - apply andb_true_iff in E. destruct E as [E1 E2]. apply Z.eqb_eq in E1. eexists. split; [reflexivity|]. split; [|split; [repeat split|intros b NB; cbn [set_up s_up]; apply put_ne; exact NB]]. apply (core_free s A m r a u C U); [intros t i L; rewrite L in E2; discriminate|exact D1|lia].
  - eexists. split; [reflexivity|]. split; [|split; [repeat split|intros b NB; cbn [set_up s_up]; apply put_ne; exact NB]]. apply (core_recount s A m r (drop r a) a u); try assumption; [lia|left; exact R|].
    destruct (u_loc u) as [t i|v]; [right; exists t, i; reflexivity|]. left. cbn [negb] in E. rewrite andb_true_r in E. apply Z.eqb_neq in E. lia.
Qed.
(* ---- new instances ---- *)
Lemma val_renew_old : forall A f t i g, g <= a_cur A t i -> val (renew A f) (t, i, g) = val A (t, i, g).
Proof. intros A f t i g G. cbn. destruct (Z.eqb_spec g (a_cur A t i + 1)); [lia|]. rewrite andb_false_r. reflexivity. Qed.
Definition ended (f : Z -> Z -> bool) : Z -> Z -> Z := fun t i => if f t i then 1 else 0.
Lemma core_renew : forall s A m r f, core s A m r none -> core s (renew A f) m r (ended f).
Proof.
  intros s A m r f C. pose proof C as [C1 C2 C3 C4 C5 C6 C7 C8 C9 C10 C11]. constructor; try assumption.
  - intros t i. rewrite C1. unfold var. cbn. destruct (f t i) eqn:F; cbn [andb]; [rewrite Z.eqb_refl; reflexivity|reflexivity].
  - intros a u U R. specialize (C8 a u U R). destruct (u_loc u) as [t i|v].
    + destruct C8 as (M & V & F). unfold none in M. rewrite Z.sub_0_r in M. split; [rewrite M; cbn [a_cur renew]; unfold ended; destruct (f t i); f_equal; lia|]. split; [|exact F]. rewrite M in *. rewrite val_renew_old by lia. exact V.
    + destruct C8 as (G & V). destruct (m a) as [[t i] g]. split; [cbn [a_cur renew]; destruct (f t i); lia|]. rewrite val_renew_old by lia. exact V.
Qed.
Lemma core_done : forall s A m r p, core s A m r p -> (forall a u t i, s_up s a = Some u -> (0 < r a)%nat -> u_loc u = Open t i -> p t i = 0) -> core s A m r none.
Proof.
  intros s A m r p C H. pose proof C as [C1 C2 C3 C4 C5 C6 C7 C8 C9 C10 C11]. constructor; try assumption.
  intros a u U R. specialize (C8 a u U R). destruct (u_loc u) as [t i|v] eqn:L; [|exact C8]. unfold none. rewrite (H a u t i U R L) in C8. exact C8.
Qed.
Lemma sorted_frame : forall up up' l, (forall b, In b l -> lev up' b = lev up b) -> StronglySorted (fun a b => lev up b <= lev up a) l -> StronglySorted (fun a b => lev up' b <= lev up' a) l.
Proof.
  intros up up'. induction l as [|x l IH]; intros H SS; [constructor|]. apply StronglySorted_inv in SS. destruct SS as [S F]. constructor; [apply IH; [intros b IN; apply H; right; exact IN|exact S]|]. rewrite Forall_forall in *. intros b IN. rewrite (H b (or_intror IN)), (H x (or_introl eq_refl)). apply F. exact IN.
Qed.
Lemma core_pop : forall s A m r p t a l u v, core s A m r p -> s_open s t = a :: l -> s_up s a = Some u -> u_loc u = Open t v -> p t v = 1 ->
  core (set_up (set_open s t l) a (if u_ref u =? 0 then None else Some (UpV (u_ref u) (u_flags u) (Closed (s_stk s t v))))) A m r p.
Proof.
  intros s A m r p t a l u v C EO U L P. pose proof C as [C1 C2 C3 C4 C5 C6 C7 C8 C9 C10 C11]. set (x := if u_ref u =? 0 then None else Some (UpV (u_ref u) (u_flags u) (Closed (s_stk s t v)))).
  assert (RZ : (u_ref u =? 0) = true -> r a = 0%nat) by (intros H; apply Z.eqb_eq in H; rewrite (C6 a u U) in H; lia). assert (RP : (u_ref u =? 0) = false -> (0 < r a)%nat) by (intros H; apply Z.eqb_neq in H; rewrite (C6 a u U) in H; lia).
  assert (B : forall b y, put (s_up s) a x b = Some y -> (b = a /\ (u_ref u =? 0) = false /\ y = UpV (u_ref u) (u_flags u) (Closed (s_stk s t v))) \/ (b <> a /\ s_up s b = Some y)).
  { intros b y E. unfold put in E. destruct (Z.eqb_spec b a); [left; split; [assumption|]; unfold x in E; destruct (u_ref u =? 0); [discriminate|split; congruence]|right; auto]. }
  assert (OP : forall t', put (s_open s) t l t' = if t' =? t then l else s_open s t') by reflexivity.
  assert (NA : forall t' b, In b (put (s_open s) t l t') -> In b (s_open s t') /\ b <> a).
  { intros t' b IN. rewrite OP in IN. destruct (Z.eqb_spec t' t) as [->|NT].
    - rewrite EO. split; [right; exact IN|]. intros ->. specialize (C2 t). rewrite EO in C2. inversion C2; contradiction.
    - split; [exact IN|]. intros ->. destruct (C3 t' a IN) as (y & j & Y & LY). congruence. }
  constructor; cbn [set_up set_open s_stk s_open s_up]; try assumption.
  - intros t'. rewrite OP. destruct (Z.eqb_spec t' t) as [->|]; [|apply C2]. specialize (C2 t). rewrite EO in C2. inversion C2; assumption.
  - intros t' b IN. destruct (NA t' b IN) as [IN' NB]. rewrite put_ne by exact NB. apply C3. exact IN'.
  - intros t'. apply (sorted_frame (s_up s)); [intros b IN; destruct (NA t' b IN) as [_ NB]; unfold lev; rewrite put_ne by exact NB; reflexivity|]. rewrite OP. destruct (Z.eqb_spec t' t) as [->|]; [|apply C4]. specialize (C4 t). rewrite EO in C4. apply StronglySorted_inv in C4. apply C4.
  - intros b y t' i E LY. destruct (B b y E) as [(-> & _ & ->)|[NB E']]; [discriminate|]. pose proof (C5 b y t' i E' LY) as IN. rewrite OP. destruct (Z.eqb_spec t' t) as [->|]; [|exact IN]. rewrite EO in IN. destruct IN; [congruence|assumption].
  - intros b y E. destruct (B b y E) as [(-> & _ & ->)|[NB E']]; [apply (C6 a u U)|apply (C6 b y E')].
  - intros b E. unfold put in E. destruct (Z.eqb_spec b a) as [EB|NB]; [rewrite EB; unfold x in E; destruct (u_ref u =? 0); [apply RZ; reflexivity|discriminate]|apply C7; exact E].
  - intros b y E R. destruct (B b y E) as [(-> & NZ & ->)|[NB E']]; [|apply (C8 b y E' R)]. cbn [u_loc]. specialize (C8 a u U R). rewrite L in C8. destruct C8 as (M & V & _). split; [rewrite M, P; lia|exact V].
  - intros b y w E LY. destruct (B b y E) as [(-> & NZ & ->)|[NB E']]; [apply RP; exact NZ|apply (C9 b y w E' LY)].
  - intros b c y z t' i E1 E2 F1 F2 L1 L2. destruct (B b y E1) as [(-> & _ & ->)|[_ E1']]; [discriminate|]. destruct (B c z E2) as [(-> & _ & ->)|[_ E2']]; [discriminate|]. apply (C10 b c y z t' i); assumption.
Qed.
Lemma close_ok : forall fuel s A m r p t level, core s A m r p -> (forall v, level <= v -> p t v = 1) -> (length (s_open s t) <= fuel)%nat -> exists s', luaF_close no_call fuel s t level NOCLOSINGMETH = Ok (s', NOCLOSINGMETH) /\ core s' A m r p /\ others_same s s' /\
  forall a u i, s_up s' a = Some u -> u_loc u = Open t i -> i < level.
Proof.
  induction fuel as [|fuel IH]; intros s A m r p t level C P F; cbn [luaF_close].
  - destruct (s_open s t) as [|a l] eqn:EO; [|cbn [length] in F; lia]. exists s. split; [reflexivity|]. split; [exact C|]. split; [repeat split|]. intros a u i U L. pose proof (c_in _ _ _ _ _ C a u t i U L) as IN. rewrite EO in IN. destruct IN.
  - destruct (s_open s t) as [|a l] eqn:EO.
    + exists s. split; [reflexivity|]. split; [exact C|]. split; [repeat split|]. intros a u i U L. pose proof (c_in _ _ _ _ _ C a u t i U L) as IN. rewrite EO in IN. destruct IN.
    + destruct (c_list _ _ _ _ _ C t a) as (u & v & U & L); [rewrite EO; left; reflexivity|]. unfold deref, level_of. rewrite U. cbn [bind]. rewrite L, Z.eqb_refl. cbn [bind]. destruct (Z.leb_spec level v) as [LE|GT].
      * pose proof (core_pop s A m r p t a l u v C EO U L (P v LE)) as CP.
        assert (OP : s_open (set_up (set_open s t l) a (if u_ref u =? 0 then None else Some (UpV (u_ref u) (u_flags u) (Closed (s_stk s t v))))) t = l) by (cbn [set_up set_open s_open]; apply put_eq).
        change (NOCLOSINGMETH =? NOCLOSINGMETH) with true. cbn [negb andb].
        destruct (IH _ A m r p t level CP P) as (s' & E & C' & (O1 & O2 & O3) & H); [rewrite OP; cbn [length] in F; lia|].
        exists s'. split; [|split; [exact C'|split; [repeat split; assumption|exact H]]]. destruct (u_ref u =? 0); exact E.
      * exists s. split; [reflexivity|]. split; [exact C|]. split; [repeat split|]. intros b w i W LW. pose proof (c_in _ _ _ _ _ C b w t i W LW) as IN. rewrite EO in IN. destruct IN as [<-|IN]; [rewrite U in W; injection W as <-; rewrite L in LW; injection LW as ->; lia|].
        pose proof (c_sort _ _ _ _ _ C t) as SS. rewrite EO in SS. apply StronglySorted_inv in SS. destruct SS as [_ SS]. rewrite Forall_forall in SS. specialize (SS b IN). unfold lev in SS. rewrite W, LW, U, L in SS. lia.
Qed.
(* ---- closures ---- *)
Lemma counts_pos : forall c k l a, nth_error c k = Some (Some l) -> In a l -> (0 < counts c a)%nat.
Proof.
  induction c as [|x c IH]; intros [|k] l a E IN; try discriminate; cbn [nth_error] in E.
  - injection E as ->. cbn [counts]. apply (count_occ_In Z.eq_dec) in IN. unfold count. lia.
  - specialize (IH k l a E IN). destruct x; cbn [counts]; lia.
Qed.
Lemma counts_app : forall c l a, counts (c ++ [Some l]) a = (counts c a + count l a)%nat.
Proof. induction c as [|[x|] c IH]; intros l a; cbn [app counts]; [lia| |]; rewrite IH; lia. Qed.
Lemma counts_upd : forall c k l x a, nth_error c k = Some (Some l) -> (counts (update c k x) a + count l a = counts c a + match x with Some y => count y a | None => 0 end)%nat.
Proof.
  induction c as [|y c IH]; intros [|k] l x a E; try discriminate; cbn [nth_error] in E.
  - injection E as ->. cbn [update counts]. destruct x; lia.
  - specialize (IH k l x a E). destruct y; cbn [update counts]; lia.
Qed.
Lemma cells_nth : forall m c k x, nth_error (cells m c) k = Some (Some x) -> exists l, nth_error c k = Some (Some l) /\ x = map m l.
Proof. intros m c k x E. unfold cells in E. rewrite nth_error_map in E. destruct (nth_error c k) as [[l|]|]; try discriminate. cbn in E. injection E as <-. exists l. auto. Qed.
Lemma cells_ext : forall m m' c, (forall a, (0 < counts c a)%nat -> m' a = m a) -> cells m' c = cells m c.
Proof.
  intros m m' c H. unfold cells. apply map_ext_in. intros o IN. destruct o as [l|]; [|reflexivity]. cbn. f_equal. apply map_ext_in. intros a IA. apply H. apply In_nth_error in IN. destruct IN as (k & E). apply (counts_pos c k l a E IA).
Qed.
Lemma at_nth : forall m l n x, at_ (map m l) n x -> exists a, idx l n = Ok a /\ In a l /\ x = m a /\ nth_error l (Z.to_nat n) = Some a.
Proof. intros m l n x [N E]. rewrite nth_error_map in E. unfold idx. destruct (Z.ltb_spec n 0); [lia|]. destruct (nth_error l (Z.to_nat n)) as [a|] eqn:EN; [|discriminate]. cbn in E. injection E as <-. exists a. repeat split. apply (nth_error_In _ _ EN). Qed.
Lemma cached_ok_ok : forall ds s A m r c encup t base, core s A m r none -> (forall a, In a c -> (0 < r a)%nat) -> (forall a, In a encup -> (0 < r a)%nat) -> length c = length ds ->
  (forall d, In d ds -> d_instack d = false -> exists x, at_ (map m encup) (d_idx d) x) ->
  exists b, cached_ok s c encup t base ds = Ok b /\ (b = true -> captured A t base (map m encup) ds = map Some (map m c)).
Proof.
  induction ds as [|d ds IH]; intros s A m r c encup t base C LC LE LEN AT; destruct c as [|a c]; try discriminate; cbn [cached_ok].
  - exists true. split; [reflexivity|]. reflexivity.
  - assert (RA : (0 < r a)%nat) by (apply LC; left; reflexivity). unfold deref at 1. destruct (s_up s a) as [u|] eqn:U; [|rewrite (c_none _ _ _ _ _ C a U) in RA; lia]. cbn [bind]. pose proof (c_live _ _ _ _ _ C a u U RA) as LV.
    destruct (IH s A m r c encup t base C (fun b IN => LC b (or_intror IN)) LE ltac:(cbn in LEN; lia) (fun d IN => AT d (or_intror IN))) as (b & E & H). destruct (d_instack d) eqn:D.
    + cbn [bind]. destruct (points_to u t (base + d_idx d)) eqn:P; [|exists false; split; [reflexivity|discriminate]]. exists b. split; [exact E|]. intros TB. specialize (H TB). cbn [captured map]. rewrite D. unfold captured in H. rewrite H. f_equal. f_equal.
      unfold points_to in P. destruct (u_loc u) as [t' i'|v]; [|discriminate]. apply andb_true_iff in P. destruct P as [P1 P2]. apply Z.eqb_eq in P1. apply Z.eqb_eq in P2. subst t' i'. destruct LV as (M & _). unfold none in M. rewrite Z.sub_0_r in M. symmetry. exact M.
    + destruct (AT d (or_introl eq_refl) D) as (x & AX). destruct (at_nth m encup (d_idx d) x AX) as (e & E1 & E2 & E3 & E4). rewrite E1. cbn [bind]. assert (RE : (0 < r e)%nat) by (apply LE; exact E2). unfold deref. destruct (s_up s e) as [w|] eqn:W; [|rewrite (c_none _ _ _ _ _ C e W) in RE; lia]. cbn [bind]. pose proof (c_live _ _ _ _ _ C e w W RE) as LW.
      destruct (same_v a u e w) eqn:P; [|exists false; split; [reflexivity|discriminate]]. exists b. split; [exact E|]. intros TB. specialize (H TB). cbn [captured map]. rewrite D. unfold captured in H. rewrite H. f_equal. rewrite nth_error_map, E4. cbn. f_equal.
      unfold same_v in P. destruct (u_loc u) as [t1 i1|v1], (u_loc w) as [t2 i2|v2]; try discriminate.
      * apply andb_true_iff in P. destruct P as [P1 P2]. apply Z.eqb_eq in P1. apply Z.eqb_eq in P2. subst. destruct LV as (M & _), LW as (M' & _). congruence.
      * apply Z.eqb_eq in P. congruence.
Qed.
Lemma fill_ok : forall ds s A m r encup t base fresh cs, core s A m r none -> (forall a, In a encup -> (0 < r a)%nat) -> length fresh = length ds -> NoDup fresh -> (forall a, In a fresh -> s_up s a = None) ->
  (forall d, In d ds -> d_instack d = false -> exists x, at_ (map m encup) (d_idx d) x) -> captured A t base (map m encup) ds = map Some cs ->
  exists l s' m', fill s encup t base ds fresh = Ok (l, s') /\ core s' A m' (fun b => (r b + count l b)%nat) none /\ others_same s s' /\ map m' l = cs /\ forall b, (0 < r b)%nat -> m' b = m b.
Proof.
  induction ds as [|d ds IH]; intros s A m r encup t base fresh cs C LE LF ND FR AT CP; destruct fresh as [|f fresh]; try discriminate; cbn [fill].
  - exists [], s, m. split; [reflexivity|]. split; [apply (core_refs s A m r); [intros a; cbn; lia|exact C]|]. split; [repeat split|]. split; [destruct cs; [reflexivity|discriminate]|auto].
  - destruct cs as [|cx cs]; [discriminate|]. cbn [captured map] in CP. injection CP as CX CP. inversion ND as [|? ? NF ND']; subst.
    assert (STEP : exists a s1 m1 s2, (if d_instack d then luaF_findupval s t (base + d_idx d) f else bind (idx encup (d_idx d)) (fun a => Ok (a, s))) = Ok (a, s1) /\ incref s1 a = Ok s2 /\ core s2 A m1 (bump r a) none /\ others_same s s2 /\ m1 a = cx /\ (forall b, (0 < r b)%nat -> m1 b = m b) /\ (forall b, b <> f -> s_up s b = None -> s_up s2 b = None)).
    { destruct (d_instack d) eqn:D.
      - injection CX as CX. destruct (findupval_ok s A m r t (base + d_idx d) f C (FR f (or_introl eq_refl))) as (a & s1 & E1 & C1 & (O1 & O2 & O3) & (u & U & FL & LO) & PA & OT).
        set (m1 := fun b => if b =? a then cx else m b).
        assert (MO : forall b, (0 < r b)%nat -> m1 b = m b).
        { intros b R. unfold m1. destruct (Z.eqb_spec b a) as [->|]; [|reflexivity]. pose proof (c_live _ _ _ _ _ C1 a u U R) as LV. rewrite LO in LV. destruct LV as (M & _). unfold none in M. rewrite Z.sub_0_r in M. rewrite M. symmetry. exact CX. }
        pose proof (core_map s1 A m m1 r none MO C1) as C1'.
        destruct (incref_ok s1 A m1 r a u C1' U) as (s2 & E2 & C2 & (O4 & O5 & O6) & NN); [right; exists t, (base + d_idx d); unfold m1; rewrite Z.eqb_refl; auto|].
        exists a, s1, m1, s2. split; [exact E1|]. split; [exact E2|]. split; [exact C2|]. split; [repeat split; congruence|]. split; [unfold m1; rewrite Z.eqb_refl; reflexivity|]. split; [exact MO|]. intros b NB N. apply NN. rewrite OT by exact NB. exact N.
      - destruct (AT d (or_introl eq_refl) D) as (x & AX). destruct (at_nth m encup (d_idx d) x AX) as (a & E1 & E2 & E3 & E4). rewrite E1. cbn [bind]. assert (RA : (0 < r a)%nat) by (apply LE; exact E2). destruct (s_up s a) as [u|] eqn:U; [|rewrite (c_none _ _ _ _ _ C a U) in RA; lia].
        destruct (incref_ok s A m r a u C U (or_introl RA)) as (s2 & E5 & C2 & O & NN). exists a, s, m, s2. split; [reflexivity|]. split; [exact E5|]. split; [exact C2|]. split; [exact O|]. split; [|split; [auto|intros b _ N; apply NN; exact N]]. destruct AX as [_ AX]. rewrite AX in CX. congruence. }
    destruct STEP as (a & s1 & m1 & s2 & E1 & E2 & C2 & (O1 & O2 & O3) & MA & MO & NN). rewrite E1. cbn [bind]. rewrite E2. cbn [bind].
    assert (EM : map m1 encup = map m encup) by (apply map_ext_in; intros b IN; apply MO; apply LE; exact IN).
    destruct (IH s2 A m1 (bump r a) encup t base fresh cs C2) as (l & s' & m' & E3 & C3 & (O4 & O5 & O6) & ML & MO'); try assumption.
    + intros b IN. unfold bump. specialize (LE b IN). destruct (b =? a); lia.
    + cbn in LF. lia.
    + intros b IN. apply NN; [intros ->; contradiction|apply FR; right; exact IN].
    + intros d' IN D'. rewrite EM. apply (AT d' (or_intror IN) D').
    + rewrite EM. exact CP.
    + rewrite E3. cbn [bind]. exists (a :: l), s', m'. split; [reflexivity|]. split.
      * apply (core_refs s' A m' (fun b => (bump r a b + count l b)%nat)); [|exact C3]. intros b. unfold bump, count. cbn [count_occ]. destruct (Z.eqb_spec b a) as [->|NB]; [destruct (Z.eq_dec a a); [lia|congruence]|destruct (Z.eq_dec a b); [congruence|lia]].
      * split; [repeat split; congruence|]. split; [cbn [map]; rewrite ML, MO', MA by (unfold bump; rewrite Z.eqb_refl; lia); reflexivity|]. intros b R. rewrite MO'; [apply MO; exact R|]. unfold bump. destruct (b =? a); lia.
Qed.
Lemma decs_ok : forall l s A m r, core s A m r none -> (forall a, (count l a <= r a)%nat) -> exists s', decs s l = Ok s' /\ core s' A m (fun a => (r a - count l a)%nat) none /\ others_same s s'.
Proof.
  induction l as [|a l IH]; intros s A m r C H; cbn [decs].
  - exists s. split; [reflexivity|]. split; [apply (core_refs s A m r); [intros b; cbn; lia|exact C]|repeat split].
  - assert (RA : (0 < r a)%nat) by (specialize (H a); unfold count in H; cbn [count_occ] in H; destruct (Z.eq_dec a a); [lia|congruence]).
    destruct (upvdec_ok s A m r a C RA) as (s1 & E1 & C1 & (O1 & O2 & O3) & _). rewrite E1. cbn [bind].
    assert (D : forall b, count (a :: l) b = if b =? a then S (count l b) else count l b) by (intros b; unfold count; cbn [count_occ]; destruct (Z.eq_dec a b), (Z.eqb_spec b a); congruence).
    destruct (IH s1 A m (drop r a) C1) as (s' & E & C' & (O4 & O5 & O6)).
    + intros b. specialize (H b). rewrite D in H. unfold drop. destruct (b =? a); lia.
    + exists s'. split; [exact E|]. split; [|repeat split; congruence]. apply (core_refs s' A m (fun b => (drop r a b - count l b)%nat)); [|exact C']. intros b. rewrite D. unfold drop. destruct (b =? a); lia.
Qed.
Lemma core_flag : forall s A m r a u, core s A m r none -> s_up s a = Some u -> r a = 0%nat -> core (set_up s a (Some (UpV (u_ref u) true (u_loc u)))) A m r none.
Proof.
  intros s A m r a u C U R0. pose proof C as [C1 C2 C3 C4 C5 C6 C7 C8 C9 C10 C11]. set (u' := UpV (u_ref u) true (u_loc u)).
  assert (B : forall b x, put (s_up s) a (Some u') b = Some x -> (b = a /\ x = u') \/ (b <> a /\ s_up s b = Some x)) by (intros b x E; unfold put in E; destruct (Z.eqb_spec b a); [left; split; congruence|right; auto]).
  assert (LV : forall b, lev (put (s_up s) a (Some u')) b = lev (s_up s) b) by (intros b; unfold lev, put; destruct (Z.eqb_spec b a) as [->|]; [rewrite U; reflexivity|reflexivity]).
  constructor; cbn [set_up s_stk s_open s_up]; try assumption.
  - intros t b IN. destruct (C3 t b IN) as (x & i & X & L). destruct (Z.eqb_spec b a) as [->|NB]; [exists u', i; rewrite put_eq; split; [reflexivity|]; rewrite U in X; injection X as <-; exact L|exists x, i; rewrite put_ne by exact NB; auto].
  - intros t. apply (sorted_frame (s_up s)); [intros b _; apply LV|apply C4].
  - intros b x t i E L. destruct (B b x E) as [[-> ->]|[NB E']]; [apply (C5 a u t i U L)|apply (C5 b x t i E' L)].
  - intros b x E. destruct (B b x E) as [[-> ->]|[NB E']]; [apply (C6 a u U)|apply (C6 b x E')].
  - intros b E. unfold put in E. destruct (Z.eqb_spec b a); [discriminate|apply C7; exact E].
  - intros b x E R. destruct (B b x E) as [[-> ->]|[NB E']]; [lia|apply (C8 b x E' R)].
  - intros b x v E L. destruct (B b x E) as [[-> ->]|[NB E']]; [apply (C9 a u v U L)|apply (C9 b x v E' L)].
  - intros b c x y t i E1 E2 F1 F2 L1 L2. destruct (B b x E1) as [[-> ->]|[N1 E1']]; [discriminate|]. destruct (B c y E2) as [[-> ->]|[N2 E2']]; [discriminate|]. apply (C10 b c x y t i); assumption.
Qed.
Lemma counts_in : forall c a, (0 < counts c a)%nat -> exists k l, nth_error c k = Some (Some l) /\ In a l.
Proof.
  induction c as [|[l|] c IH]; intros a H; cbn [counts] in H; [lia| |].
  - destruct (count l a) as [|n] eqn:E; [destruct (IH a H) as (k & l' & E1 & E2); exists (S k), l'; auto|]. exists 0%nat, l. split; [reflexivity|]. apply (count_occ_In Z.eq_dec). unfold count in E. lia.
  - destruct (IH a H) as (k & l' & E1 & E2). exists (S k), l'. auto.
Qed.
Lemma free_slot : forall s A m t i, a_clos A = cells m (s_clos s) -> uncaptured A t i -> forall a, (0 < counts (s_clos s) a)%nat -> m a <> var A t i.
Proof.
  intros s A m t i EC UC a R E. destruct (counts_in _ _ R) as (k & l & E1 & E2). apply (UC k (map m l)).
  - unfold clos. rewrite EC. unfold cells. rewrite nth_error_map, E1. reflexivity.
  - rewrite <- E. apply in_map. exact E2.
Qed.
Lemma core_newvar : forall s A m t i v r, core s A m r none -> (forall a, (0 < r a)%nat -> m a <> var A t i) -> core (set_stk s t i v) (let B := renew A (slot t i) in write B (var B t i) v) m r none.
Proof.
  intros s A m t i v r C H. cbv zeta. apply core_set_slot. apply (core_done _ _ _ _ (ended (slot t i))); [apply core_renew; exact C|]. intros a u t' i' U R L. unfold ended, slot. destruct (Z.eqb_spec t' t) as [->|]; [|reflexivity]. destruct (Z.eqb_spec i' i) as [->|]; [|reflexivity]. exfalso.
  pose proof (c_live _ _ _ _ _ C a u U R) as LV. rewrite L in LV. destruct LV as (M & _). unfold none in M. rewrite Z.sub_0_r in M. apply (H a R). exact M.
Qed.
Lemma clos_of : forall s A m k c, a_clos A = cells m (s_clos s) -> clos A k c -> exists l, closure s k = Ok l /\ c = map m l /\ nth_error (s_clos s) k = Some (Some l) /\ forall a, In a l -> (0 < counts (s_clos s) a)%nat.
Proof. intros s A m k c EC H. unfold clos in H. rewrite EC in H. destruct (cells_nth m (s_clos s) k c H) as (l & E & ->). exists l. unfold closure. rewrite E. repeat split. intros a IN. apply (counts_pos _ _ _ _ E IN). Qed.
Lemma cells_upd : forall m c k x, cells m (update c k x) = update (cells m c) k (option_map (map m) x). Proof. intros. unfold cells. apply map_upd. Qed.
Lemma count_upd : forall l n x y a, nth_error l n = Some x -> (count (update l n y) a + (if Z.eq_dec x a then 1 else 0) = count l a + (if Z.eq_dec y a then 1 else 0))%nat.
Proof.
  induction l as [|z l IH]; intros [|n] x y a E; try discriminate; cbn [nth_error] in E.
  - injection E as ->. cbn [update]. unfold count. cbn [count_occ]. destruct (Z.eq_dec x a), (Z.eq_dec y a); lia.
  - specialize (IH n x y a E). cbn [update]. unfold count in *. cbn [count_occ]. destruct (Z.eq_dec z a); lia.
Qed.
Lemma upd_same : forall X (l : list X) k x, nth_error l k = Some x -> update l k x = l. Proof. induction l as [|y l IH]; intros [|k] x E; try discriminate; cbn in *; [congruence|]. rewrite IH; auto. Qed.
Lemma write_clos : forall A c v, a_clos (write A c v) = a_clos A. Proof. intros A [[t i] g] v. reflexivity. Qed.
Lemma at_fun : forall c n x y, at_ c n x -> at_ c n y -> x = y. Proof. intros c n x y [_ E1] [_ E2]. congruence. Qed.
Lemma clos_fun : forall A k c d, clos A k c -> clos A k d -> c = d. Proof. unfold clos. intros. congruence. Qed.
Lemma map_some_inj : forall X (a b : list X), map Some a = map Some b -> a = b. Proof. induction a as [|x a IH]; intros [|y b] E; try discriminate; [reflexivity|]. injection E as -> E. f_equal. apply IH. exact E. Qed.
Lemma clos_lt : forall A k c, clos A k c -> (k < length (a_clos A))%nat. Proof. unfold clos. intros A k c E. apply nth_error_Some. congruence. Qed.
Lemma astep_det : forall A o r B1 B2, astep A o r B1 -> astep A o r B2 -> B1 = B2.
Proof.
  intros A o r B1 B2 H1 H2. destruct H1; inversion H2; subst; try reflexivity;
  repeat match goal with
  | H : clos ?A ?k ?c, H' : clos ?A ?k ?d |- _ => tryif constr_eq c d then fail else (pose proof (clos_fun _ _ _ _ H H'); subst)
  | H : at_ ?c ?n ?x, H' : at_ ?c ?n ?y |- _ => tryif constr_eq x y then fail else (pose proof (at_fun _ _ _ _ H H'); subst)
  end; try reflexivity.
  - f_equal. f_equal. f_equal. f_equal. apply map_some_inj. congruence.
  - exfalso. repeat match goal with H : clos _ _ _ |- _ => apply clos_lt in H end. lia.
  - exfalso. repeat match goal with H : clos _ _ _ |- _ => apply clos_lt in H end. lia.
Qed.
Lemma captured_some : forall A t base e ds, (forall d, In d ds -> d_instack d = false -> exists x, at_ e (d_idx d) x) -> exists cs, captured A t base e ds = map Some cs.
Proof.
  intros A t base e. induction ds as [|d ds IH]; intros H; [exists []; reflexivity|]. destruct IH as (cs & E); [intros d' IN; apply H; right; exact IN|]. unfold captured in *. cbn [map]. rewrite E. destruct (d_instack d) eqn:D.
  - exists (var A t (base + d_idx d) :: cs). reflexivity.
  - destruct (H d (or_introl eq_refl) D) as (x & _ & X). exists (x :: cs). rewrite X. reflexivity.
Qed.
Lemma cap_len : forall A t base e ds cs, captured A t base e ds = map Some cs -> length cs = length ds.
Proof. intros A t base e ds cs E. apply (f_equal (@length _)) in E. unfold captured in E. rewrite !map_length in E. auto. Qed.
Lemma fill_len : forall ds s encup t base fresh l s', fill s encup t base ds fresh = Ok (l, s') -> length l = length ds.
Proof.
  induction ds as [|d ds IH]; intros s encup t base fresh l s' E; cbn [fill] in E; [injection E as <- _; reflexivity|]. destruct fresh as [|f fresh]; [discriminate|].
  destruct (if d_instack d then luaF_findupval s t (base + d_idx d) f else bind (idx encup (d_idx d)) (fun a => Ok (a, s))) as [[a s1]| | |]; try discriminate. cbn [bind] in E. destruct (incref s1 a) as [s2| | |]; try discriminate. cbn [bind] in E.
  destruct (fill s2 encup t base ds fresh) as [[l' s3]| | |] eqn:F; try discriminate. cbn [bind] in E. injection E as <- _. cbn [length]. f_equal. apply (IH _ _ _ _ _ _ _ F).
Qed.
Lemma step_ok : forall protos s A o, rel protos s A -> legal protos s A o -> exists s' r A', step s o = Ok (s', r) /\ astep A o r A' /\ rel protos s' A'.
Proof.
  intros protos s A o (m & C & EC & CA) L. destruct o as [t i v|t i|k n|k n v|p enc t base ds fresh b|t i a|t level|k|k1 n1 k2 n2|t i v]; cbn [legal step] in *.
  - exists (set_stk s t i v), None, (write A (var A t i) v). split; [reflexivity|]. split; [constructor|]. exists m. split; [apply core_set_slot; exact C|]. split; [rewrite write_clos; exact EC|exact CA].
  - exists s, (Some (s_stk s t i)), A. split; [reflexivity|]. split; [rewrite (c_slot _ _ _ _ _ C); constructor|]. exists m. auto.
  - destruct L as (c & x & HC & HX). destruct (clos_of s A m k c EC HC) as (l & E1 & -> & _ & LV). rewrite E1. cbn [bind]. destruct (at_nth m l n x HX) as (a & E2 & IN & EX & _). rewrite E2. cbn [bind]. rewrite (get_up_ok s A m _ none a C (LV a IN)). cbn [bind]. exists s, (Some (val A (m a))), A. split; [reflexivity|]. split; [rewrite <- EX; apply (S_getup A k n (map m l) x); assumption|]. exists m. auto.
  - destruct L as (c & x & HC & HX). destruct (clos_of s A m k c EC HC) as (l & E1 & -> & _ & LV). rewrite E1. cbn [bind]. destruct (at_nth m l n x HX) as (a & E2 & IN & EX & _). rewrite E2. cbn [bind]. destruct (put_up_ok s A m _ a v C (LV a IN)) as (s' & E3 & C' & O1 & O2). rewrite E3. cbn [bind]. exists s', None, (write A x v). split; [reflexivity|]. split; [apply (S_setup A k n v (map m l) x); assumption|].
    exists m. rewrite O1, O2, EX. split; [exact C'|]. split; [rewrite write_clos; exact EC|exact CA].
  - destruct L as (-> & (e & HE & AT) & LF & ND & FR). destruct (clos_of s A m enc e EC HE) as (encup & E1 & -> & _ & LVE). unfold op_closure. rewrite E1. cbn [bind].
    assert (NEW : forall s1, s1 = s -> exists s' r A', bind (bind (fill s1 encup t base (protos p) fresh) (fun '(l, s) => let k := length (s_clos s) in let s := set_clos s (s_clos s ++ [Some l]) in Ok (k, if b then s else St (s_stk s) (s_open s) (s_up s) (s_clos s) (put (s_cache s) p (Some k))))) (fun '(k, s) => Ok (s, Some (VFun (Z.of_nat k)))) = Ok (s', r) /\ astep A (Closure p enc t base (protos p) fresh b) r A' /\ rel protos s' A').
    { intros s1 ->. destruct (captured_some A t base (map m encup) (protos p) AT) as (cs & CP). destruct (fill_ok (protos p) s A m _ encup t base fresh cs C LVE LF ND FR AT CP) as (l & s' & m' & E & C' & (O1 & O2 & O3) & ML & MO). rewrite E. cbn [bind].
      set (s2 := set_clos s' (s_clos s' ++ [Some l])). set (A' := with_clos A (a_clos A ++ [Some cs])).
      assert (LEN : length l = length (protos p)) by (apply (fill_len _ _ _ _ _ _ _ _ E)).
      assert (C2 : core s2 A' m' (counts (s_clos s2)) none).
      { apply (core_st s' s2 A A'); try reflexivity. unfold s2, set_clos. cbn [s_clos]. rewrite O2. apply (core_refs s' A m' (fun b => (counts (s_clos s) b + count l b)%nat)); [intros a; symmetry; apply counts_app|exact C']. }
      assert (EC2 : a_clos A' = cells m' (s_clos s2)).
      { unfold A', s2, set_clos, with_clos. cbn [s_clos a_clos]. unfold cells. rewrite O2, map_app. cbn [map option_map]. rewrite ML. f_equal. rewrite EC. symmetry. apply cells_ext. exact MO. }
      assert (ST : astep A (Closure p enc t base (protos p) fresh b) (Some (VFun (Z.of_nat (length (s_clos s'))))) A').
      { rewrite O2. replace (length (s_clos s)) with (length (a_clos A)) by (rewrite EC; unfold cells; apply map_length). apply (S_closure A p enc t base (protos p) fresh b (map m encup) cs HE CP). }
      assert (CA2 : forall q k, s_cache s q = Some k -> exists c, nth_error (s_clos s2) k = Some (Some c) /\ length c = length (protos q)).
      { intros q k Q. destruct (CA q k Q) as (c & N & LC). exists c. split; [|exact LC]. unfold s2, set_clos. cbn [s_clos]. rewrite O2. rewrite nth_error_app1; [exact N|]. apply nth_error_Some. congruence. }
      exists (if b then s2 else St (s_stk s2) (s_open s2) (s_up s2) (s_clos s2) (put (s_cache s2) p (Some (length (s_clos s'))))), (Some (VFun (Z.of_nat (length (s_clos s'))))), A'. split; [reflexivity|]. split; [exact ST|]. exists m'. destruct b.
      - split; [exact C2|]. split; [exact EC2|]. intros q k Q. unfold s2, set_clos in Q. cbn [s_cache] in Q. rewrite O3 in Q. apply CA2. exact Q.
      - cbn [s_clos]. split; [apply (core_st s2 _ A' A'); try reflexivity; exact C2|]. split; [exact EC2|]. cbn [s_cache]. intros q k Q. unfold put in Q. destruct (Z.eqb_spec q p) as [->|]; [|unfold s2, set_clos in Q; cbn [s_cache] in Q; rewrite O3 in Q; apply CA2; exact Q]. injection Q as <-. exists l. split; [|exact LEN]. unfold s2, set_clos. cbn [s_clos]. rewrite nth_error_app2 by lia. rewrite Nat.sub_diag. reflexivity. }
    destruct (s_cache s p) as [k|] eqn:EK.
    + destruct (CA p k EK) as (c & NC & LC). unfold closure at 1. rewrite NC. cbn [bind]. assert (LVC : forall a, In a c -> (0 < counts (s_clos s) a)%nat) by (intros a IN; apply (counts_pos _ _ _ _ NC IN)).
      destruct (cached_ok_ok (protos p) s A m _ c encup t base C LVC LVE LC AT) as (ok & E2 & H). rewrite E2. cbn [bind]. destruct ok; [|apply (NEW s eq_refl)]. cbn [bind]. exists s, (Some (VFun (Z.of_nat k))), A. split; [reflexivity|]. split; [|exists m; auto]. apply (S_reuse A p enc t base (protos p) fresh b (map m encup) (map m c) k HE (H eq_refl)). unfold clos. rewrite EC. unfold cells. rewrite nth_error_map, NC. reflexivity.
    + cbn [bind]. apply (NEW s eq_refl).
  - destruct L as (UC & N). destruct (findupval_ok s A m _ t i a C N) as (q & s1 & E1 & C1 & (O1 & O2 & O3) & (u & U & FL & LO) & _ & _). rewrite E1. cbn [bind]. unfold deref. rewrite U. cbn [bind]. pose proof (free_slot s A m t i EC UC) as FS.
    assert (R0 : counts (s_clos s) q = 0%nat). { destruct (counts (s_clos s) q) as [|n] eqn:E; [reflexivity|]. exfalso. apply (FS q); [lia|]. pose proof (c_live _ _ _ _ _ C1 q u U ltac:(lia)) as LV. rewrite LO in LV. destruct LV as (M & _). unfold none in M. rewrite Z.sub_0_r in M. exact M. }
    pose proof (core_flag s1 A m _ q u C1 U R0) as C2. pose proof (core_newvar _ A m t i VNil _ C2 FS) as C3.
    eexists. exists None. eexists. split; [reflexivity|]. split; [constructor|]. exists m. split; [cbn [set_stk set_up s_clos]; rewrite O2; exact C3|]. split; [cbv zeta; rewrite write_clos; cbn [renew a_clos set_stk set_up s_clos]; rewrite O2; exact EC|]. cbn [set_stk set_up s_clos s_cache]. rewrite O2, O3. exact CA.
  - pose proof (core_renew s A m _ (from t level) C) as C1. destruct (close_ok (length (s_open s t)) s (renew A (from t level)) m _ _ t level C1) as (s' & E & C2 & (O1 & O2 & O3) & H).
    + intros v LE. unfold ended, from. rewrite Z.eqb_refl. destruct (Z.leb_spec level v); [reflexivity|lia].
    + lia.
    + rewrite E. cbn [bind]. exists s', None, (renew A (from t level)). split; [reflexivity|]. split; [constructor|]. exists m. rewrite O2, O3. split; [|split; [exact EC|exact CA]]. apply (core_done _ _ _ _ _ C2). intros a u t' i U _ LO. unfold ended, from. destruct (Z.eqb_spec t' t) as [->|]; [|reflexivity]. specialize (H a u i U LO). destruct (Z.leb_spec level i); [lia|reflexivity].
  - destruct L as (c & HC). destruct (clos_of s A m k c EC HC) as (l & E1 & -> & NL & LV). unfold freeLclosure. rewrite E1. cbn [bind].
    assert (CU : forall a, (counts (update (s_clos s) k None) a + count l a = counts (s_clos s) a)%nat) by (intros a; pose proof (counts_upd (s_clos s) k l None a NL) as K; cbv beta iota in K; lia).
    destruct (decs_ok l s A m _ C) as (s1 & E2 & C1 & (O1 & O2 & O3)); [intros a; specialize (CU a); lia|]. rewrite E2. cbn [bind]. rewrite replace_upd, O2.
    eexists. exists None, (with_clos A (update (a_clos A) k None)). split; [reflexivity|]. split; [apply (S_free A k (map m l) HC)|]. exists m. cbn [s_clos s_cache]. split; [|split].
    + apply core_clos. apply (core_refs s1 A m (fun a => (counts (s_clos s) a - count l a)%nat)); [|exact C1]. intros a. specialize (CU a). lia.
    + cbn [with_clos a_clos]. rewrite cells_upd, EC. reflexivity.
    + intros p k' Q. rewrite O3 in Q. destruct (s_cache s p) as [k''|] eqn:EK; [|discriminate]. destruct (Nat.eqb_spec k k''); [discriminate|]. injection Q as <-. destruct (CA p k'' EK) as (c & NC & LC). exists c. split; [|exact LC]. rewrite upd_nth. destruct (Nat.eqb_spec k'' k); [congruence|exact NC].
  - destruct L as ((c1 & x & H1 & X) & c2 & y & H2 & Y). destruct (clos_of s A m k1 c1 EC H1) as (l1 & E1 & -> & N1 & LV1). destruct (clos_of s A m k2 c2 EC H2) as (l2 & E2 & -> & N2 & LV2). destruct (at_nth m l1 n1 x X) as (a1 & I1 & IN1 & EX & NX). destruct (at_nth m l2 n2 y Y) as (a2 & I2 & IN2 & EY & NY).
    unfold upvaluejoin. rewrite E1. cbn [bind]. rewrite I1. cbn [bind]. rewrite E2. cbn [bind]. rewrite I2. cbn [bind].
    pose proof (S_join A k1 n1 k2 n2 (map m l1) (map m l2) x y H1 X H2 Y) as ST. pose proof (LV1 a1 IN1) as RA1. pose proof (LV2 a2 IN2) as RA2. destruct (Z.eqb_spec a1 a2) as [EA|NA].
    + cbn [bind]. exists s, None, A. split; [reflexivity|]. split; [|exists m; auto]. subst a2. rewrite (upd_same _ (map m l1)) in ST by (rewrite nth_error_map, NX; cbn; congruence). rewrite upd_same in ST by exact H1. destruct A; exact ST.
    + destruct (upvdec_ok s A m _ a1 C RA1) as (s1 & F1 & C1 & (O1 & O2 & O3) & SA). rewrite F1. cbn [bind]. rewrite replace_upd, replaceZ_upd, O2. destruct (s_up s a2) as [u2|] eqn:U2; [|rewrite (c_none _ _ _ _ _ C a2 U2) in RA2; lia].
      set (cl := update (s_clos s) k1 (Some (update l1 (Z.to_nat n1) a2))). set (A' := with_clos A (update (a_clos A) k1 (Some (update (map m l1) (Z.to_nat n1) y)))) in *.
      pose proof (core_clos s1 A m _ none cl (s_cache s1) (update (a_clos A) k1 (Some (update (map m l1) (Z.to_nat n1) y))) C1) as C2. fold A' in C2. change (St (s_stk s1) (s_open s1) (s_up s1) cl (s_cache s1)) with (set_clos s1 cl) in C2.
      destruct (incref_ok (set_clos s1 cl) A' m _ a2 u2 C2) as (s' & F2 & C3 & (O4 & O5 & O6) & _).
      * cbn [set_clos s_up]. rewrite SA by congruence. exact U2.
      * left. unfold drop. destruct (Z.eqb_spec a2 a1); [congruence|exact RA2].
      * rewrite F2. cbn [bind]. exists s', None, A'. split; [reflexivity|]. split; [exact ST|]. exists m. cbn [set_clos s_clos s_cache] in O5, O6. rewrite O5, O6, O3. split; [|split].
        -- apply (core_refs s' A' m (bump (drop (counts (s_clos s)) a1) a2)); [|exact C3]. intros a. pose proof (counts_upd (s_clos s) k1 l1 (Some (update l1 (Z.to_nat n1) a2)) a N1) as K1. pose proof (count_upd l1 (Z.to_nat n1) a1 a2 a NX) as K2. fold cl in K1. cbv beta iota in K1. unfold bump, drop. destruct (Z.eq_dec a1 a), (Z.eq_dec a2 a), (Z.eqb_spec a a2), (Z.eqb_spec a a1); subst; try congruence; try lia.
        -- unfold A', cl, with_clos. cbn [a_clos]. rewrite cells_upd, EC. cbn [option_map]. rewrite map_upd, <- EY. reflexivity.
        -- intros p k Q. destruct (CA p k Q) as (c & NC & LC). unfold cl. rewrite upd_nth. destruct (Nat.eqb_spec k k1) as [->|]; [|exists c; auto]. rewrite NC. rewrite N1 in NC. injection NC as <-. exists (update l1 (Z.to_nat n1) a2). split; [reflexivity|]. rewrite upd_len. exact LC.
  - exists (set_stk s t i v), None. eexists. split; [reflexivity|]. split; [constructor|]. exists m. split; [apply core_newvar; [exact C|apply (free_slot s A m t i EC L)]|]. split; [cbv zeta; rewrite write_clos; exact EC|exact CA].
Qed.
Lemma start_rel : forall protos stk, rel protos (start stk) (astart stk).
Proof.
  intros protos stk. exists (fun _ => (0, 0, 0)). split; [|split; [reflexivity|discriminate]]. constructor; cbn; try discriminate; try lia; try tauto; try reflexivity.
  - constructor.
  - constructor.
Qed.
Lemma runs_rel : forall protos s A, runs protos s A -> rel protos s A.
Proof.
  intros protos s A H. induction H as [stk|s A o s' r A' H IH L E ST]; [apply start_rel|]. destruct (step_ok protos s A o IH L) as (s2 & r2 & A2 & E2 & ST2 & R2). rewrite E in E2. injection E2 as <- <-. rewrite (astep_det A o r A' A2 ST ST2). exact R2.
Qed.
(* every operation of a program goes through and gives what the language says *)
Theorem refines : forall protos s A o, runs protos s A -> legal protos s A o -> exists s' r A', step s o = Ok (s', r) /\ astep A o r A' /\ runs protos s' A'.
Proof.
  intros protos s A o R L. destruct (step_ok protos s A o (runs_rel _ _ _ R) L) as (s' & r & A' & E & ST & _). exists s', r, A'. split; [exact E|]. split; [exact ST|]. apply (runs_step protos s A o s' r A'); assumption.
Qed.
Lemma getup_runs : forall protos s A k n c x, runs protos s A -> clos A k c -> at_ c n x -> step s (GetUp k n) = Ok (s, Some (val A x)).
Proof.
  intros protos s A k n c x R HC HX. destruct (refines protos s A (GetUp k n) R) as (s' & r & A' & E & ST & _); [exists c, x; auto|]. inversion ST; subst. match goal with H : clos _ k ?d |- _ => pose proof (clos_fun _ _ _ _ HC H); subst end. match goal with H : at_ ?d n ?y |- _ => pose proof (at_fun _ _ _ _ HX H); subst end.
  rewrite E. f_equal. f_equal. cbn [step] in E. destruct (closure s k); try discriminate. cbn [bind] in E. destruct (idx _ n); try discriminate. cbn [bind] in E. destruct (get_up s _); try discriminate. cbn [bind] in E. congruence.
Qed.
Lemma setup_runs : forall protos s A k n v c x s' r, runs protos s A -> clos A k c -> at_ c n x -> step s (SetUp k n v) = Ok (s', r) -> runs protos s' (write A x v).
Proof.
  intros protos s A k n v c x s' r R HC HX E. assert (L : legal protos s A (SetUp k n v)) by (exists c, x; auto). destruct (refines protos s A (SetUp k n v) R L) as (s2 & r2 & A' & E2 & ST & _). rewrite E in E2. injection E2 as <- <-. apply (runs_step protos s A (SetUp k n v) s' r); try assumption. inversion ST; subst. apply (S_setup A k n v c x HC HX).
Qed.
Lemma clos_write : forall A x v k c, clos A k c -> clos (write A x v) k c. Proof. intros A x v k c H. unfold clos. rewrite write_clos. exact H. Qed.
(* closures with the same variable share it; a write changes no other variable *)
Theorem shared : forall protos s A k1 n1 c1 x k2 n2 c2 y v s' r, runs protos s A -> clos A k1 c1 -> at_ c1 n1 x -> clos A k2 c2 -> at_ c2 n2 y -> step s (SetUp k1 n1 v) = Ok (s', r) ->
  (x = y -> step s' (GetUp k2 n2) = Ok (s', Some v)) /\
  (x <> y -> exists w, step s (GetUp k2 n2) = Ok (s, Some w) /\ step s' (GetUp k2 n2) = Ok (s', Some w)).
Proof.
  intros protos s A k1 n1 c1 x k2 n2 c2 y v s' r R H1 X H2 Y E. pose proof (setup_runs protos s A k1 n1 v c1 x s' r R H1 X E) as R'. pose proof (getup_runs protos s' (write A x v) k2 n2 c2 y R' (clos_write A x v k2 c2 H2) Y) as G. split.
  - intros <-. rewrite val_write_eq in G. exact G.
  - intros NE. exists (val A y). split; [apply (getup_runs protos s A k2 n2 c2 y R H2 Y)|]. rewrite val_write_ne in G by congruence. exact G.
Qed.
(* the variable in a register is the one its closures have; a write to it is seen there and nowhere else *)
Theorem shared_slot : forall protos s A t i v k n c y, runs protos s A -> clos A k c -> at_ c n y ->
  exists s', step s (SetReg t i v) = Ok (s', None) /\ exists w, step s (GetUp k n) = Ok (s, Some w) /\ step s' (GetUp k n) = Ok (s', Some (if (let '(t', i', g) := y in (t' =? t) && (i' =? i) && (g =? a_cur A t i)) then v else w)) /\
  exists s2, step s (SetUp k n v) = Ok (s2, None) /\ exists w', step s (GetReg t i) = Ok (s, Some w') /\ step s2 (GetReg t i) = Ok (s2, Some (if (let '(t', i', g) := y in (t' =? t) && (i' =? i) && (g =? a_cur A t i)) then v else w')).
Proof.
  intros protos s A t i v k n c y R HC HY. destruct (refines protos s A (SetReg t i v) R I) as (s' & r & A' & E & ST & R'). inversion ST; subst. exists s'. split; [exact E|]. exists (val A y). split; [apply (getup_runs protos s A k n c y R HC HY)|].
  assert (EY : (let '(t', i', g) := y in (t' =? t) && (i' =? i) && (g =? a_cur A t i)) = true -> y = var A t i) by (destruct y as [[t' i'] g]; intros B; rewrite !andb_true_iff, !Z.eqb_eq in B; destruct B as [[-> ->] ->]; reflexivity).
  assert (NY : (let '(t', i', g) := y in (t' =? t) && (i' =? i) && (g =? a_cur A t i)) = false -> y <> var A t i) by (intros B EQ; rewrite EQ in B; unfold var in B; rewrite !Z.eqb_refl in B; discriminate).
  split.
  - rewrite (getup_runs protos s' _ k n c y R' (clos_write A _ v k c HC) HY). f_equal. f_equal. f_equal. destruct (let '(t', i', g) := y in (t' =? t) && (i' =? i) && (g =? a_cur A t i)); [rewrite (EY eq_refl); apply val_write_eq|apply val_write_ne; apply NY; reflexivity].
  - assert (L : legal protos s A (SetUp k n v)) by (exists c, y; auto). destruct (refines protos s A _ R L) as (s2 & r2 & A2 & E2 & ST2 & _). assert (r2 = None) by (inversion ST2; reflexivity). subst r2. exists s2. split; [exact E2|]. exists (val A (var A t i)). pose proof (setup_runs protos s A k n v c y s2 None R HC HY E2) as R2.
    split.
    + cbn [step]. f_equal. f_equal. f_equal. destruct (runs_rel _ _ _ R) as (m & C & _). apply (c_slot _ _ _ _ _ C).
    + cbn [step]. f_equal. f_equal. f_equal. destruct (runs_rel _ _ _ R2) as (m & C & _). rewrite (c_slot _ _ _ _ _ C t i). unfold var at 1. rewrite cur_write. destruct (let '(t', i', g) := y in (t' =? t) && (i' =? i) && (g =? a_cur A t i)); [rewrite (EY eq_refl); apply val_write_eq|apply val_write_ne]. intros EQ. apply NY; [reflexivity|symmetry; exact EQ].
Qed.
(* closing keeps what closures see; later writes to the registers are not seen *)
Theorem closed : forall protos s A t level k n c x i v, runs protos s A -> clos A k c -> at_ c n x -> level <= i -> exists s' s2 w,
  step s (GetUp k n) = Ok (s, Some w) /\ step s (Close t level) = Ok (s', None) /\ step s' (GetUp k n) = Ok (s', Some w) /\ step s' (SetReg t i v) = Ok (s2, None) /\ step s2 (GetUp k n) = Ok (s2, Some w).
Proof.
  intros protos s A t level k n c x i v R HC HX LE. destruct (refines protos s A (Close t level) R I) as (s' & r & A' & E & ST & R'). inversion ST; subst. destruct (refines protos s' _ (SetReg t i v) R' I) as (s2 & r2 & A2 & E2 & ST2 & R2). inversion ST2; subst.
  assert (OLD : let '(t', i', g) := x in g <= a_cur A t' i').
  { destruct (runs_rel _ _ _ R) as (m & C & EC & _). destruct (clos_of s A m k c EC HC) as (l & _ & -> & _ & LV). destruct (at_nth m l n x HX) as (a & _ & IN & -> & _). specialize (LV a IN). destruct (s_up s a) as [u|] eqn:U; [|rewrite (c_none _ _ _ _ _ C a U) in LV; lia]. pose proof (c_live _ _ _ _ _ C a u U LV) as H. destruct (u_loc u).
    - destruct H as (M & _). rewrite M. unfold none. lia.
    - destruct H as (G & _). destruct (m a) as [[? ?] ?]. lia. }
  assert (VX : val (renew A (from t level)) x = val A x) by (destruct x as [[t' i'] g]; apply val_renew_old; exact OLD).
  exists s', s2, (val A x). split; [apply (getup_runs protos s A k n c x R HC HX)|]. split; [exact E|]. split; [rewrite <- VX; apply (getup_runs protos s' _ k n c x R' HC HX)|]. split; [exact E2|]. rewrite (getup_runs protos s2 _ k n c x R2 (clos_write (renew A (from t level)) _ v k c HC) HX). f_equal. f_equal. f_equal. rewrite val_write_ne; [exact VX|]. intros EQ. rewrite EQ in OLD. unfold var, renew, from in OLD. cbn in OLD. rewrite Z.eqb_refl in OLD. destruct (Z.leb_spec level i); [cbn in OLD|]; lia.
Qed.
(* the reference count is the number of references; what is neither referenced nor open is freed *)
Theorem refcounts : forall protos s A a u, runs protos s A -> s_up s a = Some u ->
  u_ref u = Z.of_nat (count_occ Z.eq_dec (concat (map (fun c => match c with Some l => l | None => [] end) (s_clos s))) a) /\
  (0 < u_ref u \/ exists t i, u_loc u = Open t i /\ In a (s_open s t)) /\ (u_flags u = true -> forall t i, u_loc u = Open t i -> u_ref u = 0).
Proof.
  intros protos s A a u R U. destruct (runs_rel _ _ _ R) as (m & C & _).
  assert (E : forall c, counts c a = count_occ Z.eq_dec (concat (map (fun c => match c with Some l => l | None => [] end) c)) a) by (induction c as [|[l|] c IH]; cbn [counts map concat]; [reflexivity| |]; rewrite ?count_occ_app; unfold count; cbn [count_occ]; rewrite IH; reflexivity).
  pose proof (c_ref _ _ _ _ _ C a u U) as RU. split; [rewrite <- E; exact RU|]. split.
  - destruct (u_loc u) as [t i|v] eqn:L; [right; exists t, i; split; [reflexivity|]; apply (c_in _ _ _ _ _ C a u t i U L)|left]. pose proof (c_closed _ _ _ _ _ C a u v U L). lia.
  - intros F t i L. destruct (counts (s_clos s) a) as [|n] eqn:N; [lia|]. pose proof (c_live _ _ _ _ _ C a u U ltac:(lia)) as LV. rewrite L in LV. destruct LV as (_ & _ & F'). congruence.
Qed.
(* defer: the register is nil and has an upvalue of its own, open, marked and referenced by no closure *)
Theorem deferred : forall protos s A t i a s' r, runs protos s A -> legal protos s A (Defer t i a) -> step s (Defer t i a) = Ok (s', r) -> exists b u, In b (s_open s' t) /\ s_up s' b = Some u /\ u_loc u = Open t i /\ u_flags u = true /\ u_ref u = 0 /\ s_stk s' t i = VNil.
Proof.
  intros protos s A t i a s' r R (UC & N) E. destruct (runs_rel _ _ _ R) as (m & C & EC & CA). destruct (findupval_ok s A m _ t i a C N) as (q & s1 & E1 & C1 & (O1 & O2 & O3) & (u & U & FL & LO) & _ & _). cbn [step] in E. rewrite E1 in E. cbn [bind] in E. unfold deref in E. rewrite U in E. cbn [bind] in E. injection E as <- _.
  assert (R0 : counts (s_clos s) q = 0%nat). { destruct (counts (s_clos s) q) as [|n] eqn:E; [reflexivity|]. exfalso. apply (free_slot s A m t i EC UC q); [lia|]. pose proof (c_live _ _ _ _ _ C1 q u U ltac:(lia)) as LV. rewrite LO in LV. destruct LV as (M & _). unfold none in M. rewrite Z.sub_0_r in M. exact M. }
  exists q, (UpV (u_ref u) true (u_loc u)). cbn [set_stk set_up s_open s_up s_stk u_loc u_flags u_ref]. split; [apply (c_in _ _ _ _ _ C1 q u t i U LO)|]. split; [apply put_eq|]. split; [exact LO|]. split; [reflexivity|]. split; [rewrite (c_ref _ _ _ _ _ C1 q u U); lia|]. rewrite put_eq. apply put_eq.
Qed.
