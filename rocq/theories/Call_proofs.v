(* C61: calls pass their arguments and results. *)
Require Import ZArith List Bool Arith Lia.
From Verif Require Import Base Call_model Call_spec.
Import ListNotations.
Local Open Scope nat_scope.

Section calls.
Variable V : Type.
Variable nil : V.
Notation stack := (stack V).
Notation adjust := (adjust V nil).
Notation holds := (holds V).
Notation cells := (cells V).

Lemma upd_at (s : stack) i v : upd V s i v i = v. Proof. unfold upd. now rewrite Nat.eqb_refl. Qed.
Lemma upd_other (s : stack) i v j : j <> i -> upd V s i v j = s j. Proof. intros N. unfold upd. destruct (Nat.eqb_spec j i); congruence. Qed.

Lemma cells_length s i n : length (cells s i n) = n. Proof. unfold Call_spec.cells. now rewrite map_length, seq_length. Qed.
Lemma nth_cells s i n k : k < n -> nth_error (cells s i n) k = Some (s (i + k)).
Proof.
  intros L. unfold Call_spec.cells. rewrite nth_error_map. assert (E : nth_error (seq i n) k = Some (i + k)); [|now rewrite E].
  revert i k L. induction n as [|n IH]; intros i k L; [lia|]. destruct k; cbn [seq nth_error]; [f_equal; lia|]. rewrite IH by lia. f_equal. lia.
Qed.
Lemma list_eq {A} (a b : list A) : length a = length b -> (forall k, k < length a -> nth_error a k = nth_error b k) -> a = b.
Proof.
  revert b. induction a as [|x a IH]; intros [|y b] L H; cbn [length] in *; try lia; [reflexivity|].
  pose proof (H 0 ltac:(lia)) as E. injection E as ->. f_equal. apply IH; [lia|]. intros k K. apply (H (S k)). lia.
Qed.
Lemma holds_nth s i l : holds s i l <-> forall k v, nth_error l k = Some v -> s (i + k) = v.
Proof.
  unfold Call_spec.holds. split.
  - intros H k v N. assert (K : k < length l) by (apply nth_error_Some; congruence). pose proof (nth_cells s i (length l) k K) as E. rewrite H, N in E. congruence.
  - intros H. apply list_eq; [apply cells_length|]. rewrite cells_length. intros k K. rewrite nth_cells by exact K.
    destruct (nth_error l k) as [v|] eqn:E; [f_equal; auto|]. apply nth_error_None in E. lia.
Qed.
Lemma adjust_length n l : length (adjust n l) = n.
Proof. unfold Call_spec.adjust. rewrite firstn_length, app_length, repeat_length. lia. Qed.
Lemma nth_firstn {A} n (l : list A) k : k < n -> nth_error (firstn n l) k = nth_error l k.
Proof. revert l k. induction n; intros [|x l] k L; try lia; [destruct k; reflexivity|]. destruct k; [reflexivity|]. cbn. apply IHn. lia. Qed.
Lemma nth_repeat_some {A} (x : A) n k : k < n -> nth_error (repeat x n) k = Some x.
Proof. revert k. induction n; intros [|k] L; try lia; [reflexivity|]. cbn. apply IHn. lia. Qed.
Lemma nth_adjust n l k : k < n -> nth_error (adjust n l) k = Some (nth k l nil).
Proof.
  intros L. unfold Call_spec.adjust. rewrite nth_firstn by exact L. destruct (Nat.lt_ge_cases k (length l)) as [K|K].
  - rewrite nth_error_app1 by exact K. now apply nth_error_nth'.
  - rewrite nth_error_app2 by exact K. rewrite nth_overflow by exact K. apply nth_repeat_some. lia.
Qed.
Lemma holds_adjust s i n l : holds s i (adjust n l) <-> forall k, k < n -> s (i + k) = nth k l nil.
Proof.
  rewrite holds_nth. split.
  - intros H k K. apply H. now apply nth_adjust.
  - intros H k v N. assert (K : k < n) by (rewrite <- (adjust_length n l); apply nth_error_Some; congruence). rewrite nth_adjust in N by exact K. injection N as <-. auto.
Qed.
Lemma holds_nth' s i l k : holds s i l -> k < length l -> s (i + k) = nth k l nil.
Proof. intros H K. rewrite holds_nth in H. apply H. now apply nth_error_nth'. Qed.
Lemma holds_ext s s' i l : (forall j, i <= j < i + length l -> s' j = s j) -> holds s i l -> holds s' i l.
Proof. intros H. rewrite !holds_nth. intros G k v N. rewrite H; [auto|]. assert (k < length l) by (apply nth_error_Some; congruence). lia. Qed.
Lemma nth_skipn {A} n (l : list A) k d : nth k (skipn n l) d = nth (n + k) l d.
Proof. revert l. induction n; intros [|x l]; auto; cbn; [now destruct k|]. apply IHn. Qed.
Lemma nth_skipn_e {A} n (l : list A) k : nth_error (skipn n l) k = nth_error l (n + k).
Proof. revert l. induction n; intros [|x l]; auto; cbn; [now destruct k|]. apply IHn. Qed.

(* loops *)
Lemma for_last n : forall i body (s : stack), for_up V (S n) i body s = body (i + n) (for_up V n i body s).
Proof.
  induction n as [|n IH]; intros i body s; [cbn; now rewrite Nat.add_0_r|].
  change (for_up V (S (S n)) i body s) with (for_up V (S n) (S i) body (body i s)). rewrite IH. cbn [for_up]. f_equal. lia.
Qed.
Lemma copy_up n dst src (s : stack) : dst <= src \/ src + n <= dst ->
  (forall i, i < n -> for_up V n 0 (copy V dst src) s (dst + i) = s (src + i)) /\
  (forall j, j < dst \/ dst + n <= j -> for_up V n 0 (copy V dst src) s j = s j).
Proof.
  induction n as [|n IH]; intros L; [split; [lia|reflexivity]|]. destruct (IH ltac:(lia)) as (A & B). rewrite for_last. unfold copy at 1 3. cbn [Nat.add]. split.
  - intros i I. destruct (Nat.eq_dec i n) as [->|N]; [rewrite upd_at|rewrite upd_other by lia; apply A; lia]. apply B. lia.
  - intros j J. rewrite upd_other by lia. apply B. lia.
Qed.
Lemma setnil_up n m dst (s : stack) :
  (forall i, m <= i < m + n -> for_up V n m (setnil V nil dst) s (dst + i) = nil) /\
  (forall j, j < dst + m \/ dst + m + n <= j -> for_up V n m (setnil V nil dst) s j = s j).
Proof.
  induction n as [|n (A & B)]; [split; [lia|reflexivity]|]. rewrite for_last. unfold setnil at 1 3. split.
  - intros i I. destruct (Nat.eq_dec i (m + n)) as [->|N]; [apply upd_at|]. rewrite upd_other by lia. apply A. lia.
  - intros j J. rewrite upd_other by lia. apply B. lia.
Qed.
Lemma move_params m fixed base (s : stack) : fixed + m <= base ->
  let s' := for_up V m 0 (fun i s => upd V (upd V s (base + i) (s (fixed + i))) (fixed + i) nil) s in
  (forall i, i < m -> s' (base + i) = s (fixed + i)) /\ (forall j, j < fixed \/ fixed + m <= j < base \/ base + m <= j -> s' j = s j).
Proof.
  intros L. cbv zeta. 
  assert (H : forall k, k <= m -> let s' := for_up V k 0 (fun i s => upd V (upd V s (base + i) (s (fixed + i))) (fixed + i) nil) s in
    (forall i, i < k -> s' (base + i) = s (fixed + i)) /\ (forall j, j < fixed \/ fixed + k <= j < base \/ base + k <= j -> s' j = s j)).
  { induction k as [|k IH]; intros K; [split; [lia|reflexivity]|]. cbv zeta in *. destruct (IH ltac:(lia)) as (A & B). rewrite for_last. cbn [Nat.add]. split.
    - intros i I. rewrite upd_other by lia. destruct (Nat.eq_dec i k) as [->|N]; [rewrite upd_at; apply B; lia|]. rewrite upd_other by lia. apply A. lia.
    - intros j J. rewrite !upd_other by lia. apply B. lia. }
  apply (H m). lia.
Qed.
Lemma open_hole_at n : forall p (s : stack), n <= p -> (forall j, p - n < j <= p -> open_hole V n p s j = s (j - 1)) /\ (forall j, j <= p - n \/ p < j -> open_hole V n p s j = s j).
Proof.
  induction n as [|n IH]; intros p s L; [split; [lia|reflexivity]|]. cbn [open_hole].
  destruct (IH (p - 1) (upd V s p (s (p - 1))) ltac:(lia)) as (A & B). split.
  - intros j J. destruct (Nat.eq_dec j p) as [->|N]; [rewrite B by lia; apply upd_at|]. rewrite A by lia. apply upd_other. lia.
  - intros j J. rewrite B by lia. apply upd_other. lia.
Qed.

Variable kind_of : V -> kind V.
Variable crun : V -> stack -> nat -> nat -> stack * nat * nat.
Notation runs := (runs V nil kind_of).
Notation kept_below := (kept_below V).
Notation state := (state V).
Notation stk := (stk V).
Notation top := (top V).
Notation cis := (cis V).

(* entering a Lua function *)
Lemma enter_fun (st : state) func nresults v np va fsize args :
  stk st func = v -> kind_of v = KLua V np va fsize -> top st = func + 1 + length args -> holds (stk st) (func + 1) args ->
  exists st' c, precall_fun V nil kind_of crun st func nresults = Ok (st', ELua) /\ cis st' = c :: cis st /\ cfunc c = func /\ cnres c = nresults /\
    runs (stk st') c v args /\ top st' = ctop c /\ kept_below (func + 1) (stk st) (stk st').
Proof.
  intros F K T H. unfold precall_fun. rewrite F, K. rewrite T. replace (func + 1 + length args - func - 1) with (length args) by lia.
  destruct va.
  - unfold adjust_varargs. replace (func + 1 + length args - length args) with (func + 1) by lia. set (m := Nat.min np (length args)). set (base := func + 1 + length args).
    destruct (move_params m (func + 1) base (stk st) ltac:(lia)) as (A & B). cbv zeta in A, B. set (s1 := for_up V m 0 _ (stk st)) in *.
    destruct (setnil_up (np - m) m base s1) as (C & D). set (s2 := for_up V (np - m) m (setnil V nil base) s1) in *.
    do 2 eexists. split; [reflexivity|]. cbn [Call_model.cis Call_model.stk Call_model.top cfunc cnres ctop]. repeat (split; [reflexivity|]). split; [|split; [reflexivity|]].
    + split; [cbn [cfunc]; rewrite D by lia; rewrite B by lia; exact F|]. exists np, true, fsize. cbn [cbase cfunc ctop]. split; [exact K|]. split; [|split; [reflexivity|split; [reflexivity|]]].
      * apply holds_adjust. intros k Lk. destruct (Nat.lt_ge_cases k m) as [Q|Q].
        -- rewrite D by lia. rewrite A by lia. apply holds_nth'; auto. lia.
        -- rewrite C by lia. rewrite nth_overflow; auto. lia.
      * apply holds_nth. intros k x N. rewrite nth_skipn_e in N. assert (Lk : np + k < length args) by (apply nth_error_Some; congruence).
        rewrite D by lia. rewrite B by lia. rewrite holds_nth in H. replace (base - (length args - np) + k) with (func + 1 + (np + k)) by lia. auto.
    + intros j J. rewrite D by lia. apply B. lia.
  - destruct (setnil_up (np - length args) 0 (func + 1 + length args) (stk st)) as (C & D). set (s2 := for_up V _ 0 _ (stk st)) in *.
    do 2 eexists. split; [reflexivity|]. cbn [Call_model.cis Call_model.stk Call_model.top cfunc cnres ctop]. repeat (split; [reflexivity|]). split; [|split; [reflexivity|]].
    + split; [cbn [cfunc]; rewrite D by lia; exact F|]. exists np, false, fsize. cbn [cbase cfunc ctop]. split; [exact K|]. split; [|split; reflexivity].
      apply holds_adjust. intros k Lk. destruct (Nat.lt_ge_cases k (length args)) as [Q|Q].
      * rewrite D by lia. apply holds_nth'; auto.
      * replace (func + 1 + k) with (func + 1 + length args + (k - length args)) by lia. rewrite C by lia. rewrite nth_overflow; auto.
    + intros j J. apply D. lia.
Qed.
(* a value with a __call metamethod becomes the first argument *)
Lemma hole_spec (s : stack) func tp tm v args s' tp' : s func = v -> tp = func + 1 + length args -> holds s (func + 1) args ->
  tryfuncTM V s func tp tm = (s', tp') -> s' func = tm /\ tp' = func + 1 + length (v :: args) /\ holds s' (func + 1) (v :: args) /\ kept_below func s s'.
Proof.
  intros F T H E. unfold tryfuncTM in E. injection E as <- <-. destruct (open_hole_at (tp - func) tp s ltac:(lia)) as (A & B).
  split; [apply upd_at|]. split; [cbn [length]; lia|]. split.
  - apply holds_nth. intros [|k] x N; cbn [nth_error] in N.
    + injection N as <-. rewrite upd_other by lia. rewrite A by lia. rewrite <- F. f_equal. lia.
    + assert (Lk : k < length args) by (apply nth_error_Some; congruence). rewrite upd_other by lia. rewrite A by lia. rewrite holds_nth in H. rewrite <- (H k x N). f_equal. lia.
  - intros j J. rewrite upd_other by lia. apply B. lia.
Qed.

Lemma enter_lua (st : state) func nresults v np va fsize args :
  stk st func = v -> kind_of v = KLua V np va fsize -> top st = func + 1 + length args -> holds (stk st) (func + 1) args ->
  exists st' c, precall V nil kind_of crun st func nresults = Ok (st', ELua) /\ cis st' = c :: cis st /\ cfunc c = func /\ cnres c = nresults /\
    runs (stk st') c v args /\ top st' = ctop c /\ kept_below (func + 1) (stk st) (stk st').
Proof. intros F K T H. unfold precall. rewrite F, K. eapply enter_fun; eauto. Qed.
Lemma enter_meta (st : state) func nresults v tm np va fsize args :
  stk st func = v -> kind_of v = KOther V (Some tm) -> kind_of tm = KLua V np va fsize -> top st = func + 1 + length args -> holds (stk st) (func + 1) args ->
  exists st' c, precall V nil kind_of crun st func nresults = Ok (st', ELua) /\ cis st' = c :: cis st /\ cfunc c = func /\ cnres c = nresults /\
    runs (stk st') c tm (v :: args) /\ top st' = ctop c /\ kept_below func (stk st) (stk st').
Proof.
  intros F K KT T H. unfold precall. rewrite F, K. destruct (tryfuncTM V (stk st) func (top st) tm) as [s' tp'] eqn:E.
  destruct (hole_spec _ _ _ _ v args _ _ F T H E) as (A & B & C & D).
  destruct (enter_fun (mkSt V s' tp' (cis st)) func nresults tm np va fsize (v :: args) A KT B C) as (st' & c & P & Q & R1 & R2 & R3 & R4 & R5).
  exists st', c. repeat (split; [assumption|]). intros j J. rewrite R5 by lia. apply D. exact J.
Qed.

(* results *)
Lemma move_results (s : stack) first res wanted rs s' tp b : res <= first -> holds s first rs -> (0 <= wanted \/ wanted = LUA_MULTRET)%Z ->
  moveresults V nil s first res (length rs) wanted = (s', tp, b) ->
  holds s' res (adjust_to V nil wanted rs) /\ tp = res + length (adjust_to V nil wanted rs) /\ kept_below res s s' /\ b = negb (Z.eqb wanted LUA_MULTRET).
Proof.
  intros L H W E. unfold moveresults in E. unfold adjust_to, LUA_MULTRET in *. rewrite <- (cells_length s first (length rs)) in E at 1.
  rewrite cells_length in E. destruct (Z.eqb_spec wanted 0) as [->|N0].
  { injection E as <- <- <-. cbn. split; [reflexivity|]. split; [lia|]. split; [|reflexivity]. intros j J. reflexivity. }
  destruct (Z.eqb_spec wanted 1) as [->|N1].
  { injection E as <- <- <-. cbn [Z.eqb]. rewrite adjust_length. split; [|split; [cbn; lia|split; [|reflexivity]]].
    - apply holds_adjust. cbn [Z.to_nat Pos.to_nat]. intros k K. assert (k = 0) by lia. subst k. rewrite Nat.add_0_r, upd_at. destruct rs as [|r rs]; [reflexivity|]. cbn [length Nat.eqb nth]. rewrite <- (Nat.add_0_r first). apply (holds_nth' s first (r :: rs) 0 H). cbn. lia.
    - intros j J. apply upd_other. lia. }
  destruct (Z.eqb_spec wanted (-1)) as [->|N2].
  { injection E as <- <- <-. destruct (copy_up (length rs) res first s (or_introl L)) as (A & B). split; [|split; [reflexivity|split; [|reflexivity]]].
    - apply holds_nth. intros k x N. rewrite A by (apply nth_error_Some; congruence). rewrite holds_nth in H. auto.
    - intros j J. apply B. lia. }
  set (w := Z.to_nat wanted) in *. rewrite adjust_length. cbn [negb]. destruct (Nat.leb_spec w (length rs)) as [Q|Q]; injection E as <- <- <-.
  - destruct (copy_up w res first s (or_introl L)) as (A & B). split; [|split; [reflexivity|split; [|reflexivity]]].
    + apply holds_adjust. intros k K. rewrite A by exact K. apply holds_nth'; auto. lia.
    + intros j J. apply B. lia.
  - destruct (copy_up (length rs) res first s (or_introl L)) as (A & B). destruct (setnil_up (w - length rs) (length rs) res (for_up V (length rs) 0 (copy V res first) s)) as (C & D).
    split; [|split; [reflexivity|split; [|reflexivity]]].
    + apply holds_adjust. intros k K. destruct (Nat.lt_ge_cases k (length rs)) as [P|P].
      * rewrite D by lia. rewrite A by exact P. now apply holds_nth'.
      * rewrite C by lia. now rewrite nth_overflow.
    + intros j J. rewrite D by lia. apply B. lia.
Qed.

Lemma enter_callee (st : state) func nresults v args v' args' :
  stk st func = v -> callee V kind_of v args v' args' -> top st = func + 1 + length args -> holds (stk st) (func + 1) args ->
  exists st' c, precall V nil kind_of crun st func nresults = Ok (st', ELua) /\ cis st' = c :: cis st /\ cfunc c = func /\ cnres c = nresults /\
    runs (stk st') c v' args' /\ top st' = ctop c /\ kept_below func (stk st) (stk st').
Proof.
  intros F ((np & va & fsize & K) & [(-> & ->)|(KO & ->)]) T H.
  - destruct (enter_lua st func nresults v np va fsize args F K T H) as (st' & c & A & B & C & D & E & G & I). exists st', c. repeat (split; [assumption|]). intros j J. apply I. lia.
  - eapply enter_meta; eauto.
Qed.
Lemma base_above s c v args : runs s c v args -> cfunc c < cbase c.
Proof. intros (_ & np & [|] & fs & _ & _ & _ & E); [destruct E|]; lia. Qed.

Lemma set_top (st : state) ra b args : operands V (stk st) (top st) (ra + 1) b args ->
  let st1 := if b =? 0 then st else mkSt V (stk st) (ra + b) (cis st) in
  stk st1 = stk st /\ cis st1 = cis st /\ top st1 = ra + 1 + length args.
Proof. intros (_ & [->|(-> & T)]); cbv zeta; [|cbn; auto]. destruct (Nat.eqb_spec (length args + 1) 0); [lia|]. cbn. repeat split; lia. Qed.
End calls.

(* instructions *)
Lemma call_enters : forall V nil kind_of crun (st : state V) f cs a b c v args v' args',
  cis V st = f :: cs -> stk V st (cbase f + a) = v -> operands V (stk V st) (top V st) (cbase f + a + 1) b args -> callee V kind_of v args v' args' ->
  exists st' n, op_call V nil kind_of crun st a b c = Ok (st', ELua) /\ cis V st' = n :: f :: cs /\ runs V nil kind_of (stk V st') n v' args' /\ top V st' = ctop n /\
    cfunc n = cbase f + a /\ cnres n = (Z.of_nat c - 1)%Z /\ kept_below V (cbase f + a) (stk V st) (stk V st').
Proof.
  intros V nil kind_of crun st f cs a b c v args v' args' C F O K. destruct (set_top V st (cbase f + a) b args O) as (E1 & E2 & E3). cbv zeta in *.
  unfold op_call. rewrite C. rewrite <- C. set (st1 := if b =? 0 then st else _) in *.
  destruct (enter_callee V nil kind_of crun st1 (cbase f + a) (Z.of_nat c - 1)%Z v args v' args') as (st' & n & P & Q & R1 & R2 & R3 & R4 & R5); rewrite ?E1; auto; [apply O|].
  rewrite P. cbn [bind]. exists st', n. rewrite Q, E2, C. rewrite E1 in R5. auto 10.
Qed.

Lemma vararg_values : forall V nil kind_of (st : state V) c cs v np fsize args s a b,
  cis V st = c :: cs -> kind_of v = KLua V np true fsize -> runs V nil kind_of s c v args -> kept_below V (cbase c) s (stk V st) ->
  let vs := if b =? 0 then skipn np args else adjust V nil (b - 1) (skipn np args) in
  exists st', op_vararg V nil kind_of st a b = Ok st' /\ cis V st' = cis V st /\ holds V (stk V st') (cbase c + a) vs /\
    top V st' = (if b =? 0 then cbase c + a + length vs else top V st) /\
    (forall j, j < cbase c + a \/ cbase c + a + length vs <= j -> stk V st' j = stk V st j).
Proof.
  intros V nil kind_of st c cs v np fsize args s a b C K R B vs. pose proof (base_above _ _ _ _ _ _ _ R) as Ba.
  destruct R as (F & np' & va & fs & K' & _ & _ & H). rewrite K in K'. injection K' as <- <- <-. destruct H as (Eb & Hv).
  unfold op_vararg. rewrite C. rewrite (B (cfunc c)) by exact Ba. rewrite F, K.
  replace (cbase c - cfunc c - np - 1) with (length args - np) by lia. set (n := length args - np) in *.
  assert (Ls : length (skipn np args) = n) by (rewrite skipn_length; reflexivity).
  set (bt := if b =? 0 then (n, cbase c + a + n) else (b - 1, top V st)). 
  assert (Ebt : bt = (length vs, if b =? 0 then cbase c + a + length vs else top V st)). { unfold bt, vs. destruct (b =? 0); [rewrite Ls; reflexivity|rewrite adjust_length; reflexivity]. }
  rewrite Ebt. set (m := Nat.min (length vs) n).
  destruct (copy_up V m (cbase c + a) (cbase c - n) (stk V st) ltac:(lia)) as (A1 & A2).
  set (s1 := for_up V m 0 (copy V (cbase c + a) (cbase c - n)) (stk V st)) in *.
  destruct (setnil_up V nil (length vs - m) m (cbase c + a) s1) as (B1 & B2).
  assert (Nv : forall k, k < n -> stk V st (cbase c - n + k) = nth k (skipn np args) nil).
  { intros k Kk. rewrite B by lia. apply holds_nth'; [exact Hv|lia]. }
  eexists. split; [reflexivity|]. cbn [Call_model.cis Call_model.stk Call_model.top]. split; [reflexivity|]. split; [|split; [reflexivity|]].
  - assert (Ve : forall k, k < length vs -> nth_error vs k = Some (nth k (skipn np args) nil)).
    { intros k Kk. unfold vs in *. destruct (b =? 0); [now apply nth_error_nth'|]. rewrite adjust_length in Kk. now apply nth_adjust. }
    apply holds_nth. intros k x N. assert (Kk : k < length vs) by (apply nth_error_Some; congruence). rewrite Ve in N by exact Kk. injection N as <-.
    destruct (Nat.lt_ge_cases k m) as [Q|Q]; [rewrite B2 by lia; rewrite A1 by exact Q; apply Nv; lia|]. rewrite B1 by lia. rewrite nth_overflow; auto. lia.
  - intros j J. rewrite B2 by lia. apply A2. lia.
Qed.

Lemma return_results : forall V nil (st : state V) c cs a b rs, cis V st = c :: cs -> cfunc c <= cbase c ->
  operands V (stk V st) (top V st) (cbase c + a) b rs -> (0 <= cnres c \/ cnres c = LUA_MULTRET)%Z ->
  exists st', op_return V nil st a b = Ok st' /\ cis V st' = cs /\ holds V (stk V st') (cfunc c) (adjust_to V nil (cnres c) rs) /\
    kept_below V (cfunc c) (stk V st) (stk V st') /\
    (cnres c = LUA_MULTRET -> top V st' = cfunc c + length rs) /\
    (cnres c <> LUA_MULTRET -> forall f cs', cs = f :: cs' -> top V st' = ctop f).
Proof.
  intros V nil st c cs a b rs C L (H & B) W. unfold op_return, poscall. rewrite C.
  assert (N : (if b =? 0 then top V st - (cbase c + a) else b - 1) = length rs). { destruct B as [->|(-> & T)]; [destruct (Nat.eqb_spec (length rs + 1) 0); lia|cbn; lia]. }
  rewrite N. destruct (moveresults V nil (stk V st) (cbase c + a) (cfunc c) (length rs) (cnres c)) as [[s' tp] fx] eqn:E.
  destruct (move_results V nil (stk V st) (cbase c + a) (cfunc c) (cnres c) rs s' tp fx ltac:(lia) H W E) as (A1 & A2 & A3 & A4). cbn [bind].
  eexists. split; [reflexivity|]. unfold restore_top. cbn [Call_model.cis]. destruct fx; (destruct cs as [|f cs]; cbn [Call_model.cis Call_model.stk Call_model.top]; (split; [reflexivity|]); (split; [exact A1|]); (split; [exact A3|])).
  1,2: destruct (Z.eqb_spec (cnres c) LUA_MULTRET) as [Q|Q]; [discriminate A4|]; split; [congruence|]; intros _ g gs EQ; congruence.
  1,2: destruct (Z.eqb_spec (cnres c) LUA_MULTRET) as [Q|Q]; [|discriminate A4]; split; [|congruence]; intros _; rewrite A2; unfold adjust_to; rewrite Q; reflexivity.
Qed.

(* a call and a return *)
Lemma call_returns : forall V nil kind_of crun (st : state V) f cs a b c v args v' args',
  cis V st = f :: cs -> stk V st (cbase f + a) = v -> operands V (stk V st) (top V st) (cbase f + a + 1) b args -> callee V kind_of v args v' args' ->
  exists st1 n, op_call V nil kind_of crun st a b c = Ok (st1, ELua) /\ cis V st1 = n :: f :: cs /\ runs V nil kind_of (stk V st1) n v' args' /\
  forall st2 a' b' rs, cis V st2 = n :: f :: cs -> kept_below V (cbase f + a) (stk V st1) (stk V st2) -> operands V (stk V st2) (top V st2) (cbase n + a') b' rs ->
  exists st3, op_return V nil st2 a' b' = Ok st3 /\ cis V st3 = f :: cs /\ kept_below V (cbase f + a) (stk V st) (stk V st3) /\
    (if c =? 0 then holds V (stk V st3) (cbase f + a) rs /\ top V st3 = cbase f + a + length rs
     else holds V (stk V st3) (cbase f + a) (adjust V nil (c - 1) rs) /\ top V st3 = ctop f).
Proof.
  intros V nil kind_of crun st f cs a b c v args v' args' C F O K.
  destruct (call_enters V nil kind_of crun st f cs a b c v args v' args' C F O K) as (st1 & n & P & Q & R & T & E1 & E2 & E3).
  exists st1, n. split; [exact P|]. split; [exact Q|]. split; [exact R|]. intros st2 a' b' rs C2 K2 O2.
  pose proof (base_above _ _ _ _ _ _ _ R) as Ba.
  destruct (return_results V nil st2 n (f :: cs) a' b' rs C2 ltac:(lia) O2) as (st3 & G1 & G2 & G3 & G4 & G5 & G6); [rewrite E2; unfold LUA_MULTRET; lia|].
  exists st3. split; [exact G1|]. split; [exact G2|]. split. { intros j J. rewrite G4 by lia. rewrite K2 by exact J. apply E3. exact J. }
  rewrite E1 in *. rewrite E2 in *. unfold adjust_to, LUA_MULTRET in *. destruct (Nat.eqb_spec c 0) as [->|N].
  - cbn in G3. split; [exact G3|]. apply G5. reflexivity.
  - destruct (Z.eqb_spec (Z.of_nat c - 1) (-1)) as [X|X]; [lia|]. replace (Z.to_nat (Z.of_nat c - 1)) with (c - 1) in G3 by lia. split; [exact G3|]. eapply G6; [exact X|reflexivity].
Qed.

Lemma tailcall_enters : forall V nil kind_of crun (st : state V) f cs a b v args v' args',
  cis V st = f :: cs -> cfunc f < cbase f -> stk V st (cbase f + a) = v -> operands V (stk V st) (top V st) (cbase f + a + 1) b args -> callee V kind_of v args v' args' ->
  exists st' n, op_tailcall V nil kind_of crun st a b = Ok (st', ELua) /\ cis V st' = n :: cs /\ runs V nil kind_of (stk V st') n v' args' /\ top V st' = ctop n /\
    cfunc n = cfunc f /\ cnres n = cnres f /\ kept_below V (cfunc f) (stk V st) (stk V st').
Proof.
  intros V nil kind_of crun st f cs a b v args v' args' C Lb F O K. destruct (set_top V st (cbase f + a) b args O) as (E1 & E2 & E3). cbv zeta in *.
  unfold op_tailcall. rewrite C. rewrite <- C. set (st1 := if b =? 0 then st else _) in *.
  destruct (enter_callee V nil kind_of crun st1 (cbase f + a) LUA_MULTRET v args v' args') as (st' & n & P & Q & R1 & R2 & R3 & R4 & R5); rewrite ?E1; auto; [apply O|].
  rewrite P. cbn [bind]. rewrite Q, E2, C. pose proof (base_above _ _ _ _ _ _ _ R3) as Ba. destruct R3 as (Fv & np & va & fs & Kv & Hr & Ht & Hv).
  rewrite R1 in *. rewrite Fv, Kv. set (len := cbase n + np - (cbase f + a)).
  destruct (copy_up V len (cfunc f) (cbase f + a) (stk V st') ltac:(lia)) as (A & B). set (s' := for_up V len 0 _ (stk V st')) in *.
  rewrite E1 in R5. do 2 eexists. split; [reflexivity|]. cbn [Call_model.cis Call_model.stk Call_model.top ctop cfunc cnres]. split; [reflexivity|]. split; [|repeat (split; [reflexivity|])].
  2:{ intros j J. rewrite B by lia. apply R5. lia. }
  split. { cbn [cfunc]. rewrite <- (Nat.add_0_r (cfunc f)). rewrite A by lia. now rewrite Nat.add_0_r. }
  exists np, va, fs. split; [exact Kv|]. cbn [cbase cfunc ctop].
  assert (M : forall j, j < len -> s' (cfunc f + j) = stk V st' (cbase f + a + j)) by (intros j J; apply A; exact J).
  split; [|split; [lia|]].
  - apply holds_adjust. rewrite holds_adjust in Hr. intros k Lk. replace (cfunc f + (cbase n - (cbase f + a)) + k) with (cfunc f + (cbase n - (cbase f + a) + k)) by lia.
    rewrite M by lia. rewrite <- (Hr k Lk). f_equal. lia.
  - destruct va; [|lia]. destruct Hv as (Eb & Hv). split; [lia|]. rewrite holds_nth in *. intros k x N.
    assert (Lk : np + k < length args') by (rewrite nth_skipn_e in N; apply nth_error_Some; congruence).
    replace (cfunc f + (cbase n - (cbase f + a)) - (length args' - np) + k) with (cfunc f + (cbase n - (cbase f + a) - (length args' - np) + k)) by lia.
    rewrite M by lia. rewrite <- (Hv k x N). f_equal. lia.
Qed.

Lemma cfunction_results : forall V nil kind_of crun (st : state V) f cs a b c v args s' tp' n,
  cis V st = f :: cs -> stk V st (cbase f + a) = v -> operands V (stk V st) (top V st) (cbase f + a + 1) b args -> kind_of v = KC V ->
  (* the function gets its arguments; it keeps what is not its own *)
  crun v (stk V st) (cbase f + a) (cbase f + a + 1 + length args) = (s', tp', n) -> kept_below V (cbase f + a + 1) (stk V st) s' -> cbase f + a + 1 + n <= tp' ->
  exists st', op_call V nil kind_of crun st a b c = Ok (st', EC) /\ cis V st' = f :: cs /\ kept_below V (cbase f + a) (stk V st) (stk V st') /\
    (if c =? 0 then holds V (stk V st') (cbase f + a) (cells V s' (tp' - n) n) /\ top V st' = cbase f + a + n
     else holds V (stk V st') (cbase f + a) (adjust V nil (c - 1) (cells V s' (tp' - n) n)) /\ top V st' = ctop f).
Proof.
  intros V nil kind_of crun st f cs a b c v args s' tp' n C F O K X Kb Lt. destruct (set_top V st (cbase f + a) b args O) as (E1 & E2 & E3). cbv zeta in *.
  unfold op_call. rewrite C. rewrite <- C. set (st1 := if b =? 0 then st else _) in *. unfold precall. rewrite E1, F, K. unfold precall_fun. rewrite E1, F, K. cbn [Call_model.stk Call_model.top Call_model.cis]. rewrite ?E1, ?F, E3, X.
  unfold poscall. cbn [Call_model.stk Call_model.top Call_model.cis cfunc cnres].
  set (rs := cells V s' (tp' - n) n). assert (Lr : length rs = n) by apply cells_length.
  destruct (moveresults V nil s' (tp' - n) (cbase f + a) n (Z.of_nat c - 1)) as [[s2 tp2] fx] eqn:E. rewrite <- Lr in E.
  assert (Hr : holds V s' (tp' - length rs) rs) by (unfold holds; rewrite Lr; reflexivity).
  destruct (move_results V nil s' (tp' - length rs) (cbase f + a) (Z.of_nat c - 1) rs s2 tp2 fx ltac:(lia) Hr) as (A1 & A2 & A3 & A4); [unfold LUA_MULTRET; lia|exact E|].
  cbn [bind]. rewrite E2, C. unfold restore_top. cbn [Call_model.cis Call_model.stk Call_model.top].
  assert (Kp : kept_below V (cbase f + a) (stk V st) s2). { intros j J. rewrite A3 by exact J. apply Kb. lia. }
  unfold adjust_to, LUA_MULTRET in *.
  destruct (Nat.eqb_spec c 0) as [->|Nc].
  - cbn [Z.of_nat Z.sub Z.opp Z.add Z.leb Z.compare]. eexists. split; [reflexivity|]. cbn. split; [reflexivity|]. split; [exact Kp|]. split; [exact A1|]. rewrite A2. cbn. lia.
  - destruct (Z.leb_spec 0 (Z.of_nat c - 1)) as [Q|Q]; [|lia]. eexists. split; [reflexivity|]. cbn. split; [reflexivity|]. split; [exact Kp|].
    destruct (Z.eqb_spec (Z.of_nat c - 1) (-1)) as [Y|Y]; [lia|]. replace (Z.to_nat (Z.of_nat c - 1)) with (c - 1) in A1 by lia. split; [exact A1|reflexivity].
Qed.

(* a fast C function: at most one result is asked for *)
Lemma fast_result : forall V nil kind_of crun (st : state V) f cs a b c v x g r,
  cis V st = f :: cs -> stk V st (cbase f + a) = v -> operands V (stk V st) (top V st) (cbase f + a + 1) b [x] -> kind_of v = KFast V g -> g x = Some r -> c <= 2 ->
  exists st', op_call V nil kind_of crun st a b c = Ok (st', EC) /\ cis V st' = f :: cs /\ kept_below V (cbase f + a) (stk V st) (stk V st') /\
    (if c =? 0 then holds V (stk V st') (cbase f + a) [r] /\ top V st' = cbase f + a + 1
     else holds V (stk V st') (cbase f + a) (adjust V nil (c - 1) [r]) /\ top V st' = ctop f).
Proof.
  intros V nil kind_of crun st f cs a b c v x g r C F O K G Lc. destruct (set_top V st (cbase f + a) b [x] O) as (E1 & E2 & E3). cbv zeta in *.
  unfold op_call. rewrite C. rewrite <- C. set (st1 := if b =? 0 then st else _) in *. unfold precall. rewrite E1, F, K. unfold precall_fun. rewrite E1, F, K, E3. cbn [length].
  destruct (Nat.eqb_spec (cbase f + a + 1 + 1 - (cbase f + a) - 1) 1) as [_|Q]; [|lia].
  destruct O as (H & _). rewrite holds_nth in H. rewrite <- (Nat.add_0_r (cbase f + a + 1)). rewrite (H 0 x eq_refl), G. cbn [bind]. rewrite E2, C. unfold restore_top. cbn [Call_model.cis Call_model.stk Call_model.top].
  assert (Kp : kept_below V (cbase f + a) (stk V st) (upd V (stk V st) (cbase f + a) r)). { intros j J. apply upd_other. lia. }
  assert (H1 : holds V (upd V (stk V st) (cbase f + a) r) (cbase f + a) [r]). { apply holds_nth. intros [|[|k]] y N; [|discriminate N|discriminate N]. injection N as <-. rewrite Nat.add_0_r. apply upd_at. }
  destruct c as [|[|[|c]]]; [| | |lia]; cbn; eexists; (split; [reflexivity|]); cbn; (split; [reflexivity|]); (split; [exact Kp|]).
  - split; [exact H1|reflexivity].
  - split; reflexivity.
  - split; [exact H1|reflexivity].
Qed.
(* local x, y = f(7) with a fast C function that returns 5: y is 7, not nil *)
Lemma fast_two : exists (kind_of : nat -> kind nat) crun (st st' : state nat) f, cis nat st = [f] /\ kind_of (stk nat st (cbase f)) = KFast nat (fun _ => Some 5) /\
  operands nat (stk nat st) (top nat st) (cbase f + 1) 2 [7] /\
  op_call nat 0 kind_of crun st 0 2 3 = Ok (st', EC) /\ stk nat st' (cbase f) = 5 /\ stk nat st' (cbase f + 1) = 7 /\ adjust nat 0 2 [5] = [5; 0].
Proof.
  exists (fun v => if v =? 3 then KFast nat (fun _ => Some 5) else KLua nat 0 false 2), (fun _ s _ t => (s, t, 0)).
  exists (mkSt nat (fun i => nth i [9; 3; 7] 0) 3 [mkCI 0 1 6 0%Z]). eexists. eexists. split; [reflexivity|]. split; [reflexivity|]. split; [split; [reflexivity|left; reflexivity]|].
  split; [vm_compute; reflexivity|]. split; [reflexivity|]. split; reflexivity.
Qed.
