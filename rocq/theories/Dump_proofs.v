Require Import ZArith List Lia Bool.
From Verif Require Import Base Base_facts Str Str_facts Pack_model Pack_spec Pack_proofs Dump_model Dump_spec.
Import ListNotations.
Open Scope Z_scope.

Notation "'load' x <- m ; k" := (rbind m (fun x => k)) (at level 200, x name, m at level 100, k at level 200).
(* the reader of pieces *)
Definition contents (z : zio) : list Z := fst z ++ live (snd z).
Lemma num_slen : forall l : list Z, num l = slen l. Proof. reflexivity. Qed.
Lemma num_app : forall A (a b : list A), num (a ++ b) = num a + num b. Proof. intros. unfold num. rewrite app_length. lia. Qed.
Lemma zread_enough : forall ps buf n c r, contents (buf, ps) = c ++ r -> slen c = n -> exists z, zread buf ps n = Some (c, z) /\ contents z = r.
Proof.
  induction ps as [|p ps IH]; intros buf n c r E L; cbn [zread].
  - unfold contents in E. cbn [fst snd live] in E. rewrite app_nil_r in E. subst buf. destruct (Z.eqb_spec n 0) as [Z0|NZ].
    + assert (c = []) by (destruct c; [reflexivity|rewrite slen_cons in L; pose proof (slen_nonneg c); lia]). subst c. exists (r, []). split; [reflexivity|]. apply app_nil_r.
    + rewrite slen_app. pose proof (slen_nonneg r). destruct (Z.leb_spec n (slen c + slen r)); [|lia]. replace (Z.to_nat n) with (length c) by (unfold slen in L; lia). exists (skipn (length c) (c ++ r), []). split; [rewrite firstn_app, firstn_all, Nat.sub_diag, firstn_O, app_nil_r; reflexivity|]. unfold contents. cbn [fst snd live]. rewrite app_nil_r, skipn_app, skipn_all, Nat.sub_diag. reflexivity.
  - destruct (Z.eqb_spec n 0) as [Z0|NZ].
    + assert (c = []) by (destruct c; [reflexivity|rewrite slen_cons in L; pose proof (slen_nonneg c); lia]). subst c. exists (buf, p :: ps). auto.
    + destruct (Z.leb_spec n (slen buf)) as [LE|GT].
      * unfold contents in E. cbn [fst snd] in E. exists (skipn (Z.to_nat n) buf, p :: ps). assert (EC : c = firstn (Z.to_nat n) buf).
        { assert (H := f_equal (firstn (length c)) E). rewrite !firstn_app in H. rewrite firstn_all, Nat.sub_diag, firstn_O, app_nil_r in H. replace (length c - length buf)%nat with 0%nat in H by (unfold slen in *; lia). rewrite firstn_O, app_nil_r in H. rewrite <- H. f_equal. unfold slen in *; lia. }
        rewrite <- EC. split; [reflexivity|]. unfold contents. cbn [fst snd]. apply (app_inv_head c). rewrite <- E. rewrite app_assoc. f_equal. rewrite EC at 1. apply firstn_skipn.
      * assert (EB : exists c', c = buf ++ c'). { unfold contents in E. cbn [fst snd] in E. exists (skipn (length buf) c). assert (H := f_equal (firstn (length buf)) E). rewrite !firstn_app in H. rewrite firstn_all, Nat.sub_diag, firstn_O, app_nil_r in H. replace (length buf - length c)%nat with 0%nat in H by (unfold slen in *; lia). rewrite firstn_O, app_nil_r in H. rewrite H at 1. symmetry. apply firstn_skipn. }
        destruct EB as (c' & ->). unfold contents in E. cbn [fst snd] in E. rewrite <- app_assoc in E. apply app_inv_head in E. rewrite slen_app in L. destruct p as [|x p].
        { cbn [live] in E. symmetry in E. apply app_eq_nil in E. destruct E as [-> _]. rewrite slen_nil in L. lia. }
        cbn [live] in E. destruct (IH (x :: p) (n - slen buf) c' r) as (z & EZ & CZ); [exact E|lia|]. rewrite EZ. exists z. auto.
Qed.
Lemma zread_short : forall ps buf n, slen (contents (buf, ps)) < n -> zread buf ps n = None.
Proof.
  induction ps as [|p ps IH]; intros buf n L; cbn [zread]; unfold contents in L; cbn [fst snd] in L; rewrite slen_app in L; pose proof (slen_nonneg buf).
  - cbn [live] in L. rewrite slen_nil in L. destruct (Z.eqb_spec n 0); [lia|]. destruct (Z.leb_spec n (slen buf)); [lia|reflexivity].
  - pose proof (slen_nonneg (live (p :: ps))). destruct (Z.eqb_spec n 0); [lia|]. destruct (Z.leb_spec n (slen buf)); [lia|]. destruct p as [|x p]; [reflexivity|]. rewrite IH; [reflexivity|]. unfold contents. cbn [fst snd]. cbn [live] in L. lia.
Qed.

(* m reads exactly the bytes c and returns a; it fails when some of them are missing *)
Definition reads {A} (m : reader A) (c : list Z) (a : A) : Prop :=
  (forall z r, contents z = c ++ r -> exists z', m z = Ok (a, z') /\ contents z' = r) /\
  (forall z d, c = contents z ++ d -> d <> [] -> m z = Err ETruncated).
Lemma reads_ret : forall A (a : A), reads (ret a) [] a.
Proof. intros A a. split; [intros z r E; exists z; auto|]. intros z d E N. symmetry in E. apply app_eq_nil in E. destruct E as [_ ->]. congruence. Qed.
Lemma app_prefix : forall (A : Type) (a b c d : list A), a ++ b = c ++ d -> (exists e, a = c ++ e /\ d = e ++ b) \/ (exists e, c = a ++ e /\ b = e ++ d).
Proof.
  intros A. induction a as [|x a IH]; intros b c d E; [right; exists c; auto|]. destruct c as [|y c]; [left; exists (x :: a); auto|]. injection E as -> E. destruct (IH b c d E) as [(e & -> & ->)|(e & -> & ->)]; [left|right]; exists e; auto.
Qed.
Lemma reads_bind : forall A B (m : reader A) (k : A -> reader B) c d a b, reads m c a -> reads (k a) d b -> reads (rbind m k) (c ++ d) b.
Proof.
  intros A B m k c d a b [M1 M2] [K1 K2]. unfold rbind. split.
  - intros z r E. rewrite <- app_assoc in E. destruct (M1 z (d ++ r) E) as (z1 & -> & C1). cbn [bind]. apply K1. assumption.
  - intros z e E N. destruct (app_prefix _ _ _ _ _ E) as [(e' & EC & ED)|(e' & EC & ED)].
    + destruct e' as [|x e'].
      * rewrite app_nil_r in EC. destruct (M1 z []) as (z1 & -> & C1); [rewrite app_nil_r; auto|]. cbn [bind]. apply (K2 z1 e); [rewrite C1; symmetry; exact ED|assumption].
      * rewrite (M2 z (x :: e') EC) by discriminate. reflexivity.
    + destruct (M1 z e' EC) as (z1 & -> & C1). cbn [bind]. apply (K2 z1 e); [rewrite C1; assumption|assumption].
Qed.
Lemma reads_ret_bind : forall A B (a : A) (k : A -> reader B) d b, reads (k a) d b -> reads (rbind (ret a) k) d b.
Proof. intros A B a k d b R. exact R. Qed.
Lemma reads_block : forall c n, slen c = n -> reads (LoadBlock n) c c.
Proof.
  intros c n L. unfold LoadBlock. split.
  - intros [buf ps] r E. cbn [fst snd]. destruct (zread_enough ps buf n c r E L) as (z & -> & C). exists z. auto.
  - intros [buf ps] d E N. cbn [fst snd]. rewrite zread_short; [reflexivity|]. rewrite <- L, E, slen_app. destruct d; [congruence|]. rewrite slen_cons. pose proof (slen_nonneg d). lia.
Qed.
Lemma reads_eq : forall A (m : reader A) c c' a a', reads m c a -> c = c' -> a = a' -> reads m c' a'. Proof. intros. subst. assumption. Qed.

Section NATIVE.
Variable nl : bool.
Notation mem := (in_memory nl).
Notation bytes_of bs := (concat bs).
Lemma concat_blk : forall b, concat (blk b) = b. Proof. intros []; [reflexivity|]. cbn. rewrite app_nil_r. reflexivity. Qed.
Lemma of_mem : forall n k, of_memory nl (mem n k) = n mod 256 ^ Z.of_nat k.
Proof. intros n k. unfold of_memory, in_memory. destruct (le_bytes_ok k n) as (_ & _ & E). destruct nl; rewrite le_val_number, ?rev_involutive; exact E. Qed.
Lemma reads_mem : forall n k x, Z.of_nat k = x -> 0 <= n < 256 ^ x -> reads (load b <- LoadBlock x; ret (of_memory nl b)) (mem n k) n.
Proof.
  intros n k x E R. rewrite <- (app_nil_r (mem n k)). eapply reads_bind; [apply reads_block; rewrite slen_memory; assumption|]. eapply reads_eq; [apply reads_ret|reflexivity|]. rewrite of_mem, E. apply Z.mod_small. assumption.
Qed.
Lemma mem1 : forall y, mem (y mod 256) 1 = [y mod 256]. Proof. intros y. unfold in_memory. cbn [le_bytes rev app]. rewrite Z.mod_mod by lia. destruct nl; reflexivity. Qed.
Lemma reads_byte : forall y, 0 <= y < 256 -> reads (LoadByte nl) (bytes_of (DumpByte y)) y.
Proof. intros y Y. unfold DumpByte. rewrite concat_blk. rewrite <- mem1. rewrite Z.mod_small by lia. apply reads_mem; [reflexivity|cbn; lia]. Qed.
Lemma reads_num : forall x, is_u64 x -> reads (LoadNumber nl) (mem x 8) x.
Proof. intros x X. apply reads_mem; [reflexivity|exact X]. Qed.
Lemma reads_int : forall x, is_s32 x -> reads (LoadInt nl) (bytes_of (DumpInt nl x)) x.
Proof.
  intros x X. unfold DumpInt. rewrite concat_blk. unfold LoadInt. rewrite <- (app_nil_r (mem _ _)). eapply reads_bind; [apply reads_block; rewrite slen_memory; reflexivity|]. eapply reads_eq; [apply reads_ret|reflexivity|]. rewrite of_mem. change (256 ^ Z.of_nat 4) with two32. unfold u32. rewrite Z.mod_mod by (unfold two32; lia).
  pose proof (s32_range (x mod two32)). destruct (s32_eqm (x mod two32)) as [k E]. pose proof (Z.mod_eq x two32 ltac:(unfold two32; lia)). unfold is_s32 in X. unfold two31, two32 in *. lia.
Qed.
Lemma reads_u32 : forall x, is_u32 x -> reads (load t <- LoadInt nl; ret (u32 t)) (bytes_of (DumpInt nl x)) x.
Proof.
  intros x X. unfold DumpInt. rewrite concat_blk. rewrite <- (app_nil_r (mem _ _)). eapply reads_bind with (a := s32 x); [|eapply reads_eq; [apply reads_ret|reflexivity|]].
  - unfold LoadInt. rewrite <- (app_nil_r (mem _ _)). eapply reads_bind; [apply reads_block; rewrite slen_memory; reflexivity|]. eapply reads_eq; [apply reads_ret|reflexivity|]. rewrite of_mem. change (256 ^ Z.of_nat 4) with two32. unfold u32. rewrite Z.mod_mod by (unfold two32; lia). rewrite Z.mod_small by exact X. reflexivity.
  - destruct (s32_eqm x) as [k E]. unfold u32. rewrite E. rewrite Z.mod_add by (unfold two32; lia). apply Z.mod_small. exact X.
Qed.
Lemma reads_integer : forall x, is_s64 x -> reads (LoadInteger nl) (bytes_of (DumpInteger nl x)) x.
Proof.
  intros x X. unfold DumpInteger. rewrite concat_blk. unfold LoadInteger. rewrite <- (app_nil_r (mem _ _)). eapply reads_bind; [apply reads_block; rewrite slen_memory; reflexivity|]. eapply reads_eq; [apply reads_ret|reflexivity|]. rewrite of_mem. change (256 ^ Z.of_nat 8) with two64. rewrite Z.mod_small by apply u64_range. rewrite s64_u64. apply s64_id. exact X.
Qed.
Lemma reads_string : forall s, ostr_ok s -> reads (LoadString nl) (bytes_of (DumpString nl s)) s.
Proof.
  intros [s|] OK; unfold LoadString.
  - destruct OK as [W L]. pose proof (slen_nonneg s). cbn [DumpString]. rewrite u64_nonneg by lia. rewrite concat_app, concat_blk.
    assert (TAIL : reads (if slen s + 1 =? 0 then ret None else let size := slen s + 1 - 1 in if size <=? MAXSHORTLEN then load s <- LoadBlock size; ret (Some s) else if two64 <=? size + 25 then undef else load s <- LoadBlock size; ret (Some s)) s (Some s)).
    { destruct (Z.eqb_spec (slen s + 1) 0); [lia|]. cbv zeta. replace (slen s + 1 - 1) with (slen s) by lia. assert (RB : reads (load s <- LoadBlock (slen s); ret (Some s)) s (Some s)) by (rewrite <- (app_nil_r s) at 2; eapply reads_bind; [apply reads_block; reflexivity|apply reads_ret]). destruct (slen s <=? MAXSHORTLEN); [exact RB|]. destruct (Z.leb_spec two64 (slen s + 25)); [unfold_consts; lia|exact RB]. }
    destruct (Z.ltb_spec (slen s + 1) 255) as [LT|GE].
    + eapply reads_bind; [apply reads_byte; lia|]. cbv beta. destruct (Z.eqb_spec (slen s + 1) 255); [lia|]. apply reads_ret_bind. exact TAIL.
    + rewrite concat_app, concat_blk, <- app_assoc. eapply reads_bind; [apply reads_byte; lia|]. cbv beta. cbn [Z.eqb Pos.eqb]. eapply reads_bind; [apply reads_num; unfold is_u64; unfold_consts; lia|]. exact TAIL.
  - cbn [DumpString]. rewrite <- (app_nil_r (concat _)). eapply reads_bind; [apply reads_byte; lia|]. cbv beta. cbn [Z.eqb]. apply reads_ret_bind. cbn [Z.eqb]. apply reads_ret.
Qed.
Lemma reads_newvector : forall n, 0 <= n -> reads (newvector n) [] tt.
Proof. intros n N. unfold newvector. destruct (Z.ltb_spec n 0); [lia|]. apply reads_ret. Qed.
Lemma reads_times : forall A (m : reader A) (f : A -> list (list Z)) (g : A -> A) l, (forall a, In a l -> reads m (concat (f a)) (g a)) -> reads (times (length l) m) (concat (flat_map f l)) (map g l).
Proof.
  intros A m f g l. induction l as [|a l IH]; intros H; cbn [length times flat_map map]; [apply reads_ret|]. rewrite concat_app. eapply reads_bind; [apply H; left; reflexivity|]. cbv beta. rewrite <- (app_nil_r (concat (flat_map f l))). eapply reads_bind; [apply IH; intros; apply H; right; assumption|]. apply reads_ret.
Qed.
Lemma length4 : forall n, exists a b c d, mem n 4 = [a; b; c; d].
Proof. intros n. pose proof (slen_memory nl n 4) as L. destruct (mem n 4) as [|a [|b [|c [|d [|e l]]]]]; try discriminate; [eauto|]. unfold slen in L. cbn [length] in L. lia. Qed.
Lemma split_ok : forall l, Forall is_u32 l -> split_words nl (words nl l) = l /\ slen (words nl l) = 4 * slen l.
Proof.
  induction l as [|x l IH]; intros F; [split; reflexivity|]. inversion F as [|? ? X FL]; subst. destruct (IH FL) as [E L]. unfold words in *. cbn [flat_map]. rewrite slen_app, slen_memory, slen_cons, L. split; [|lia]. destruct (length4 (u32 x)) as (a & b & c & d & EM). rewrite EM. cbn [app split_words]. rewrite E. f_equal. rewrite <- EM, of_mem. change (256 ^ Z.of_nat 4) with two32. unfold u32. rewrite Z.mod_mod by (unfold two32; lia). apply Z.mod_small. exact X.
Qed.
Lemma words_u32 : forall l, words nl (map u32 l) = words nl l.
Proof. intros l. unfold words. induction l as [|x l IH]; [reflexivity|]. cbn [map flat_map]. rewrite IH. f_equal. f_equal. unfold u32. apply Z.mod_mod. unfold two32. lia. Qed.
Lemma reads_words : forall l, len_ok l -> reads (LoadWords nl) (concat (DumpInt nl (slen l) ++ blk (words nl l))) (map u32 l).
Proof.
  intros l L. unfold len_ok in L. rewrite num_slen in L. pose proof (slen_nonneg l). rewrite concat_app, concat_blk. unfold LoadWords. eapply reads_bind; [apply reads_int; unfold is_s32, two31 in *; lia|]. cbv beta. rewrite <- (app_nil_l (words nl l)). eapply reads_bind; [apply reads_newvector; lia|]. cbv beta.
  assert (FU : Forall is_u32 (map u32 l)) by (apply Forall_forall; intros x IN; apply in_map_iff in IN; destruct IN as (y & <- & _); apply u32_range). destruct (split_ok (map u32 l) FU) as [E LW]. rewrite words_u32 in E, LW. replace (slen (map u32 l)) with (slen l) in LW by (unfold slen; rewrite map_length; reflexivity).
  rewrite <- (app_nil_r (words nl l)). eapply reads_bind; [apply reads_block; lia|]. eapply reads_eq; [apply reads_ret|reflexivity|exact E].
Qed.
Lemma reads_const : forall c, const_ok c -> reads (LoadConstant nl) (concat (DumpConstant nl c)) c.
Proof.
  intros c OK. unfold DumpConstant, LoadConstant. rewrite concat_app. assert (TB : 0 <= tag c < 256) by (destruct c; cbn [tag]; try lia; destruct (slen s <=? MAXSHORTLEN); lia). eapply reads_bind; [apply reads_byte; exact TB|]. cbv beta. destruct c as [|b|x|n|s]; cbn [tag concat]; cbn [const_ok] in OK.
  - apply reads_ret.
  - cbn [Z.eqb Pos.eqb]. rewrite <- (app_nil_r (concat _)). eapply reads_bind; [apply reads_byte; lia|]. apply reads_ret.
  - cbn [Z.eqb Pos.eqb]. unfold DumpNumber. rewrite concat_blk. rewrite <- (app_nil_r (mem x 8)). eapply reads_bind; [apply reads_num; exact OK|]. apply reads_ret.
  - cbn [Z.eqb Pos.eqb]. rewrite <- (app_nil_r (concat _)). eapply reads_bind; [apply reads_integer; exact OK|]. apply reads_ret.
  - assert (RS : reads (load s <- LoadString nl; match s with None => undef | Some s => ret (KStr s) end) (concat (DumpString nl (Some s))) (KStr s)).
    { rewrite <- (app_nil_r (concat _)). eapply reads_bind; [apply reads_string; exact OK|]. cbv beta iota. apply reads_ret. }
    destruct (slen s <=? MAXSHORTLEN); cbn [Z.eqb Pos.eqb orb]; exact RS.
Qed.
Lemma map_id_in : forall A (l : list A), map (fun x => x) l = l. Proof. intros A l. apply map_id. Qed.
Lemma reads_consts : forall k, len_ok k -> Forall const_ok k -> reads (LoadConstants nl) (concat (DumpConstants nl k)) k.
Proof.
  intros k L F. unfold DumpConstants, LoadConstants. rewrite concat_app. unfold len_ok in L. eapply reads_bind; [apply reads_int; unfold is_s32, num, two31 in *; lia|]. cbv beta. rewrite <- (app_nil_l (concat (flat_map _ _))). eapply reads_bind; [apply reads_newvector; unfold num; lia|]. cbv beta. unfold num. rewrite Nat2Z.id. rewrite <- (map_id_in _ k) at 3. apply reads_times. intros c IN. apply reads_const. rewrite Forall_forall in F. apply F. exact IN.
Qed.
(* upvalues before their names are read *)
Definition bare (u : upv) : upv := mkUp None None ANY (u_instack u) (u_idx u).
Lemma reads_ups : forall l, len_ok l -> Forall up_ok l -> reads (LoadUpvalues nl) (concat (DumpUpvalues nl l)) (map bare l).
Proof.
  intros l L F. unfold DumpUpvalues, LoadUpvalues. rewrite concat_app. unfold len_ok in L. eapply reads_bind; [apply reads_int; unfold is_s32, num, two31 in *; lia|]. cbv beta. rewrite <- (app_nil_l (concat (flat_map _ _))). eapply reads_bind; [apply reads_newvector; unfold num; lia|]. cbv beta. unfold num. rewrite Nat2Z.id. apply reads_times. intros u IN. rewrite Forall_forall in F. destruct (F u IN) as (_ & _ & _ & BI & BX & _).
  rewrite concat_app. eapply reads_bind; [apply reads_byte; exact BI|]. cbv beta. rewrite <- (app_nil_r (concat (DumpByte (u_idx u)))). eapply reads_bind; [apply reads_byte; exact BX|]. apply reads_ret.
Qed.
Lemma reads_loc : forall (strip : bool) v, loc_ok v -> reads (LoadLocvar nl LUAC_FORMAT) (concat (DumpString nl (if strip then None else l_name v) ++ DumpInt nl (l_start v) ++ DumpInt nl (l_end v) ++ DumpInt nl (l_type v) ++ DumpString nl (l_user v))) (if strip then unnamed_loc v else v).
Proof.
  intros strip v (ON & OU & S & E & T). unfold LoadLocvar. rewrite !concat_app. eapply reads_bind; [apply reads_string; destruct strip; [exact I|exact ON]|]. cbv beta. eapply reads_bind; [apply reads_int; exact S|]. cbv beta. eapply reads_bind; [apply reads_int; exact E|]. cbv beta. eapply reads_bind; [apply reads_u32; exact T|]. cbv beta.
  rewrite <- (app_nil_r (concat (DumpString _ (l_user v)))). eapply reads_bind; [apply reads_string; exact OU|]. eapply reads_eq; [apply reads_ret|reflexivity|]. destruct v, strip; reflexivity.
Qed.
Lemma reads_upnames : forall (strip : bool) n l, Forall up_ok l -> (n <= length l)%nat -> reads (LoadUpvalNames nl LUAC_FORMAT n (map bare l))
  (concat (flat_map (fun u => DumpString nl (if strip then None else u_name u) ++ DumpInt nl (u_type u) ++ DumpString nl (u_user u)) (firstn n l)))
  (map (fun u => if strip then unnamed_up u else u) (firstn n l) ++ map bare (skipn n l)).
Proof.
  intros strip n. induction n as [|n IH]; intros l F LE; cbn [LoadUpvalNames firstn flat_map map app skipn]; [apply reads_ret|]. destruct l as [|u l]; [cbn [length] in LE; lia|]. inversion F as [|? ? (ON & OU & T & _) FL]; subst. cbn [map firstn flat_map skipn app]. rewrite !concat_app, <- !app_assoc.
  eapply reads_bind; [apply reads_string; destruct strip; [exact I|exact ON]|]. cbv beta. eapply reads_bind; [apply reads_u32; exact T|]. cbv beta. eapply reads_bind; [apply reads_string; exact OU|]. cbv beta.
  rewrite <- (app_nil_r (concat (flat_map _ _))). eapply reads_bind; [apply IH; [exact FL|cbn [length] in LE; lia]|]. eapply reads_eq; [apply reads_ret|reflexivity|]. f_equal. destruct u, strip; reflexivity.
Qed.
(* the typed part *)
Lemma last_typed_app : forall a b i, (i <= length a)%nat -> last_typed (a ++ b) i = last_typed a i.
Proof. intros a b i. induction i as [|i IH]; intros LE; [reflexivity|]. cbn [last_typed]. rewrite app_nth1 by lia. rewrite IH by lia. reflexivity. Qed.
Lemma last_typed_le : forall a i, (last_typed a i <= i)%nat. Proof. intros a i. induction i as [|i IH]; [cbn; lia|]. cbn [last_typed]. destruct (_ =? _); lia. Qed.
Lemma typed_part_snoc : forall l v, typed_part (l ++ [v]) = if l_type v =? ANY then typed_part l else l ++ [v].
Proof.
  induction l as [|x l IH]; intros v; cbn [app typed_part]; [reflexivity|]. rewrite IH. destruct (l_type v =? ANY); [reflexivity|]. destruct (l ++ [v]) eqn:E; [destruct l; discriminate|reflexivity].
Qed.
Lemma last_typed_loc : forall l, firstn (last_typed (map l_type l) (length l)) l = typed_part l.
Proof.
  induction l as [|v l IH] using rev_ind; [reflexivity|]. rewrite typed_part_snoc, map_app, app_length, Nat.add_1_r. cbn [last_typed map]. rewrite app_nth2 by (rewrite map_length; lia). rewrite map_length, Nat.sub_diag. cbn [nth]. destruct (l_type v =? ANY).
  - rewrite last_typed_app by (rewrite map_length; lia). rewrite firstn_app. replace (last_typed (map l_type l) (length l) - length l)%nat with 0%nat by (pose proof (last_typed_le (map l_type l) (length l)); lia). rewrite firstn_O, app_nil_r. exact IH.
  - rewrite firstn_all2; [reflexivity|]. rewrite app_length. cbn [length]. lia.
Qed.
Lemma last_typed_up : forall l, Forall up_ok l -> let n := last_typed (map u_type l) (length l) in map unnamed_up (firstn n l) ++ map bare (skipn n l) = map unnamed_up l.
Proof.
  induction l as [|v l IH] using rev_ind; intros F; [reflexivity|]. apply Forall_app in F. destruct F as [FL FV]. inversion FV as [|? ? (_ & _ & _ & _ & _ & U) _]; subst. cbv zeta. rewrite map_app, app_length, Nat.add_1_r. cbn [last_typed map]. rewrite app_nth2 by (rewrite map_length; lia). rewrite map_length, Nat.sub_diag. cbn [nth]. destruct (Z.eqb_spec (u_type v) ANY) as [EQ|NE].
  - rewrite last_typed_app by (rewrite map_length; lia). specialize (IH FL). cbv zeta in IH. set (n := last_typed (map u_type l) (length l)) in *. assert (n <= length l)%nat by apply last_typed_le. rewrite firstn_app, skipn_app. replace (n - length l)%nat with 0%nat by lia. rewrite firstn_O, app_nil_r. cbn [skipn]. rewrite map_app, app_assoc, IH, map_app. f_equal. cbn [map]. f_equal. unfold bare, unnamed_up. rewrite U, EQ by assumption. reflexivity.
  - rewrite firstn_all2 by (rewrite app_length; cbn [length]; lia). rewrite skipn_all2 by (rewrite app_length; cbn [length]; lia). rewrite app_nil_r. reflexivity.
Qed.

(* what is loaded *)
Definition isnone {A} (o : option A) : bool := match o with None => true | Some _ => false end.
Fixpoint image (strip : bool) (f : proto) : proto :=
  let (s, same, line, lastline, np, va, ms, code, k, ups, ps, li, lv) := f in
  Proto (if strip then None else s) (strip || same || isnone s) line lastline np va ms code k
    (map (fun u => if strip then unnamed_up u else u) ups) (map (image strip) ps) (if strip then [] else li)
    (if strip then map unnamed_loc (typed_part lv) else lv).
Fixpoint depth (f : proto) : nat := let (_, _, _, _, _, _, _, _, _, _, ps, _, _) := f in S (fold_right (fun p m => Nat.max (depth p) m) O ps).
Definition psub (f : proto) : list proto := let (_, _, _, _, _, _, _, _, _, _, ps, _, _) := f in ps.
Lemma depth_in : forall f p, In p (psub f) -> (depth p < depth f)%nat.
Proof.
  intros [] q IN. cbn [psub depth] in *. assert (depth q <= fold_right (fun p m => Nat.max (depth p) m) 0 p)%nat; [|lia]. induction p as [|x p IH]; [destruct IN|]. cbn [fold_right]. destruct IN as [->|IN]; [lia|]. specialize (IH IN). lia.
Qed.
Lemma all_in : forall s ps, (fix all l := match l with [] => True | p :: l => proto_ok s p /\ all l end) ps <-> forall p, In p ps -> proto_ok s p.
Proof.
  intros s ps. induction ps as [|x ps IH]; [split; [intros _ p []|auto]|]. split.
  - intros [H1 H2] p [->|IN]; [assumption|]. apply IH; assumption.
  - intros H. split; [apply H; left; reflexivity|]. apply IH. intros p IN. apply H. right. assumption.
Qed.
Lemma map_u32_id : forall l, Forall is_u32 l -> map u32 l = l.
Proof. intros l F. induction F as [|x l X F IH]; [reflexivity|]. cbn [map]. rewrite IH. f_equal. unfold u32. apply Z.mod_small. exact X. Qed.
Lemma map_s32_id : forall l, Forall is_s32 l -> map s32 (map u32 l) = l.
Proof.
  intros l F. induction F as [|x l X F IH]; [reflexivity|]. cbn [map]. rewrite IH. f_equal. pose proof (s32_range (u32 x)). destruct (s32_eqm (u32 x)) as [k E]. unfold u32 in *. pose proof (Z.mod_eq x two32 ltac:(unfold two32; lia)). unfold is_s32 in X. unfold two31, two32 in *. lia.
Qed.
Lemma firstn_len : forall A (l : list A), firstn (length l) l = l. Proof. intros A l. apply firstn_all. Qed.
Lemma in_firstn : forall A n (l : list A) x, In x (firstn n l) -> In x l.
Proof. intros A n. induction n as [|n IH]; intros [|y l] x IN; try destruct IN as []; [left; assumption|right; apply IH; assumption]. Qed.
Lemma reads_debug_loc : forall B (K : list locv -> reader B) d b (strip : bool) lv, len_ok lv -> Forall loc_ok lv -> reads (K (if strip then map unnamed_loc (typed_part lv) else lv)) d b ->
  let n := if strip then last_typed (map l_type lv) (length lv) else length lv in
  reads (load n <- LoadInt nl; load _ <- newvector n; load l <- times (Z.to_nat n) (LoadLocvar nl LUAC_FORMAT); K l)
    (concat (DumpInt nl (Z.of_nat n)) ++ concat (flat_map (fun v => DumpString nl (if strip then None else l_name v) ++ DumpInt nl (l_start v) ++ DumpInt nl (l_end v) ++ DumpInt nl (l_type v) ++ DumpString nl (l_user v)) (firstn n lv)) ++ d) b.
Proof.
  intros B K d b strip lv L F RK n. assert (NL : (n <= length lv)%nat) by (unfold n; destruct strip; [apply last_typed_le|lia]). unfold len_ok, num in L. eapply reads_bind; [apply reads_int; unfold is_s32, two31 in *; lia|]. cbv beta.
  rewrite <- (app_nil_l (concat (flat_map _ _) ++ d)). eapply reads_bind; [apply reads_newvector; lia|]. cbv beta. rewrite Nat2Z.id. assert (LN : length (firstn n lv) = n) by (rewrite firstn_length; lia). rewrite <- LN at 1. eapply reads_bind; [|exact RK].
  eapply reads_eq; [apply reads_times with (g := fun v => if strip then unnamed_loc v else v)|reflexivity|].
  - intros v IN. apply reads_loc. rewrite Forall_forall in F. apply F. apply (in_firstn _ n). exact IN.
  - unfold n. destruct strip; [rewrite last_typed_loc; reflexivity|]. rewrite firstn_len. apply map_id_in.
Qed.
Lemma reads_debug_up : forall B (K : list upv -> reader B) d b (strip : bool) ups, len_ok ups -> Forall up_ok ups -> reads (K (map (fun u => if strip then unnamed_up u else u) ups)) d b ->
  let n := if strip then last_typed (map u_type ups) (length ups) else length ups in
  reads (load n <- LoadInt nl; load l <- LoadUpvalNames nl LUAC_FORMAT (Z.to_nat n) (map bare ups); K l)
    (concat (DumpInt nl (Z.of_nat n)) ++ concat (flat_map (fun u => DumpString nl (if strip then None else u_name u) ++ DumpInt nl (u_type u) ++ DumpString nl (u_user u)) (firstn n ups)) ++ d) b.
Proof.
  intros B K d b strip ups L F RK n. assert (NL : (n <= length ups)%nat) by (unfold n; destruct strip; [apply last_typed_le|lia]). unfold len_ok, num in L. eapply reads_bind; [apply reads_int; unfold is_s32, two31 in *; lia|]. cbv beta. rewrite Nat2Z.id. eapply reads_bind; [|exact RK].
  eapply reads_eq; [apply (reads_upnames strip n ups F NL)|reflexivity|]. unfold n. destruct strip; [apply last_typed_up; assumption|]. rewrite firstn_len, skipn_all. cbn [map]. apply app_nil_r.
Qed.
Lemma reads_function : forall fuel f (strip : bool) parent, (depth f <= fuel)%nat -> proto_ok parent f ->
  reads (LoadFunction nl fuel LUAC_FORMAT (if strip then None else parent)) (concat (DumpFunction nl strip f)) (image strip f).
Proof.
  induction fuel as [|fuel IH]; intros f strip parent D OK; [destruct f; cbn [depth] in D; lia|]. assert (DI := depth_in f). destruct f as [s same line lastline np va ms code k ups ps li lv]. cbn [psub] in DI. cbn [proto_ok] in OK. destruct OK as (OS & SAME & NONE & OL & OLL & ON & OV & OM & (LC & FC) & (LK & FK) & (LU & FU) & (LL & FL) & (LV & FV) & LP & ALL). rewrite all_in in ALL.
  cbn [DumpFunction LoadFunction image]. set (sd := if strip || same then None else s). assert (ESD : (if strip || same then DumpString nl None else DumpString nl s) = DumpString nl sd) by (unfold sd; destruct (strip || same); reflexivity). rewrite ESD. assert (OSD : ostr_ok sd) by (unfold sd; destruct (strip || same); [exact I|assumption]).
  set (src := match sd with None => if strip then None else parent | Some s => Some s end). assert (ESRC : src = if strip then None else s). { unfold src, sd. destruct strip; [reflexivity|]. cbn [orb]. destruct same; [symmetry; apply SAME; reflexivity|]. destruct s; [reflexivity|]. apply NONE. reflexivity. }
  assert (ESM : (match sd with None => true | Some _ => false end) = strip || same || isnone s) by (unfold sd; destruct strip, same, s; reflexivity).
  rewrite !concat_app. rewrite <- !app_assoc.
  eapply reads_bind; [apply reads_string; exact OSD|]. cbv beta zeta. fold src. eapply reads_bind; [apply reads_int; exact OL|]. cbv beta. eapply reads_bind; [apply reads_int; exact OLL|]. cbv beta. eapply reads_bind; [apply reads_byte; exact ON|]. cbv beta. eapply reads_bind; [apply reads_byte; exact OV|]. cbv beta. eapply reads_bind; [apply reads_byte; exact OM|]. cbv beta.
  eapply reads_bind; [apply (reads_words code LC)|]. cbv beta. rewrite (map_u32_id code FC). eapply reads_bind; [apply (reads_consts k LK FK)|]. cbv beta. eapply reads_bind; [apply (reads_ups ups LU FU)|]. cbv beta.
  eapply reads_bind; [apply reads_int; unfold len_ok, num, is_s32, two31 in *; lia|]. cbv beta. rewrite <- (app_nil_l (concat (flat_map (DumpFunction nl strip) ps) ++ _)). eapply reads_bind; [apply reads_newvector; unfold num; lia|]. cbv beta. unfold num at 1. rewrite Nat2Z.id.
  eapply reads_bind; [apply reads_times with (g := image strip); intros p IN; rewrite ESRC; apply IH; [specialize (DI p IN); lia|apply ALL; exact IN]|]. cbv beta.
  unfold DumpDebug. rewrite !concat_app. rewrite app_assoc, <- concat_app.
  eapply reads_bind; [apply reads_words; destruct strip; [unfold len_ok, num, two31; cbn; lia|exact LL]|]. cbv beta.
  apply (reads_debug_loc _ (fun lv => load n <- LoadInt nl; load ups <- LoadUpvalNames nl LUAC_FORMAT (Z.to_nat n) (map bare ups); _)); [exact LV|exact FV|].
  rewrite <- (app_nil_r (concat (flat_map _ _))). apply (reads_debug_up _ (fun ups => _)); [exact LU|exact FU|].
  eapply reads_eq; [apply reads_ret|reflexivity|]. rewrite ESM, ESRC. f_equal. destruct strip; [reflexivity|]. apply map_s32_id. exact FL.
Qed.
Lemma zgetc_cons : forall z c r, contents z = c :: r -> exists z', zgetc z = Some (c, z') /\ contents z' = r.
Proof.
  intros [[|x buf] ps] c r E; unfold contents in E; cbn [fst snd app] in E.
  - destruct ps as [|[|x p] ps]; cbn [live app] in E; try discriminate. injection E as -> E. exists (p, ps). split; [reflexivity|exact E].
  - injection E as -> E. exists (buf, ps). split; [reflexivity|exact E].
Qed.
Lemma reads_literal : forall l, reads (checkliteral l) l tt.
Proof. intros l. unfold checkliteral. rewrite <- (app_nil_r l) at 2. eapply reads_bind; [apply reads_block; reflexivity|]. cbv beta. destruct (list_eq_dec Z.eq_dec l l); [apply reads_ret|congruence]. Qed.
Lemma reads_size : forall n, 0 <= n < 256 -> reads (checksize nl n) (concat (DumpByte n)) tt.
Proof. intros n N. unfold checksize. rewrite <- (app_nil_r (concat _)). eapply reads_bind; [apply reads_byte; exact N|]. cbv beta. rewrite Z.eqb_refl. apply reads_ret. Qed.
Definition header_rest : list Z := tl (concat (DumpHeader nl)).
Lemma header_split : concat (DumpHeader nl) = 27 :: header_rest. Proof. reflexivity. Qed.
Lemma reads_header : reads (checkHeader nl) header_rest LUAC_FORMAT.
Proof.
  assert (E : header_rest = tl SIGNATURE ++ concat (DumpByte LUAC_VERSION) ++ concat (DumpByte LUAC_FORMAT) ++ LUAC_DATA ++ concat (DumpByte 4) ++ concat (DumpByte 8) ++ concat (DumpByte 4) ++ concat (DumpByte 8) ++ concat (DumpByte 8) ++ concat (DumpInteger nl LUAC_INT) ++ concat (DumpNumber nl LUAC_NUM)).
  { unfold header_rest, DumpHeader. rewrite !concat_app, !concat_blk. reflexivity. }
  rewrite E. unfold checkHeader. eapply reads_bind; [apply reads_literal|]. cbv beta. eapply reads_bind; [apply reads_byte; unfold byte_ok, LUAC_VERSION, LUAC_FORMAT; lia|]. cbv beta. rewrite Z.eqb_refl. cbn [negb]. eapply reads_bind; [apply reads_byte; unfold byte_ok, LUAC_VERSION, LUAC_FORMAT; lia|]. cbv beta. rewrite Z.ltb_irrefl. eapply reads_bind; [apply reads_literal|]. cbv beta.
  do 5 (eapply reads_bind; [apply reads_size; lia|]; cbv beta). eapply reads_bind; [apply reads_integer; unfold is_s64, LUAC_INT; unfold_consts; lia|]. cbv beta. rewrite Z.eqb_refl. cbn [negb]. unfold DumpNumber. rewrite concat_blk. rewrite <- (app_nil_r (mem _ _)). eapply reads_bind; [apply reads_num; unfold is_u64, LUAC_NUM; unfold_consts; lia|]. cbv beta. rewrite Z.eqb_refl. apply reads_ret.
Qed.
Definition body (f : proto) (strip : bool) : list Z := header_rest ++ concat (DumpByte (num (pupvalues f))) ++ concat (DumpFunction nl strip f).
Lemma reads_undump : forall fuel f strip, main_ok f -> (depth f <= fuel)%nat -> reads (luaU_undump nl fuel) (body f strip) (num (pupvalues f), image strip f).
Proof.
  intros fuel f strip [OK NU] D. unfold luaU_undump, body. eapply reads_bind; [apply reads_header|]. cbv beta. eapply reads_bind; [apply reads_byte; unfold num in *; lia|]. cbv beta. rewrite <- (app_nil_r (concat (DumpFunction _ _ _))). eapply reads_bind; [|apply reads_ret]. pose proof (reads_function fuel f strip None D OK) as R. destruct strip; exact R.
Qed.
Lemma write_all : forall bs w, write_blocks (list Z) (fun w b => (w ++ b, 0)) w bs = (w ++ concat bs, 0).
Proof. induction bs as [|b bs IH]; intros w; cbn [write_blocks concat]; [rewrite app_nil_r; reflexivity|]. cbn [Z.eqb]. rewrite IH, app_assoc. reflexivity. Qed.
Lemma str_dump_eq : forall f strip, str_dump nl f strip = 27 :: body f strip.
Proof. intros f strip. unfold str_dump, luaU_dump. rewrite write_all. cbn [fst app]. unfold dump_blocks. rewrite !concat_app, header_split. reflexivity. Qed.
End NATIVE.
Lemma erased_image : forall f parent, proto_ok parent f -> forall strip, erased (image strip f) = if strip then stripped f else erased f.
Proof.
  assert (H : forall n f, (depth f <= n)%nat -> forall strip, erased (image strip f) = if strip then stripped f else erased f); [|intros f parent _; apply (H (depth f)); lia].
  induction n as [|n IH]; intros f D strip; [destruct f; cbn [depth] in D; lia|]. assert (DI := depth_in f). destruct f as [s same line lastline np va ms code k ups ps li lv]. cbn [psub] in DI. cbn [image erased stripped].
  rewrite map_map. destruct strip; f_equal; try reflexivity.
  - apply map_ext_in. intros p IN. apply (IH p) with (strip := true). specialize (DI p IN). lia.
  - apply map_id_in.
  - apply map_ext_in. intros p IN. apply (IH p) with (strip := false). specialize (DI p IN). lia.
Qed.
Lemma load_dump : forall nl f strip mode pieces rest, main_ok f -> allows mode 98 = true -> live pieces = str_dump nl f strip ++ rest ->
  exists d g, erased g = (if strip then stripped f else erased f) /\ forall fuel, (d <= fuel)%nat -> f_parser nl fuel mode ([], pieces) = Ok (Binary (num (pupvalues f)) g).
Proof.
  intros nl f strip mode pieces rest OK M L. exists (depth f), (image strip f). split; [apply (erased_image f None); apply OK|]. intros fuel D. rewrite str_dump_eq in L. destruct (zgetc_cons ([], pieces) 27 (body nl f strip ++ rest)) as (z & EZ & CZ); [exact L|]. unfold f_parser. rewrite EZ, M. destruct (proj1 (reads_undump nl fuel f strip OK D) z rest CZ) as (z' & -> & _). reflexivity.
Qed.
Lemma load_truncated : forall nl f strip mode pieces rest, main_ok f -> allows mode 98 = true -> str_dump nl f strip = live pieces ++ rest -> live pieces <> [] -> rest <> [] ->
  exists d, forall fuel, (d <= fuel)%nat -> f_parser nl fuel mode ([], pieces) = Err ETruncated.
Proof.
  intros nl f strip mode pieces rest OK M L NE NR. exists (depth f). intros fuel D. rewrite str_dump_eq in L. destruct (live pieces) as [|c l] eqn:EL; [congruence|]. cbn [app] in L. injection L as <- L. destruct (zgetc_cons ([], pieces) 27 l) as (z & EZ & CZ); [exact EL|]. unfold f_parser. rewrite EZ, M. rewrite (proj2 (reads_undump nl fuel f strip OK D) z rest); [reflexivity| |exact NR]. rewrite CZ. exact L.
Qed.
Lemma typed_idem : forall l, typed_part (typed_part l) = typed_part l.
Proof.
  induction l as [|v l IH]; [reflexivity|]. cbn [typed_part]. destruct (typed_part l) as [|w r] eqn:E.
  - destruct (l_type v =? ANY) eqn:T; [reflexivity|]. cbn [typed_part]. rewrite T. reflexivity.
  - cbn [typed_part] in *. rewrite IH. reflexivity.
Qed.
Lemma written_blocks : forall W (writer : W -> list Z -> W * Z) bs w w' status, write_blocks W writer w bs = (w', status) ->
  (status = 0 /\ written writer w bs w') \/
  (status <> 0 /\ exists done b rest w1, bs = done ++ b :: rest /\ written writer w done w1 /\ writer w1 b = (w', status)).
Proof.
  intros W writer bs. induction bs as [|b bs IH]; intros w w' status E; cbn [write_blocks] in E; [injection E as <- <-; left; split; reflexivity|].
  destruct (writer w b) as [w1 st] eqn:EW. destruct (Z.eqb_spec st 0) as [->|NE].
  - destruct (IH _ _ _ E) as [[E1 WR]|(NE & done & b1 & rest & w2 & EB & WR & E2)]; [left; split; [exact E1|exists w1; split; assumption]|].
    right. split; [exact NE|]. exists (b :: done), b1, rest, w2. split; [rewrite EB; reflexivity|]. split; [exists w1; split; assumption|exact E2].
  - injection E as <- <-. right. split; [exact NE|]. exists [], b, bs, w. split; [reflexivity|]. split; [reflexivity|exact EW].
Qed.
Lemma dump_writer : forall nl f strip W (writer : W -> list Z -> W * Z) w w' status, luaU_dump nl W writer w strip f = (w', status) ->
  exists done rest, str_dump nl f strip = concat done ++ concat rest /\ Forall (fun b => b <> []) (done ++ rest) /\
    if status =? 0 then rest = [] /\ written writer w done w'
    else exists w1 b r, rest = b :: r /\ written writer w done w1 /\ writer w1 b = (w', status).
Proof.
  intros nl f strip W writer w w' status E. unfold luaU_dump in E. assert (SD : str_dump nl f strip = concat (dump_blocks nl strip f)) by (unfold str_dump, luaU_dump; rewrite write_all; reflexivity).
  assert (NE : Forall (fun b => b <> []) (dump_blocks nl strip f)). 2: destruct (written_blocks _ _ _ _ _ _ E) as [[-> WR]|(NS & done & b & rest & w1 & EB & WR & EW)].
  2: { exists (dump_blocks nl strip f), []. rewrite !app_nil_r. repeat split; assumption. }
  2: { exists done, (b :: rest). rewrite SD, EB, concat_app. split; [reflexivity|]. split; [rewrite <- EB; exact NE|]. destruct (Z.eqb_spec status 0) as [->|_]; [congruence|]. exists w1, b, rest. repeat split; assumption. }
  assert (B : forall l, Forall (fun b => b <> []) (blk l)) by (intros [|x l]; constructor; [discriminate|constructor]).
  assert (S : forall s, Forall (fun b => b <> []) (DumpString nl s)) by (intros [s|]; unfold DumpString; [|apply B]; apply Forall_app; split; [destruct (_ <? _); [apply B|apply Forall_app; split; apply B]|apply B]).
  assert (FM : forall A (h : A -> list (list Z)) l, (forall x, In x l -> Forall (fun b => b <> []) (h x)) -> Forall (fun b => b <> []) (flat_map h l)).
  { intros A h l H. apply Forall_forall. intros x IN. apply in_flat_map in IN. destruct IN as (y & IY & IX). exact (proj1 (Forall_forall _ _) (H y IY) x IX). }
  assert (I : forall i, Forall (fun b => b <> []) (DumpInt nl i)) by (intros i; apply B).
  assert (Y : forall i, Forall (fun b => b <> []) (DumpByte i)) by (intros i; apply B).
  assert (F : forall n g, (depth g <= n)%nat -> Forall (fun b => b <> []) (DumpFunction nl strip g)).
  { induction n as [|n IH]; intros g D; [destruct g; cbn [depth] in D; lia|]. assert (DI := depth_in g). destruct g as [s same line lastline np va ms code k ups ps li lv]. cbn [psub] in DI. cbn [DumpFunction].
    unfold DumpCode, DumpConstants, DumpUpvalues, DumpDebug. repeat (apply Forall_app; split); try apply B; try apply I; try apply Y; try (apply FM; intros x IN).
    - destruct (strip || same); apply S.
    - unfold DumpConstant. apply Forall_app; split; [apply Y|]. destruct x; [apply Forall_nil|apply B|apply B|apply B|apply S].
    - apply Forall_app; split; apply Y.
    - apply IH. specialize (DI x IN). lia.
    - repeat (apply Forall_app; split); try apply I; apply S.
    - repeat (apply Forall_app; split); try apply I; apply S. }
  unfold dump_blocks, DumpHeader. repeat (apply Forall_app; split); try apply B; try apply Y. apply (F (depth f)). lia.
Qed.
Lemma map_id_ext : forall A (h : A -> A) l, (forall x, h x = x) -> map h l = l. Proof. intros A h l H. rewrite (map_ext h (fun x => x)) by exact H. apply map_id. Qed.
Lemma typed_types : forall l, typed_part (map unnamed_loc l) = map unnamed_loc (typed_part l).
Proof.
  induction l as [|v l IH]; [reflexivity|]. cbn [map typed_part]. rewrite IH. destruct (typed_part l); cbn [map]; [|reflexivity]. cbn [unnamed_loc l_type]. destruct (l_type v =? ANY); reflexivity.
Qed.
Lemma typed_in : forall l v, In v (typed_part l) -> In v l.
Proof.
  induction l as [|x l IH]; intros v IN; [destruct IN|]. cbn [typed_part] in IN. destruct (typed_part l) as [|y r].
  - destruct (l_type x =? ANY); [destruct IN|]. destruct IN as [->|[]]. left. reflexivity.
  - destruct IN as [->|IN]; [left; reflexivity|right; apply IH; exact IN].
Qed.
Lemma typed_length : forall l, (length (typed_part l) <= length l)%nat.
Proof. induction l as [|x l IH]; [cbn; lia|]. cbn [typed_part]. destruct (typed_part l); [destruct (l_type x =? ANY); cbn; lia|cbn [length] in *; lia]. Qed.
Lemma last_typed_typed : forall l, last_typed (map l_type (typed_part l)) (length (typed_part l)) = length (typed_part l).
Proof.
  intros l. pose proof (last_typed_loc (typed_part l)) as E. rewrite typed_idem in E. apply (f_equal (@length _)) in E. rewrite firstn_length in E. pose proof (last_typed_le (map l_type (typed_part l)) (length (typed_part l))). lia.
Qed.
Lemma last_typed_length : forall l, last_typed (map l_type l) (length l) = length (typed_part l).
Proof. intros l. rewrite <- last_typed_loc, firstn_length. pose proof (last_typed_le (map l_type l) (length l)). lia. Qed.
Lemma image_ok : forall n f, (depth f <= n)%nat -> forall parent (strip : bool), proto_ok parent f -> proto_ok (if strip then None else parent) (image strip f).
Proof.
  induction n as [|n IH]; intros f D parent strip OK; [destruct f; cbn [depth] in D; lia|]. assert (DI := depth_in f). destruct f as [s same line lastline np va ms code k ups ps li lv]. cbn [psub] in DI. cbn [proto_ok] in OK. destruct OK as (OS & SAME & NONE & OL & OLL & ON & OV & OM & (LC & FC) & (LK & FK) & (LU & FU) & (LL & FL) & (LV & FV) & LP & ALL). rewrite all_in in ALL.
  cbn [image proto_ok]. split; [destruct strip; [exact I|exact OS]|]. split.
  { intros _E. destruct strip; [reflexivity|]. cbn [orb] in _E. apply orb_true_iff in _E. destruct _E as [E|E]; [apply SAME; exact E|]. destruct s; [discriminate|]. symmetry. apply NONE. reflexivity. }
  split; [destruct strip; [reflexivity|exact NONE]|]. split; [exact OL|]. split; [exact OLL|]. split; [exact ON|]. split; [exact OV|]. split; [exact OM|]. split; [split; assumption|]. split; [split; assumption|]. split.
  { split; [unfold len_ok, num; rewrite map_length; exact LU|]. apply Forall_forall. intros x IN. apply in_map_iff in IN. destruct IN as (u & <- & IN). rewrite Forall_forall in FU. specialize (FU u IN). destruct strip; [|exact FU]. destruct FU as (U1 & U2 & U3 & U4 & U5 & U6). unfold up_ok, unnamed_up; cbn [u_name u_user u_type u_instack u_idx]. repeat split; try assumption; try apply U3; try apply U4; apply U5. }
  split; [destruct strip; [split; [unfold len_ok, num, two31; cbn; lia|constructor]|split; assumption]|]. split.
  { destruct strip; [|split; assumption]. split; [unfold len_ok, num in *; rewrite map_length; pose proof (typed_length lv); lia|]. apply Forall_forall. intros x IN. apply in_map_iff in IN. destruct IN as (v & <- & IN). rewrite Forall_forall in FV. specialize (FV v (typed_in _ _ IN)). destruct FV as (V1 & V2 & V3 & V4 & V5). unfold loc_ok, unnamed_loc; cbn [l_name l_user l_start l_end l_type]. split; [exact I|]. repeat split; try assumption; try apply V3; try apply V4; apply V5. }
  split; [unfold len_ok, num; rewrite map_length; exact LP|]. apply all_in. intros q IN. apply in_map_iff in IN. destruct IN as (p & <- & IN). pose proof (IH p ltac:(specialize (DI p IN); lia) s strip (ALL p IN)) as R. destruct strip; exact R.
Qed.
Lemma main_image : forall f strip, main_ok f -> main_ok (image strip f).
Proof.
  intros f strip [OK NU]. split; [pose proof (image_ok (depth f) f (le_n _) None strip OK) as R; destruct strip; exact R|]. destruct f. cbn [image pupvalues] in *. unfold num in *. rewrite map_length. exact NU.
Qed.
Lemma dump_image : forall nl n f, (depth f <= n)%nat -> forall strip, DumpFunction nl strip (image strip f) = DumpFunction nl strip f.
Proof.
  intros nl n. induction n as [|n IH]; intros f D strip; [destruct f; cbn [depth] in D; lia|]. assert (DI := depth_in f). destruct f as [s same line lastline np va ms code k ups ps li lv]. cbn [psub] in DI. cbn [image DumpFunction].
  assert (E1 : (if strip || (strip || same || isnone s) then DumpString nl None else DumpString nl (if strip then None else s)) = (if strip || same then DumpString nl None else DumpString nl s)) by (destruct strip, same, s; reflexivity). rewrite E1.
  assert (E2 : flat_map (DumpFunction nl strip) (map (image strip) ps) = flat_map (DumpFunction nl strip) ps).
  { rewrite flat_map_concat_map, map_map, flat_map_concat_map. f_equal. apply map_ext_in. intros p IN. apply IH. specialize (DI p IN). lia. } rewrite E2. unfold num at 1. rewrite map_length. fold (num ps).
  assert (E3 : DumpUpvalues nl (map (fun u => if strip then unnamed_up u else u) ups) = DumpUpvalues nl ups).
  { unfold DumpUpvalues, num. rewrite map_length. f_equal. rewrite flat_map_concat_map, map_map, flat_map_concat_map. f_equal. apply map_ext. intros u. destruct strip; reflexivity. } rewrite E3.
  assert (E4 : DumpDebug nl strip (if strip then [] else li) (if strip then map unnamed_loc (typed_part lv) else lv) (map (fun u => if strip then unnamed_up u else u) ups) = DumpDebug nl strip li lv ups); [|rewrite E4; reflexivity].
  unfold DumpDebug. destruct strip; [|rewrite map_id_ext by reflexivity; reflexivity]. do 2 f_equal. rewrite !map_map. rewrite !map_length. change (fun x => l_type (unnamed_loc x)) with l_type. change (fun x => u_type (unnamed_up x)) with u_type.
  rewrite last_typed_typed, last_typed_length. do 1 f_equal. f_equal.
  - rewrite <- last_typed_length, last_typed_loc. rewrite last_typed_length. rewrite firstn_all2 by (rewrite map_length; lia). rewrite flat_map_concat_map, map_map, flat_map_concat_map. reflexivity.
  - f_equal. rewrite firstn_map, flat_map_concat_map, map_map, flat_map_concat_map. reflexivity.
Qed.
Lemma redump : forall nl f strip, main_ok f -> exists g d, main_ok g /\ str_dump nl g strip = str_dump nl f strip /\ forall fuel pieces mode rest, (d <= fuel)%nat -> allows mode 98 = true -> live pieces = str_dump nl f strip ++ rest -> f_parser nl fuel mode ([], pieces) = Ok (Binary (num (pupvalues f)) g).
Proof.
  intros nl f strip OK. exists (image strip f), (depth f). split; [apply main_image; exact OK|]. split.
  - rewrite !str_dump_eq. unfold body. rewrite (dump_image nl (depth f) f (le_n _)). do 4 f_equal. destruct f. cbn [image pupvalues]. unfold num. rewrite map_length. reflexivity.
  - intros fuel pieces mode rest D M L. rewrite str_dump_eq in L. destruct (zgetc_cons ([], pieces) 27 (body nl f strip ++ rest)) as (z & EZ & CZ); [exact L|]. unfold f_parser. rewrite EZ, M. destruct (proj1 (reads_undump nl fuel f strip OK D) z rest CZ) as (z' & -> & _). reflexivity.
Qed.
Lemma zread_sound : forall ps buf n c z, 0 <= n -> zread buf ps n = Some (c, z) -> contents (buf, ps) = c ++ contents z /\ slen c = n.
Proof.
  induction ps as [|p ps IH]; intros buf n c z N E; cbn [zread] in E; (destruct (Z.eqb_spec n 0) as [->|NZ]; [injection E as <- <-; split; reflexivity|]); pose proof (slen_nonneg buf); (destruct (Z.leb_spec n (slen buf)) as [LE|GT]; [injection E as <- <-; unfold contents; cbn [fst snd]; split; [rewrite app_assoc, firstn_skipn; reflexivity|unfold slen in *; rewrite firstn_length; lia]|]); [discriminate|].
  destruct p as [|x p]; [discriminate|]. destruct (zread (x :: p) ps (n - slen buf)) as [[l z1]|] eqn:R; [|discriminate]. injection E as <- <-. destruct (IH (x :: p) (n - slen buf) l z1 ltac:(lia) R) as [C L]. split; [|rewrite slen_app; lia]. unfold contents in *. cbn [fst snd] in *. cbn [live]. rewrite C. rewrite app_assoc. reflexivity.
Qed.
Lemma block_sound : forall n z c z', 0 <= n -> LoadBlock n z = Ok (c, z') -> contents z = c ++ contents z' /\ slen c = n.
Proof. intros n [buf ps] c z' N E. unfold LoadBlock in E. cbn [fst snd] in E. destruct (zread buf ps n) as [r|] eqn:R; [|discriminate]. injection E as ->. exact (zread_sound _ _ _ _ _ N R). Qed.
Lemma rbind_inv : forall A B (m : reader A) (k : A -> reader B) z r, rbind m k z = Ok r -> exists a z1, m z = Ok (a, z1) /\ k a z1 = Ok r.
Proof. intros A B m k z r E. unfold rbind in E. destruct (m z) as [[a z1]| | |] eqn:M; cbn [bind] in E; try discriminate. exists a, z1. auto. Qed.
Lemma literal_sound : forall l z z', checkliteral l z = Ok (tt, z') -> contents z = l ++ contents z'.
Proof.
  intros l z z' E. apply rbind_inv in E. destruct E as (b & z1 & E1 & E2). destruct (block_sound _ _ _ _ (slen_nonneg l) E1) as [C _]. destruct (list_eq_dec Z.eq_dec l b) as [<-|]; [|discriminate]. injection E2 as <-. exact C.
Qed.
Lemma byte_sound : forall nl z b z', wf_str (contents z) -> LoadByte nl z = Ok (b, z') -> contents z = b :: contents z' /\ wf_str (contents z') /\ byte_ok b.
Proof.
  intros nl z b z' W E. apply rbind_inv in E. destruct E as (l & z1 & E1 & E2). destruct (block_sound 1 _ _ _ ltac:(lia) E1) as [C L]. injection E2 as <- <-. destruct l as [|x [|y l]]; [rewrite slen_nil in L; lia| |rewrite !slen_cons in L; pose proof (slen_nonneg l); lia]. rewrite C in W. cbn [app] in W, C. inversion W as [|? ? X W']; subst. assert (of_memory nl [x] = x) as -> by (unfold is_byte in X; destruct nl; unfold of_memory; cbn [rev app le_val]; lia). split; [exact C|]. split; [exact W'|exact X].
Qed.
Lemma size_sound : forall nl n z z', wf_str (contents z) -> checksize nl n z = Ok (tt, z') -> contents z = n :: contents z' /\ wf_str (contents z').
Proof.
  intros nl n z z' W E. apply rbind_inv in E. destruct E as (b & z1 & E1 & E2). destruct (byte_sound _ _ _ _ W E1) as (C & W' & _). destruct (Z.eqb_spec b n) as [->|]; [|discriminate]. injection E2 as <-. auto.
Qed.
Lemma memory_inj : forall nl a b, wf_str a -> wf_str b -> length a = length b -> of_memory nl a = of_memory nl b -> a = b.
Proof.
  intros nl a b WA WB L E. unfold of_memory in E. destruct nl; rewrite !le_val_number in E; [apply number_inj; assumption|]. rewrite <- (rev_involutive a), <- (rev_involutive b). f_equal. apply number_inj; [apply Forall_rev; assumption|apply Forall_rev; assumption|rewrite !rev_length; exact L|exact E].
Qed.
Lemma memory_range : forall nl l, wf_str l -> length l = 8%nat -> 0 <= of_memory nl l < two64.
Proof.
  intros nl l W L. assert (H : forall m, wf_str m -> length m = 8%nat -> 0 <= number m < two64). { intros m WM LM. pose proof (number_range m WM) as R. unfold slen in R. rewrite LM in R. exact R. } unfold of_memory. destruct nl; rewrite le_val_number; apply H; try assumption; [apply Forall_rev; assumption|rewrite rev_length; assumption].
Qed.
Lemma wf_app_inv : forall a b, wf_str (a ++ b) -> wf_str a /\ wf_str b. Proof. intros a b W. apply Forall_app in W. exact W. Qed.
Lemma header_sound : forall nl z v z', wf_str (contents z) -> checkHeader nl z = Ok (v, z') -> (v = 0 \/ v = 1) /\ contents z = tl (header nl v) ++ contents z'.
Proof.
  intros nl z v z' W E. unfold checkHeader in E. apply rbind_inv in E. destruct E as ([] & z1 & E1 & E). apply literal_sound in E1. rewrite E1 in W. apply wf_app_inv in W. destruct W as [_ W].
  apply rbind_inv in E. destruct E as (b & z2 & E2 & E). destruct (byte_sound _ _ _ _ W E2) as (C2 & W2 & _). destruct (Z.eqb_spec b LUAC_VERSION) as [->|]; [|discriminate]. cbn [negb] in E.
  apply rbind_inv in E. destruct E as (b & z3 & E3 & E). destruct (byte_sound _ _ _ _ W2 E3) as (C3 & W3 & B3). destruct (Z.ltb_spec LUAC_FORMAT b) as [|LE]; [discriminate|].
  apply rbind_inv in E. destruct E as ([] & z4 & E4 & E). apply literal_sound in E4. rewrite E4 in W3. apply wf_app_inv in W3. destruct W3 as [_ W4].
  apply rbind_inv in E. destruct E as ([] & z5 & E5 & E). destruct (size_sound _ _ _ _ W4 E5) as (C5 & W5).
  apply rbind_inv in E. destruct E as ([] & z6 & E6 & E). destruct (size_sound _ _ _ _ W5 E6) as (C6 & W6).
  apply rbind_inv in E. destruct E as ([] & z7 & E7 & E). destruct (size_sound _ _ _ _ W6 E7) as (C7 & W7).
  apply rbind_inv in E. destruct E as ([] & z8 & E8 & E). destruct (size_sound _ _ _ _ W7 E8) as (C8 & W8).
  apply rbind_inv in E. destruct E as ([] & z9 & E9 & E). destruct (size_sound _ _ _ _ W8 E9) as (C9 & W9).
  apply rbind_inv in E. destruct E as (i & z10 & E10 & E). apply rbind_inv in E10. destruct E10 as (l & z10' & E10 & EI). injection EI as <- <-. destruct (block_sound 8 _ _ _ ltac:(lia) E10) as (C10 & L10). rewrite C10 in W9. apply wf_app_inv in W9. destruct W9 as [WL W10].
  destruct (Z.eqb_spec (s64 (of_memory nl l)) LUAC_INT) as [EI|]; [|discriminate]. cbn [negb] in E.
  apply rbind_inv in E. destruct E as (x & z11 & E11 & E). apply rbind_inv in E11. destruct E11 as (m & z11' & E11 & EX). injection EX as <- <-. destruct (block_sound 8 _ _ _ ltac:(lia) E11) as (C11 & L11). rewrite C11 in W10. apply wf_app_inv in W10. destruct W10 as [WM W11].
  destruct (Z.eqb_spec (of_memory nl m) LUAC_NUM) as [EX|]; [|discriminate]. cbn [negb] in E. injection E as <- <-.
  assert (LL : length l = 8%nat) by (unfold slen in L10; lia). assert (LM : length m = 8%nat) by (unfold slen in L11; lia).
  assert (l = if nl then [120; 86; 0; 0; 0; 0; 0; 0] else rev [120; 86; 0; 0; 0; 0; 0; 0]) as ->.
  { apply (memory_inj nl); [exact WL|destruct nl; repeat constructor; unfold is_byte; lia|rewrite LL; destruct nl; reflexivity|]. pose proof (memory_range nl l WL LL) as R. transitivity LUAC_INT; [|destruct nl; reflexivity]. rewrite <- (u64_id (of_memory nl l)) by exact R. rewrite <- u64_s64, EI. reflexivity. }
  assert (m = if nl then [0; 0; 0; 0; 0; 40; 119; 64] else rev [0; 0; 0; 0; 0; 40; 119; 64]) as ->.
  { apply (memory_inj nl); [exact WM|destruct nl; repeat constructor; unfold is_byte; lia|rewrite LM; destruct nl; reflexivity|]. rewrite EX. destruct nl; reflexivity. }
  split; [unfold byte_ok, LUAC_FORMAT in *; lia|]. rewrite E1, C2, C3, E4, C5, C6, C7, C8, C9, C10, C11. destruct nl; reflexivity.
Qed.
Lemma load_header : forall nl fuel mode pieces n g, wf_str (live pieces) -> f_parser nl fuel mode ([], pieces) = Ok (Binary n g) ->
  allows mode 98 = true /\ exists format rest, (format = 0 \/ format = 1) /\ live pieces = header nl format ++ rest.
Proof.
  intros nl fuel mode pieces n g W E. unfold f_parser in E. destruct (zgetc ([], pieces)) as [[c z]|] eqn:G; [|destruct (allows mode 116); discriminate].
  assert (CZ : live pieces = c :: contents z). { destruct pieces as [|[|x p] ps]; cbn [zgetc] in G; try discriminate. injection G as <- <-. reflexivity. }
  assert (EC : c = 27). { destruct (Z.eq_dec c 27) as [|NE]; [assumption|]. exfalso. assert (H : (if allows mode 116 then Ok Text else Err EFormat) = Ok (Binary n g)); [|destruct (allows mode 116); discriminate]. rewrite <- E. destruct c as [|p|p]; try reflexivity. do 5 (destruct p as [p|p|]; try reflexivity). congruence. }
  subst c. destruct (allows mode 98); [|discriminate]. split; [reflexivity|]. destruct (luaU_undump nl fuel z) as [[[n' f'] z']| | |] eqn:U; cbn [bind] in E; try discriminate. apply rbind_inv in U. destruct U as (v & z1 & E1 & _). rewrite CZ in W. inversion W as [|? ? _ W']; subst. destruct (header_sound _ _ _ _ W' E1) as [V C]. exists v, (contents z1). split; [exact V|]. rewrite CZ, C. reflexivity.
Qed.
