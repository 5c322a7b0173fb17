Require Import ZArith List Lia Bool.
From Verif Require Import Base Base_facts Bits_facts Str Str_facts Strlib_model Strlib_spec Strlib_proofs Pack_model Pack_spec.
Import ListNotations.
Open Scope Z_scope.

(* bytes and numbers *)
Lemma number_app : forall a b, number (a ++ b) = number a + 256 ^ slen a * number b.
Proof. induction a as [|x a IH]; intros b; [rewrite slen_nil; cbn [app number]; lia|]. cbn [app number]. rewrite IH, slen_cons, Z.pow_add_r by (try apply slen_nonneg; lia). lia. Qed.
Lemma number_range : forall l, wf_str l -> 0 <= number l < 256 ^ slen l.
Proof.
  induction 1 as [|x l B W IH]; [rewrite slen_nil; cbn; lia|]. cbn [number]. rewrite slen_cons, Z.pow_add_r by (try apply slen_nonneg; lia). unfold is_byte in B. lia.
Qed.
Lemma number_inj : forall a b, wf_str a -> wf_str b -> length a = length b -> number a = number b -> a = b.
Proof.
  induction a as [|x a IH]; intros [|y b] WA WB L E; try discriminate; [reflexivity|]. inversion WA; inversion WB; subst. cbn [number] in E. unfold is_byte in *. assert (x = y /\ number a = number b) as [-> E2] by lia. f_equal. apply IH; auto.
Qed.
Lemma wf_rev : forall l, wf_str l -> wf_str (rev l). Proof. intros l W. apply Forall_rev. assumption. Qed.
Lemma slen_rev : forall l, slen (rev l) = slen l. Proof. intros l. unfold slen. rewrite rev_length. reflexivity. Qed.
Definition le_order (little : bool) (l : list Z) : list Z := if little then l else rev l.
Lemma num_of_le : forall little l, num_of little l = number (le_order little l). Proof. reflexivity. Qed.
Lemma wf_le : forall b l, wf_str l -> wf_str (le_order b l). Proof. intros [] l W; [assumption|apply wf_rev; assumption]. Qed.
Lemma slen_le : forall b l, slen (le_order b l) = slen l. Proof. intros [] l; [reflexivity|apply slen_rev]. Qed.
Lemma le_invol : forall b l, le_order b (le_order b l) = l. Proof. intros [] l; [reflexivity|apply rev_involutive]. Qed.
Lemma num_range : forall b l, wf_str l -> 0 <= num_of b l < 256 ^ slen l.
Proof. intros b l W. rewrite num_of_le, <- (slen_le b l). apply number_range, wf_le, W. Qed.
Lemma num_inj : forall b l l', wf_str l -> wf_str l' -> slen l = slen l' -> num_of b l = num_of b l' -> l = l'.
Proof.
  intros b l l' W W' L E. rewrite !num_of_le in E. rewrite <- (le_invol b l), <- (le_invol b l'). f_equal. apply number_inj; try (apply wf_le; assumption); [|assumption].
  rewrite <- (slen_le b l), <- (slen_le b l') in L. unfold slen in L. lia.
Qed.
Lemma le_bytes_ok : forall k n, length (le_bytes n k) = k /\ wf_str (le_bytes n k) /\ number (le_bytes n k) = n mod 256 ^ Z.of_nat k.
Proof.
  induction k as [|k IH]; intros n; [cbn; rewrite Z.mod_1_r; repeat split; constructor|]. destruct (IH (n / 256)) as (L & W & E). cbn [le_bytes length number]. split; [lia|]. split.
  - constructor; [|assumption]. unfold is_byte. pose proof (Z.mod_pos_bound n 256 ltac:(lia)). lia.
  - rewrite E. rewrite Nat2Z.inj_succ, Z.pow_succ_r by lia. assert (0 < 256 ^ Z.of_nat k) by (apply Z.pow_pos_nonneg; lia). rewrite Z.rem_mul_r by lia. reflexivity.
Qed.
Lemma le_val_number : forall l, le_val l = number l. Proof. induction l as [|b l IH]; cbn [le_val number]; [|rewrite IH]; reflexivity. Qed.

(* packint *)
Lemma land255 : forall n, Z.land n 255 = n mod 256. Proof. intros n. change 255 with (Z.ones 8). rewrite Z.land_ones by lia. reflexivity. Qed.
Lemma last_split : forall (l : list Z) k, length l = S k -> exists l' x, l = l' ++ [x] /\ length l' = k.
Proof. intros l k L. destruct (exists_last (l := l)) as (l' & x & ->); [intros ->; discriminate|]. exists l', x. split; [reflexivity|]. rewrite app_length in L. cbn in L. lia. Qed.
Lemma pack_loop_little : forall k sz z p n, length z = k -> pack_loop true sz (p ++ z) n (length p) k = p ++ le_bytes (n / 256) k.
Proof.
  induction k as [|k IH]; intros sz z p n L; [destruct z; [reflexivity|discriminate]|]. destruct z as [|x z]; [discriminate|]. cbn [pack_loop place le_bytes]. rewrite upd_app_mid, land255. cbn [length] in L.
  replace (p ++ n / 256 mod 256 :: z) with ((p ++ [n / 256 mod 256]) ++ z) by (rewrite <- app_assoc; reflexivity). replace (S (length p)) with (length (p ++ [n / 256 mod 256])) by (rewrite app_length; cbn; lia). rewrite IH by lia. rewrite <- app_assoc. reflexivity.
Qed.
Lemma pack_loop_big : forall k sz z p n, length z = k -> (sz = k + length p)%nat -> pack_loop false sz (z ++ p) n (length p) k = rev (le_bytes (n / 256) k) ++ p.
Proof.
  induction k as [|k IH]; intros sz z p n L S0; [destruct z; [reflexivity|discriminate]|]. destruct (last_split z k L) as (z' & x & -> & L'). cbn [pack_loop place le_bytes rev]. rewrite <- app_assoc. cbn [app].
  replace (sz - 1 - length p)%nat with (length z') by lia. rewrite upd_app_mid, land255. change (S (length p)) with (length (n / 256 mod 256 :: p)). rewrite IH by (cbn [length]; lia). rewrite <- app_assoc. reflexivity.
Qed.
Lemma sign_loop_little : forall k sz z p, length z = k -> sign_loop true sz (p ++ z) (length p) k = p ++ repeat 255 k.
Proof.
  induction k as [|k IH]; intros sz z p L; [destruct z; [reflexivity|discriminate]|]. destruct z as [|x z]; [discriminate|]. cbn [sign_loop place repeat]. rewrite upd_app_mid. cbn [length] in L.
  replace (p ++ 255 :: z) with ((p ++ [255]) ++ z) by (rewrite <- app_assoc; reflexivity). replace (S (length p)) with (length (p ++ [255])) by (rewrite app_length; cbn; lia). rewrite IH by lia. rewrite <- app_assoc. reflexivity.
Qed.
Lemma sign_loop_big : forall k sz z p, length z = k -> (sz = k + length p)%nat -> sign_loop false sz (z ++ p) (length p) k = repeat 255 k ++ p.
Proof.
  induction k as [|k IH]; intros sz z p L S0; [destruct z; [reflexivity|discriminate]|]. destruct (last_split z k L) as (z' & x & -> & L'). cbn [sign_loop place repeat]. rewrite <- app_assoc. cbn [app].
  replace (sz - 1 - length p)%nat with (length z') by lia. rewrite upd_app_mid. change (S (length p)) with (length (255 :: p)). rewrite IH by (cbn [length]; lia). change (repeat 255 k ++ 255 :: p = (255 :: repeat 255 k) ++ p). rewrite (repeat_cons k 255), <- app_assoc. reflexivity.
Qed.
Definition le_signed (n : Z) (size : Z) (neg : bool) : list Z :=
  if neg && (8 <? size) then le_bytes n 8 ++ repeat 255 (Z.to_nat size - 8) else le_bytes n (Z.to_nat size).
Lemma repeat_split : forall (x : Z) n, repeat x (S n) = repeat x n ++ [x]. Proof. intros. rewrite <- repeat_cons. reflexivity. Qed.
Lemma le_bytes_split : forall a b n, le_bytes n (a + b) = le_bytes n a ++ le_bytes (n / 256 ^ Z.of_nat a) b.
Proof.
  induction a as [|a IH]; intros b n; [cbn [le_bytes app Nat.add]; rewrite Z.div_1_r; reflexivity|]. cbn [le_bytes app Nat.add]. rewrite IH. do 2 f_equal. f_equal. rewrite Z.div_div by (try apply Z.pow_pos_nonneg; lia). f_equal. rewrite Nat2Z.inj_succ, Z.pow_succ_r by lia. reflexivity.
Qed.
Lemma packint_ok : forall n little size neg, 1 <= size -> packint n little size neg = le_order little (le_signed n size neg).
Proof.
  intros n little size neg S1. unfold packint, le_signed, SZINT. set (sz := Z.to_nat size). assert (SZ : exists k, sz = S k) by (exists (sz - 1)%nat; unfold sz; lia). destruct SZ as [k SZ].
  assert (B : pack_loop little sz (upd (repeat 0 sz) (place little sz 0) (Z.land n 255)) n 1 (sz - 1) = le_order little (le_bytes n sz)).
  { rewrite SZ. replace (S k - 1)%nat with k by lia. destruct little; cbn [place le_order].
    - cbn [repeat upd]. rewrite land255. apply (pack_loop_little k (S k) (repeat 0 k) [n mod 256] n). apply repeat_length.
    - rewrite repeat_split. replace (S k - 1 - 0)%nat with (length (repeat 0 k)) by (rewrite repeat_length; lia). rewrite upd_app_mid, land255. change 1%nat with (length [n mod 256]). rewrite (pack_loop_big k (S k) (repeat 0 k) [n mod 256] n) by (rewrite ?repeat_length; cbn; lia). reflexivity. }
  rewrite B. destruct (Z.ltb_spec 8 size) as [L|L]; [|rewrite andb_false_r; reflexivity]. rewrite andb_true_r. destruct neg; [|reflexivity]. replace sz with (8 + (sz - 8))%nat at 2 by lia. rewrite le_bytes_split. set (z := le_bytes (n / 256 ^ Z.of_nat 8) (sz - 8)). assert (LZ : length z = (sz - 8)%nat) by apply le_bytes_ok.
  assert (L8 : length (le_bytes n 8) = 8%nat) by apply le_bytes_ok. destruct little; cbn [le_order].
  - rewrite <- L8 at 2. apply sign_loop_little. assumption.
  - rewrite !rev_app_distr. assert (RR : forall m, rev (repeat 255 m) = repeat 255 m) by (induction m as [|m IH]; [reflexivity|cbn [repeat rev]; rewrite IH; symmetry; apply repeat_cons]). rewrite RR. assert (LR : length (rev (le_bytes n 8)) = 8%nat) by (rewrite rev_length; assumption).
    rewrite <- LR at 2. apply sign_loop_big; rewrite ?rev_length; lia.
Qed.
Lemma wf_repeat : forall x n, is_byte x -> wf_str (repeat x n). Proof. intros x n B. induction n; constructor; auto. Qed.
Lemma number_255 : forall n, number (repeat 255 n) = 256 ^ Z.of_nat n - 1.
Proof. induction n as [|n IH]; [reflexivity|]. cbn [repeat number]. rewrite IH, Nat2Z.inj_succ, Z.pow_succ_r by lia. lia. Qed.
Lemma le_signed_ok : forall n size neg, 1 <= size -> let l := le_signed n size neg in slen l = size /\ wf_str l /\
  number l = if neg && (8 <? size) then n mod 2 ^ 64 + (256 ^ size - 2 ^ 64) else n mod 256 ^ size.
Proof.
  intros n size neg S1 l. unfold l, le_signed. destruct (neg && (8 <? size)) eqn:E.
  - apply andb_prop in E. destruct E as [_ L]. apply Z.ltb_lt in L. destruct (le_bytes_ok 8 n) as (L8 & W8 & N8). split; [unfold slen; rewrite app_length, repeat_length, L8; lia|]. split; [apply wf_app; [assumption|apply wf_repeat; unfold is_byte; lia]|].
    rewrite number_app, N8, number_255. unfold slen. rewrite L8. change (256 ^ Z.of_nat 8) with (2 ^ 64). replace (256 ^ size) with (2 ^ 64 * 256 ^ Z.of_nat (Z.to_nat size - 8)); [lia|]. change (2 ^ 64) with (256 ^ 8). rewrite <- Z.pow_add_r by lia. f_equal. lia.
  - destruct (le_bytes_ok (Z.to_nat size) n) as (L8 & W8 & N8). split; [unfold slen; lia|]. split; [assumption|]. rewrite N8, Z2Nat.id by lia. reflexivity.
Qed.
Lemma pow256 : forall s, 0 <= s -> 256 ^ s = 2 ^ (8 * s). Proof. intros s S. change 256 with (2 ^ 8). rewrite Z.pow_mul_r by lia. reflexivity. Qed.
Lemma pow_half : forall s, 1 <= s -> 2 ^ (8 * s) = 2 * 2 ^ (8 * s - 1). Proof. intros s S. rewrite <- Z.pow_succ_r by lia. f_equal. lia. Qed.
Lemma packint_signed : forall n little size, is_s64 n -> 1 <= size -> (size < 8 -> - 2 ^ (8 * size - 1) <= n < 2 ^ (8 * size - 1)) -> int_bytes true little size n (packint (u64 n) little size (n <? 0)).
Proof.
  intros n little size S S1 R. rewrite packint_ok by assumption. destruct (le_signed_ok (u64 n) size (n <? 0) S1) as (L & W & N). set (l := le_signed (u64 n) size (n <? 0)) in *.
  assert (R2 : - 2 ^ (8 * size - 1) <= n < 2 ^ (8 * size - 1)). { destruct (Z_lt_le_dec size 8); [apply R; assumption|]. assert (2 ^ 63 <= 2 ^ (8 * size - 1)) by (apply Z.pow_le_mono_r; lia). unfold is_s64, minint, maxint in S. lia. }
  split; [rewrite slen_le; assumption|]. split; [apply wf_le; assumption|]. split; [assumption|]. split; [exact R2|]. rewrite num_of_le, le_invol, N. rewrite pow256 by lia. pose proof (pow_half size S1) as PH. unfold u64. change two64 with (2 ^ 64) in *.
  destruct (Z.ltb_spec n 0) as [NG|NG]; cbn [andb].
  - destruct (Z.ltb_spec 8 size) as [G|G].
    + rewrite Z.mod_mod by lia. assert (2 ^ 64 <= 2 ^ (8 * size)) by (apply Z.pow_le_mono_r; lia). assert (E1 : n mod 2 ^ 64 = n + 2 ^ 64) by (rewrite <- (Z.mod_add n 1 (2 ^ 64)) by lia; apply Z.mod_small; unfold is_s64, minint, maxint in S; lia). rewrite E1. rewrite <- (Z.mod_add n 1 (2 ^ (8 * size))) by lia. rewrite (Z.mod_small (n + 1 * 2 ^ (8 * size))) by lia. lia.
    + symmetry. apply Znumtheory.Zmod_div_mod; try (apply Z.pow_pos_nonneg; lia). exists (2 ^ (64 - 8 * size)). rewrite <- Z.pow_add_r by lia. f_equal. lia.
  - rewrite (Z.mod_small n (2 ^ 64)) by (unfold is_s64, minint, maxint in S; lia). reflexivity.
Qed.
Lemma packint_unsigned : forall n little size, is_s64 n -> 1 <= size -> (size < 8 -> u64 n < 2 ^ (8 * size)) -> int_bytes false little size n (packint (u64 n) little size false).
Proof.
  intros n little size S S1 R. rewrite packint_ok by assumption. destruct (le_signed_ok (u64 n) size false S1) as (L & W & N). set (l := le_signed (u64 n) size false) in *. cbn [andb] in N.
  split; [rewrite slen_le; assumption|]. split; [apply wf_le; assumption|]. split; [assumption|]. rewrite num_of_le, le_invol, N. rewrite pow256 by lia. change (n mod 2 ^ 64) with (u64 n). apply Z.mod_small. split; [unfold u64; apply Z.mod_pos_bound; reflexivity|].
  destruct (Z_lt_le_dec size 8); [apply R; assumption|]. assert (2 ^ 64 <= 2 ^ (8 * size)) by (apply Z.pow_le_mono_r; lia). pose proof (Z.mod_pos_bound n two64 ltac:(reflexivity)). unfold u64. change two64 with (2 ^ 64) in *. lia.
Qed.
Lemma int_bytes_inj : forall sg little size n l l', int_bytes sg little size n l -> int_bytes sg little size n l' -> l = l'.
Proof. intros sg little size n l l' (L & W & _ & E) (L' & W' & _ & E'). apply (num_inj little); auto; [congruence|]. destruct sg; [destruct E as [_ E]; destruct E' as [_ E']|]; congruence. Qed.
Lemma int_bytes_fun : forall sg little size n n' l, 1 <= size -> int_bytes sg little size n l -> int_bytes sg little size n' l -> n = n'.
Proof.
  intros sg little size n n' l S1 (L & W & S & E) (L' & W' & S' & E'). destruct sg.
  - destruct E as [R E]. destruct E' as [R' E']. rewrite E in E'. pose proof (pow_half size S1) as PH. assert (D : (n - n') mod 2 ^ (8 * size) = 0) by (rewrite Zminus_mod, E', Z.sub_diag; apply Z.mod_0_l; lia). apply Z.mod_divide in D; [|lia]. destruct D as [q D]. assert (q = 0) by nia. lia.
  - rewrite E in E'. assert (D : (n - n') mod 2 ^ 64 = 0) by (rewrite Zminus_mod, E', Z.sub_diag; reflexivity). apply Z.mod_divide in D; [|lia]. destruct D as [q D]. unfold is_s64, minint, maxint in *. lia.
Qed.

(* unpackint *)
Lemma chunk_byte : forall data pos l i, chunk data pos l -> 0 <= i < slen l -> sbyte data (pos + i) = Ok (nth (Z.to_nat i) l 0).
Proof.
  intros data pos l i (P & r & E & B) I. rewrite <- sbyte_skipn by lia. rewrite E. rewrite sbyte_in by (rewrite slen_app; pose proof (slen_nonneg r); lia). rewrite app_nth1 by (unfold slen in I; lia). reflexivity.
Qed.
Lemma chunk_len : forall data pos l, chunk data pos l -> pos + slen l <= slen data.
Proof. intros data pos l (P & r & E & B). pose proof (slen_skipn data pos ltac:(lia)) as H. rewrite E, slen_app in H. pose proof (slen_nonneg r). lia. Qed.
Lemma chunk_mk : forall data pos n, 0 <= pos -> 0 <= n -> pos + n <= slen data -> exists l, chunk data pos l /\ slen l = n.
Proof.
  intros data pos n P N B. exists (firstn (Z.to_nat n) (skipn (Z.to_nat pos) data)). split.
  - split; [assumption|]. exists (skipn (Z.to_nat n) (skipn (Z.to_nat pos) data)). split; [symmetry; apply firstn_skipn|lia].
  - unfold slen in *. rewrite firstn_length, skipn_length. lia.
Qed.
Lemma chunk_inj : forall data pos l l', chunk data pos l -> chunk data pos l' -> slen l = slen l' -> l = l'.
Proof.
  intros data pos l l' (_ & r & E & _) (_ & r' & E' & _) L. rewrite E in E'. assert (H := f_equal (firstn (length l)) E'). rewrite firstn_app, firstn_all, Nat.sub_diag, app_nil_r in H. unfold slen in L. replace (length l) with (length l') in H by lia. rewrite firstn_app, firstn_all, Nat.sub_diag, app_nil_r in H. exact H.
Qed.
Lemma chunk_wf : forall data pos l, wf_str data -> chunk data pos l -> wf_str l.
Proof. intros data pos l W (_ & r & E & _). apply wf_skipn with (n := Z.to_nat pos) in W. rewrite E in W. apply Forall_app in W. tauto. Qed.
Lemma chunk_read : forall data pos l, chunk data pos l -> sread data pos (length l) = Ok l.
Proof.
  intros data pos l C. assert (CL := chunk_len _ _ _ C). destruct C as (P & r & E & B). rewrite sread_ok by (unfold slen in *; lia). rewrite E, firstn_app, firstn_all, Nat.sub_diag, app_nil_r. reflexivity.
Qed.
Lemma le_byte : forall data pos (little : bool) l i, chunk data pos l -> 0 <= i < slen l -> sbyte data (pos + (if little then i else slen l - 1 - i)) = Ok (nth (Z.to_nat i) (le_order little l) 0).
Proof.
  intros data pos little l i C I. destruct little; cbn [le_order]; [apply chunk_byte; assumption|]. rewrite (chunk_byte data pos l) by (try assumption; lia). rewrite rev_nth by (unfold slen in I; lia). f_equal. f_equal. unfold slen in *. lia.
Qed.
Lemma firstn_S_nth : forall (l : list Z) i, (i < length l)%nat -> firstn (S i) l = firstn i l ++ [nth i l 0].
Proof. induction l as [|x l IH]; intros [|i] L; cbn [length] in L; try lia; [reflexivity|]. cbn [firstn nth app]. rewrite <- IH by lia. reflexivity. Qed.
Lemma skipn_nth_cons : forall (l : list Z) n, (n < length l)%nat -> skipn n l = nth n l 0 :: skipn (S n) l.
Proof. induction l as [|x l IH]; intros [|n] L; cbn [length] in L; try lia; [reflexivity|]. cbn [skipn nth]. apply IH. lia. Qed.
Lemma unpack_loop_ok : forall k data pos little l res, chunk data pos l -> wf_str l -> Z.of_nat k <= slen l -> Z.of_nat k <= 8 -> 0 <= res < 256 ^ (8 - Z.of_nat k) ->
  unpack_loop data pos little (slen l) k res = Ok (number (firstn k (le_order little l)) + 256 ^ Z.of_nat k * res).
Proof.
  induction k as [|k IH]; intros data pos little l res C W KL K8 R; [cbn [unpack_loop firstn number]; f_equal; lia|]. cbn [unpack_loop]. rewrite le_byte by (try assumption; lia). cbn [bind]. rewrite Nat2Z.id. set (c := nth k (le_order little l) 0). assert (CB : is_byte c) by (apply wf_nth, wf_le; assumption).
  assert (P : 256 ^ (8 - Z.of_nat k) = 256 * 256 ^ (8 - Z.of_nat (S k))) by (rewrite <- Z.pow_succ_r by lia; f_equal; lia). assert (P2 : 256 ^ (8 - Z.of_nat k) <= 256 ^ 8) by (apply Z.pow_le_mono_r; lia).
  unfold is_byte in CB. assert (LO : Z.lor (u64 (res * 256)) c = res * 256 + c). { unfold u64. rewrite Z.mod_small by (change two64 with (256 ^ 8); lia). rewrite Z.lor_comm. replace (res * 256) with (Z.shiftl res 8) by (rewrite Z.shiftl_mul_pow2 by lia; reflexivity). rewrite lor_shl_add by lia. rewrite Z.shiftl_mul_pow2 by lia. lia. }
  rewrite LO. rewrite IH by (try assumption; lia). f_equal. rewrite firstn_S_nth by (pose proof (slen_le little l) as SL; unfold slen in *; lia). fold c. rewrite number_app. cbn [number]. rewrite Nat2Z.inj_succ, Z.pow_succ_r by lia.
  replace (slen (firstn k (le_order little l))) with (Z.of_nat k) by (unfold slen; rewrite firstn_length; pose proof (slen_le little l) as SL; unfold slen in *; lia). lia.
Qed.
Lemma mask_loop_ok : forall k data pos little l mask i, chunk data pos l -> 0 <= i -> i + Z.of_nat k = slen l ->
  mask_loop data pos little (slen l) mask i k = if forallb (fun c => c =? mask) (skipn (Z.to_nat i) (le_order little l)) then Ok tt else Err EArg.
Proof.
  induction k as [|k IH]; intros data pos little l mask i C I E.
  - cbn [mask_loop]. rewrite skipn_all2; [reflexivity|]. pose proof (slen_le little l) as SL. unfold slen in *. lia.
  - cbn [mask_loop]. rewrite le_byte by (try assumption; lia). cbn [bind]. rewrite IH by (try assumption; lia). pose proof (slen_le little l) as SL. assert (IL : (Z.to_nat i < length (le_order little l))%nat) by (unfold slen in *; lia).
    assert (SK : skipn (Z.to_nat i) (le_order little l) = nth (Z.to_nat i) (le_order little l) 0 :: skipn (Z.to_nat (i + 1)) (le_order little l)).
    { replace (Z.to_nat (i + 1)) with (S (Z.to_nat i)) by lia. apply skipn_nth_cons. exact IL. }
    rewrite SK. cbn [forallb]. destruct (_ =? mask); reflexivity.
Qed.
Lemma all_zero : forall l, wf_str l -> (forallb (fun c => c =? 0) l = true <-> number l = 0).
Proof.
  induction 1 as [|x l B W IH]; cbn [forallb number]; [tauto|]. rewrite andb_true_iff, IH, Z.eqb_eq. pose proof (number_range l W). unfold is_byte in B. lia.
Qed.
Lemma all_ff : forall l, wf_str l -> (forallb (fun c => c =? 255) l = true <-> number l = 256 ^ slen l - 1).
Proof.
  induction 1 as [|x l B W IH]; cbn [forallb number]; [rewrite slen_nil; cbn; tauto|]. rewrite andb_true_iff, IH, Z.eqb_eq, slen_cons, Z.pow_add_r by (try apply slen_nonneg; lia). pose proof (number_range l W). unfold is_byte in B. lia.
Qed.
Lemma lxor_sign : forall r k, 0 <= k -> 0 <= r < 2 * 2 ^ k -> Z.lxor r (2 ^ k) - 2 ^ k = if r <? 2 ^ k then r else r - 2 * 2 ^ k.
Proof.
  intros r k K R. assert (D : forall x, 0 <= x < 2 ^ k -> Z.lxor x (2 ^ k) = x + 2 ^ k).
  { intros x X. symmetry. apply Z.add_nocarry_lxor. replace (2 ^ k) with (Z.shiftl 1 k) by (rewrite Z.shiftl_mul_pow2; lia). apply land_shl_small; assumption. }
  destruct (Z.ltb_spec r (2 ^ k)); [rewrite D; lia|]. replace r with ((r - 2 ^ k) + 2 ^ k) at 1 by lia. rewrite <- D by lia. rewrite Z.lxor_assoc, Z.lxor_nilpotent, Z.lxor_0_r. lia.
Qed.
Lemma s64_cases : forall x, 0 <= x < two64 -> s64 x = if x <? two63 then x else x - two64.
Proof. intros x X. unfold s64. rewrite Z.mod_small by assumption. reflexivity. Qed.
Lemma unpackint_ok : forall data pos little l sg, chunk data pos l -> wf_str l -> 1 <= slen l ->
  match unpackint data pos little (slen l) sg with Ok n => int_bytes sg little (slen l) n l | Err _ => forall n, ~ int_bytes sg little (slen l) n l | _ => False end.
Proof.
  intros data pos little l sg C W S1. unfold unpackint, SZINT. set (size := slen l) in *. set (L := le_order little l). assert (WL : wf_str L) by (apply wf_le; assumption). assert (SL : slen L = size) by apply slen_le.
  assert (NR := number_range L WL). rewrite SL in NR. set (lim := if size <=? 8 then size else 8). assert (LIM : lim = Z.min size 8) by (unfold lim; destruct (Z.leb_spec size 8); lia).
  replace (unpack_loop data pos little size (Z.to_nat lim) 0) with (unpack_loop data pos little (slen l) (Z.to_nat lim) 0) by reflexivity. rewrite unpack_loop_ok; [|assumption|assumption|fold size; lia|lia|split; [lia|apply Z.pow_pos_nonneg; lia]]. cbn [bind]. fold L size. rewrite Z.mul_0_r, Z.add_0_r. rewrite pow256 in NR by lia. pose proof (pow_half size S1) as PH.
  destruct (Z.ltb_spec size 8) as [LT|GE].
  - replace (firstn (Z.to_nat lim) L) with L by (symmetry; apply firstn_all2; unfold slen in SL; lia). assert (P64 : 2 ^ (8 * size) <= 2 ^ 56) by (apply Z.pow_le_mono_r; lia). destruct sg.
    + rewrite (Z.mul_comm size 8). rewrite lxor_sign by lia. split; [reflexivity|]. split; [assumption|]. set (v := if number L <? 2 ^ (8 * size - 1) then number L else number L - 2 * 2 ^ (8 * size - 1)).
      assert (VR : - 2 ^ (8 * size - 1) <= v < 2 ^ (8 * size - 1)) by (unfold v; destruct (Z.ltb_spec (number L) (2 ^ (8 * size - 1))); lia). assert (VS : is_s64 v) by (unfold is_s64, minint, maxint; lia).
      rewrite s64_u64. rewrite (s64_id v VS). split; [assumption|]. split; [assumption|]. rewrite num_of_le. fold L. unfold v. destruct (Z.ltb_spec (number L) (2 ^ (8 * size - 1))); [rewrite Z.mod_small by lia; reflexivity|]. rewrite <- (Z.mod_add _ 1) by lia. rewrite Z.mod_small by lia. lia.
    + split; [reflexivity|]. split; [assumption|]. rewrite s64_cases by (change two64 with (2 ^ 64); lia). destruct (Z.ltb_spec (number L) two63) as [X|X]; [|unfold two63 in X; lia]. split; [unfold is_s64, minint, maxint; lia|]. rewrite num_of_le. fold L. symmetry. apply Z.mod_small. lia.
  - set (lo := number (firstn (Z.to_nat lim) L)). set (hi := number (skipn 8 L)). assert (L8 : lim = 8) by lia. assert (WF : wf_str (firstn 8 L)) by (apply wf_firstn; assumption). assert (WS : wf_str (skipn 8 L)) by (apply wf_skipn; assumption).
    assert (LEN8 : slen (firstn 8 L) = 8) by (unfold slen in *; rewrite firstn_length; lia). assert (LENS : slen (skipn 8 L) = size - 8) by (unfold slen in *; rewrite skipn_length; lia).
    assert (SPLIT : number L = lo + 2 ^ 64 * hi). { rewrite <- (firstn_skipn 8 L) at 1. rewrite number_app, LEN8. unfold lo, hi. rewrite L8. reflexivity. }
    assert (LOR : 0 <= lo < 2 ^ 64). { unfold lo. rewrite L8. change (Z.to_nat 8) with 8%nat. pose proof (number_range _ WF) as H. rewrite LEN8 in H. exact H. } assert (HIR := number_range _ WS). fold hi in HIR. rewrite LENS in HIR.
    assert (PS : 2 ^ (8 * size) = 2 ^ 64 * 256 ^ (size - 8)) by (rewrite <- pow256 by lia; change (2 ^ 64) with (256 ^ 8); rewrite <- Z.pow_add_r by lia; f_equal; lia).
    assert (SLO := s64_cases lo LOR).
    (* what the integer must be *)
    assert (UN : forall n, int_bytes false little size n l <-> hi = 0 /\ n = s64 lo).
    { intros n. unfold int_bytes. rewrite num_of_le. fold L size. rewrite SPLIT. split.
      - intros (_ & _ & SN & E). pose proof (Z.mod_pos_bound n (2 ^ 64) ltac:(lia)) as MB. assert (hi = 0) by lia. split; [assumption|]. assert (E2 : lo = n mod 2 ^ 64) by lia. rewrite E2. symmetry. change (n mod 2 ^ 64) with (u64 n). rewrite s64_u64. apply s64_id. assumption.
      - intros [-> ->]. split; [reflexivity|]. split; [assumption|]. split; [apply s64_range|]. rewrite Z.mul_0_r, Z.add_0_r. rewrite SLO. destruct (lo <? two63); [symmetry; apply Z.mod_small; assumption|]. change two64 with (2 ^ 64). rewrite <- (Z.mod_add (lo - 2 ^ 64) 1) by lia. rewrite Z.mod_small by lia. lia. }
    assert (SG : forall n, int_bytes true little size n l <-> n = s64 lo /\ hi = (if 0 <=? s64 lo then 0 else 256 ^ (size - 8) - 1)).
    { intros n. unfold int_bytes. rewrite num_of_le. fold L size. rewrite SPLIT. assert (PP : 0 < 256 ^ (size - 8)) by (apply Z.pow_pos_nonneg; lia). assert (P63 : 2 ^ 63 <= 2 ^ (8 * size - 1)) by (apply Z.pow_le_mono_r; lia). split.
      - intros (_ & _ & SN & R & E). destruct (Z_lt_le_dec n 0) as [NG|NG].
        + assert (EN : n mod 2 ^ (8 * size) = (n + 2 ^ 64) + 2 ^ 64 * (256 ^ (size - 8) - 1)) by (rewrite <- (Z.mod_add n 1) by lia; rewrite Z.mod_small by lia; lia). rewrite EN in E. unfold is_s64, minint, maxint in SN.
          assert (hi = 256 ^ (size - 8) - 1) by nia. assert (LE : lo = n + 2 ^ 64) by lia. assert (SE : s64 lo = n) by (rewrite SLO, LE; destruct (Z.ltb_spec (n + 2 ^ 64) two63) as [X|X]; unfold two63, two64 in *; lia). rewrite SE. destruct (Z.leb_spec 0 n); [lia|]. auto.
        + rewrite Z.mod_small in E by lia. unfold is_s64, minint, maxint in SN. assert (hi = 0) by nia. assert (LE : lo = n) by lia. assert (SE : s64 lo = n) by (rewrite SLO, LE; destruct (Z.ltb_spec n two63) as [X|X]; unfold two63, two64 in *; lia). rewrite SE. destruct (Z.leb_spec 0 n); [|lia]. auto.
      - intros [-> HE]. pose proof (s64_range lo) as SR. split; [reflexivity|]. split; [assumption|]. split; [assumption|]. unfold is_s64, minint, maxint in SR. split; [lia|]. rewrite HE. destruct (Z.leb_spec 0 (s64 lo)) as [N|N].
        + rewrite SLO in *. destruct (Z.ltb_spec lo two63) as [X|X]; [rewrite Z.mod_small by lia; lia|]. unfold two63, two64 in *. lia.
        + rewrite SLO in *. destruct (Z.ltb_spec lo two63) as [X|X]; [lia|]. rewrite <- (Z.mod_add _ 1) by lia. rewrite Z.mod_small by (unfold two63, two64 in *; lia). unfold two64. lia. }
    destruct (Z.ltb_spec 8 size) as [GT|EQ].
    + set (mask := if negb sg || (0 <=? s64 lo) then 0 else 255). rewrite L8. replace (mask_loop data pos little size mask 8 (Z.to_nat (size - 8))) with (mask_loop data pos little (slen l) mask 8 (Z.to_nat (size - 8))) by reflexivity. rewrite mask_loop_ok; [|assumption|lia|fold size; lia]. fold size L. change (Z.to_nat 8) with 8%nat. destruct (forallb (fun c => c =? mask) (skipn 8 L)) eqn:FB; cbn [bind].
      * destruct sg; cbn [negb orb] in mask; [apply SG|apply UN; split; [apply all_zero; [exact WS|exact FB]|reflexivity]]. split; [reflexivity|]. unfold mask in FB. destruct (0 <=? s64 lo); [apply all_zero; assumption|]. rewrite <- LENS. apply all_ff; assumption.
      * intros n IB. assert (XX : forallb (fun c => c =? mask) (skipn 8 L) = true); [|congruence]. destruct sg; cbn [negb orb] in mask.
        -- apply SG in IB. destruct IB as [_ HE]. unfold mask. destruct (0 <=? s64 lo); [apply all_zero; assumption|]. apply all_ff; [assumption|]. rewrite LENS. exact HE.
        -- apply UN in IB. apply all_zero; [assumption|]. exact (proj1 IB).
    + assert (size = 8) by lia. assert (HZ : hi = 0) by (replace (size - 8) with 0 in HIR by lia; change (256 ^ 0) with 1 in HIR; lia). destruct sg; [apply SG|apply UN]; split; auto. rewrite HZ. destruct (0 <=? s64 lo); [reflexivity|]. replace (size - 8) with 0 by lia. reflexivity.
Qed.

(* reading the format *)
Definition dec (a : Z) (l : list Z) : Z := fold_left (fun a c => 10 * a + (c - 48)) l a.
Definition isd (c : Z) : Prop := 48 <= c <= 57.
Lemma digit_isd : forall c, digit c = true <-> isd c.
Proof. intros c. unfold digit, isd. rewrite andb_true_iff, !Z.leb_le. tauto. Qed.
Lemma dec_ge : forall l a, 0 <= a -> Forall isd l -> a <= dec a l.
Proof. induction l as [|c l IH]; intros a A F; [cbn; lia|]. inversion F; subst. unfold isd in *. cbn [dec fold_left]. specialize (IH (10 * a + (c - 48)) ltac:(lia) ltac:(assumption)). unfold dec in IH. lia. Qed.
Lemma getnum_loop_digits : forall ds r a, Forall isd ds -> digit (cur r) = false -> 0 <= a -> dec a ds <= 2147483639 -> getnum_loop (ds ++ r) a = Ok (dec a ds, r).
Proof.
  induction ds as [|c ds IH]; intros r a F DR A B.
  - cbn [app dec fold_left]. destruct r as [|c r]; [reflexivity|]. cbn [cur] in DR. cbn [getnum_loop]. rewrite DR. reflexivity.
  - inversion F as [|? ? DC F2]; subst. cbn [app getnum_loop]. rewrite (proj2 (digit_isd c) DC). unfold isd in DC. assert (G := dec_ge ds (10 * a + (c - 48)) ltac:(lia) F2). change (dec a (c :: ds)) with (dec (10 * a + (c - 48)) ds) in *.
    change ((MAXSIZE - 9) / 10) with 214748363. destruct (Z.leb_spec a 214748363); [|lia]. cbn [andb]. change INT_MAX with 2147483647. replace (a * 10 + (c - 48)) with (10 * a + (c - 48)) by lia. destruct (Z.leb_spec (10 * a + (c - 48)) 2147483647); [|lia]. apply IH; auto; lia.
Qed.
Lemma getnum_loop_sound : forall fmt a, 0 <= a <= 2147483639 -> exists ds r, fmt = ds ++ r /\ Forall isd ds /\ getnum_loop fmt a = Ok (dec a ds, r) /\ dec a ds <= 2147483639 /\ (digit (cur fmt) = true -> a <= 214748363 -> ds <> []).
Proof.
  induction fmt as [|c fmt IH]; intros a A; [exists [], []; repeat split; try constructor; cbn; try lia; discriminate|]. cbn [getnum_loop cur]. change ((MAXSIZE - 9) / 10) with 214748363. destruct (digit c) eqn:DC; cbn [andb].
  - destruct (Z.leb_spec a 214748363) as [L|L].
    + apply digit_isd in DC. assert (DC2 := DC). unfold isd in DC2. change INT_MAX with 2147483647. replace (a * 10 + (c - 48)) with (10 * a + (c - 48)) by lia. destruct (Z.leb_spec (10 * a + (c - 48)) 2147483647); [|lia].
      destruct (IH (10 * a + (c - 48)) ltac:(lia)) as (ds & r & -> & F & E & B & _). exists (c :: ds), r. repeat split; auto; discriminate.
    + exists [], (c :: fmt). repeat split; try constructor; cbn; try lia; intros; lia.
  - exists [], (c :: fmt). repeat split; try constructor; cbn; try lia; discriminate.
Qed.
Lemma getnum_sound : forall fmt df, exists n r, getnum fmt df = Ok (n, r) /\ ((n = df /\ r = fmt /\ digit (cur fmt) = false) \/ exists ds, fmt = ds ++ r /\ is_digits ds /\ decimal ds = n /\ n <= 2147483639).
Proof.
  intros fmt df. unfold getnum. destruct (digit (cur fmt)) eqn:D; cbn [negb]; [|exists df, fmt; auto]. destruct (getnum_loop_sound fmt 0 ltac:(lia)) as (ds & r & -> & F & E & B & NE). exists (dec 0 ds), r. split; [exact E|]. right. exists ds. split; [reflexivity|]. split; [split; [apply NE; [exact D|lia]|exact F]|]. split; [reflexivity|assumption].
Qed.
Lemma cur_digits : forall ds r, is_digits ds -> digit (cur (ds ++ r)) = true.
Proof. intros [|c ds] r [N F]; [congruence|]. inversion F; subst. cbn. apply digit_isd. assumption. Qed.
Lemma getnum_digits : forall ds r df, is_digits ds -> digit (cur r) = false -> decimal ds <= 2147483639 -> getnum (ds ++ r) df = Ok (decimal ds, r).
Proof. intros ds r df D R B. unfold getnum. rewrite cur_digits by assumption. cbn [negb]. apply getnum_loop_digits; auto; [apply D|lia]. Qed.
Lemma getnumlimit_sound : forall fmt df, 1 <= df <= 16 -> match getnumlimit fmt df with Ok (n, r) => exists ds, fmt = ds ++ r /\ numeral df ds n | Err _ => True | _ => False end.
Proof.
  intros fmt df DF. unfold getnumlimit. destruct (getnum_sound fmt df) as (n & r & E & H). rewrite E. cbn [bind]. unfold MAXINTSIZE. destruct (Z.ltb_spec 16 n); cbn [orb]; [exact I|]. destruct (Z.leb_spec n 0); [exact I|]. destruct H as [(-> & -> & _)|(ds & -> & D & DV & _)].
  - exists []. split; [reflexivity|]. left. auto.
  - exists ds. split; [reflexivity|]. right. split; [assumption|]. split; [assumption|lia].
Qed.
Lemma getnumlimit_complete : forall ds r df n, 1 <= df <= 16 -> numeral df ds n -> digit (cur r) = false -> getnumlimit (ds ++ r) df = Ok (n, r).
Proof.
  intros ds r df n DF N DR. unfold getnumlimit. assert (E : getnum (ds ++ r) df = Ok (n, r) /\ 1 <= n <= 16).
  { destruct N as [[-> ->]|(D & <- & B)]; [|split; [apply getnum_digits; auto; lia|lia]]. split; [|lia]. unfold getnum. cbn [app]. rewrite DR. reflexivity. }
  destruct E as [-> B]. cbn [bind]. unfold MAXINTSIZE. destruct (Z.ltb_spec 16 n); [lia|]. destruct (Z.leb_spec n 0); [lia|]. reflexivity.
Qed.

Section NATIVE.
Variable native_little : bool.
Notation getoption := (getoption native_little).
Notation getdetails := (getdetails native_little).
Definition kind (o : opt) : KOption * Z :=
  match o with
  | OInt true n => (Kint, n) | OInt false n => (Kuint, n) | OFlt n => (Kfloat, n) | OFix n => (Kchar, n) | OPre n => (Kstring, n) | OZ => (Kzstr, 0)
  | OPad => (Kpadding, 1) | OAlign _ => (Kpaddalign, 0) | _ => (Knop, 0)
  end.
Definition hconf (o : opt) (h : header) : header := let c := config native_little o (islittle h, maxalign h) in mkHdr (fst c) (snd c).
Definition noX (o : opt) : Prop := forall n, o <> OAlign n.
Lemma hdr_eta : forall h, mkHdr (islittle h) (maxalign h) = h. Proof. intros []. reflexivity. Qed.
(* one option, except X *)
Lemma option_complete : forall o t r h, spelled o t -> noX o -> digit (cur r) = false -> getoption h (t ++ r) = Ok (kind o, r, hconf o h).
Proof.
  intros o t r h SP NX DR. destruct h as [hl hm]. destruct SP; unfold getoption; cbn [app cur tl Z.eqb Pos.eqb]; try reflexivity; try (rewrite (getnumlimit_complete ds r _ n) by (try assumption; unfold MAXALIGN; lia); cbn [bind]; reflexivity).
  - rewrite getnum_digits by (try assumption; lia). cbn [bind]. rewrite H0. assert (0 <= n) by (rewrite <- H0; apply dec_ge; [lia|apply H]). destruct (Z.eqb_spec n (-1)); [lia|]. reflexivity.
  - exfalso. exact (NX _ eq_refl).
Qed.
Lemma option_sound : forall h fmt, cur fmt <> 0 -> match getoption h fmt with
  | Ok (k, sz, r, h') => exists t, fmt = t ++ r /\ t <> [] /\ ((exists o, spelled o t /\ noX o /\ (k, sz) = kind o /\ h' = hconf o h) \/ (t = [88] /\ k = Kpaddalign /\ sz = 0 /\ h' = h))
  | Err _ => True | _ => False end.
Proof.
  intros h fmt C. destruct fmt as [|c fmt]; [cbn in C; congruence|]. unfold Pack_model.getoption. cbn [cur tl].
  assert (P1 : forall o k sz, spelled o [c] -> noX o -> (k, sz) = kind o -> hconf o h = h -> exists t, c :: fmt = t ++ fmt /\ t <> [] /\ ((exists o, spelled o t /\ noX o /\ (k, sz) = kind o /\ h = hconf o h) \/ (t = [88] /\ k = Kpaddalign /\ sz = 0 /\ h = h))).
  { intros o k sz SP NX K HC. exists [c]. split; [reflexivity|]. split; [discriminate|]. left. exists o. auto. }
  assert (P2 : forall mk k df, 1 <= df <= 16 -> (forall ds n, numeral df ds n -> spelled (mk n) (c :: ds)) -> (forall n, noX (mk n)) -> (forall n, (k, n) = kind (mk n)) -> (forall n, hconf (mk n) h = h) ->
    match bind (getnumlimit fmt df) (fun '(sz, r) => Ok (k, sz, r, h)) with
    | Ok (k, sz, r, h') => exists t, c :: fmt = t ++ r /\ t <> [] /\ ((exists o, spelled o t /\ noX o /\ (k, sz) = kind o /\ h' = hconf o h) \/ (t = [88] /\ k = Kpaddalign /\ sz = 0 /\ h' = h))
    | Err _ => True | _ => False end).
  { intros mk k df DF SP NX K HC. pose proof (getnumlimit_sound fmt df DF) as GS. destruct (getnumlimit fmt df) as [[n r]|e| |]; cbn [bind]; auto. destruct GS as (ds & -> & N). exists (c :: ds). split; [reflexivity|]. split; [discriminate|]. left. exists (mk n). auto. }
  assert (HI : forall o, match o with OEndian _ | OMax _ => False | _ => True end -> hconf o h = h) by (intros o; destruct o; intros X; try destruct X; apply hdr_eta).
  assert (HX : forall o, match o with OAlign _ => False | _ => True end -> noX o) by (intros o X n ->; exact X).
  destruct (Z.eqb_spec c 98) as [->|_]; [apply (P1 (OInt true 1)); [constructor|apply HX; exact I|reflexivity|apply HI; exact I]|]. destruct (Z.eqb_spec c 66) as [->|_]; [apply (P1 (OInt false 1)); [constructor|apply HX; exact I|reflexivity|apply HI; exact I]|]. destruct (Z.eqb_spec c 104) as [->|_]; [apply (P1 (OInt true 2)); [constructor|apply HX; exact I|reflexivity|apply HI; exact I]|]. destruct (Z.eqb_spec c 72) as [->|_]; [apply (P1 (OInt false 2)); [constructor|apply HX; exact I|reflexivity|apply HI; exact I]|].
  destruct (Z.eqb_spec c 108) as [->|_]; [apply (P1 (OInt true 8)); [constructor|apply HX; exact I|reflexivity|apply HI; exact I]|]. destruct (Z.eqb_spec c 76) as [->|_]; [apply (P1 (OInt false 8)); [constructor|apply HX; exact I|reflexivity|apply HI; exact I]|]. destruct (Z.eqb_spec c 106) as [->|_]; [apply (P1 (OInt true 8)); [constructor|apply HX; exact I|reflexivity|apply HI; exact I]|]. destruct (Z.eqb_spec c 74) as [->|_]; [apply (P1 (OInt false 8)); [constructor|apply HX; exact I|reflexivity|apply HI; exact I]|]. destruct (Z.eqb_spec c 84) as [->|_]; [apply (P1 (OInt false 8)); [constructor|apply HX; exact I|reflexivity|apply HI; exact I]|].
  destruct (Z.eqb_spec c 102) as [->|_]; [apply (P1 (OFlt 4)); [constructor|apply HX; exact I|reflexivity|apply HI; exact I]|]. destruct (Z.eqb_spec c 100) as [->|_]; [apply (P1 (OFlt 8)); [constructor|apply HX; exact I|reflexivity|apply HI; exact I]|]. destruct (Z.eqb_spec c 110) as [->|_]; [apply (P1 (OFlt 8)); [constructor|apply HX; exact I|reflexivity|apply HI; exact I]|].
  destruct (Z.eqb_spec c 105) as [->|_]; [apply (P2 (OInt true)); [lia|constructor; assumption|intros; apply HX; exact I|reflexivity|intros; apply HI; exact I]|].
  destruct (Z.eqb_spec c 73) as [->|_]; [apply (P2 (OInt false)); [lia|constructor; assumption|intros; apply HX; exact I|reflexivity|intros; apply HI; exact I]|].
  destruct (Z.eqb_spec c 115) as [->|_]; [apply (P2 OPre); [lia|constructor; assumption|intros; apply HX; exact I|reflexivity|intros; apply HI; exact I]|].
  destruct (Z.eqb_spec c 99) as [->|_].
  { destruct (getnum_sound fmt (-1)) as (n & r & E & H). rewrite E. cbn [bind]. destruct (Z.eqb_spec n (-1)); [exact I|]. destruct H as [(-> & _)|(ds & -> & D & DV & B)]; [congruence|]. exists (99 :: ds). split; [reflexivity|]. split; [discriminate|]. left. exists (OFix n). split; [constructor; assumption|]. split; [apply HX; exact I|]. split; [reflexivity|symmetry; apply HI; exact I]. }
  destruct (Z.eqb_spec c 122) as [->|_]; [apply (P1 OZ); [constructor|apply HX; exact I|reflexivity|apply HI; exact I]|]. destruct (Z.eqb_spec c 120) as [->|_]; [apply (P1 OPad); [constructor|apply HX; exact I|reflexivity|apply HI; exact I]|].
  destruct (Z.eqb_spec c 88) as [->|_]; [exists [88]; split; [reflexivity|]; split; [discriminate|]; right; auto|].
  destruct (Z.eqb_spec c 32) as [->|_]; [apply (P1 OSpace); [constructor|apply HX; exact I|reflexivity|apply HI; exact I]|].
  destruct (Z.eqb_spec c 60) as [->|_]; [exists [60]; split; [reflexivity|]; split; [discriminate|]; left; exists (OEndian (Some true)); split; [constructor|]; split; [apply HX; exact I|]; split; reflexivity|].
  destruct (Z.eqb_spec c 62) as [->|_]; [exists [62]; split; [reflexivity|]; split; [discriminate|]; left; exists (OEndian (Some false)); split; [constructor|]; split; [apply HX; exact I|]; split; reflexivity|].
  destruct (Z.eqb_spec c 61) as [->|_]; [exists [61]; split; [reflexivity|]; split; [discriminate|]; left; exists (OEndian None); split; [constructor|]; split; [apply HX; exact I|]; split; reflexivity|].
  destruct (Z.eqb_spec c 33) as [->|_]; [|exact I].
  pose proof (getnumlimit_sound fmt MAXALIGN ltac:(unfold MAXALIGN; lia)) as GS. destruct (getnumlimit fmt MAXALIGN) as [[n r]|e| |]; cbn [bind]; auto. destruct GS as (ds & -> & N). exists (33 :: ds). split; [reflexivity|]. split; [discriminate|]. left. exists (OMax n). split; [constructor; assumption|]. split; [apply HX; exact I|]. split; reflexivity.
Qed.

(* alignment *)
Definition hok (h : header) : Prop := 1 <= maxalign h <= 16.
Lemma spelled_size : forall o t, spelled o t -> 0 <= snd (kind o) /\ 0 <= asize o <= 16 /\ (match o with OInt _ n | OPre n | OMax n | OAlign n => 1 <= n <= 16 | OFlt n => n = 4 \/ n = 8 | OFix n => n <= 2147483639 | _ => True end).
Proof.
  assert (NU : forall df ds n, 1 <= df <= 16 -> numeral df ds n -> 1 <= n <= 16) by (intros df ds n DF [[_ ->]|(_ & _ & B)]; lia).
  intros o t SP. induction SP; cbn [kind asize snd]; try lia; try (match goal with H : numeral ?df ?ds ?n |- _ => apply (NU df ds n) in H; [|lia]; lia end).
  split; [|lia]. rewrite <- H0. apply dec_ge; [lia|apply H].
Qed.
Lemma pow2_small : forall a, 1 <= a <= 16 -> (Z.land a (a - 1) =? 0) = true <-> exists k, 0 <= k <= 4 /\ a = 2 ^ k.
Proof.
  intros a A. assert (H : a = 1 \/ a = 2 \/ a = 3 \/ a = 4 \/ a = 5 \/ a = 6 \/ a = 7 \/ a = 8 \/ a = 9 \/ a = 10 \/ a = 11 \/ a = 12 \/ a = 13 \/ a = 14 \/ a = 15 \/ a = 16) by lia. split.
  - intros E. repeat (destruct H as [->|H]; [first [discriminate E | exists 0; split; [lia|reflexivity] | exists 1; split; [lia|reflexivity] | exists 2; split; [lia|reflexivity] | exists 3; split; [lia|reflexivity]]|]). subst a. exists 4. split; [lia|reflexivity].
  - intros (k & K & ->). assert (KK : k = 0 \/ k = 1 \/ k = 2 \/ k = 3 \/ k = 4) by lia. destruct KK as [->|[->|[->|[->| ->]]]]; reflexivity.
Qed.
Lemma pow2_bound : forall a, 1 <= a <= 16 -> pow2 a -> exists k, 0 <= k <= 4 /\ a = 2 ^ k.
Proof. intros a A (k & K & ->). exists k. split; [|reflexivity]. destruct (Z_le_gt_dec k 4); [lia|]. assert (2 ^ 5 <= 2 ^ k) by (apply Z.pow_le_mono_r; lia). lia. Qed.
(* the padding computed *)
Lemma pad_ok : forall a ts pos, 1 <= a <= 16 -> ts mod 16 = pos mod 16 -> (Z.land a (a - 1) =? 0) = true ->
  forall k, (pow2 a /\ 0 <= k < a /\ (pos + k) mod a = 0) <-> k = Z.land (a - Z.land ts (a - 1)) (a - 1).
Proof.
  intros a ts pos A T L. apply pow2_small in L; [|assumption]. destruct L as (e & E & ->). replace (2 ^ e - 1) with (Z.ones e) by (rewrite Z.ones_equiv; lia). rewrite !Z.land_ones by lia. set (a := 2 ^ e) in *.
  assert (TM : ts mod a = pos mod a). { assert (DV : (a | 16)) by (exists (2 ^ (4 - e)); unfold a; rewrite <- Z.pow_add_r by lia; replace (4 - e + e) with 4 by lia; reflexivity). rewrite (Znumtheory.Zmod_div_mod a 16 ts), (Znumtheory.Zmod_div_mod a 16 pos), T by (try assumption; lia). reflexivity. }
  rewrite TM. pose proof (Z.mod_pos_bound pos a ltac:(lia)) as MB. intros k. split.
  - intros (_ & K & M). rewrite <- Zplus_mod_idemp_l in M. destruct (Z.eq_dec (pos mod a) 0) as [Z0|Z0].
    + rewrite Z0, Z.sub_0_r, Z.mod_same by lia. rewrite Z0, Z.add_0_l, Z.mod_small in M by lia. assumption.
    + rewrite Z.mod_small by lia. apply Z.mod_divide in M; [|lia]. destruct M as [q M]. assert (q = 1) by nia. lia.
  - intros ->. split; [exists e; split; [lia|reflexivity]|]. split; [apply Z.mod_pos_bound; lia|]. rewrite Zplus_mod_idemp_r. rewrite <- Zplus_mod_idemp_l. replace (pos mod a + (a - pos mod a)) with a by lia. apply Z.mod_same. lia.
Qed.
Definition notail (o : opt) (h : header) (psize ts : Z) (r : list Z) (k : KOption) : outcome (KOption * Z * Z * list Z * header) :=
  if (asize o <=? 1) then Ok (k, psize, 0, r, hconf o h)
  else let align := if maxalign h <? asize o then maxalign h else asize o in
       if negb (Z.land align (align - 1) =? 0) then Err EArg
       else Ok (k, psize, Z.land (align - Z.land ts (align - 1)) (align - 1), r, hconf o h).
Lemma details_eq : forall o t r h ts, spelled o t -> digit (cur r) = false -> getdetails h ts (t ++ r) = notail o h (snd (kind o)) ts r (fst (kind o)).
Proof.
  intros o t r h ts SP DR. unfold Pack_model.getdetails, notail. destruct (match o with OAlign _ => true | _ => false end) eqn:OA.
  - destruct o; try discriminate. inversion SP as [| | | | | | | | | | | | | | | | | |o2 t2 SP2 A2 NX EO| | | | |]. subst. cbn [app]. unfold Pack_model.getoption at 1. cbn [cur tl Z.eqb Pos.eqb bind].
    assert (CT : cur (t2 ++ r) <> 0) by (destruct SP2; cbn; lia). apply Z.eqb_neq in CT. rewrite CT. rewrite (option_complete o2 t2 r h SP2 NX DR). cbn [bind]. destruct (kind o2) as [k2 s2] eqn:EK2. cbn [bind].
    assert (SZ : s2 = asize o2 /\ is_Kchar k2 = false) by (destruct o2 as [[]| | | | | | | | |]; cbn in EK2, A2; inversion EK2; subst; cbn; auto; first [lia | exfalso; exact (NX _ eq_refl)]). destruct SZ as [-> KC]. rewrite KC. cbn [orb]. destruct (Z.eqb_spec (asize o2) 0); [lia|]. cbn [bind kind fst snd asize is_Kchar orb].
    assert (HC : hconf o2 h = h) by (destruct o2; cbn in A2; try lia; apply hdr_eta). rewrite HC. rewrite orb_false_r. change (hconf (OAlign (asize o2)) h) with (mkHdr (islittle h) (maxalign h)). rewrite hdr_eta. reflexivity.
  - assert (NX : noX o) by (intros n ->; discriminate). rewrite (option_complete o t r h SP NX DR). cbn [bind]. destruct (kind o) as [k s] eqn:EK. cbn [fst snd].
    assert (H : match k with Kpaddalign => False | _ => True end /\ (if is_Kchar k then asize o = 0 else (s <=? 1) = (asize o <=? 1) /\ ((s <=? 1) = false -> s = asize o /\ maxalign (hconf o h) = maxalign h))) by (destruct o as [[]| | | | | | | | |]; cbn in EK, OA; inversion EK; subst; cbn; auto; try discriminate; repeat split; try discriminate).
    destruct H as [NP H]. destruct k; try destruct NP; cbn [is_Kchar] in H; cbn [bind is_Kchar]; rewrite ?orb_false_r, ?orb_true_r; try (rewrite (proj1 H); destruct (asize o <=? 1) eqn:AE; [reflexivity|]; destruct (proj2 H (proj1 H)) as [-> ->]; reflexivity). rewrite H. reflexivity.
Qed.
Lemma details_complete : forall o t r h ts pos pad, spelled o t -> digit (cur r) = false -> hok h -> ts mod 16 = pos mod 16 -> aligned o (maxalign h) pos pad -> getdetails h ts (t ++ r) = Ok (kind o, pad, r, hconf o h).
Proof.
  intros o t r h ts pos pad SP DR HO T AL. rewrite (details_eq o t r h ts SP DR). destruct (spelled_size o t SP) as (_ & AS & _). unfold notail, aligned in *. destruct (kind o) as [k s]. cbn [fst snd]. destruct (Z.leb_spec (asize o) 1); [subst; reflexivity|].
  replace (if maxalign h <? asize o then maxalign h else asize o) with (Z.min (asize o) (maxalign h)) by (destruct (Z.ltb_spec (maxalign h) (asize o)); lia). cbv zeta. unfold hok in HO. assert (AR : 1 <= Z.min (asize o) (maxalign h) <= 16) by lia.
  assert (P2 : (Z.land (Z.min (asize o) (maxalign h)) (Z.min (asize o) (maxalign h) - 1) =? 0) = true) by (apply pow2_small; [assumption|]; apply pow2_bound; [assumption|]; apply AL). rewrite P2. cbn [negb]. apply (pad_ok _ ts pos AR T P2) in AL. rewrite <- AL. reflexivity.
Qed.
Lemma details_sound : forall h ts pos fmt, hok h -> ts mod 16 = pos mod 16 -> cur fmt <> 0 ->
  match getdetails h ts fmt with
  | Ok (k, size, pad, r, h') => exists o t, spelled o t /\ fmt = t ++ r /\ t <> [] /\ (k, size) = kind o /\ h' = hconf o h /\ aligned o (maxalign h) pos pad
  | Err _ => True | _ => False end.
Proof.
  intros h ts pos fmt HO T C. unfold Pack_model.getdetails. pose proof (option_sound h fmt C) as OS. destruct (getoption h fmt) as [[[[k sz] r] h']|e| |]; cbn [bind]; auto. destruct OS as (t & -> & TN & [(o & SP & NX & KO & ->)|(-> & -> & -> & ->)]).
  - destruct (spelled_size o t SP) as (_ & AS & _).
    assert (H : match k with Kpaddalign => False | _ => True end /\ (if is_Kchar k then asize o = 0 else (sz <=? 1) = (asize o <=? 1) /\ ((sz <=? 1) = false -> sz = asize o /\ maxalign (hconf o h) = maxalign h))) by (destruct o as [[]| | | | | | | | |]; cbn in KO; inversion KO; subst; cbn; auto; repeat split; try discriminate; exfalso; exact (NX _ eq_refl)).
    destruct H as [NP H]. assert (E : match k with Kpaddalign => if cur r =? 0 then Err EArg else bind (getoption (hconf o h) r) (fun '(o2, align, fmt, h) => if is_Kchar o2 || (align =? 0) then Err EArg else Ok (align, fmt, h)) | _ => Ok (sz, r, hconf o h) end = Ok (sz, r, hconf o h)) by (destruct k; [reflexivity..|destruct NP|reflexivity]). rewrite E. cbn [bind].
    assert (NT : exists o t0, spelled o t0 /\ t ++ r = t0 ++ r /\ t0 <> [] /\ (k, sz) = kind o /\ hconf o h = hconf o h) by (exists o, t; auto).
    destruct (is_Kchar k) eqn:KC.
    + rewrite orb_true_r. exists o, t. repeat split; auto. unfold aligned. rewrite H. reflexivity.
    + rewrite orb_false_r. destruct H as [HE HM]. destruct (sz <=? 1) eqn:SE.
      * exists o, t. repeat split; auto. unfold aligned. rewrite <- HE. reflexivity.
      * destruct (HM eq_refl) as [-> ->]. apply Z.leb_gt in SE. set (al := if maxalign h <? asize o then maxalign h else asize o). assert (ALE : al = Z.min (asize o) (maxalign h)) by (unfold al; destruct (Z.ltb_spec (maxalign h) (asize o)); lia). destruct (Z.land al (al - 1) =? 0) eqn:LA; cbn [negb]; [|exact I].
        exists o, t. repeat split; auto. unfold aligned. destruct (Z.leb_spec (asize o) 1); [lia|]. cbv zeta. rewrite <- ALE. unfold hok in HO. apply (pad_ok al ts pos); auto. lia.
  - destruct (Z.eqb_spec (cur r) 0) as [CR|CR]; [exact I|]. pose proof (option_sound h r CR) as OS2. destruct (getoption h r) as [[[[k2 s2] r2] h2]|e| |]; cbn [bind]; auto. destruct OS2 as (t2 & -> & TN2 & [(o2 & SP & NX & KO & ->)|(-> & -> & -> & ->)]).
    + destruct (is_Kchar k2 || (s2 =? 0)) eqn:XE; [exact I|]. cbn [bind is_Kchar]. apply orb_false_iff in XE. destruct XE as [KC S0]. apply Z.eqb_neq in S0. destruct (spelled_size o2 t2 SP) as (SZ & AS & _). rewrite <- KO in SZ. cbn [snd] in SZ.
      assert (S2 : s2 = asize o2 /\ hconf o2 h = h) by (destruct o2 as [[]| | | | | | | | |]; cbn in KO, KC, S0; inversion KO; subst; cbn in *; try congruence; split; try reflexivity; apply hdr_eta). destruct S2 as [-> HC]. rewrite HC.
      assert (SPX : spelled (OAlign (asize o2)) (88 :: t2)) by (constructor; auto; lia). rewrite orb_false_r. destruct (Z.leb_spec (asize o2) 1) as [LE|GT].
      * exists (OAlign (asize o2)), (88 :: t2). split; [assumption|]. split; [reflexivity|]. split; [discriminate|]. split; [reflexivity|]. split; [symmetry; apply hdr_eta|]. unfold aligned. cbn [asize]. destruct (Z.leb_spec (asize o2) 1); [reflexivity|lia].
      * set (al := if maxalign h <? asize o2 then maxalign h else asize o2). assert (ALE : al = Z.min (asize o2) (maxalign h)) by (unfold al; destruct (Z.ltb_spec (maxalign h) (asize o2)); lia). destruct (Z.land al (al - 1) =? 0) eqn:LA; cbn [negb]; [|exact I].
        exists (OAlign (asize o2)), (88 :: t2). split; [assumption|]. split; [reflexivity|]. split; [discriminate|]. split; [reflexivity|]. split; [symmetry; apply hdr_eta|]. unfold aligned. cbn [asize]. destruct (Z.leb_spec (asize o2) 1); [lia|]. cbv zeta. rewrite <- ALE. unfold hok in HO. apply (pad_ok al ts pos); auto. lia.
    + cbn. exact I.
Qed.

(* whole formats *)
Definition nozero (l : list Z) : Prop := ~ In 0 l.
Lemma spelled_nozero : forall o t, spelled o t -> nozero t /\ t <> [] /\ digit (cur t) = false.
Proof.
  assert (DG : forall ds, Forall (fun c => 48 <= c <= 57) ds -> ~ In 0 ds) by (intros ds F I; rewrite Forall_forall in F; specialize (F 0 I); lia).
  assert (NU : forall df ds n c, numeral df ds n -> c <> 0 -> nozero (c :: ds)) by (intros df ds n c [[-> _]|((_ & F) & _)] C [X|X]; try congruence; [destruct X|exact (DG ds F X)]).
  intros o t SP. induction SP; (split; [|split; [discriminate|reflexivity]]); try (intros [X|[]]; discriminate X); try (eapply NU; [eassumption|lia]).
  - intros [X|X]; [lia|]. destruct H as [_ F]. exact (DG ds F X).
  - intros [X|X]; [lia|]. destruct IHSP as [N _]. exact (N X).
Qed.
Lemma c_string_app : forall t r, nozero t -> c_string (t ++ r) = t ++ c_string r.
Proof. induction t as [|c t IH]; intros r N; [reflexivity|]. cbn [app c_string]. destruct (Z.eqb_spec c 0) as [->|]; [exfalso; apply N; left; reflexivity|]. f_equal. apply IH. intros X. apply N. right. assumption. Qed.
Lemma c_string_split : forall t fmt r, c_string fmt = t ++ r -> exists r', fmt = t ++ r' /\ c_string r' = r.
Proof.
  induction t as [|c t IH]; intros fmt r E; [exists fmt; auto|]. destruct fmt as [|d fmt]; [discriminate|]. cbn [c_string] in E. destruct (d =? 0); [discriminate|]. injection E as -> E. destruct (IH fmt r E) as (r' & -> & E'). exists r'. auto.
Qed.
Lemma c_string_cur : forall fmt, cur (c_string fmt) = cur fmt.
Proof. intros [|c fmt]; [reflexivity|]. cbn [c_string cur]. destruct (Z.eqb_spec c 0) as [->|]; reflexivity. Qed.
Lemma c_string_nil : forall fmt, cur fmt = 0 <-> c_string fmt = [].
Proof. intros [|c fmt]; cbn; [tauto|]. destruct (Z.eqb_spec c 0) as [->|N]; [tauto|]. split; [congruence|discriminate]. Qed.
Lemma format_nodigit : forall os t, format os t -> digit (cur t) = false.
Proof. intros os t F. destruct F as [|o t l r SP F]; [reflexivity|]. destruct (spelled_nozero o t SP) as (_ & N & D). destruct t; [congruence|exact D]. Qed.

Variable V : Type.
Variable toint : V -> option Z.
Variable tonum : V -> option Z.
Variable tostr : V -> option (list Z).
Variable to_single of_single : Z -> Z.
Notation arg := (Pack_spec.arg V toint tonum tostr).
Notation conversions := (Pack_spec.conversions V toint tonum tostr to_single).
Hypothesis CV : conversions.
Definition hcfg (h : header) : bool * Z := (islittle h, maxalign h).
Lemma hcfg_conf : forall o h, hcfg (hconf o h) = config native_little o (hcfg h). Proof. intros o h. unfold hcfg, hconf. cbn. destruct (config native_little o (islittle h, maxalign h)). reflexivity. Qed.
Lemma hok_conf : forall o t h, spelled o t -> hok h -> hok (hconf o h).
Proof. intros o t h SP H. destruct (spelled_size o t SP) as (_ & _ & B). unfold hok in *. destruct o as [| | | | | | | |[]|]; cbn; auto. Qed.
Lemma aligned_fun : forall o m pos k k', 1 <= m <= 16 -> asize o <= 16 -> aligned o m pos k -> aligned o m pos k' -> k = k'.
Proof.
  intros o m pos k k' M A. unfold aligned. destruct (Z.leb_spec (asize o) 1); [congruence|]. cbv zeta. set (a := Z.min (asize o) m). assert (AR : 1 <= a <= 16) by lia. intros H1 H2. assert (P2 : (Z.land a (a - 1) =? 0) = true) by (apply pow2_small; [assumption|]; apply pow2_bound; [assumption|]; apply H1).
  apply (pad_ok a pos pos AR eq_refl P2) in H1. apply (pad_ok a pos pos AR eq_refl P2) in H2. congruence.
Qed.
Lemma aligned_nonneg : forall o m pos k, aligned o m pos k -> 0 <= k.
Proof. intros o m pos k. unfold aligned. destruct (asize o <=? 1); [lia|]. cbv zeta. lia. Qed.

(* what an option writes for an argument *)
Definition data_of (little : bool) (k : KOption) (size : Z) (v : V) : outcome (list Z) :=
  match k with
  | Kint => bind (check (toint v)) (fun n => let ok := if size <? SZINT then (let lim := 2 ^ (size * 8 - 1) in (- lim <=? n) && (n <? lim)) else true in if negb ok then Err EArg else Ok (packint (u64 n) little size (n <? 0)))
  | Kuint => bind (check (toint v)) (fun n => let ok := if size <? SZINT then u64 n <? 2 ^ (size * 8) else true in if negb ok then Err EArg else Ok (packint (u64 n) little size false))
  | Kfloat => bind (check (tonum v)) (fun n => Ok (copywithendian native_little (if size =? 4 then in_memory native_little (to_single n) 4 else in_memory native_little n 8) little))
  | Kchar => bind (check (tostr v)) (fun s => if negb (slen s <=? size) then Err EArg else Ok (s ++ zeros (size - slen s)))
  | Kstring => bind (check (tostr v)) (fun s => if negb ((8 <=? size) || (slen s <? 2 ^ (size * 8))) then Err EArg else Ok (packint (slen s) little size false ++ s))
  | Kzstr => bind (check (tostr v)) (fun s => if negb (strlen s =? slen s) then Err EArg else Ok (s ++ [0]))
  | _ => UB
  end.
Lemma native_copy : forall little n k, copywithendian native_little (in_memory native_little n k) little = le_order little (le_bytes n k).
Proof. intros little n k. unfold copywithendian, in_memory, le_order. destruct little, native_little; cbn [Bool.eqb]; rewrite ?rev_involutive; reflexivity. Qed.
Lemma strlen_ok : forall s, strlen s = slen s <-> ~ In 0 s.
Proof.
  induction s as [|c s IH]; cbn [strlen In]; [rewrite slen_nil; tauto|]. rewrite slen_cons. pose proof (slen_nonneg s). destruct (Z.eqb_spec c 0) as [->|N]; [split; [lia|tauto]|]. rewrite <- (Z.add_comm 1). split; [intros E [X|X]; [congruence|apply IH in X; auto; lia]|]. intros X. f_equal. apply IH. tauto.
Qed.
Lemma zeros_repeat : forall z n, Forall (fun b => b = 0) z -> slen z = n -> z = zeros n.
Proof. intros z n F L. unfold zeros. replace (Z.to_nat n) with (length z) by (unfold slen in L; lia). clear L. induction F as [|x z E F IH]; [reflexivity|]. cbn [length repeat]. congruence. Qed.
Lemma data_spec : forall o t little v l, spelled o t -> takes_arg o = true -> (data_of little (fst (kind o)) (snd (kind o)) v = Ok l <-> exists x, arg o v = Some x /\ puts to_single little o x l).
Proof.
  intros o t little v l SP TA. destruct (spelled_size o t SP) as (_ & _ & SZ). destruct CV as (C1 & C2 & C3 & C4). destruct o as [sg n|n|n|n| | | | | |]; try discriminate; cbn [arg puts].
  - destruct (toint v) as [i|] eqn:EI; [|split; [destruct sg; cbn; rewrite EI; discriminate|intros (x & E & _); discriminate]]. assert (SI := C1 v i EI). destruct sg; cbn [kind fst snd data_of]; rewrite EI; cbn [check bind option_map]; rewrite (Z.mul_comm n 8); unfold SZINT.
    + assert (IB : ((if n <? 8 then (- 2 ^ (8 * n - 1) <=? i) && (i <? 2 ^ (8 * n - 1)) else true) = true) <-> (n < 8 -> - 2 ^ (8 * n - 1) <= i < 2 ^ (8 * n - 1))).
      { destruct (Z.ltb_spec n 8); [rewrite andb_true_iff, Z.leb_le, Z.ltb_lt; tauto|]. split; [lia|reflexivity]. }
      destruct (if n <? 8 then (- 2 ^ (8 * n - 1) <=? i) && (i <? 2 ^ (8 * n - 1)) else true); cbn [negb].
      * assert (PB := packint_signed i little n SI ltac:(lia) (proj1 IB eq_refl)). split; [intros E; injection E as <-; exists (AInt i); auto|]. intros (x & E & P). injection E as <-. f_equal. eapply int_bytes_inj; eassumption.
      * split; [discriminate|]. intros (x & E & P). injection E as <-. destruct P as (_ & _ & _ & R & _). assert (X : false = true) by (apply IB; intros; exact R). discriminate.
    + assert (IB : ((if n <? 8 then u64 i <? 2 ^ (8 * n) else true) = true) <-> (n < 8 -> u64 i < 2 ^ (8 * n))).
      { destruct (Z.ltb_spec n 8); [rewrite Z.ltb_lt; tauto|]. split; [lia|reflexivity]. }
      destruct (if n <? 8 then u64 i <? 2 ^ (8 * n) else true); cbn [negb].
      * assert (PB := packint_unsigned i little n SI ltac:(lia) (proj1 IB eq_refl)). split; [intros E; injection E as <-; exists (AInt i); auto|]. intros (x & E & P). injection E as <-. f_equal. eapply int_bytes_inj; eassumption.
      * split; [discriminate|]. intros (x & E & P). injection E as <-. destruct P as (L & W & _ & R). assert (X : false = true); [|discriminate]. apply IB. intros _. pose proof (num_range little l W) as NR. rewrite R, L, pow256 in NR by lia. exact (proj2 NR).
  - cbn [kind fst snd data_of]. destruct (tonum v) as [x|] eqn:EX; cbn [check bind option_map]; [|split; [discriminate|intros (y & E & _); discriminate]].
    assert (R : raw_bytes little n (if n =? 4 then to_single x else x) (copywithendian native_little (if n =? 4 then in_memory native_little (to_single x) 4 else in_memory native_little x 8) little)).
    { unfold raw_bytes. destruct SZ as [-> | ->]; cbn [Z.eqb Pos.eqb]; rewrite native_copy, slen_le, num_of_le, le_invol.
      - destruct (le_bytes_ok 4 (to_single x)) as (L & W & E). split; [unfold slen; lia|]. split; [apply wf_le; assumption|]. rewrite E. apply Z.mod_small. apply C4.
      - destruct (le_bytes_ok 8 x) as (L & W & E). split; [unfold slen; lia|]. split; [apply wf_le; assumption|]. rewrite E. apply Z.mod_small. apply (C2 v x EX). }
    split; [intros E; injection E as <-; exists (AFlt x); auto|]. intros (y & E & P). injection E as <-. f_equal. destruct R as (RL & RW & RN). destruct P as (PL & PW & PN). apply (num_inj little); congruence.
  - cbn [kind fst snd data_of]. destruct (tostr v) as [s|] eqn:ES; cbn [check bind option_map]; [|split; [discriminate|intros (y & E & _); discriminate]]. destruct (Z.leb_spec (slen s) n) as [LE|GT]; cbn [negb].
    + split.
      * intros E. injection E as <-. exists (AStr s). split; [reflexivity|]. exists (zeros (n - slen s)). split; [reflexivity|]. split; [rewrite slen_app; unfold zeros, slen; rewrite repeat_length; unfold slen in LE; lia|]. unfold zeros. apply Forall_forall. intros b B. apply repeat_spec in B. assumption.
      * intros (y & E & P). injection E as <-. destruct P as (z & -> & L & F). rewrite slen_app in L. rewrite (zeros_repeat z (n - slen s) F) by lia. reflexivity.
    + split; [discriminate|]. intros (y & E & P). injection E as <-. destruct P as (z & -> & L & F). rewrite slen_app in L. pose proof (slen_nonneg z). lia.
  - cbn [kind fst snd data_of]. destruct (tostr v) as [s|] eqn:ES; cbn [check bind option_map]; [|split; [discriminate|intros (y & E & _); discriminate]]. rewrite (Z.mul_comm n 8). destruct (C3 v s ES) as [SM SW]. pose proof (slen_nonneg s) as SN. assert (US : u64 (slen s) = slen s) by (apply u64_nonneg; lia). assert (SI : is_s64 (slen s)) by (unfold is_s64, minint; lia).
    assert (IB : ((8 <=? n) || (slen s <? 2 ^ (8 * n)) = true) <-> (n < 8 -> u64 (slen s) < 2 ^ (8 * n))). { rewrite US, orb_true_iff, Z.leb_le, Z.ltb_lt. split; [lia|]. intros X. destruct (Z_lt_le_dec n 8); auto. }
    destruct ((8 <=? n) || (slen s <? 2 ^ (8 * n))); cbn [negb].
    + assert (PB := packint_unsigned (slen s) little n SI ltac:(lia) (proj1 IB eq_refl)). rewrite US in PB. split; [intros E; injection E as <-; exists (AStr s); split; [reflexivity|]; eexists; split; [reflexivity|exact PB]|]. intros (x & E & P). injection E as <-. destruct P as (p & -> & P). f_equal. f_equal. eapply int_bytes_inj; eassumption.
    + split; [discriminate|]. intros (x & E & P). injection E as <-. destruct P as (p & -> & L & W & _ & R). assert (X : false = true); [|discriminate]. apply IB. intros _. pose proof (num_range little p W) as NR. rewrite R, L, pow256 in NR by lia. exact (proj2 NR).
  - cbn [kind fst snd data_of]. destruct (tostr v) as [s|] eqn:ES; cbn [check bind option_map]; [|split; [discriminate|intros (y & E & _); discriminate]]. destruct (Z.eqb_spec (strlen s) (slen s)) as [E0|N0]; cbn [negb].
    + apply strlen_ok in E0. split; [intros E; injection E as <-; exists (AStr s); auto|]. intros (x & E & P). injection E as <-. destruct P as [_ ->]. reflexivity.
    + split; [discriminate|]. intros (x & E & P). injection E as <-. destruct P as [P _]. apply strlen_ok in P. contradiction.
Qed.
Lemma data_total : forall k size little v, match k with Kint | Kuint | Kfloat | Kchar | Kstring | Kzstr => True | _ => False end -> match data_of little k size v with Ok _ | Err _ => True | _ => False end.
Proof.
  intros k size little v K. destruct k; try destruct K; cbn [data_of].
  - destruct (toint v); cbn [check bind]; [|exact I]. destruct (negb _); exact I.
  - destruct (toint v); cbn [check bind]; [|exact I]. destruct (negb _); exact I.
  - destruct (tonum v); cbn [check bind]; exact I.
  - destruct (tostr v); cbn [check bind]; [|exact I]. destruct (negb _); exact I.
  - destruct (tostr v); cbn [check bind]; [|exact I]. destruct (negb _); exact I.
  - destruct (tostr v); cbn [check bind]; [|exact I]. destruct (negb _); exact I.
Qed.

Notation pack_run := (pack_run native_little V toint tonum tostr to_single).
Lemma slen_packint : forall n little size neg, 1 <= size -> slen (packint n little size neg) = size.
Proof. intros n little size neg S. rewrite packint_ok by assumption. rewrite slen_le. apply le_signed_ok. assumption. Qed.
Lemma u64_add_l : forall a b, u64 (u64 a + b) = u64 (a + b). Proof. intros. unfold u64. apply Zplus_mod_idemp_l. Qed.
Lemma slen_copy : forall l little, slen (copywithendian native_little l little) = slen l.
Proof. intros l little. unfold copywithendian. destruct (Bool.eqb little native_little); [reflexivity|apply slen_rev]. Qed.
Lemma slen_memory : forall n k, slen (in_memory native_little n k) = Z.of_nat k.
Proof. intros n k. unfold in_memory. destruct (le_bytes_ok k n) as (L & _). destruct native_little; rewrite ?slen_rev; unfold slen; lia. Qed.
Lemma pack_step : forall f o t r h' pad h fmt v args pos b, spelled o t -> takes_arg o = true -> cur fmt <> 0 -> getdetails h (u64 pos) fmt = Ok (kind o, pad, r, h') ->
  pack_run (S f) h fmt (v :: args) (u64 pos) b = bind (data_of (islittle h') (fst (kind o)) (snd (kind o)) v) (fun l => pack_run f h' r args (u64 (pos + pad + slen l)) (b ++ zeros pad ++ l)).
Proof.
  intros f o t r h' pad h fmt v args pos b SP TA C GD. destruct (spelled_size o t SP) as (_ & _ & SZ). cbn [Pack_model.pack_run]. apply Z.eqb_neq in C. rewrite C. rewrite GD. cbn [bind]. destruct (kind o) as [k size] eqn:EK. cbn [fst snd].
  assert (AL : forall x, (b ++ zeros pad) ++ x = b ++ zeros pad ++ x) by (intros; symmetry; apply app_assoc).
  destruct o as [[] n|n|n|n| | | | | |]; try discriminate; injection EK as <- <-; cbn [carg data_of].
  - destruct (toint v); cbn [check bind]; [|reflexivity]. destruct (negb _); cbn [bind]; [reflexivity|]. rewrite slen_packint by lia. rewrite AL. f_equal. rewrite u64_add_l. f_equal. lia.
  - destruct (toint v); cbn [check bind]; [|reflexivity]. destruct (negb _); cbn [bind]; [reflexivity|]. rewrite slen_packint by lia. rewrite AL. f_equal. rewrite u64_add_l. f_equal. lia.
  - destruct (tonum v); cbn [check bind]; [|reflexivity]. rewrite slen_copy. rewrite AL. f_equal. rewrite u64_add_l. f_equal. destruct SZ as [-> | ->]; cbn [Z.eqb Pos.eqb]; rewrite slen_memory; lia.
  - destruct (tostr v) as [s|]; cbn [check bind]; [|reflexivity]. destruct (Z.leb_spec (slen s) n); cbn [negb bind]; [|reflexivity]. rewrite AL. f_equal. rewrite u64_add_l. f_equal. rewrite slen_app. unfold zeros, slen in *. rewrite repeat_length. lia.
  - destruct (tostr v) as [s|]; cbn [check bind]; [|reflexivity]. destruct (negb _); cbn [bind]; [reflexivity|]. rewrite AL. f_equal. rewrite u64_add_l, <- Z.add_assoc, u64_add_l. f_equal. rewrite slen_app, slen_packint by lia. lia.
  - destruct (tostr v) as [s|]; cbn [check bind]; [|reflexivity]. destruct (negb _); cbn [bind]; [reflexivity|]. rewrite AL. f_equal. rewrite u64_add_l, <- Z.add_assoc, u64_add_l. f_equal. rewrite slen_app. change (slen [0]) with 1. lia.
Qed.
Lemma pack_step_nil : forall f o t r h' pad h fmt pos b, spelled o t -> takes_arg o = true -> cur fmt <> 0 -> getdetails h (u64 pos) fmt = Ok (kind o, pad, r, h') -> pack_run (S f) h fmt [] (u64 pos) b = Err EArg.
Proof.
  intros f o t r h' pad h fmt pos b SP TA C GD. cbn [Pack_model.pack_run]. apply Z.eqb_neq in C. rewrite C. rewrite GD. cbn [bind]. destruct o as [[] n|n|n|n| | | | | |]; try discriminate; reflexivity.
Qed.
Lemma pack_step_other : forall f o t r h' pad h fmt args pos b, spelled o t -> takes_arg o = false -> cur fmt <> 0 -> getdetails h (u64 pos) fmt = Ok (kind o, pad, r, h') ->
  let l := match o with OPad => [0] | _ => [] end in
  pack_run (S f) h fmt args (u64 pos) b = pack_run f h' r args (u64 (pos + pad + slen l)) (b ++ zeros pad ++ l).
Proof.
  intros f o t r h' pad h fmt args pos b SP TA C GD l. cbn [Pack_model.pack_run]. apply Z.eqb_neq in C. rewrite C. rewrite GD. cbn [bind]. destruct o; try discriminate; unfold l; cbn [kind bind]; rewrite u64_add_l, ?app_nil_r, <- ?app_assoc; f_equal; f_equal; rewrite ?slen_nil; try (change (slen [0]) with 1); lia.
Qed.
Lemma u64_mod16 : forall p, u64 p mod 16 = p mod 16.
Proof. intros p. unfold u64. symmetry. apply Znumtheory.Zmod_div_mod; [lia|reflexivity|]. exists (2 ^ 60). reflexivity. Qed.
Notation written := (written native_little to_single V arg).
Lemma pack_complete : forall os f h fmt args pos b out, format os (c_string fmt) -> written (hcfg h) pos os args out -> hok h -> (length fmt < f)%nat -> pack_run f h fmt args (u64 pos) b = Ok (b ++ out).
Proof.
  induction os as [|o os IH]; intros f h fmt args pos b out F W HO FU; destruct f as [|f]; try lia.
  - inversion W; subst. inversion F as [E|]; subst. symmetry in H. apply c_string_nil in H. cbn [Pack_model.pack_run]. rewrite H, app_nil_r. reflexivity.
  - inversion F as [|o' t l r SP FR EO ET]; subst. symmetry in ET. destruct (c_string_split t fmt r ET) as (r' & -> & ER). destruct (spelled_nozero o t SP) as (NZ & TN & _). assert (DR : digit (cur r') = false) by (rewrite <- c_string_cur, ER; apply (format_nodigit os), FR).
    assert (C : cur (t ++ r') <> 0) by (destruct t as [|c t]; [congruence|]; cbn [app cur]; intros ->; apply NZ; left; reflexivity). rewrite <- ER in FR.
    assert (LR : (length r' < f)%nat) by (rewrite app_length in FU; destruct t; [congruence|cbn [length] in FU; lia]).
    inversion W as [|cfg p o' k v x l os' args' out' TA AL AR PU WR|cfg p o' k os' args' out' TA AL l WR]; subst.
    + pose proof (details_complete o t r' h (u64 pos) pos k SP DR HO (u64_mod16 pos) AL) as GD. rewrite (pack_step f o t r' (hconf o h) k h (t ++ r') v args' pos b SP TA C GD).
      assert (HC : hconf o h = h) by (destruct o; try discriminate; apply hdr_eta). rewrite HC. assert (DS : data_of (islittle h) (fst (kind o)) (snd (kind o)) v = Ok l) by (apply (data_spec o t (islittle h) v l SP TA); exists x; auto). rewrite DS. cbn [bind].
      rewrite (IH f h r' args' (pos + k + slen l) _ out' FR WR HO LR). rewrite <- !app_assoc. reflexivity.
    + pose proof (details_complete o t r' h (u64 pos) pos k SP DR HO (u64_mod16 pos) AL) as GD. rewrite (pack_step_other f o t r' (hconf o h) k h (t ++ r') args pos b SP TA C GD). fold l. rewrite <- hcfg_conf in WR.
      rewrite (IH f (hconf o h) r' args (pos + k + slen l) _ out' FR WR (hok_conf o t h SP HO) LR). rewrite <- !app_assoc. reflexivity.
Qed.
Lemma pack_sound : forall f h fmt args pos b, hok h -> (length fmt < f)%nat -> match pack_run f h fmt args (u64 pos) b with
  | Ok s => exists os out, format os (c_string fmt) /\ written (hcfg h) pos os args out /\ s = b ++ out
  | Err _ => True | _ => False end.
Proof.
  induction f as [|f IH]; intros h fmt args pos b HO FU; [lia|]. destruct (Z.eq_dec (cur fmt) 0) as [C|C].
  - cbn [Pack_model.pack_run]. rewrite C. cbn [Z.eqb]. exists [], []. apply c_string_nil in C. rewrite C, app_nil_r. repeat split; constructor.
  - pose proof (details_sound h (u64 pos) pos fmt HO (u64_mod16 pos) C) as DS. destruct (getdetails h (u64 pos) fmt) as [[[[[k size] pad] r] h']|e| |] eqn:GD; try (cbn [Pack_model.pack_run]; apply Z.eqb_neq in C; rewrite C, GD; exact DS).
    destruct DS as (o & t & SP & -> & TN & EK & -> & AL). rewrite EK in GD. assert (LR : (length r < f)%nat) by (rewrite app_length in FU; destruct t; [congruence|cbn [length] in FU; lia]). destruct (spelled_nozero o t SP) as (NZ & _ & _). destruct (takes_arg o) eqn:TA.
    + destruct args as [|v args]; [rewrite (pack_step_nil f o t r _ pad h _ pos b SP TA C GD); exact I|]. rewrite (pack_step f o t r _ pad h _ v args pos b SP TA C GD). pose proof (data_total (fst (kind o)) (snd (kind o)) (islittle (hconf o h)) v) as DT.
      destruct (data_of (islittle (hconf o h)) (fst (kind o)) (snd (kind o)) v) as [l|e| |] eqn:ED; cbn [bind]; try (apply DT; destruct o as [[]| | | | | | | | |]; try discriminate; exact I).
      pose proof (IH (hconf o h) r args (pos + pad + slen l) (b ++ zeros pad ++ l) (hok_conf o t h SP HO) LR) as IHf. destruct (pack_run f (hconf o h) r args _ _) as [s|e| |]; auto. destruct IHf as (os & out & F & W & ->). exists (o :: os), (zeros pad ++ l ++ out).
      apply (data_spec o t _ v l SP TA) in ED. destruct ED as (x & AR & PU). assert (HC : hconf o h = h) by (destruct o; try discriminate; apply hdr_eta). rewrite HC in *. split; [rewrite c_string_app by assumption; constructor; assumption|]. split; [apply w_arg with (x := x); assumption|]. rewrite <- !app_assoc. reflexivity.
    + rewrite (pack_step_other f o t r _ pad h _ args pos b SP TA C GD). cbv zeta. set (l := match o with OPad => [0] | _ => [] end) in *. pose proof (IH (hconf o h) r args (pos + pad + slen l) (b ++ zeros pad ++ l) (hok_conf o t h SP HO) LR) as IHf. destruct (pack_run f (hconf o h) r args _ _) as [s|e| |]; auto. destruct IHf as (os & out & F & W & ->). exists (o :: os), (zeros pad ++ l ++ out).
      split; [rewrite c_string_app by assumption; constructor; assumption|]. split; [|rewrite <- !app_assoc; reflexivity]. rewrite hcfg_conf in W. apply w_other; assumption.
Qed.

(* unpack *)
Variable stack_room : Z -> bool.
Notation unpack_run := (unpack_run native_little of_single stack_room).
Definition to_val (u : uval) : val := match u with UInt n => AInt n | UFlt x => AFlt x | UStr s => AStr s end.
Notation read := (read native_little of_single).
(* what an option reads; the length is the number of bytes used *)
Definition data_from (little : bool) (k : KOption) (size : Z) (data : list Z) (pos : Z) : outcome (uval * Z) :=
  match k with
  | Kint | Kuint => bind (unpackint data pos little size (match k with Kint => true | _ => false end)) (fun res => Ok (UInt res, size))
  | Kfloat => bind (sread data pos (Z.to_nat size)) (fun bytes =>
      let u := copywithendian native_little bytes little in Ok (UFlt (if size =? 4 then of_single (of_memory native_little u) else of_memory native_little u), size))
  | Kchar => bind (sread data pos (Z.to_nat size)) (fun s => Ok (UStr s, size))
  | Kstring => bind (unpackint data pos little size false) (fun r => let len := u64 r in
      if negb (len <=? slen data - pos - size) then Err EArg else bind (sread data (pos + size) (Z.to_nat len)) (fun s => Ok (UStr s, len + size)))
  | Kzstr => bind (cstrlen (S (length data)) data pos) (fun len =>
      if negb (pos + len <? slen data) then Err EArg else bind (sread data pos (Z.to_nat len)) (fun s => Ok (UStr s, len + 1 + size)))
  | _ => UB
  end.
Lemma native_read : forall little l, of_memory native_little (copywithendian native_little l little) = num_of little l.
Proof. intros little l. unfold of_memory, copywithendian, num_of. destruct little, native_little; cbn [Bool.eqb]; rewrite le_val_number, ?rev_involutive; reflexivity. Qed.
Lemma skipn_skipn : forall (l : list Z) x y, skipn x (skipn y l) = skipn (x + y) l.
Proof. induction l as [|a l IH]; intros x y; [rewrite !skipn_nil; reflexivity|]. destruct y; [rewrite Nat.add_0_r; reflexivity|]. rewrite Nat.add_succ_r. cbn [skipn]. apply IH. Qed.
Lemma chunk_app : forall data pos a b, chunk data pos (a ++ b) <-> chunk data pos a /\ chunk data (pos + slen a) b.
Proof.
  intros data pos a b. split.
  - intros C. assert (CL := chunk_len _ _ _ C). destruct C as (P & r & E & B). rewrite <- app_assoc in E. rewrite slen_app in CL. pose proof (slen_nonneg b). pose proof (slen_nonneg a). split; [split; [assumption|]; exists (b ++ r); split; [assumption|lia]|]. split; [lia|]. exists r. split; [|lia].
    replace (Z.to_nat (pos + slen a)) with (length a + Z.to_nat pos)%nat by (unfold slen; lia). rewrite <- skipn_skipn, E. rewrite skipn_app, skipn_all, Nat.sub_diag. reflexivity.
  - intros [(P & r & E & B) (P2 & r2 & E2 & B2)]. split; [assumption|]. exists r2. split; [|assumption]. rewrite <- app_assoc. rewrite <- E2. replace (Z.to_nat (pos + slen a)) with (length a + Z.to_nat pos)%nat by (unfold slen; lia). rewrite <- skipn_skipn, E. rewrite skipn_app, skipn_all, Nat.sub_diag. reflexivity.
Qed.
Lemma cstrlen_ok : forall f data p, 0 <= p <= slen data -> slen data - p < Z.of_nat f -> exists s, cstrlen f data p = Ok (slen s) /\ nozero s /\ chunk data p s /\ (p + slen s < slen data -> chunk data p (s ++ [0])).
Proof.
  induction f as [|f IH]; intros data p P F; [lia|]. cbn [cstrlen]. rewrite sbyte_ok by lia. cbn [bind]. destruct (Z.eq_dec p (slen data)) as [->|NE].
  - rewrite nth_overflow by (unfold slen; lia). cbn [Z.eqb]. exists []. split; [reflexivity|]. split; [intros []|]. split; [split; [lia|]; exists (skipn (Z.to_nat (slen data)) data); split; [reflexivity|lia]|]. rewrite slen_nil. lia.
  - set (c := nth (Z.to_nat p) data 0). assert (SK : skipn (Z.to_nat p) data = c :: skipn (Z.to_nat (p + 1)) data) by (replace (Z.to_nat (p + 1)) with (S (Z.to_nat p)) by lia; apply skipn_nth_cons; unfold slen in *; lia).
    assert (C1 : chunk data p [c]) by (split; [lia|]; exists (skipn (Z.to_nat (p + 1)) data); split; [exact SK|lia]). destruct (Z.eqb_spec c 0) as [C0|C0].
    + exists []. split; [reflexivity|]. split; [intros []|]. split; [split; [lia|]; exists (skipn (Z.to_nat p) data); split; [reflexivity|lia]|]. intros _. cbn [app]. rewrite <- C0. assumption.
    + destruct (IH data (p + 1) ltac:(lia) ltac:(lia)) as (s & E & NZ & CH & CZ). rewrite E. cbn [bind]. exists (c :: s). rewrite slen_cons. split; [f_equal; lia|]. split; [intros [X|X]; [congruence|exact (NZ X)]|]. split.
      * change (c :: s) with ([c] ++ s). apply chunk_app. split; [assumption|]. change (slen [c]) with 1. assumption.
      * intros L. change ((c :: s) ++ [0]) with ([c] ++ (s ++ [0])). apply chunk_app. split; [assumption|]. change (slen [c]) with 1. apply CZ. lia.
Qed.
Lemma first_zero : forall s t a b, nozero s -> nozero t -> s ++ 0 :: a = t ++ 0 :: b -> s = t.
Proof.
  induction s as [|c s IH]; intros [|d t] a b NS NT E; auto.
  - injection E as <- _. exfalso. apply NT. left. reflexivity.
  - injection E as -> _. exfalso. apply NS. left. reflexivity.
  - injection E as -> E. f_equal. eapply IH; [| |exact E]; intros X; [apply NS|apply NT]; right; assumption.
Qed.
Lemma from_spec : forall o t little data pos, spelled o t -> takes_arg o = true -> wf_str data -> slen data <= maxint -> 0 <= pos -> pos + snd (kind o) <= slen data ->
  match data_from little (fst (kind o)) (snd (kind o)) data pos with
  | Ok (u, n) => exists l, chunk data pos l /\ slen l = n /\ gets of_single little o l (to_val u)
  | Err _ => forall l v, chunk data pos l -> ~ gets of_single little o l v
  | _ => False end.
Proof.
  intros o t little data pos SP TA WD LD P B. destruct (spelled_size o t SP) as (_ & _ & SZ).
  assert (INT : forall sg n, 1 <= n <= 16 -> pos + n <= slen data -> match unpackint data pos little n sg with Ok x => exists l, chunk data pos l /\ int_bytes sg little n x l | Err _ => forall l x, chunk data pos l -> ~ int_bytes sg little n x l | _ => False end).
  { intros sg n N BN. destruct (chunk_mk data pos n P ltac:(lia) BN) as (l & C & L). assert (WL := chunk_wf _ _ _ WD C). pose proof (unpackint_ok data pos little l sg C WL ltac:(lia)) as U. rewrite L in U. destruct (unpackint data pos little n sg); auto; [exists l; auto|]. intros l' x C' IB. rewrite (chunk_inj data pos l' l C' C) in IB; [exact (U x IB)|]. destruct IB as (L' & _). lia. }
  destruct o as [sg n|n|n|n| | | | | |]; try discriminate.
  - specialize (INT sg n SZ). destruct sg; cbn [kind fst snd data_from] in *; specialize (INT B); destruct (unpackint data pos little n _) as [x|e| |]; cbn [bind]; auto; try (intros l [] C; cbn [gets]; auto; apply INT; assumption); destruct INT as (l & C & IB); exists l; split; auto; split; auto; apply IB.
  - cbn [kind fst snd data_from] in *. destruct (chunk_mk data pos n P ltac:(lia) B) as (l & C & L). replace (Z.to_nat n) with (length l) by (unfold slen in L; lia). rewrite (chunk_read data pos l C). cbn [bind]. exists l. split; [assumption|]. split; [assumption|]. cbn [gets to_val]. rewrite native_read. exists (num_of little l). split; [|reflexivity]. split; [assumption|]. split; [apply (chunk_wf _ _ _ WD C)|reflexivity].
  - cbn [kind fst snd data_from] in *. destruct (spelled_size _ _ SP) as (N0 & _). cbn in N0. destruct (chunk_mk data pos n P ltac:(lia) B) as (l & C & L). replace (Z.to_nat n) with (length l) by (unfold slen in L; lia). rewrite (chunk_read data pos l C). cbn [bind]. exists l. split; [assumption|]. split; [assumption|]. cbn [gets to_val]. auto.
  - cbn [kind fst snd data_from] in *. specialize (INT false n SZ B). destruct (unpackint data pos little n false) as [x|e| |]; cbn [bind]; auto.
    + destruct INT as (p & C & IB). assert (IB0 := IB). destruct IB0 as (LP & WP & SX & E). assert (UX : 0 <= u64 x) by (pose proof (u64_range x) as X; apply X). destruct (Z.leb_spec (u64 x) (slen data - pos - n)) as [LE|GT]; cbn [negb].
      * destruct (chunk_mk data (pos + n) (u64 x) ltac:(lia) UX ltac:(lia)) as (s & CS & LS). replace (Z.to_nat (u64 x)) with (length s) by (unfold slen in LS; lia). rewrite (chunk_read data (pos + n) s CS). cbn [bind]. exists (p ++ s). split; [apply chunk_app; rewrite LP; auto|]. split; [rewrite slen_app; lia|]. cbn [gets to_val]. exists p. split; [reflexivity|]. rewrite LS.
        assert (XE : u64 x = x). { unfold is_s64, minint in SX. destruct (Z_lt_le_dec x 0); [rewrite u64_neg in LE by (unfold minint; lia); unfold two64, maxint in *; lia|]. apply u64_nonneg. lia. } rewrite XE. assumption.
      * intros l v C2 G. destruct v; try destruct G. destruct H as [-> IB2]. apply chunk_app in C2. destruct C2 as [C2 C3]. assert (LX : slen x0 = n) by apply IB2. rewrite (chunk_inj data pos x0 p C2 C) in IB2 by lia. assert (EX : x = slen s) by (eapply int_bytes_fun; [|exact IB|exact IB2]; lia). apply chunk_len in C3. rewrite LX in C3. rewrite EX in GT. pose proof (slen_nonneg s). rewrite u64_nonneg in GT by lia. lia.
    + intros l v C2 G. destruct v; try destruct G. destruct H as [-> IB2]. apply chunk_app in C2. destruct C2 as [C2 _]. exact (INT x (slen s) C2 IB2).
  - cbn [kind fst snd data_from] in *. destruct (cstrlen_ok (S (length data)) data pos) as (s & E & NZ & C & CZ); [lia|unfold slen; lia|]. rewrite E. cbn [bind]. destruct (Z.ltb_spec (pos + slen s) (slen data)) as [LT|GE]; cbn [negb].
    + replace (Z.to_nat (slen s)) with (length s) by (unfold slen; lia). rewrite (chunk_read data pos s C). cbn [bind]. exists (s ++ [0]). split; [apply CZ; assumption|]. split; [rewrite slen_app; change (slen [0]) with 1; lia|]. cbn [gets to_val]. auto.
    + intros l v C2 G. destruct v as [| |s2]; [destruct G|destruct G|]. destruct G as [NZ2 ->]. assert (CL := chunk_len _ _ _ C2). rewrite slen_app in CL. change (slen [0]) with 1 in CL. destruct C as (_ & r & E1 & _). destruct C2 as (_ & r2 & E2 & _). rewrite E1 in E2. rewrite <- app_assoc in E2. cbn [app] in E2.
      assert (RN : r = []). { assert (H := f_equal slen E1). rewrite slen_app, slen_skipn in H by lia. destruct r; [reflexivity|]. rewrite slen_cons in H. pose proof (slen_nonneg r). lia. } subst r. rewrite app_nil_r in E2. apply NZ. rewrite E2. apply in_or_app. right. left. reflexivity.
Qed.

Lemma unpack_step : forall f o t r h' pad h fmt data pos n, spelled o t -> takes_arg o = true -> cur fmt <> 0 -> getdetails h pos fmt = Ok (kind o, pad, r, h') ->
  unpack_run (S f) h fmt data pos n = if negb (pad + snd (kind o) <=? slen data - pos) then Err EArg else if negb (stack_room n) then Err EArg
    else bind (data_from (islittle h') (fst (kind o)) (snd (kind o)) data (pos + pad)) (fun '(u, m) => bind (unpack_run f h' r data (pos + pad + m) (n + 1)) (fun '(l, p) => Ok (u :: l, p))).
Proof.
  intros f o t r h' pad h fmt data pos n SP TA C GD. cbn [Pack_model.unpack_run]. apply Z.eqb_neq in C. rewrite C. rewrite GD. cbn [bind]. destruct (kind o) as [k size] eqn:EK. cbn [fst snd].
  destruct (negb (pad + size <=? slen data - pos)); [reflexivity|]. destruct (negb (stack_room n)); [reflexivity|].
  destruct o as [[] z|z|z|z| | | | | |]; try discriminate; injection EK as <- <-; cbn [data_from].
  - destruct (unpackint _ _ _ _ _); reflexivity.
  - destruct (unpackint _ _ _ _ _); reflexivity.
  - destruct (sread _ _ _); reflexivity.
  - destruct (sread _ _ _); reflexivity.
  - destruct (unpackint _ _ _ _ _) as [x| | |]; try reflexivity. cbn [bind]. destruct (negb _); [reflexivity|]. destruct (sread _ _ _); try reflexivity. cbn [bind]. rewrite <- Z.add_assoc. reflexivity.
  - destruct (cstrlen _ _ _) as [x| | |]; try reflexivity. cbn [bind]. destruct (negb _); [reflexivity|]. destruct (sread _ _ _); try reflexivity. cbn [bind]. rewrite <- Z.add_assoc. reflexivity.
Qed.
Lemma unpack_step_other : forall f o t r h' pad h fmt data pos n, spelled o t -> takes_arg o = false -> cur fmt <> 0 -> getdetails h pos fmt = Ok (kind o, pad, r, h') ->
  let m := match o with OPad => 1 | _ => 0 end in
  unpack_run (S f) h fmt data pos n = if negb (pad + m <=? slen data - pos) then Err EArg else if negb (stack_room n) then Err EArg else unpack_run f h' r data (pos + pad + m) n.
Proof.
  intros f o t r h' pad h fmt data pos n SP TA C GD m. cbn [Pack_model.unpack_run]. apply Z.eqb_neq in C. rewrite C. rewrite GD. cbn [bind]. destruct o; try discriminate; reflexivity.
Qed.
Lemma unpack_sound : forall f h fmt data pos n, hok h -> (length fmt < f)%nat -> wf_str data -> slen data <= maxint -> 0 <= pos <= slen data -> match unpack_run f h fmt data pos n with
  | Ok (us, p) => exists os, format os (c_string fmt) /\ read (hcfg h) data pos os (map to_val us) (p - 1) /\ p - 1 <= slen data
  | Err _ => True | _ => False end.
Proof.
  induction f as [|f IH]; intros h fmt data pos n HO FU WD LD P; [lia|]. destruct (Z.eq_dec (cur fmt) 0) as [C|C].
  - cbn [Pack_model.unpack_run]. rewrite C. cbn [Z.eqb]. exists []. apply c_string_nil in C. rewrite C. replace (pos + 1 - 1) with pos by lia. repeat split; [constructor|constructor|lia].
  - pose proof (details_sound h pos pos fmt HO eq_refl C) as DS. destruct (getdetails h pos fmt) as [[[[[k size] pad] r] h']|e| |] eqn:GD; try (cbn [Pack_model.unpack_run]; apply Z.eqb_neq in C; rewrite C, GD; exact DS).
    destruct DS as (o & t & SP & -> & TN & EK & -> & AL). rewrite EK in GD. assert (LR : (length r < f)%nat) by (rewrite app_length in FU; destruct t; [congruence|cbn [length] in FU; lia]). destruct (spelled_nozero o t SP) as (NZ & _ & _). pose proof (aligned_nonneg _ _ _ _ AL) as PN. destruct (spelled_size o t SP) as (SZ & _ & _). destruct (takes_arg o) eqn:TA.
    + rewrite (unpack_step f o t r _ pad h _ data pos n SP TA C GD). destruct (Z.leb_spec (pad + snd (kind o)) (slen data - pos)) as [LE|GT]; cbn [negb]; [|exact I]. destruct (stack_room n); cbn [negb]; [|exact I].
      pose proof (from_spec o t (islittle (hconf o h)) data (pos + pad) SP TA WD LD ltac:(lia) ltac:(lia)) as FS. destruct (data_from _ _ _ _ _) as [[u m]|e| |]; cbn [bind]; auto. destruct FS as (l & CH & <- & G). assert (CL := chunk_len _ _ _ CH). pose proof (slen_nonneg l).
      pose proof (IH (hconf o h) r data (pos + pad + slen l) (n + 1) (hok_conf o t h SP HO) LR WD LD ltac:(lia)) as IHf. destruct (unpack_run f (hconf o h) r data _ _) as [[us p]|e| |]; cbn [bind]; auto. destruct IHf as (os & F & R & B). exists (o :: os).
      assert (HC : hconf o h = h) by (destruct o; try discriminate; apply hdr_eta). rewrite HC in *. split; [rewrite c_string_app by assumption; constructor; assumption|]. split; [|assumption]. cbn [map]. apply r_arg with (k := pad) (l := l); assumption.
    + rewrite (unpack_step_other f o t r _ pad h _ data pos n SP TA C GD). cbv zeta. set (m := match o with OPad => 1 | _ => 0 end) in *. assert (0 <= m) by (unfold m; destruct o; lia). destruct (Z.leb_spec (pad + m) (slen data - pos)) as [LE|GT]; cbn [negb]; [|exact I]. destruct (stack_room n); cbn [negb]; [|exact I].
      pose proof (IH (hconf o h) r data (pos + pad + m) n (hok_conf o t h SP HO) LR WD LD ltac:(lia)) as IHf. destruct (unpack_run f (hconf o h) r data _ _) as [[us p]|e| |]; auto. destruct IHf as (os & F & R & B). exists (o :: os).
      split; [rewrite c_string_app by assumption; constructor; assumption|]. split; [|assumption]. rewrite hcfg_conf in R. apply r_other with (k := pad); auto. fold m. lia.
Qed.
Lemma gets_size : forall o t little l v, spelled o t -> gets of_single little o l v -> snd (kind o) <= slen l.
Proof.
  intros o t little l v SP G. destruct o as [[] z|z|z|z| | | | | |], v; cbn [gets] in G; try destruct G as []; cbn [kind snd].
  all: repeat match goal with H : _ /\ _ |- _ => destruct H | H : exists _, _ |- _ => destruct H | H : int_bytes _ _ _ _ _ |- _ => destruct H | H : raw_bytes _ _ _ _ |- _ => destruct H end; subst; rewrite ?slen_app; try lia; try (pose proof (slen_nonneg s); lia); try (rewrite <- slen_app; apply slen_nonneg).
Qed.
Lemma gets_fun : forall o t little data pos l l' v v', spelled o t -> chunk data pos l -> chunk data pos l' -> gets of_single little o l v -> gets of_single little o l' v' -> l = l' /\ v = v'.
Proof.
  intros o t little data pos l l' v v' SP C C' G G'. destruct (spelled_size o t SP) as (_ & _ & SZ). destruct o as [sg z|z|z|z| | | | | |]; try (destruct v; destruct G; fail).
  - destruct v; [|destruct G|destruct G]. destruct v'; [|destruct G'|destruct G']. cbn [gets] in *. assert (l = l') by (apply (chunk_inj data pos); auto; destruct G, G'; lia). subst. split; [reflexivity|]. f_equal. eapply int_bytes_fun; [|exact G|exact G']; lia.
  - destruct v; [destruct G| |destruct G]. destruct v'; [destruct G'| |destruct G']. cbn [gets] in *. destruct G as (x & (L & W & E) & ->). destruct G' as (x' & (L' & W' & E') & ->). assert (l = l') by (apply (chunk_inj data pos); auto; lia). subst l'. rewrite E in E'. subst x'. auto.
  - destruct v; [destruct G|destruct G|]. destruct v'; [destruct G'|destruct G'|]. cbn [gets] in *. destruct G as (-> & L). destruct G' as (-> & L'). assert (s = s0) by (apply (chunk_inj data pos); auto; lia). subst. auto.
  - destruct v; [destruct G|destruct G|]. destruct v'; [destruct G'|destruct G'|]. cbn [gets] in *. destruct G as (p & -> & IB). destruct G' as (p' & -> & IB'). apply chunk_app in C, C'. destruct C as [C1 C2]. destruct C' as [C1' C2']. assert (p = p') by (apply (chunk_inj data pos); auto; destruct IB, IB'; lia). subst p'.
    assert (slen s = slen s0) by (eapply int_bytes_fun; [|exact IB|exact IB']; lia). assert (s = s0) by (apply (chunk_inj data (pos + slen p)); auto). subst. auto.
  - destruct v; [destruct G|destruct G|]. destruct v'; [destruct G'|destruct G'|]. cbn [gets] in *. destruct G as (NZ & ->). destruct G' as (NZ' & ->). destruct C as (_ & r & E & _). destruct C' as (_ & r' & E' & _). rewrite E in E'. rewrite <- !app_assoc in E'. cbn [app] in E'. assert (s = s0) by (eapply first_zero; [| |exact E']; assumption). subst. auto.
Qed.
Lemma read_bound : forall cfg data pos os vs e, read cfg data pos os vs e -> 0 <= pos <= slen data -> pos <= e <= slen data.
Proof.
  intros cfg data pos os vs e R. induction R; intros P; [lia| |].
  - apply chunk_len in H1. pose proof (slen_nonneg l). pose proof (aligned_nonneg _ _ _ _ H0). lia.
  - pose proof (aligned_nonneg _ _ _ _ H0). assert (0 <= n) by (unfold n; destruct o; lia). lia.
Qed.
Lemma unpack_complete : forall os f h fmt data pos vs e n, format os (c_string fmt) -> read (hcfg h) data pos os vs e -> hok h -> (length fmt < f)%nat -> wf_str data -> slen data <= maxint -> 0 <= pos <= slen data ->
  (forall m, n <= m <= n + Z.of_nat (length vs) -> stack_room m = true) -> exists us, unpack_run f h fmt data pos n = Ok (us, e + 1) /\ map to_val us = vs.
Proof.
  induction os as [|o os IH]; intros f h fmt data pos vs e n F R HO FU WD LD P SR; destruct f as [|f]; try lia.
  - inversion R; subst. inversion F as [E|]; subst. symmetry in H. apply c_string_nil in H. cbn [Pack_model.unpack_run]. rewrite H. exists []. auto.
  - inversion F as [|o' t l r SP FR EO ET]; subst. symmetry in ET. destruct (c_string_split t fmt r ET) as (r' & -> & ER). destruct (spelled_nozero o t SP) as (NZ & TN & _). assert (DR : digit (cur r') = false) by (rewrite <- c_string_cur, ER; apply (format_nodigit os), FR).
    assert (C : cur (t ++ r') <> 0) by (destruct t as [|c t]; [congruence|]; cbn [app cur]; intros ->; apply NZ; left; reflexivity). rewrite <- ER in FR.
    assert (LR : (length r' < f)%nat) by (rewrite app_length in FU; destruct t; [congruence|cbn [length] in FU; lia]). assert (SR0 : stack_room n = true) by (apply SR; lia).
    inversion R as [|cfg d p o' k v l os' vs' e' TA AL CH G RR|cfg d p o' k os' vs' e' TA AL m LE RR]; subst; pose proof (aligned_nonneg _ _ _ _ AL) as KN.
    + pose proof (details_complete o t r' h pos pos k SP DR HO eq_refl AL) as GD. rewrite (unpack_step f o t r' (hconf o h) k h (t ++ r') data pos n SP TA C GD). assert (GS := gets_size o t _ l v SP G). assert (CL := chunk_len _ _ _ CH). pose proof (slen_nonneg l).
      destruct (Z.leb_spec (k + snd (kind o)) (slen data - pos)) as [_|]; [|lia]. cbn [negb]. rewrite SR0. cbn [negb]. assert (HC : hconf o h = h) by (destruct o; try discriminate; apply hdr_eta). rewrite HC.
      pose proof (from_spec o t (islittle h) data (pos + k) SP TA WD LD ltac:(lia) ltac:(lia)) as FS. destruct (data_from _ _ _ _ _) as [[u m]|er| |]; cbn [bind]; [|exfalso; exact (FS l v CH G)|destruct FS|destruct FS]. destruct FS as (l' & CH' & <- & G'). destruct (gets_fun o t _ data (pos + k) l' l _ v SP CH' CH G' G) as [-> EV].
      destruct (IH f h r' data (pos + k + slen l) vs' e (n + 1) FR RR HO LR WD LD ltac:(lia)) as (us & E & EM). { intros m M. apply SR. cbn [length]. lia. } rewrite E. cbn [bind]. exists (u :: us). split; [reflexivity|]. cbn [map]. congruence.
    + pose proof (details_complete o t r' h pos pos k SP DR HO eq_refl AL) as GD. rewrite (unpack_step_other f o t r' (hconf o h) k h (t ++ r') data pos n SP TA C GD). cbv zeta. fold m. assert (0 <= m) by (unfold m; destruct o; lia).
      destruct (Z.leb_spec (k + m) (slen data - pos)) as [_|]; [|lia]. cbn [negb]. rewrite SR0. cbn [negb]. rewrite <- hcfg_conf in RR. apply (IH f (hconf o h) r' data (pos + k + m) vs e n FR RR (hok_conf o t h SP HO) LR WD LD ltac:(lia) SR).
Qed.
(* reading back *)
Notation back := (back to_single of_single arg).
Lemma puts_gets : forall o t little x l, spelled o t -> puts to_single little o x l -> gets of_single little o l (returned to_single of_single o x).
Proof.
  intros o t little x l SP P. destruct o as [sg z|z|z|z| | | | | |], x; try (destruct P; fail); cbn [puts gets returned] in *; auto.
  - exists (if z =? 4 then to_single bits else bits). split; [assumption|]. destruct (z =? 4); reflexivity.
  - destruct P as (zs & -> & L & FZ). split; [|assumption]. f_equal. rewrite slen_app in L. apply zeros_repeat; [assumption|lia].
Qed.
Lemma aligned_mod : forall o t m pos pos' k, spelled o t -> 1 <= m <= 16 -> pos mod 16 = pos' mod 16 -> aligned o m pos k -> aligned o m pos' k.
Proof.
  intros o t m pos pos' k SP M E. destruct (spelled_size o t SP) as (_ & AS & _). unfold aligned. destruct (Z.leb_spec (asize o) 1); [auto|]. cbv zeta. set (a := Z.min (asize o) m). intros (P2 & K & A). split; [assumption|]. split; [assumption|].
  destruct (pow2_bound a ltac:(lia) P2) as (i & I & EI). assert (D : (a | 16)) by (rewrite EI; exists (2 ^ (4 - i)); rewrite <- Z.pow_add_r by lia; replace (4 - i + i) with 4 by lia; reflexivity).
  rewrite <- A. rewrite (Z.add_mod pos' k a), (Z.add_mod pos k a) by lia. f_equal. f_equal. rewrite (Znumtheory.Zmod_div_mod a 16 pos) by (lia || assumption). rewrite (Znumtheory.Zmod_div_mod a 16 pos') by (lia || assumption). rewrite E. reflexivity.
Qed.
Lemma chunk_here : forall pre l post, chunk (pre ++ l ++ post) (slen pre) l.
Proof.
  intros pre l post. pose proof (slen_nonneg pre). pose proof (slen_nonneg (l ++ post)). split; [assumption|]. exists post. rewrite slen_app. split; [|lia]. replace (Z.to_nat (slen pre)) with (length pre) by (unfold slen; lia). rewrite skipn_app, skipn_all, Nat.sub_diag. reflexivity.
Qed.
Lemma slen_repeat : forall k, 0 <= k -> slen (repeat 0 (Z.to_nat k)) = k. Proof. intros k K. unfold slen. rewrite repeat_length. lia. Qed.
Lemma written_read : forall cfg pos os args out, written cfg pos os args out -> forall s pre post, format os s -> 1 <= snd cfg <= 16 -> pos mod 16 = slen pre mod 16 ->
  exists vs, read cfg (pre ++ out ++ post) (slen pre) os vs (slen pre + slen out) /\ back os args vs.
Proof.
  intros cfg pos os args out W. induction W as [cfg pos args|cfg pos o k v x l os args out TA AL AR PU W IH|cfg pos o k os args out TA AL l W IH]; intros s pre post F M E.
  - exists []. rewrite slen_nil, Z.add_0_r. split; constructor.
  - inversion F as [|o' t os' r SP FR EO ET]; subst. assert (KN := aligned_nonneg _ _ _ _ AL). assert (LK := slen_repeat k KN). assert (PU2 := puts_gets o t _ x l SP PU).
    assert (AL2 := aligned_mod o t (snd cfg) pos (slen pre) k SP M E AL). set (zs := repeat 0 (Z.to_nat k)) in *. destruct (IH r (pre ++ zs ++ l) post FR M) as (vs & R & B).
    { rewrite !slen_app, LK. rewrite Z.add_assoc. rewrite !(Z.add_mod (_ + _) (slen l) 16) by lia. rewrite (Z.add_mod pos k 16), (Z.add_mod (slen pre) k 16) by lia. rewrite E. reflexivity. }
    rewrite !slen_app, LK in R. exists (returned to_single of_single o x :: vs). split; [|constructor; assumption]. apply r_arg with (k := k) (l := l); auto.
    + rewrite <- LK. rewrite <- slen_app. replace (pre ++ (zs ++ l ++ out) ++ post) with ((pre ++ zs) ++ l ++ (out ++ post)) by (rewrite <- !app_assoc; reflexivity). apply chunk_here.
    + rewrite <- !app_assoc in *. rewrite !slen_app, LK. rewrite !Z.add_assoc in *. exact R.
  - inversion F as [|o' t os' r SP FR EO ET]; subst. assert (KN := aligned_nonneg _ _ _ _ AL). assert (LK := slen_repeat k KN). assert (AL2 := aligned_mod o t (snd cfg) pos (slen pre) k SP M E AL). set (zs := repeat 0 (Z.to_nat k)) in *. destruct (IH r (pre ++ zs ++ l) post FR) as (vs & R & B).
    { destruct (spelled_size o t SP) as (_ & _ & SZ). destruct o as [| | | | | | | |[]|]; cbn; auto. }
    { rewrite !slen_app, LK. rewrite Z.add_assoc. rewrite !(Z.add_mod (_ + _) (slen l) 16) by lia. rewrite (Z.add_mod pos k 16), (Z.add_mod (slen pre) k 16) by lia. rewrite E. reflexivity. }
    rewrite !slen_app, LK in R. exists vs. split; [|constructor; assumption]. assert (EN : slen l = match o with OPad => 1 | _ => 0 end) by (unfold l; destruct o; reflexivity). apply r_other with (k := k); auto; rewrite <- EN.
    + rewrite !slen_app, LK. pose proof (slen_nonneg out). pose proof (slen_nonneg post). lia.
    + rewrite <- !app_assoc in *. rewrite !slen_app, LK. rewrite !Z.add_assoc in *. exact R.
Qed.
Lemma written_wf : forall cfg pos os args out, written cfg pos os args out -> wf_str out.
Proof.
  destruct CV as (_ & _ & CS & _).
  intros cfg pos os args out W. induction W as [|cfg pos o k v x l os args out TA AL AR PU W IH|cfg pos o k os args out TA AL l W IH]; [constructor| |].
  - apply Forall_app. split; [apply wf_repeat; unfold is_byte; lia|]. apply Forall_app. split; [|assumption]. destruct o as [sg z|z|z|z| | | | | |], x; try (destruct PU; fail); cbn [puts arg] in *; try (destruct PU as (_ & WL & _); exact WL).
    + destruct (tostr v) as [s'|] eqn:ES; [|discriminate]. injection AR as ->. destruct PU as (zs & -> & _ & FZ). apply Forall_app. split; [apply (CS v s ES)|]. eapply Forall_impl; [|exact FZ]. intros b ->. unfold is_byte. lia.
    + destruct (tostr v) as [s'|] eqn:ES; [|discriminate]. injection AR as ->. destruct PU as (p & -> & IB). apply Forall_app. split; [apply IB|apply (CS v s ES)].
    + destruct (tostr v) as [s'|] eqn:ES; [|discriminate]. injection AR as ->. destruct PU as (_ & ->). apply Forall_app. split; [apply (CS v s ES)|]. constructor; [unfold is_byte; lia|constructor].
  - apply Forall_app. split; [apply wf_repeat; unfold is_byte; lia|]. apply Forall_app. split; [|assumption]. unfold l. destruct o; constructor; try constructor; lia.
Qed.
Lemma back_length : forall os args vs, back os args vs -> (length vs <= length args)%nat.
Proof. intros os args vs B. induction B; cbn [length]; lia. Qed.
(* packsize *)
Notation packsize_run := (packsize_run native_little).
Notation span := (span native_little).
Lemma fixed_kind : forall o t, spelled o t -> match fst (kind o) with Kstring | Kzstr => fixed o = None | _ => fixed o = Some (snd (kind o)) end.
Proof. intros o t SP. destruct o as [[]| | | | | | | | |]; reflexivity. Qed.
Lemma pad_small : forall o t m pos k, spelled o t -> 1 <= m <= 16 -> aligned o m pos k -> 0 <= k < 16 /\ (fst (kind o) = Kchar -> k = 0).
Proof.
  intros o t m pos k SP M. destruct (spelled_size o t SP) as (_ & AS & _). unfold aligned. destruct (Z.leb_spec (asize o) 1) as [LE|GT]; [intros ->; split; [lia|reflexivity]|]. cbv zeta. intros (_ & K & _). split; [lia|]. destruct o as [[]| | | | | | | | |]; try discriminate; cbn [asize] in GT; lia.
Qed.
Lemma size_small : forall o t m pos k, spelled o t -> 1 <= m <= 16 -> aligned o m pos k -> 0 <= snd (kind o) + k <= INT_MAX.
Proof.
  intros o t m pos k SP M AL. destruct (pad_small o t m pos k SP M AL) as (K & KC). destruct (spelled_size o t SP) as (S0 & _ & SZ). change INT_MAX with 2147483647. destruct o as [[]| | | | | | | | |]; cbn [kind snd fst] in *; try lia. rewrite (KC eq_refl). lia.
Qed.
Lemma packsize_sound : forall f h fmt pos, hok h -> (length fmt < f)%nat -> 0 <= pos <= MAXSIZE -> match packsize_run f h fmt pos with
  | Ok e => exists os, format os (c_string fmt) /\ span (hcfg h) pos os e /\ e <= MAXSIZE
  | Err _ => True | _ => False end.
Proof.
  induction f as [|f IH]; intros h fmt pos HO FU P; [lia|]. destruct (Z.eq_dec (cur fmt) 0) as [C|C]; cbn [Pack_model.packsize_run].
  - rewrite C. cbn [Z.eqb]. exists []. apply c_string_nil in C. rewrite C. repeat split; [constructor|constructor|lia].
  - pose proof (details_sound h pos pos fmt HO eq_refl C) as DS. apply Z.eqb_neq in C. rewrite C. destruct (getdetails h pos fmt) as [[[[[k size] pad] r] h']|e| |] eqn:GD; cbn [bind]; auto.
    destruct DS as (o & t & SP & -> & TN & EK & -> & AL). assert (LR : (length r < f)%nat) by (rewrite app_length in FU; destruct t; [congruence|cbn [length] in FU; lia]). destruct (spelled_nozero o t SP) as (NZ & _ & _). pose proof (aligned_nonneg _ _ _ _ AL) as PN. assert (SS := size_small o t _ _ _ SP HO AL). assert (FK := fixed_kind o t SP). rewrite <- EK in SS, FK. cbn [fst snd] in SS, FK.
    destruct (match k with Kstring | Kzstr => true | _ => false end) eqn:KS; [exact I|]. assert (FO : fixed o = Some size) by (destruct k; try discriminate; exact FK). destruct (Z.ltb_spec INT_MAX (size + pad)); [lia|]. destruct (Z.leb_spec pos (MAXSIZE - (size + pad))); cbn [negb]; [|exact I].
    pose proof (IH (hconf o h) r (pos + (size + pad)) (hok_conf o t h SP HO) LR ltac:(lia)) as IHf. destruct (packsize_run f (hconf o h) r _) as [e|e| |]; auto. destruct IHf as (os & F & SN & B). exists (o :: os). split; [rewrite c_string_app by assumption; constructor; assumption|]. split; [|assumption].
    apply sp_cons with (n := size) (k := pad); auto. rewrite <- hcfg_conf. replace (pos + pad + size) with (pos + (size + pad)) by lia. assumption.
Qed.
Lemma span_mono : forall cfg pos os e s, span cfg pos os e -> format os s -> pos <= e.
Proof.
  intros cfg pos os e s SN. revert s. induction SN as [|cfg pos o n k os e FO AL SN IH]; intros s F; [lia|]. inversion F as [|o' t os' r SP FR EO ET]; subst. specialize (IH r FR). pose proof (aligned_nonneg _ _ _ _ AL). destruct (spelled_size o t SP) as (S0 & _). assert (FK := fixed_kind o t SP). rewrite FO in FK. assert (n = snd (kind o)) by (destruct (fst (kind o)); congruence). lia.
Qed.
Lemma packsize_complete : forall os f h fmt pos e, format os (c_string fmt) -> span (hcfg h) pos os e -> hok h -> (length fmt < f)%nat -> 0 <= pos -> e <= MAXSIZE -> packsize_run f h fmt pos = Ok e.
Proof.
  induction os as [|o os IH]; intros f h fmt pos e F SN HO FU P B; destruct f as [|f]; try lia; cbn [Pack_model.packsize_run].
  - inversion SN; subst. inversion F as [E|]; subst. symmetry in H. apply c_string_nil in H. rewrite H. reflexivity.
  - inversion F as [|o' t l r SP FR EO ET]; subst. symmetry in ET. destruct (c_string_split t fmt r ET) as (r' & -> & ER). destruct (spelled_nozero o t SP) as (NZ & TN & _). assert (DR : digit (cur r') = false) by (rewrite <- c_string_cur, ER; apply (format_nodigit os), FR).
    assert (C : cur (t ++ r') <> 0) by (destruct t as [|c t]; [congruence|]; cbn [app cur]; intros ->; apply NZ; left; reflexivity). rewrite <- ER in FR.
    assert (LR : (length r' < f)%nat) by (rewrite app_length in FU; destruct t; [congruence|cbn [length] in FU; lia]).
    inversion SN as [|cfg p o' n k os' e' FO AL SN']; subst. rewrite (details_complete o t r' h pos pos k SP DR HO eq_refl AL). apply Z.eqb_neq in C. rewrite C. assert (SS := size_small o t _ _ _ SP HO AL). assert (FK := fixed_kind o t SP). rewrite FO in FK. rewrite <- hcfg_conf in SN'. assert (SM := span_mono _ _ _ _ _ SN' FR). pose proof (aligned_nonneg _ _ _ _ AL). destruct (spelled_size o t SP) as (S0 & _).
    destruct (kind o) as [k' size]. cbn [fst snd bind] in *. assert (NS : n = size /\ match k' with Kstring | Kzstr => true | _ => false end = false) by (destruct k'; split; congruence). destruct NS as [-> ->]. destruct (Z.ltb_spec INT_MAX (size + k)); [lia|]. destruct (Z.leb_spec pos (MAXSIZE - (size + k))); cbn [negb]; [|lia].
    replace (pos + (size + k)) with (pos + k + size) by lia. apply IH; auto; [apply (hok_conf o t); auto|lia].
Qed.
Lemma data_len : forall o t little v l n, spelled o t -> fixed o = Some n -> takes_arg o = true -> data_of little (fst (kind o)) (snd (kind o)) v = Ok l -> slen l = n.
Proof.
  intros o t little v l n SP FO TA D. apply (data_spec o t little v l SP TA) in D. destruct D as (x & _ & PU). destruct o as [sg z|z|z|z| | | | | |]; try discriminate; injection FO as <-; destruct x; try (destruct PU; fail); cbn [puts] in *; auto.
  - apply PU.
  - destruct PU as (L & _). exact L.
  - destruct PU as (zs & -> & L & _). exact L.
Qed.
Lemma packsize_pack : forall f h fmt pos e args b s, hok h -> (length fmt < f)%nat -> 0 <= pos <= MAXSIZE -> packsize_run f h fmt pos = Ok e -> pack_run f h fmt args pos b = Ok s -> slen s = slen b + (e - pos).
Proof.
  induction f as [|f IH]; intros h fmt pos e args b s HO FU P PS PK; [lia|]. assert (UP : u64 pos = pos) by (apply u64_nonneg; change MAXSIZE with 2147483647 in *; unfold_consts; lia). destruct (Z.eq_dec (cur fmt) 0) as [C|C].
  - cbn [Pack_model.packsize_run] in PS. cbn [Pack_model.pack_run] in PK. rewrite C in *. cbn [Z.eqb] in *. injection PS as <-. injection PK as <-. lia.
  - cbn [Pack_model.packsize_run] in PS. pose proof (details_sound h pos pos fmt HO eq_refl C) as DS. assert (C0 := C). apply Z.eqb_neq in C0. rewrite C0 in PS. destruct (getdetails h pos fmt) as [[[[[k size] pad] r] h']|er| |] eqn:GD; cbn [bind] in PS; try discriminate.
    destruct DS as (o & t & SP & -> & TN & EK & -> & AL). assert (LR : (length r < f)%nat) by (rewrite app_length in FU; destruct t; [congruence|cbn [length] in FU; lia]). pose proof (aligned_nonneg _ _ _ _ AL) as PN. assert (FK := fixed_kind o t SP). rewrite <- EK in FK. cbn [fst snd] in FK.
    destruct (match k with Kstring | Kzstr => true | _ => false end) eqn:KS; [discriminate|]. assert (FO : fixed o = Some size) by (destruct k; try discriminate; exact FK). destruct (INT_MAX <? size + pad); [discriminate|]. destruct (Z.leb_spec pos (MAXSIZE - (size + pad))); cbn [negb] in PS; [|discriminate].
    destruct (spelled_size o t SP) as (S0 & _). rewrite EK in GD. rewrite <- EK in S0. cbn [snd] in S0. rewrite <- UP in PK, GD. assert (UN : u64 (pos + pad + size) = pos + (size + pad)) by (rewrite u64_nonneg; [lia|]; change MAXSIZE with 2147483647 in *; unfold_consts; lia). destruct (takes_arg o) eqn:TA.
    + destruct args as [|v args]; [rewrite (pack_step_nil f o t r _ pad h _ pos b SP TA C GD) in PK; discriminate|]. rewrite (pack_step f o t r _ pad h _ v args pos b SP TA C GD) in PK. destruct (data_of (islittle (hconf o h)) (fst (kind o)) (snd (kind o)) v) as [l|er| |] eqn:ED; cbn [bind] in PK; try discriminate.
      assert (LN := data_len o t _ v l size SP FO TA ED). rewrite LN, UN in PK. specialize (IH (hconf o h) r (pos + (size + pad)) e args _ s (hok_conf o t h SP HO) LR ltac:(lia) PS PK). rewrite !slen_app in IH. unfold zeros in IH. rewrite slen_repeat in IH by assumption. lia.
    + rewrite (pack_step_other f o t r _ pad h _ args pos b SP TA C GD) in PK. cbv zeta in PK. assert (LN : slen (match o with OPad => [0] | _ => [] end) = size) by (destruct o; try discriminate; injection FO as <-; reflexivity). rewrite LN, UN in PK. specialize (IH (hconf o h) r (pos + (size + pad)) e args _ s (hok_conf o t h SP HO) LR ltac:(lia) PS PK). rewrite !slen_app in IH. unfold zeros in IH. rewrite slen_repeat in IH by assumption. lia.
Qed.
End NATIVE.

Lemma hok_init : forall nl, hok (initheader nl). Proof. intros nl. unfold hok. cbn. lia. Qed.
Lemma to_val_inj : forall a b, map to_val a = map to_val b -> a = b.
Proof.
  induction a as [|x a IH]; intros [|y b] E; try discriminate; [reflexivity|]. cbn [map] in E. injection E as E1 E2. f_equal; [|apply IH; assumption]. destruct x, y; try discriminate; injection E1 as ->; reflexivity.
Qed.
Lemma pack_iff : forall nl V toint tonum tostr ts, conversions V toint tonum tostr ts -> forall fmt args s,
  str_pack nl V toint tonum tostr ts fmt args = Ok s <-> exists os, format os (c_string fmt) /\ written nl ts V (arg V toint tonum tostr) (nl, 1) 0 os args s.
Proof.
  intros nl V toint tonum tostr ts CV fmt args s. unfold str_pack. change 0 with (u64 0) at 1. split.
  - intros E. pose proof (pack_sound nl V toint tonum tostr ts ts CV (S (length fmt)) (initheader nl) fmt args 0 [] (hok_init nl) ltac:(lia)) as PS. rewrite E in PS. destruct PS as (os & out & F & W & ->). exists os. auto.
  - intros (os & F & W). rewrite (pack_complete nl V toint tonum tostr ts ts CV os (S (length fmt)) (initheader nl) fmt args 0 [] s F W (hok_init nl) ltac:(lia)). reflexivity.
Qed.
Lemma pack_total : forall nl V toint tonum tostr ts, conversions V toint tonum tostr ts -> forall fmt args, (exists s, str_pack nl V toint tonum tostr ts fmt args = Ok s) \/ exists e, str_pack nl V toint tonum tostr ts fmt args = Err e.
Proof.
  intros nl V toint tonum tostr ts CV fmt args. unfold str_pack. change 0 with (u64 0). pose proof (pack_sound nl V toint tonum tostr ts ts CV (S (length fmt)) (initheader nl) fmt args 0 [] (hok_init nl) ltac:(lia)) as PS. destruct (pack_run _ _ _ _ _ _ _ _ _ _ _ _); try destruct PS as []; [left|right]; eauto.
Qed.
Lemma unpack_pos : forall data init, slen data <= maxint -> is_s64 init -> u64 (posrelatI init (slen data) - 1) = first_pos (slen data) init - 1.
Proof.
  intros data init LD I. pose proof (slen_nonneg data). rewrite posrelatI_ok by (auto; lia). apply u64_nonneg. unfold first_pos, translate, is_s64 in *. destruct (Z.ltb_spec init 0); unfold_consts; lia.
Qed.
Lemma unpack_spec : forall nl os_ sr data init, wf_str data -> slen data <= maxint -> is_s64 init -> forall fmt us p, str_unpack nl os_ sr fmt data init = Ok (us, p) ->
  first_pos (slen data) init - 1 <= slen data /\ p - 1 <= slen data /\ exists os, format os (c_string fmt) /\ read nl os_ (nl, 1) data (first_pos (slen data) init - 1) os (map to_val us) (p - 1).
Proof.
  intros nl os_ sr data init WD LD I fmt us p E. unfold str_unpack in E. rewrite unpack_pos in E by assumption. destruct (Z.leb_spec (first_pos (slen data) init - 1) (slen data)) as [LE|]; cbn [negb] in E; [|discriminate]. split; [assumption|].
  assert (P : 0 <= first_pos (slen data) init - 1) by (unfold first_pos; lia). pose proof (unpack_sound nl os_ sr (S (length fmt)) (initheader nl) fmt data _ 0 (hok_init nl) ltac:(lia) WD LD (conj P LE)) as US. rewrite E in US. destruct US as (os & F & R & B). eauto.
Qed.
Lemma unpack_iff : forall nl os_ sr data init, wf_str data -> slen data <= maxint -> is_s64 init -> (forall n, sr n = true) -> forall fmt us p, str_unpack nl os_ sr fmt data init = Ok (us, p) <->
  first_pos (slen data) init - 1 <= slen data /\ exists os, format os (c_string fmt) /\ read nl os_ (nl, 1) data (first_pos (slen data) init - 1) os (map to_val us) (p - 1).
Proof.
  intros nl os_ sr data init WD LD I SR fmt us p. split.
  - intros E. destruct (unpack_spec nl os_ sr data init WD LD I fmt us p E) as (B & _ & H). auto.
  - intros (LE & os & F & R). unfold str_unpack. rewrite unpack_pos by assumption. destruct (Z.leb_spec (first_pos (slen data) init - 1) (slen data)) as [_|]; cbn [negb]; [|lia].
    assert (P : 0 <= first_pos (slen data) init - 1) by (unfold first_pos; lia). destruct (unpack_complete nl os_ sr os (S (length fmt)) (initheader nl) fmt data _ _ _ 0 F R (hok_init nl) ltac:(lia) WD LD (conj P LE) ltac:(intros; apply SR)) as (us' & E & EM). apply to_val_inj in EM. subst us'. rewrite E. repeat f_equal. lia.
Qed.
Lemma unpack_total : forall nl os_ sr data init, wf_str data -> slen data <= maxint -> is_s64 init -> forall fmt, (exists r, str_unpack nl os_ sr fmt data init = Ok r) \/ exists e, str_unpack nl os_ sr fmt data init = Err e.
Proof.
  intros nl os_ sr data init WD LD I fmt. unfold str_unpack. rewrite unpack_pos by assumption. destruct (Z.leb_spec (first_pos (slen data) init - 1) (slen data)) as [LE|]; cbn [negb]; [|right; eauto].
  assert (P : 0 <= first_pos (slen data) init - 1) by (unfold first_pos; lia). pose proof (unpack_sound nl os_ sr (S (length fmt)) (initheader nl) fmt data _ 0 (hok_init nl) ltac:(lia) WD LD (conj P LE)) as US. destruct (unpack_run _ _ _ _ _ _ _ _ _) as [[us p]|e| |]; try destruct US as []; [left|right]; eauto.
Qed.
Lemma pack_unpack : forall nl V toint tonum tostr ts os_ sr, conversions V toint tonum tostr ts -> forall fmt args s pre post, str_pack nl V toint tonum tostr ts fmt args = Ok s -> wf_str pre -> wf_str post -> slen (pre ++ s ++ post) < maxint ->
  slen pre mod 16 = 0 -> (forall n, 0 <= n <= Z.of_nat (length args) -> sr n = true) ->
  exists os us, format os (c_string fmt) /\ str_unpack nl os_ sr fmt (pre ++ s ++ post) (slen pre + 1) = Ok (us, slen pre + slen s + 1) /\ back ts os_ (arg V toint tonum tostr) os args (map to_val us).
Proof.
  intros nl V toint tonum tostr ts os_ sr CV fmt args s pre post E WP WQ LD M SR. apply (pack_iff nl V toint tonum tostr ts CV) in E. destruct E as (os & F & W). destruct (written_read nl V toint tonum tostr ts os_ _ _ _ _ _ W _ pre post F) as (vs & R & B); [cbn; lia|symmetry; assumption|].
  assert (WS := written_wf nl V toint tonum tostr ts CV _ _ _ _ _ W). assert (WD : wf_str (pre ++ s ++ post)) by (repeat (apply Forall_app; split); assumption). assert (BL := back_length V toint tonum tostr ts os_ os args vs B).
  pose proof (slen_nonneg pre). pose proof (slen_nonneg s). pose proof (slen_nonneg post). assert (LT : slen (pre ++ s ++ post) = slen pre + slen s + slen post) by (rewrite !slen_app; lia).
  assert (FP : first_pos (slen (pre ++ s ++ post)) (slen pre + 1) = slen pre + 1) by (unfold first_pos, translate; destruct (Z.ltb_spec (slen pre + 1) 0); lia).
  destruct (unpack_complete nl os_ sr os (S (length fmt)) (initheader nl) fmt (pre ++ s ++ post) (slen pre) vs (slen pre + slen s) 0 F R (hok_init nl) ltac:(lia) WD ltac:(lia) ltac:(lia)) as (us & U & EM); [intros m HM; apply SR; lia|].
  exists os, us. split; [assumption|]. split; [|rewrite EM; assumption]. unfold str_unpack. rewrite unpack_pos by (unfold is_s64; unfold_consts; lia). rewrite FP. replace (slen pre + 1 - 1) with (slen pre) by lia. destruct (Z.leb_spec (slen pre) (slen (pre ++ s ++ post))); [|lia]. exact U.
Qed.
Lemma packsize_iff : forall nl fmt n, str_packsize nl fmt = Ok n <-> n <= 2147483647 /\ exists os, format os (c_string fmt) /\ span nl (nl, 1) 0 os n.
Proof.
  intros nl fmt n. unfold str_packsize. split.
  - intros E. pose proof (packsize_sound nl (S (length fmt)) (initheader nl) fmt 0 (hok_init nl) ltac:(lia)) as PS. rewrite E in PS. destruct PS as (os & F & SN & B); [change MAXSIZE with 2147483647; lia|]. split; [exact B|]. exists os. auto.
  - intros (B & os & F & SN). apply (packsize_complete nl os); auto; [apply hok_init|lia].
Qed.
Lemma packsize_total : forall nl fmt, (exists n, str_packsize nl fmt = Ok n) \/ exists e, str_packsize nl fmt = Err e.
Proof.
  intros nl fmt. unfold str_packsize. pose proof (packsize_sound nl (S (length fmt)) (initheader nl) fmt 0 (hok_init nl) ltac:(lia)) as PS. destruct (packsize_run _ _ _ _ _); [left|right|exfalso; apply PS|exfalso; apply PS]; eauto; change MAXSIZE with 2147483647; lia.
Qed.
Lemma packsize_length : forall nl V toint tonum tostr ts, conversions V toint tonum tostr ts -> forall fmt args n s, str_packsize nl fmt = Ok n -> str_pack nl V toint tonum tostr ts fmt args = Ok s -> slen s = n.
Proof.
  intros nl V toint tonum tostr ts CV fmt args n s PS PK. assert (H := packsize_pack nl V toint tonum tostr ts ts CV (S (length fmt)) (initheader nl) fmt 0 n args [] s (hok_init nl) ltac:(lia)). rewrite H; auto; [rewrite slen_nil; lia|change MAXSIZE with 2147483647; lia].
Qed.
