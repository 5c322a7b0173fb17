(* Properties C14 (encoding), C15 (decoding), C16 (offset, codes), C52 (codes on bad input). *)
Require Import ZArith List Bool Lia.
From Verif Require Import Base Base_facts Str Str_facts Utf8_model Utf8_spec Utf8_proofs Utf8_proofs2.
Import ListNotations.
Open Scope Z_scope.

(* ------------------------------------------------------------------ C14 *)

(* luaO_utf8esc produces the table's encoding, the shortest there is *)
Theorem C14_encode : forall x, 0 <= x < 2^31 -> luaO_utf8esc x = Ok (utf8 x).
Proof. exact utf8esc_ok. Qed.
Print Assumptions C14_encode.

Theorem C14_char : forall cs, Forall (code_ok false) cs -> utfchar cs = Ok (encode cs).
Proof. exact utfchar_ok. Qed.
Print Assumptions C14_char.

Theorem C14_char_rejects : forall cs, Forall is_s64 cs -> Exists (fun c => ~ code_ok false c) cs ->
  utfchar cs = Err EArg.
Proof. exact utfchar_bad. Qed.
Print Assumptions C14_char_rejects.

Theorem C14_roundtrip : forall xs lax maxstack, Forall (code_ok (negb lax)) xs ->
  slen (encode xs) < two31 -> slen (encode xs) <= maxstack ->
  exists s, utfchar xs = Ok s /\ codepoint maxstack s 1 (-1) lax = Ok xs.
Proof.
  intros xs lax m F L M. exists (encode xs). split.
  - apply utfchar_ok. eapply Forall_lax. exact F.
  - apply codepoint_roundtrip; assumption.
Qed.
Print Assumptions C14_roundtrip.

(* two encodings never overlap: the text determines the characters *)
Theorem C14_prefix_free : forall x y r1 r2, code_ok false x -> code_ok false y ->
  utf8 x ++ r1 = utf8 y ++ r2 -> x = y /\ r1 = r2.
Proof. exact utf8_prefix_free. Qed.
Print Assumptions C14_prefix_free.

Example C14_witness : utfchar [36; 8364; 128512; 2147483647] =
  Ok [36; 226;130;172; 240;159;152;128; 253;191;191;191;191;191] /\
  utfchar [1; 2147483648] = Err EArg.
Proof. split; reflexivity. Qed.

(* ------------------------------------------------------------------ C15 *)

Theorem C15_decode_sound : forall s p strict x next, wf_str s -> 0 <= p < slen s ->
  utf8_decode s p strict = Ok (Some (x, next)) ->
  char_at strict s p x /\ next = p + slen (utf8 x).
Proof. exact decode_sound. Qed.
Print Assumptions C15_decode_sound.

Theorem C15_decode_complete : forall s p strict x, char_at strict s p x ->
  utf8_decode s p strict = Ok (Some (x, p + slen (utf8 x))).
Proof. exact decode_complete. Qed.
Print Assumptions C15_decode_complete.

(* The decoder stays within the string and its terminator and has a defined result, except
   on byte 255 followed by seven continuation bytes. *)
Theorem C15_decode_total_partial : forall s p strict, wf_str s -> ~ has_ff s -> 0 <= p < slen s ->
  exists r, utf8_decode s p strict = Ok r.
Proof. exact no_ff_decode. Qed.
Print Assumptions C15_decode_total_partial.

(* The unrestricted claim is false: `res |= ((utfint)(c & 0x7F) << (count * 5))`
   (lutf8lib.c) shifts a 32-bit value by 35. *)
Theorem C15_decode_total_refuted : exists s, wf_str s /\ utf8_decode s 0 true = UB /\ utf8_decode s 0 false = UB.
Proof.
  exists [255; 128; 128; 128; 128; 128; 128; 128]. split; [|split; reflexivity].
  repeat constructor; unfold is_byte; lia.
Qed.
Print Assumptions C15_decode_total_refuted.

(* utf8.len(s): the number of encodings, or the position of the first bad byte *)
Theorem C15_len_partial : forall s lax, wf_str s -> ~ has_ff s -> slen s < maxint ->
  exists r, utflen s 1 (-1) lax = Ok r /\
  match r with
  | inl n => exists xs, Forall (code_ok (negb lax)) xs /\ s = encode xs /\ n = Z.of_nat (length xs)
  | inr b => exists xs rest, Forall (code_ok (negb lax)) xs /\ s = encode xs ++ rest /\ rest <> [] /\
       b = slen (encode xs) + 1 /\ forall x, ~ char_at (negb lax) s (b - 1) x
  end.
Proof. exact utflen_whole. Qed.
Print Assumptions C15_len_partial.

Theorem C15_len_encode : forall xs lax, Forall (code_ok (negb lax)) xs -> slen (encode xs) < maxint ->
  utflen (encode xs) 1 (-1) lax = Ok (inl (Z.of_nat (length xs))).
Proof. exact utflen_encode. Qed.
Print Assumptions C15_len_encode.

(* utf8.len(s, i, j, lax) for every i and j *)
Theorem C15_len_range_partial : forall s i j lax, wf_str s -> ~ has_ff s -> slen s < maxint -> is_s64 i -> is_s64 j ->
  let pi := abs_pos i (slen s) in let pj := abs_pos j (slen s) in
  if (1 <=? pi) && (pi <=? slen s + 1) && (pj <=? slen s)
  then exists l e, run (negb lax) s (pi - 1) (pj - 1) l e /\
       utflen s i j lax = Ok (match e with inl _ => inl (Z.of_nat (length l)) | inr b => inr (b + 1) end)
  else utflen s i j lax = Err EArg.
Proof. exact utflen_general. Qed.
Print Assumptions C15_len_range_partial.

(* utf8.codepoint(s, i, j, lax) for every i and j *)
Theorem C15_codepoint_partial : forall ms s i j lax, wf_str s -> ~ has_ff s -> slen s < maxint -> is_s64 i -> is_s64 j ->
  let pi := abs_pos i (slen s) in let pj := abs_pos j (slen s) in
  if (1 <=? pi) && (pj <=? slen s)
  then if pj <? pi then codepoint ms s i j lax = Ok []
       else if (pj - pi <? two31 - 1) && (pj - pi + 1 <=? ms)
       then exists l e, run (negb lax) s (pi - 1) (pj - 1) l e /\
            codepoint ms s i j lax = match e with inl _ => Ok (map snd l) | inr _ => Err EFormat end
       else codepoint ms s i j lax = Err ETooLong
  else codepoint ms s i j lax = Err EArg.
Proof. exact codepoint_general. Qed.
Print Assumptions C15_codepoint_partial.

(* over-long zero, a surrogate, a truncated sequence, a stray continuation byte *)
Example C15_witness :
  utflen [192;128] 1 (-1) false = Ok (inr 1) /\
  utflen [97;237;160;128] 1 (-1) false = Ok (inr 2) /\
  utflen [97;237;160;128] 1 (-1) true = Ok (inl 2) /\
  utflen [97;226;130] 1 (-1) false = Ok (inr 2) /\
  utflen [97;128] 1 (-1) false = Ok (inr 2) /\
  codepoint 100 [97;226;130;172] 2 (-1) false = Ok [8364].
Proof. repeat split; reflexivity. Qed.

(* ------------------------------------------------------------------ C16 *)

(* utf8.offset(s, n) on a valid string: start of character n, the end + 1 for n = #chars + 1 *)
Theorem C16_offset_encode : forall xs n, Forall (code_ok false) xs -> slen (encode xs) < maxint -> is_s64 n -> 1 <= n ->
  byteoffset (encode xs) n None =
    Ok (if n <=? Z.of_nat (length xs) + 1
        then Some (nth (Z.to_nat (n - 1)) (starts 0 xs ++ [slen (encode xs)]) 0 + 1) else None).
Proof. exact offset_encode. Qed.
Print Assumptions C16_offset_encode.

(* n > 0, any string, any i *)
Theorem C16_offset_forward : forall s n i, wf_str s -> slen s < maxint -> is_s64 n -> (forall x, i = Some x -> is_s64 x) ->
  1 <= off_start s n i <= slen s + 1 -> 0 < n -> contat s (off_start s n i - 1) = false ->
  let p := off_start s n i - 1 in
  (exists r, byteoffset s n i = Ok (Some (r + 1)) /\ p <= r <= slen s /\ contat s r = false /\ nstarts s p r = n - 1)
  \/ (byteoffset s n i = Ok None /\ nstarts s p (slen s + 1) < n).
Proof. exact offset_pos. Qed.
Print Assumptions C16_offset_forward.

Theorem C16_offset_backward : forall s n i, wf_str s -> slen s < maxint -> is_s64 n -> (forall x, i = Some x -> is_s64 x) ->
  contat s 0 = false ->
  1 <= off_start s n i <= slen s + 1 -> n < 0 -> contat s (off_start s n i - 1) = false ->
  let p := off_start s n i - 1 in
  (exists r, byteoffset s n i = Ok (Some (r + 1)) /\ 0 <= r <= p /\ contat s r = false /\ nstarts s r p = - n)
  \/ (byteoffset s n i = Ok None /\ nstarts s 0 p < - n).
Proof. exact offset_neg. Qed.
Print Assumptions C16_offset_backward.

Theorem C16_offset_containing : forall s i, wf_str s -> slen s < maxint -> (forall x, i = Some x -> is_s64 x) ->
  1 <= off_start s 0 i <= slen s + 1 ->
  exists r, byteoffset s 0 i = Ok (Some (r + 1)) /\ 0 <= r <= off_start s 0 i - 1 /\
    (r = 0 \/ contat s r = false) /\ forall q, r < q <= off_start s 0 i - 1 -> contat s q = true.
Proof. exact offset_zero. Qed.
Print Assumptions C16_offset_containing.

Theorem C16_offset_errors : forall s n i, wf_str s -> slen s < maxint -> is_s64 n -> (forall x, i = Some x -> is_s64 x) ->
  (~ (1 <= off_start s n i <= slen s + 1) -> byteoffset s n i = Err EArg) /\
  (1 <= off_start s n i <= slen s + 1 -> n <> 0 -> contat s (off_start s n i - 1) = true ->
   byteoffset s n i = Err EFormat).
Proof. intros s n i W L Sn Hi. split; intros; [apply offset_range|apply offset_cont]; auto. Qed.
Print Assumptions C16_offset_errors.

(* utf8.codes on a valid string visits every character, in order *)
Theorem C16_codes : forall xs strict, Forall (code_ok strict) xs -> slen (encode xs) < maxint ->
  codes (encode xs) strict = Ok (combine (map (fun p => p + 1) (starts 0 xs)) xs).
Proof. exact codes_encode. Qed.
Print Assumptions C16_codes.

(* utf8.codes on any string: every byte which is no continuation byte is visited, with the
   character that starts there; an error means that none starts there *)
Theorem C52_codes_any_partial : forall s strict, wf_str s -> ~ has_ff s -> slen s < maxint ->
  (exists l, codes s strict = Ok l /\
     map (fun pc => fst pc - 1) l = start_list s 0 (length s) /\
     Forall (fun pc => char_at strict s (fst pc - 1) (snd pc)) l)
  \/ (codes s strict = Err EFormat /\
      exists p, 0 <= p < slen s /\ (p = 0 \/ contat s p = false) /\ forall x, ~ char_at strict s p x).
Proof. exact codes_ok. Qed.
Print Assumptions C52_codes_any_partial.

(* The iterator does not reject every string that utf8.len rejects: "a\x80b" is accepted,
   the stray continuation byte is skipped. *)
Theorem C52_codes_reject_refuted : exists s l, wf_str s /\ codes s true = Ok l /\
  utflen s 1 (-1) false = Ok (inr 2) /\ forall xs, s <> encode xs \/ ~ Forall (code_ok true) xs.
Proof.
  exists [97; 128; 98], [(1, 97); (3, 98)].
  split; [repeat constructor; unfold is_byte; lia|]. split; [reflexivity|]. split; [reflexivity|].
  intros xs. destruct (list_eq_dec Z.eq_dec [97; 128; 98] (encode xs)) as [E|N]; [right|left; assumption].
  intros F. pose proof (utflen_encode xs false F) as U. rewrite <- E in U.
  assert (L : slen [97; 128; 98] < maxint) by reflexivity. specialize (U L). discriminate U.
Qed.
Print Assumptions C52_codes_reject_refuted.

(* "$€😀": positions 1, 2, 5 *)
Example C16_witness :
  codes [36; 226;130;172; 240;159;152;128] true = Ok [(1, 36); (2, 8364); (5, 128512)] /\
  byteoffset [36; 226;130;172; 240;159;152;128] 3 None = Ok (Some 5) /\
  byteoffset [36; 226;130;172; 240;159;152;128] (-2) None = Ok (Some 2) /\
  byteoffset [36; 226;130;172; 240;159;152;128] 0 (Some 7) = Ok (Some 5) /\
  byteoffset [36; 226;130;172; 240;159;152;128] 5 None = Ok None /\
  byteoffset [36; 226;130;172; 240;159;152;128] 1 (Some 3) = Err EFormat.
Proof. repeat split; reflexivity. Qed.
