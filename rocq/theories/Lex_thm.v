(* C45 and C57: the lexer, and reading back what %q writes. *)
Require Import ZArith List Bool String Lia.
From Verif Require Import Base Base_facts Str Num_model Num_spec Lex_model Lex_spec Lex_proofs.
Import ListNotations.
Open Scope Z_scope.

(* for every text handed over in any blocks, the tokens, their values and their lines are exactly those of the lexical grammar; a text that has none is an error, never undefined behaviour. Missing for the full claim: a cast word is looked up by prefix (C57_cast_refuted) *)
Theorem C57_stream_partial : forall (F : Type) (str2d : list Z -> option F) (bl : list (list Z)), wf_str (joined bl) ->
  (forall l, scan str2d bl = Ok l <-> stream SNone SStr (number_of str2d SInt SFlt) (prefix_cast SNone SStr) 1 (joined bl) l) /\
  ((exists l, scan str2d bl = Ok l) \/ (exists e, scan str2d bl = Err e)).
Proof. exact lex_stream. Qed.
Print Assumptions C57_stream_partial.

(* with no @ in the text there is no exception *)
Theorem C57_no_cast_partial : forall (F : Type) (str2d : list Z -> option F) (bl : list (list Z)), wf_str (joined bl) -> ~ In 64 (joined bl) ->
  forall l, scan str2d bl = Ok l <-> stream SNone SStr (number_of str2d SInt SFlt) (exact_cast SNone SStr) 1 (joined bl) l.
Proof. exact lex_no_cast. Qed.
Print Assumptions C57_no_cast_partial.

(* how the text is cut into blocks does not matter *)
Theorem C57_blocks : forall (F : Type) (str2d : list Z -> option F) (bl bl' : list (list Z)), wf_str (joined bl) -> joined bl = joined bl' ->
  forall l, scan str2d bl = Ok l <-> scan str2d bl' = Ok l.
Proof. exact lex_blocks. Qed.
Print Assumptions C57_blocks.

(* the grammar is unambiguous *)
Theorem C57_deterministic : forall (F : Type) (str2d : list Z -> option F) (i : list Z) l l', wf_str i ->
  stream SNone SStr (number_of str2d SInt SFlt) (prefix_cast SNone SStr) 1 i l -> stream SNone SStr (number_of str2d SInt SFlt) (prefix_cast SNone SStr) 1 i l' -> l = l'.
Proof. exact lex_deterministic. Qed.
Print Assumptions C57_deterministic.

(* casttoken (llex.c:461-490) calls strncmp with the length of the word, so that any prefix of a known cast is taken for it: @int is read as @integer *)

(*  *)
Theorem C57_cast_refuted : ~ (forall (F : Type) (str2d : list Z -> option F) (bl : list (list Z)), wf_str (joined bl) ->
  forall l, scan str2d bl = Ok l <-> stream SNone SStr (number_of str2d SInt SFlt) (exact_cast SNone SStr) 1 (joined bl) l).
Proof. exact lex_cast_refuted. Qed.
Print Assumptions C57_cast_refuted.

(* what %q writes for a string of bytes is read as one string token with exactly these bytes, and the lexer goes on with whatever follows, in every locale in which \r is a control character, unless the string has 2^31 - 2 newlines or more *)
Theorem C45_string_partial : forall (F : Type) (str2d : list Z -> option F) (iscntrl : Z -> bool), iscntrl 13 = true ->
  forall s bl rest l, wf_str s -> wf_str rest -> 1 + lines s < 2147483647 -> joined bl = addquoted iscntrl s ++ rest ->
  (scan str2d bl = Ok ((T_STRING, SStr s, 1 + lines s) :: l) <->
   stream SNone SStr (number_of str2d SInt SFlt) (prefix_cast SNone SStr) (1 + lines s) rest l).
Proof. exact quote_string. Qed.
Print Assumptions C45_string_partial.

(* the same for a text with nothing else in it *)
Theorem C45_whole_partial : forall (F : Type) (str2d : list Z -> option F) (iscntrl : Z -> bool), iscntrl 13 = true ->
  forall s bl, wf_str s -> 1 + lines s < 2147483647 -> joined bl = addquoted iscntrl s ->
  scan str2d bl = Ok [(T_STRING, SStr s, 1 + lines s); (T_EOS, SNone, 1 + lines s)].
Proof. exact quote_whole. Qed.
Print Assumptions C45_whole_partial.

(* what %q writes for an integer is read as that integer, or as a minus sign and its absolute value *)
Theorem C45_integer : forall (F : Type) (str2d : list Z -> option F) n bl, is_s64 n -> joined bl = quoteint n ->
  scan str2d bl = Ok (if (n <? 0) && negb (n =? minint) then [(45, SNone, 1); (T_INT, SInt (- n), 1); (T_EOS, SNone, 1)] else [(T_INT, SInt n, 1); (T_EOS, SNone, 1)]).
Proof. exact quote_integer. Qed.
Print Assumptions C45_integer.

(* the lexer refuses a chunk with too many lines (llex.c:165), and a quoted newline is a newline *)

(*  *)
Theorem C45_lines_refuted : ~ (forall (F : Type) (str2d : list Z -> option F) (iscntrl : Z -> bool), iscntrl 13 = true ->
  forall s bl, wf_str s -> joined bl = addquoted iscntrl s -> exists n, scan str2d bl = Ok [(T_STRING, SStr s, n); (T_EOS, SNone, n)]).
Proof. exact quote_lines_refuted. Qed.
Print Assumptions C45_lines_refuted.

(* a text with white space, both kinds of comments, numerals, names, reserved words, long brackets, escapes, symbols and casts, in three different cuttings; str2d reads 1.5e+3 and 0x.8p1 only *)
Definition sample : list Z :=
  text "local x=0x1F..3 -- a=b" ++ [13; 10] ++ text "--[=[ skip ]] " ++ [10] ++ text "]=]return[[" ++ [10] ++ text "a]b]]//1.5e+3>>0x.8p1~='\65\x41\u{41}\z " ++ [10] ++ text " q'@integer[]@foo.bar...".
Definition some_floats (w : list Z) : option Z :=
  if list_eq_dec Z.eq_dec w (text "1.5e+3") then Some 1500 else if list_eq_dec Z.eq_dec w (text "0x.8p1") then Some 1 else None.


Example C57_witness : wf_str sample /\
  scan some_floats [sample] = Err EFormat /\
  scan some_floats [firstn 8 sample ++ text "31 .. 3" ++ skipn 15 sample] =
   Ok [(269, SStr (text "local"), 1); (293, SStr (text "x"), 1); (61, SNone, 1); (292, SInt 31, 1); (281, SNone, 1); (292, SInt 3, 1);
       (275, SStr (text "return"), 3); (294, SStr (text "a]b"), 4); (280, SNone, 4); (291, SFlt 1500, 4); (288, SNone, 4); (291, SFlt 1, 4); (286, SNone, 4);
       (294, SStr (text "AAAq"), 5); (297, SNone, 5); (64, SStr (text "foo"), 5); (46, SNone, 5); (293, SStr (text "bar"), 5); (282, SNone, 5); (290, SNone, 5)] /\
  scan some_floats (map (fun c => [c]) (text "a=1")) = scan some_floats [text "a="; text "1"; []; text "ignored"].
Proof.
  split; [unfold sample; repeat (apply Forall_app; split); apply Forall_forall; intros x I; vm_compute in I; unfold is_byte; lia|].
  repeat split; vm_compute; reflexivity.
Qed.
(* @number[] and @table are what they should be, @num and @ are not refused *)
Example C57_witness_cast : scan some_floats [text "@number[]@table@num@"] = Ok [(298, SNone, 1); (299, SNone, 1); (296, SNone, 1); (295, SNone, 1); (290, SNone, 1)].
Proof. vm_compute. reflexivity. Qed.
(* the control characters of the C locale *)
Definition c_cntrl (c : Z) : bool := (c <? 32) || (c =? 127).
Definition nasty : list Z := [0; 49; 34; 92; 10; 13; 10; 13; 127; 57; 200; 39; 9; 0].
Example C45_witness : c_cntrl 13 = true /\ wf_str nasty /\ 1 + lines nasty = 3 /\
  addquoted c_cntrl nasty = text """\0001\""\\\" ++ [10] ++ text "\13\" ++ [10] ++ text "\13\1279" ++ [200] ++ text "'\9\0""" /\
  scan some_floats [addquoted c_cntrl nasty ++ text "+1"] = Ok [(294, SStr nasty, 3); (43, SNone, 3); (292, SInt 1, 3); (290, SNone, 3)].
Proof. split; [reflexivity|]. split; [repeat constructor; unfold is_byte; lia|]. repeat split; vm_compute; reflexivity. Qed.
Example C45_witness_integer : quoteint minint = text "0x8000000000000000" /\ quoteint (-5) = text "-5" /\
  scan some_floats [quoteint minint] = Ok [(292, SInt minint, 1); (290, SNone, 1)] /\ scan some_floats [quoteint (-5)] = Ok [(45, SNone, 1); (292, SInt 5, 1); (290, SNone, 1)].
Proof. repeat split; vm_compute; reflexivity. Qed.
