(* C24 and C56: patterns; string.find, match, gmatch and gsub. *)
Require Import ZArith List Bool Lia.
From Verif Require Import Base Base_facts Str Strlib_model Strlib_spec Match_model Match_spec Match_proofs Match_lib_proofs.
Import ListNotations.
Open Scope Z_scope.

(* at every position the matcher gives the first match in the order of preference (longest first for * + ?, shortest first for -), the error of a malformed pattern when it is met first, or no match. It never reads outside the subject and the pattern and always ends; "pattern too complex" is only possible when 200 items of the pattern nest *)
Theorem C24_match : forall s p i, wf_str s -> wf_str p -> slen s <= maxint -> 0 <= i <= slen s ->
  match at_pos s (parse p) i with
  | NoMatch => match_ s p MAXCCALLS [] i 0 = Ok (None, [])
  | Failure => match_ s p MAXCCALLS [] i 0 = Err EFormat
  | Match e c => match_ s p MAXCCALLS [] i 0 = Ok (Some e, map enc c) /\ i <= e <= slen s
  end \/ (match_ s p MAXCCALLS [] i 0 = Err ELoop /\ too_complex (parse p)).
Proof. exact match_level. Qed.
Print Assumptions C24_match.

(* the ordered list of matches has exactly the matches the meaning of the pattern items allows *)
Theorem C24_relation : forall s t i e c, 0 <= i <= slen s -> In (Some (e, c)) (matches s t [] i) <-> m s t [] i c e.
Proof. exact relation_ok. Qed.
Print Assumptions C24_relation.

(* a match and its captures lie inside the subject *)
Theorem C24_inside : forall s t i e c, 0 <= i <= slen s -> m s t [] i c e -> i <= e <= slen s /\
  Forall (fun x => match x with COpen j => 0 <= j <= e | CPos j => 0 <= j <= slen s | CClosed j n => 0 <= j /\ 0 <= n /\ j + n <= slen s end) c.
Proof. exact match_inside. Qed.
Print Assumptions C24_inside.

(* string.match, and string.find with a special character: the match at the first position from init on, or at init only with an anchor; positions and captures as results *)
Theorem C24_find : forall s p oi plain find, wf_str s -> wf_str p -> slen s <= maxint ->
  let init := match oi with Some i => i | None => 1 end in is_s64 init ->
  let a := first_pos (slen s) init - 1 in
  (find = false \/ (plain = false /\ exists c, In c p /\ magic c)) ->
  str_find_aux s p oi plain find = find_in s p find a \/ (str_find_aux s p oi plain find = Err ELoop /\ too_complex (parse (body p))).
Proof. exact find_aux_ok. Qed.
Print Assumptions C24_find.

(* string.find with plain or without special characters *)
Theorem C24_find_plain : forall s p oi plain, slen s <= maxint ->
  let init := match oi with Some i => i | None => 1 end in is_s64 init ->
  (plain = true \/ forall c, In c p -> ~ magic c) ->
  (exists a, str_find_aux s p oi plain true = Ok [VInt a; VInt (a + slen p - 1)] /\ first_pos (slen s) init <= a /\ occurs s p a /\ forall b, first_pos (slen s) init <= b < a -> ~ occurs s p b) \/
  (str_find_aux s p oi plain true = Ok [VNil] /\ forall b, first_pos (slen s) init <= b -> ~ occurs s p b).
Proof. exact find_plain_ok. Qed.
Print Assumptions C24_find_plain.

(* gmatch gives the captures of exactly the successive matches; an anchor has no special meaning *)
Theorem C56_gmatch : forall s p oi fuel, wf_str s -> wf_str p -> slen s <= maxint - 1 ->
  let init := match oi with Some i => i | None => 1 end in is_s64 init -> (length s + 3 <= fuel)%nat ->
  exists ms ok, succ (at_pos s (parse p)) (slen s) None (first_pos (slen s) init - 1) None ms ok /\
   (gmatch_all fuel s p (gmatch s p oi) = (if ok then match all_results s ms with Some r => Ok r | None => Err EFormat end else Err EFormat) \/
    (gmatch_all fuel s p (gmatch s p oi) = Err ELoop /\ too_complex (parse p))).
Proof. exact gmatch_ok. Qed.
Print Assumptions C56_gmatch.

(* gsub replaces exactly the successive matches, at most om many, and leaves the rest of the subject; it counts them; nothing else than an error of a pattern, of a replacement or "pattern too complex" can happen *)
Theorem C56_gsub : forall tostr s p tr om, wf_str s -> wf_str p -> slen s <= maxint - 1 -> settles tr ->
  exists ms ok, (if anchored p then once (at_pos s (parse (body p))) (option_map Z.to_nat om) = (ms, ok) else succ (at_pos s (parse (body p))) (slen s) (option_map Z.to_nat om) 0 None ms ok) /\
   ((match replaced tostr s tr 0 ms, ok with
     | Some out, true => str_gsub tostr s p tr om = Ok (out, Z.of_nat (length ms))
     | _, _ => exists x, str_gsub tostr s p tr om = Err x
     end) \/ (str_gsub tostr s p tr om = Err ELoop /\ too_complex (parse (body p)))).
Proof. exact gsub_ok. Qed.
Print Assumptions C56_gsub.

(* there is one list of successive matches *)
Theorem C56_unique : forall at_ len lim i last ms ok ms' ok', succ at_ len lim i last ms ok -> succ at_ len lim i last ms' ok' -> ms = ms' /\ ok = ok'.
Proof. exact succ_unique. Qed.
Print Assumptions C56_unique.

Require Import String Ascii.
Definition str (x : string) : list Z := map (fun a => Z.of_nat (nat_of_ascii a)) (list_ascii_of_string x).
Open Scope string_scope.
Definition many (n : nat) (x : list Z) : list Z := List.concat (repeat x n).
Example C24_witness :
  str_find_aux (str "  key = value;") (str "^%s*(%a%w*)%s*=%s*()([^;]-);") None false false = Ok [VStr (str "key"); VInt 9; VStr (str "value")] /\
  str_find_aux (str "THE (quick) fox") (str "%f[%a]%a+%f[%A]") (Some 2) false true = Ok [VInt 6; VInt 10] /\
  str_find_aux (str "THE (quick (brown)) fox") (str "%b()") None false true = Ok [VInt 5; VInt 19] /\
  str_find_aux (str "it is ""so"" 'said") (str "(['""])(.-)%1") None false true = Ok [VInt 7; VInt 10; VStr [34]; VStr (str "so")] /\
  str_find_aux (str "aXb") (str "[%a-z%]^]$") (Some (-1)) false true = Ok [VInt 3; VInt 3] /\
  str_find_aux (str "abc") (str "(b") None false true = Err EFormat /\ str_find_aux (str "abc") (str "(b") (Some 3) false true = Ok [VNil] /\
  str_find_aux (str "a.c") (str ".") (Some 2) true true = Ok [VInt 2; VInt 2] /\
  str_find_aux (str "abc") (str "[b") None false true = Err EFormat /\
  str_find_aux (str "x") (many 199 (str "x-")) None false true = Ok [VInt 1; VInt 0] /\ str_find_aux (str "x") (many 200 (str "x-")) None false true = Err ELoop /\
  nesting (parse (many 200 (str "x-"))) = 200%nat /\
  matches (str "aab") (parse (str "(a-)b?")) [] 0 = [Some (0, [CClosed 0 0]); Some (1, [CClosed 0 1]); Some (2 + 1, [CClosed 0 2]); Some (2, [CClosed 0 2])] /\
  m (str "aab") (parse (str "(a-)b?")) [] 0 [CClosed 0 2] 3.
Proof.
  repeat (match goal with |- _ /\ _ => split; [vm_compute; reflexivity|] end).
  apply relation_ok; [cbn; lia|]. vm_compute. right. right. left. reflexivity.
Qed.
Definition dec (n : Z) : list Z := [48 + n].
Example C56_witness :
  gmatch_all 20 (str "k=v, ab=cd") (str "(%w+)=(%w+)") (gmatch (str "k=v, ab=cd") (str "(%w+)=(%w+)") None) = Ok [[VStr (str "k"); VStr (str "v")]; [VStr (str "ab"); VStr (str "cd")]] /\
  gmatch_all 20 (str "a,,b") (str "[^,]*") (gmatch (str "a,,b") (str "[^,]*") None) = Ok [[VStr (str "a")]; [VStr (str "")]; [VStr (str "b")]] /\
  gmatch_all 20 (str "^a^a") (str "^a") (gmatch (str "^a^a") (str "^a") (Some 2)) = Ok [[VStr (str "^a")]] /\
  str_gsub dec (str "hello world") (str "(%w)(%w*)") (RString (str "%2%1%%%0")) None = Ok (str "elloh%hello orldw%world", 2) /\
  str_gsub dec (str "abc") (str "%w?") (RString (str "<%0>")) None = Ok (str "<a><b><c>", 3) /\
  str_gsub dec (str "abc") (str "()") (RString (str "%1")) (Some 3) = Ok (str "1a2b3c", 3) /\
  str_gsub dec (str "abab") (str "^ab") (RString (str "x")) None = Ok (str "xab", 1) /\
  str_gsub dec (str "abab") (str "b") (RString (str "%2")) None = Err EFormat /\
  str_gsub dec (str "x$a$b") (str "%$(%w)") (RIndex (fun v => match v with VStr [97] => Ok (Some (str "AA")) | _ => Ok None end)) None = Ok (str "xAA$b", 2) /\
  str_gsub dec (str "abc") (str "b") (RCall (fun _ => Err EUser)) None = Err EUser /\
  str_gsub dec (str "abc") (str "") (RString (str "-")) None = Ok (str "-a-b-c-", 4) /\ settles (RString (str "-")).
Proof. repeat (match goal with |- _ /\ _ => split; [vm_compute; reflexivity|] end). exact I. Qed.
