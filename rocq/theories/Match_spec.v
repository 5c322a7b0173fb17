(* What patterns mean: reference manual section 6.4.1. Patterns are parsed into trees; a tree has a list
   of all its matches at a position, the preferred ones first. *)
Require Import ZArith List Bool.
From Verif Require Import Base Str Strlib_model Match_model.
Import ListNotations.
Open Scope Z_scope.

(* ---- character classes ---- *)
Definition between (r : Z * Z) (c : Z) : bool := (fst r <=? c) && (c <=? snd r).
(* the sets of the class letters in the "C" locale *)
Definition class_ranges (l : Z) : option (list (Z * Z)) :=
  match l with
  | 97  (* a *) => Some [(65, 90); (97, 122)]
  | 99  (* c *) => Some [(0, 31); (127, 127)]
  | 100 (* d *) => Some [(48, 57)]
  | 103 (* g *) => Some [(33, 126)]
  | 108 (* l *) => Some [(97, 122)]
  | 112 (* p *) => Some [(33, 47); (58, 64); (91, 96); (123, 126)]
  | 115 (* s *) => Some [(9, 13); (32, 32)]
  | 117 (* u *) => Some [(65, 90)]
  | 119 (* w *) => Some [(48, 57); (65, 90); (97, 122)]
  | 120 (* x *) => Some [(48, 57); (65, 70); (97, 102)]
  | 122 (* z *) => Some [(0, 0)]
  | _ => None
  end.
(* %l: a small letter is its set, the capital letter its complement, anything else stands for itself *)
Definition in_class (l c : Z) : bool :=
  match class_ranges l with
  | Some rs => existsb (fun r => between r c) rs
  | None => match class_ranges (l + 32) with Some rs => negb (existsb (fun r => between r c) rs) | None => c =? l end
  end.
Inductive elem := EChar (c : Z) | ERange (lo hi : Z) | EClass (l : Z).
Definition in_elem (c : Z) (e : elem) : bool :=
  match e with EChar x => c =? x | ERange lo hi => between (lo, hi) c | EClass l => in_class l c end.
Inductive cls := CAny | CChar (c : Z) | CClass (l : Z) | CSet (neg : bool) (l : list elem).
Definition mem (k : cls) (c : Z) : bool :=
  match k with
  | CAny => true
  | CChar x => c =? x
  | CClass l => in_class l c
  | CSet neg l => xorb neg (existsb (in_elem c) l)
  end.
(* the inside of a set. The manual gives no meaning to a range that ends in an escape: there the '%' is
   the end of the range, and if a '%' is left over it escapes the closing bracket *)
Fixpoint elements (l : list Z) : list elem :=
  match l with
  | [] => []
  | c :: l =>
    if c =? 37 (* % *) then match l with [] => [EClass 93] | x :: l => EClass x :: elements l end
    else match l with
         | d :: hi :: r => if d =? 45 (* - *) then ERange c hi :: elements r else EChar c :: elements l
         | _ => EChar c :: elements l
         end
  end.
(* up to the closing bracket: the first element may be a bracket, escapes are skipped *)
Definition prefixed (w : list Z) (o : option (list Z * list Z)) : option (list Z * list Z) := match o with Some (b, r) => Some (w ++ b, r) | None => None end.
Fixpoint set_rest (l : list Z) : option (list Z * list Z) :=
  match l with
  | [] => None
  | c :: l =>
    if c =? 93 (* ] *) then Some ([], l)
    else match l with
         | x :: r => if c =? 37 then prefixed [c; x] (set_rest r) else prefixed [c] (set_rest l)
         | [] => None
         end
  end.
Definition set_body (l : list Z) : option (list Z * list Z) :=
  match l with
  | [] => None
  | c :: l => match l with x :: r => if c =? 37 then prefixed [c; x] (set_rest r) else prefixed [c] (set_rest l) | [] => None end
  end.
(* after the '[' *)
Definition set (l : list Z) : option (cls * list Z) :=
  let neg := match l with c :: _ => c =? 94 (* ^ *) | [] => false end in
  match set_body (if neg then tl l else l) with Some (b, r) => Some (CSet neg (elements b), r) | None => None end.
(* a single character class; None when malformed *)
Definition single (l : list Z) : option (cls * list Z) :=
  match l with
  | [] => None
  | c :: l =>
    if c =? 46 (* . *) then Some (CAny, l)
    else if c =? 37 then match l with x :: l => Some (CClass x, l) | [] => None end
    else if c =? 91 (* [ *) then set l
    else Some (CChar c, l)
  end.

(* ---- patterns; Bad is a malformed rest ---- *)
Inductive tree :=
| End | Bad
| Open (t : tree) | Position (t : tree) | Close (t : tree)
| Eos                                    (* '$' at the end *)
| Balance (b e : Z) (t : tree) | Frontier (k : cls) (t : tree) | Back (n : Z) (t : tree)
| One (k : cls) (t : tree) | Star (k : cls) (t : tree) | Plus (k : cls) (t : tree) | Minus (k : cls) (t : tree) | Option (k : cls) (t : tree).
Definition next (l : list Z) : Z := match l with c :: _ => c | [] => -1 end.
Fixpoint parse_n (n : nat) (l : list Z) : tree :=
  match n with
  | O => End
  | S n =>
    let parse := parse_n n in
    let item :=
      match single l with
      | None => Bad
      | Some (k, r) =>
        if next r =? 42 (* * *) then Star k (parse (tl r))
        else if next r =? 43 (* + *) then Plus k (parse (tl r))
        else if next r =? 45 (* - *) then Minus k (parse (tl r))
        else if next r =? 63 (* ? *) then Option k (parse (tl r))
        else One k (parse r)
      end in
    match l with
    | [] => End
    | x :: r =>
      if x =? 40 (* ( *) then if next r =? 41 (* ) *) then Position (parse (tl r)) else Open (parse r)
      else if x =? 41 then Close (parse r)
      else if (x =? 36) (* $ *) && (match r with [] => true | _ => false end) then Eos
      else if x =? 37 then
        match r with
        | [] => Bad
        | y :: r =>
          if y =? 98 (* b *) then match r with b :: e :: r => Balance b e (parse r) | _ => Bad end
          else if y =? 102 (* f *) then
            if next r =? 91 then match set (tl r) with Some (k, r) => Frontier k (parse r) | None => Bad end else Bad
          else if (48 <=? y) && (y <=? 57) then Back (y - 48) (parse r)
          else item
        end
      else item
    end
  end.
(* every item has at least one character *)
Definition parse (l : list Z) : tree := parse_n (S (length l)) l.

(* ---- matches ---- *)
(* captures in the order of their opening parentheses; positions count from 0 *)
Inductive cap := COpen (i : Z) | CClosed (i n : Z) | CPos (i : Z).
Definition caps : Type := list cap.
(* closes the last open one *)
Fixpoint close (c : caps) (e : Z) : option caps :=
  match c with
  | [] => None
  | x :: c =>
    match close c e with
    | Some c => Some (x :: c)
    | None => match x with COpen i => Some (CClosed i (e - i) :: c) | _ => None end
    end
  end.

Section SUBJECT.
Variable s : list Z.
Definition from (i : Z) : list Z := skipn (Z.to_nat i) s.
Definition char (i : Z) : Z := nth (Z.to_nat i) s 0.
(* how many characters from the front are in the class *)
Fixpoint run (k : cls) (l : list Z) : nat := match l with [] => O | c :: l => if mem k c then S (run k l) else O end.
(* the length of the shortest balanced text at the front, n of it being open *)
Fixpoint balanced (b e : Z) (n : nat) (l : list Z) : option nat :=
  match l with
  | [] => None
  | c :: l =>
    if c =? e then match n with S O => Some 1%nat | _ => option_map S (balanced b e (pred n) l) end
    else if c =? b then option_map S (balanced b e (S n) l)
    else option_map S (balanced b e n l)
  end.
(* all matches at position i, in the order of preference: the end and the captures. None is an error *)
Definition match_list : Type := list (option (Z * caps)).
Fixpoint matches (t : tree) (c : caps) (i : Z) : match_list :=
  match t with
  | End => [Some (i, c)]
  | Bad => [None]
  | Open t => if 32 <=? Z.of_nat (length c) then [None] else matches t (c ++ [COpen i]) i
  | Position t => if 32 <=? Z.of_nat (length c) then [None] else matches t (c ++ [CPos i]) i
  | Close t => match close c i with Some c => matches t c i | None => [None] end
  | Eos => if i =? slen s then [Some (i, c)] else []
  | Balance b e t =>
    match from i with
    | x :: l => if x =? b then match balanced b e 1 l with Some n => matches t c (i + 1 + Z.of_nat n) | None => [] end else []
    | [] => []
    end
  | Frontier k t =>
    if negb (mem k (if i =? 0 then 0 else char (i - 1))) && mem k (char i) then matches t c i else []
  | Back n t =>
    if (n <=? 0) || (Z.of_nat (length c) <? n) then [None]
    else match nth (Z.to_nat (n - 1)) c (CPos 0) with
         | COpen _ => [None]
         | CPos _ => []
         | CClosed j len =>
           if list_eq_dec Z.eq_dec (firstn (Z.to_nat len) (from i)) (firstn (Z.to_nat len) (from j))
           then matches t c (i + len) else []
         end
  | One k t => match run k (from i) with O => [] | S _ => matches t c (i + 1) end
  | Star k t => flat_map (fun n => matches t c (i + Z.of_nat n)) (rev (seq 0 (S (run k (from i)))))
  | Plus k t => flat_map (fun n => matches t c (i + Z.of_nat n)) (rev (seq 1 (run k (from i))))
  | Minus k t => flat_map (fun n => matches t c (i + Z.of_nat n)) (seq 0 (S (run k (from i))))
  | Option k t => match run k (from i) with O => matches t c i | S _ => matches t c (i + 1) ++ matches t c i end
  end.

(* ---- the same as a relation, without order and errors: m t c i c' e says that t matches from i to e ---- *)
Definition in_all (k : cls) (l : list Z) : Prop := forall c, In c l -> mem k c = true.
(* i and j enclose a text of characters of the class *)
Definition reps (k : cls) (i j : Z) : Prop := i <= j <= slen s /\ in_all k (firstn (Z.to_nat (j - i)) (from i)).
(* openings minus closings; equal ones close *)
Fixpoint level (b e : Z) (l : list Z) : Z := match l with [] => 0 | c :: l => (if c =? e then -1 else if c =? b then 1 else 0) + level b e l end.
Inductive m : tree -> caps -> Z -> caps -> Z -> Prop :=
| MEnd : forall c i, m End c i c i
| MOpen : forall t c i c' e, (length c < 32)%nat -> m t (c ++ [COpen i]) i c' e -> m (Open t) c i c' e
| MPosition : forall t c i c' e, (length c < 32)%nat -> m t (c ++ [CPos i]) i c' e -> m (Position t) c i c' e
| MClose : forall t c1 j c2 i c' e, (forall x, ~ In (COpen x) c2) -> m t (c1 ++ CClosed j (i - j) :: c2) i c' e -> m (Close t) (c1 ++ COpen j :: c2) i c' e
| MEos : forall c, m Eos c (slen s) c (slen s)
| MBalance : forall b x t c i j c' e w, i < j <= slen s -> firstn (Z.to_nat (j - i)) (from i) = b :: w -> level b x w = -1 ->
    (forall u v, w = u ++ v -> v <> [] -> 0 <= level b x u) -> m t c j c' e -> m (Balance b x t) c i c' e
| MFrontier : forall k t c i c' e, mem k (if i =? 0 then 0 else char (i - 1)) = false -> mem k (char i) = true -> m t c i c' e -> m (Frontier k t) c i c' e
| MBack : forall n t c i j len c' e, nth_error c n = Some (CClosed j len) -> 0 <= len -> i + len <= slen s ->
    firstn (Z.to_nat len) (from i) = firstn (Z.to_nat len) (from j) -> m t c (i + len) c' e -> m (Back (Z.of_nat n + 1) t) c i c' e
| MOne : forall k t c i c' e, i < slen s -> mem k (char i) = true -> m t c (i + 1) c' e -> m (One k t) c i c' e
| MStar : forall k t c i j c' e, reps k i j -> m t c j c' e -> m (Star k t) c i c' e
| MPlus : forall k t c i j c' e, reps k i j -> i < j -> m t c j c' e -> m (Plus k t) c i c' e
| MMinus : forall k t c i j c' e, reps k i j -> m t c j c' e -> m (Minus k t) c i c' e
| MOption : forall k t c i j c' e, reps k i j -> j <= i + 1 -> m t c j c' e -> m (Option k t) c i c' e.
End SUBJECT.

(* how many items of the pattern nest calls of the matcher *)
Fixpoint nesting (t : tree) : nat :=
  match t with
  | End | Bad | Eos => 0
  | Open t | Position t | Close t | Star _ t | Plus _ t | Minus _ t | Option _ t => S (nesting t)
  | Balance _ _ t | Frontier _ t | Back _ t | One _ t => nesting t
  end.

(* the captures of a match from i to e as Lua values; the whole match when there are none *)
Definition cap_val (s : list Z) (c : cap) : option val :=
  match c with
  | COpen _ => None
  | CPos i => Some (VInt (i + 1))
  | CClosed i n => Some (VStr (firstn (Z.to_nat n) (from s i)))
  end.
Fixpoint cap_vals (s : list Z) (c : caps) : option (list val) :=
  match c with [] => Some [] | x :: c => match cap_val s x, cap_vals s c with Some v, Some l => Some (v :: l) | _, _ => None end end.
Definition whole (s : list Z) (i e : Z) : list Z := firstn (Z.to_nat (e - i)) (from s i).
Definition results (s : list Z) (i e : Z) (c : caps) : option (list val) :=
  match c with [] => Some [VStr (whole s i e)] | _ => cap_vals s c end.
(* what is preferred at a position: no match, an error, or a match *)
Inductive verdict := NoMatch | Failure | Match (e : Z) (c : caps).
Definition preferred (l : match_list) : verdict := match l with [] => NoMatch | None :: _ => Failure | Some (e, c) :: _ => Match e c end.
(* the first position from i on, at most n further ones, where something happens *)
Fixpoint search (at_ : Z -> verdict) (i : Z) (n : nat) : verdict * Z :=
  match at_ i, n with NoMatch, S n => search at_ (i + 1) n | v, _ => (v, i) end.

(* ---- the library functions ---- *)
(* a '^' at the start fixes the position *)
Definition anchored (p : list Z) : bool := next p =? 94.
Definition body (p : list Z) : list Z := if anchored p then tl p else p.
Definition at_pos (s : list Z) (t : tree) (i : Z) : verdict := preferred (matches s t [] i).
(* string.find and string.match: the match at the first position a >= 0 that has one *)
Definition found (s : list Z) (find : bool) (v : verdict * Z) : outcome (list val) :=
  match v with
  | (NoMatch, _) => Ok [VNil]
  | (Failure, _) => Err EFormat
  | (Match e c, i) =>
    match (if find then cap_vals s c else results s i e c) with
    | Some l => Ok (if find then VInt (i + 1) :: VInt e :: l else l)
    | None => Err EFormat
    end
  end.
Definition find_in (s p : list Z) (find : bool) (a : Z) : outcome (list val) :=
  if slen s <? a then Ok [VNil]
  else found s find (search (at_pos s (parse (body p))) a (if anchored p then 0 else Z.to_nat (slen s - a))).

(* the successive matches from i on, at most lim many, none ending where the one before ended.
   The last argument is false when the pattern turned out to be malformed *)
Definition hit : Type := Z * Z * caps.
Inductive succ (at_ : Z -> verdict) (len : Z) : option nat -> Z -> option Z -> list hit -> bool -> Prop :=
| succ_limit : forall i last, succ at_ len (Some O) i last [] true
| succ_end : forall lim i last, len < i -> succ at_ len lim i last [] true
| succ_fail : forall lim i last, lim <> Some O -> i <= len -> at_ i = Failure -> succ at_ len lim i last [] false
| succ_none : forall lim i last ms ok, lim <> Some O -> i <= len -> at_ i = NoMatch -> succ at_ len lim (i + 1) last ms ok -> succ at_ len lim i last ms ok
| succ_same : forall lim i e c ms ok, lim <> Some O -> i <= len -> at_ i = Match e c -> succ at_ len lim (i + 1) (Some e) ms ok -> succ at_ len lim i (Some e) ms ok
| succ_hit : forall lim i e c last ms ok, lim <> Some O -> i <= len -> at_ i = Match e c -> last <> Some e ->
    succ at_ len (option_map pred lim) e (Some e) ms ok -> succ at_ len lim i last ((i, e, c) :: ms) ok.
(* with an anchor there is one attempt *)
Definition once (at_ : Z -> verdict) (lim : option nat) : list hit * bool :=
  match lim, at_ 0 with
  | Some O, _ => ([], true)
  | _, NoMatch => ([], true)
  | _, Failure => ([], false)
  | _, Match e c => ([(0, e, c)], true)
  end.

(* the values a generic for over gmatch sees *)
Fixpoint all_results (s : list Z) (ms : list hit) : option (list (list val)) :=
  match ms with
  | [] => Some []
  | (i, e, c) :: ms => match results s i e c, all_results s ms with Some l, Some r => Some (l :: r) | _, _ => None end
  end.

(* the k-th capture, from 0; the whole match when there is no capture *)
Definition capture_no (s : list Z) (i e : Z) (c : caps) (k : Z) : option val :=
  match c with
  | [] => if k =? 0 then Some (VStr (whole s i e)) else None
  | _ => match nth_error c (Z.to_nat k) with Some x => cap_val s x | None => None end
  end.
Section REPLACE.
Variable tostr : Z -> list Z.
Definition text (v : val) : list Z := match v with VStr t => t | VInt n => tostr n | VNil => [] end.
(* a replacement string: %0 to %9 and %% *)
Fixpoint expand (s : list Z) (i e : Z) (c : caps) (news : list Z) : option (list Z) :=
  match news with
  | [] => Some []
  | x :: r =>
    if x =? 37 then
      match r with
      | [] => None
      | y :: r =>
        match (if y =? 37 then Some [37]
               else if y =? 48 then Some (whole s i e)
               else if (49 <=? y) && (y <=? 57) then option_map text (capture_no s i e c (y - 49))
               else None), expand s i e c r with
        | Some u, Some v => Some (u ++ v)
        | _, _ => None
        end
      end
    else option_map (cons x) (expand s i e c r)
  end.
(* what a match is replaced by; None is an error *)
Definition given (s : list Z) (i e : Z) (o : outcome (option (list Z))) : option (list Z) :=
  match o with Ok (Some r) => Some r | Ok None => Some (whole s i e) | _ => None end.
Definition replacement (s : list Z) (tr : repl) (h : hit) : option (list Z) :=
  let '(i, e, c) := h in
  match tr with
  | RString news => expand s i e c news
  | RCall f => match results s i e c with Some l => given s i e (f l) | None => None end
  | RIndex f => match capture_no s i e c 0 with Some v => given s i e (f v) | None => None end
  end.
(* the subject from a on with the matches replaced *)
Fixpoint replaced (s : list Z) (tr : repl) (a : Z) (ms : list hit) : option (list Z) :=
  match ms with
  | [] => Some (from s a)
  | (i, e, c) :: ms =>
    match replacement s tr (i, e, c), replaced s tr e ms with
    | Some r, Some q => Some (whole s a i ++ r ++ q)
    | _, _ => None
    end
  end.
End REPLACE.
(* calls and index accesses either return or raise an error *)
Definition settled {A} (o : outcome A) : Prop := match o with Ok _ | Err _ => True | _ => False end.
Definition settles (tr : repl) : Prop :=
  match tr with RString _ => True | RCall f => forall l, settled (f l) | RIndex f => forall v, settled (f v) end.
