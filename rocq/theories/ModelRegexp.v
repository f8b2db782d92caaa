(** Package regexp of Go 1.22: regexp.Compile (regexp/syntax/parse.go with the
    flags Perl) and MatchString, used by "pattern" (schema.go:655, validation.go:
    the pattern of strings), "patternProperties" (schema.go:325, validation.go:691),
    the format "regex" (format_checkers.go:346) and the five expressions of
    format_checkers.go:133-142.

    Left out: the limits on the size and the nesting depth of an expression
    (checkLimits).  Names and numbers of groups and the greedy/lazy distinction
    do not influence whether there is a match and are dropped.  The tables of
    package unicode are parameters ([unidata]). *)
From Verif Require Export ModelMail.
From Coq Require Import ZArith NArith.
Open Scope N_scope.
Open Scope list_scope.

(** - [u_class name]: the set behind \p{name} (unicodeTable), None if unknown;
    - [u_orbit c]: c and its images under unicode.SimpleFold. *)
Record unidata := UniData { u_class : list N -> option (N -> bool); u_orbit : N -> list N }.

(** syntax.Regexp, up to what does not matter for a match. *)
Inductive rexp :=
| XEmpty
| XLit (fold : bool) (c : N)
| XClass (f : N -> bool)
| XAnyNotNL | XAny
| XBeginText | XEndText | XBeginLine | XEndLine
| XWordB | XNoWordB
| XCat (a b : rexp)
| XAlt (a b : rexp)
| XStar (a : rexp) | XPlus (a : rexp) | XQuest (a : rexp)
| XRepeat (min : nat) (max : option nat) (a : rexp).

(** The flags FoldCase, OneLine and DotNL. *)
Record xflags := XFlags { x_fold : bool; x_oneline : bool; x_dotnl : bool }.
(** Perl = ClassNL | OneLine | PerlX | UnicodeGroups *)
Definition Perl := XFlags false true false.

(** The parser: the flags and the stack.  [p_cur] is the stack down to the first
    "(" or "|", [p_alts] the finished alternatives below, [p_open] what lies below
    each "(" together with the flags in force there. *)
Record parser := Parser {
  p_flags : xflags;
  p_cur : list rexp;
  p_alts : list rexp;
  p_open : list (xflags * list rexp * list rexp)
}.
Definition push (r : rexp) (p : parser) : parser := Parser (p_flags p) (r :: p_cur p) (p_alts p) (p_open p).
(** p.concat: the regexps above the last "(" or "|", oldest first. *)
Definition concat_up (l : list rexp) : rexp := fold_left (fun acc r => XCat r acc) l XEmpty.
(** p.alternate *)
Definition alternate_up (last : rexp) (l : list rexp) : rexp := fold_left (fun acc r => XAlt r acc) l last.

(** ** Small readers *)
(** nextRune: None on invalid UTF-8 *)
Definition nextRune (t : input) : option (N * input) :=
  match t with
  | c :: r => if bad_rune c then None else Some (c, r)
  | [] => Some (65533, [])
  end.
Definition in_rng (lo hi c : N) : bool := ((lo <=? c) && (c <=? hi))%bool.
Definition is_oct (c : N) : bool := in_rng 48 55 c.
Definition is_dec (c : N) : bool := in_rng 48 57 c.
Definition is_alnum_rune (c : N) : bool := (is_dec c || in_rng 65 90 c || in_rng 97 122 c)%bool.
(** unhex *)
Definition unhex (c : N) : option N :=
  if is_dec c then Some (c - 48)
  else if in_rng 97 102 c then Some (c - 97 + 10)
  else if in_rng 65 70 c then Some (c - 65 + 10)
  else None.

(** parseEscape, case 'x' with braces: [seen] is nhex > 0. *)
Fixpoint hex_braces (seen : bool) (r : N) (t : input) : option (N * input) :=
  match t with
  | [] => None
  | c :: t' =>
      if bad_rune c then None
      else if c =? 125 then (if seen then Some (r, t') else None)
      else match unhex c with
           | None => None
           | Some v => if 1114111 <? r * 16 + v then None else hex_braces true (r * 16 + v) t'
           end
  end.
(** parseEscape, octal: up to [n] more digits. *)
Fixpoint octal (n : nat) (r : N) (t : input) : N * input :=
  match n, t with
  | S n', c :: t' => if is_oct c then octal n' (r * 8 + (c - 48)) t' else (r, t)
  | _, _ => (r, t)
  end.
(** parseEscape; t is what follows the backslash. *)
Definition parseEscape (t : input) : option (N * input) :=
  match t with
  | [] => None
  | c :: t =>
      if bad_rune c then None
      else if in_rng 49 55 c then
        match t with
        | d :: _ => if is_oct d then Some (octal 2 (c - 48) t) else None
        | [] => None
        end
      else if c =? 48 then Some (octal 2 0 t)
      else if c =? 120 then
        match t with
        | [] => None
        | c :: t =>
            if bad_rune c then None
            else if c =? 123 then hex_braces false 0 t
            else match nextRune t with
                 | None => None
                 | Some (d, t) =>
                     match unhex c, unhex d with
                     | Some x, Some y => Some (x * 16 + y, t)
                     | _, _ => None
                     end
                 end
        end
      else if c =? 97 then Some (7, t)
      else if c =? 102 then Some (12, t)
      else if c =? 110 then Some (10, t)
      else if c =? 114 then Some (13, t)
      else if c =? 116 then Some (9, t)
      else if c =? 118 then Some (11, t)
      else if ((c <? 128) && negb (is_alnum_rune c))%bool then Some (c, t)
      else None
  end.

(** parseInt: None of the second kind (None inside) if the number is too big. *)
Fixpoint digits (t : input) : list N * input :=
  match t with
  | c :: t' => if is_dec c then let (d, r) := digits t' in (c :: d, r) else ([], t)
  | [] => ([], [])
  end.
Definition parseInt (t : input) : option (option N * input) :=
  match digits t with
  | ([], _) => None
  | (48 :: _ :: _, _) => None
  | (d, r) =>
      Some (if Nat.leb (length d) 8 then Some (fold_left (fun n c => n * 10 + (c - 48)) d 0) else None, r)
  end.
(** p.parseRepeat: t follows the brace.  None: not a repetition.  The numbers:
    None inside is -1. *)
Definition parseRepeat (t : input) : option (option N * option (option N) * input) :=
  match parseInt t with
  | None => None
  | Some (min, t) =>
      match t with
      | [] => None
      | c :: t' =>
          if c =? 44 then
            match t' with
            | [] => None
            | d :: t'' =>
                if d =? 125 then Some (min, None, t'')
                else match parseInt t' with
                     | None => None
                     | Some (max, t) =>
                         match t with
                         | e :: t => if e =? 125 then Some (min, Some max, t) else None
                         | [] => None
                         end
                     end
            end
          else if c =? 125 then Some (min, Some min, t')
          else None
      end
  end.

(** repeatIsValid *)
Fixpoint repeatIsValid (r : rexp) (n : nat) : bool :=
  match r with
  | XRepeat min max a =>
      let m := match max with Some m => m | None => min end in
      match max with
      | Some O => true
      | _ => if Nat.ltb n m then false else repeatIsValid a (if Nat.eqb m 0 then n else Nat.div n m)
      end
  | XCat a b | XAlt a b => (repeatIsValid a n && repeatIsValid b n)%bool
  | XStar a | XPlus a | XQuest a => repeatIsValid a n
  | _ => true
  end.

(** p.repeat: the top of the stack is replaced; t follows the operator.  Gives
    what is left once a "?" is gone. *)
Definition repeat_op (f : rexp -> rexp) (counted : bool) (p : parser) (last : bool) (t : input) : option (parser * bool * input) :=
  let t := match t with 63 :: t' => t' | _ => t end in
  if last then None
  else match p_cur p with
       | [] => None
       | a :: cur =>
           if (counted && negb (repeatIsValid (f a) 1000))%bool then None
           else Some (Parser (p_flags p) (f a :: cur) (p_alts p) (p_open p), true, t)
       end.

(** ** Classes *)
Section Unicode.
Variable ud : unidata.
(** appendFoldedRange, appendFoldedClass: with FoldCase a set is closed under folding. *)
Definition folded (fl : xflags) (f : N -> bool) : N -> bool :=
  if x_fold fl then fun c => existsb f (u_orbit ud c) else f.
Definition signed (neg : bool) (f : N -> bool) : N -> bool := if neg then fun c => negb (f c) else f.
(** appendGroup, appendTable *)
Definition group (fl : xflags) (neg : bool) (f : N -> bool) : N -> bool := signed neg (folded fl f).

(** perl_groups.go: \d, \s and \w *)
Definition perl_d (c : N) : bool := is_dec c.
Definition perl_s (c : N) : bool := existsb (N.eqb c) [9; 10; 12; 13; 32].
Definition perl_w (c : N) : bool := (is_alnum_rune c || (c =? 95))%bool.
(** parsePerlClassEscape; t follows the backslash. *)
Definition perl_class (fl : xflags) (t : input) : option ((N -> bool) * input) :=
  match t with
  | 100 :: t => Some (group fl false perl_d, t)
  | 68 :: t => Some (group fl true perl_d, t)
  | 115 :: t => Some (group fl false perl_s, t)
  | 83 :: t => Some (group fl true perl_s, t)
  | 119 :: t => Some (group fl false perl_w, t)
  | 87 :: t => Some (group fl true perl_w, t)
  | _ => None
  end.
(** perl_groups.go: posixGroup *)
Definition ascii_name (s : string) : list N := map N_of_ascii (list_ascii_of_string s).
Definition posixGroup : list (string * (N -> bool)) :=
  [("alnum"%string, is_alnum_rune); ("alpha"%string, fun c => (in_rng 65 90 c || in_rng 97 122 c)%bool); ("ascii"%string, in_rng 0 127);
   ("blank"%string, fun c => ((c =? 9) || (c =? 32))%bool); ("cntrl"%string, fun c => (in_rng 0 31 c || (c =? 127))%bool); ("digit"%string, is_dec);
   ("graph"%string, in_rng 33 126); ("lower"%string, in_rng 97 122); ("print"%string, in_rng 32 126);
   ("punct"%string, fun c => (in_rng 33 47 c || in_rng 58 64 c || in_rng 91 96 c || in_rng 123 126 c)%bool);
   ("space"%string, fun c => (in_rng 9 13 c || (c =? 32))%bool); ("upper"%string, in_rng 65 90); ("word"%string, perl_w);
   ("xdigit"%string, fun c => (is_dec c || in_rng 65 70 c || in_rng 97 102 c)%bool)].
Definition posix (name : list N) : option (N -> bool) :=
  match find (fun e => list_eqb name (ascii_name (fst e))) posixGroup with Some (_, f) => Some f | None => None end.
(** parseNamedClass; t follows "[:".  None: no ":]" at all, so not a class;
    Some None: an error. *)
Fixpoint upto2 (a b : N) (t : input) : option (list N * input) :=
  match t with
  | c :: ((d :: r) as t') =>
      if ((c =? a) && (d =? b))%bool then Some ([], r)
      else match upto2 a b t' with Some (x, y) => Some (c :: x, y) | None => None end
  | _ => None
  end.
Definition named_class (fl : xflags) (t : input) : option (option ((N -> bool) * input)) :=
  match upto2 58 93 t with
  | None => None
  | Some (name, r) =>
      let (neg, name) := match name with 94 :: n => (true, n) | n => (false, n) end in
      Some (match posix name with Some f => Some (group fl neg f, r) | None => None end)
  end.
(** parseUnicodeClass; t follows \p or \P, [neg] for the latter. *)
Fixpoint upto (a : N) (t : input) : option (list N * input) :=
  match t with
  | [] => None
  | c :: r => if c =? a then Some ([], r) else match upto a r with Some (x, y) => Some (c :: x, y) | None => None end
  end.
Definition unicode_name (t : input) : option (list N * input) :=
  match t with
  | 123 :: t => upto 125 t
  | c :: t => if bad_rune c then None else Some ([c], t)
  | [] => None
  end.
Definition unicode_class (fl : xflags) (neg : bool) (t : input) : option ((N -> bool) * input) :=
  match unicode_name t with
  | None => None
  | Some (name, r) =>
      let (neg, name) := match name with 94 :: n => (negb neg, n) | n => (neg, n) end in
      match u_class ud name with Some f => Some (group fl neg f, r) | None => None end
  end.

(** parseClassChar *)
Definition class_char (t : input) : option (N * input) :=
  match t with
  | [] => None
  | 92 :: t => parseEscape t
  | c :: t => if bad_rune c then None else Some (c, t)
  end.
(** One round of the loop of parseClass: what is added to the class. *)
Definition class_item (fl : xflags) (t : input) : option ((N -> bool) * input) :=
  let single :=
    match class_char t with
    | None => None
    | Some (lo, t) =>
        match t with
        | 45 :: ((d :: _) as t') =>
            if d =? 93 then Some (folded fl (N.eqb lo), t)
            else match class_char t' with
                 | None => None
                 | Some (hi, t) => if hi <? lo then None else Some (folded fl (in_rng lo hi), t)
                 end
        | _ => Some (folded fl (N.eqb lo), t)
        end
    end in
  match t with
  | 91 :: 58 :: t' =>
      match named_class fl t' with Some r => r | None => single end
  | 92 :: t' =>
      match t' with
      | 112 :: t'' => unicode_class fl false t''
      | 80 :: t'' => unicode_class fl true t''
      | _ => match perl_class fl t' with Some r => Some r | None => single end
      end
  | _ => single
  end.
Fixpoint class_items (n : nat) (fl : xflags) (first : bool) (f : N -> bool) (t : input) : option ((N -> bool) * input) :=
  match n with
  | O => None
  | S n' =>
      match t with
      | 93 :: t' =>
          if first then match class_item fl t with
                        | None => None
                        | Some (g, t) => class_items n' fl false (fun c => f c || g c)%bool t
                        end
          else Some (f, t')
      | _ => match class_item fl t with
             | None => None
             | Some (g, t) => class_items n' fl false (fun c => f c || g c)%bool t
             end
      end
  end.
(** parseClass; t follows the bracket. *)
Definition parseClass (fl : xflags) (t : input) : option (rexp * input) :=
  let (neg, t) := match t with 94 :: t' => (true, t') | _ => (false, t) end in
  match class_items (S (length t)) fl true (fun _ => false) t with
  | None => None
  | Some (f, t) => Some (XClass (signed neg f), t)
  end.

(** ** Groups and flags *)
(** isValidCaptureName *)
Definition capture_name (n : list N) : bool := match n with [] => false | _ => forallb perl_w n end.
(** The loop of parsePerlFlags; None: an error, otherwise whether a group opens. *)
Fixpoint perl_flags (neg saw : bool) (fl : xflags) (t : input) : option (bool * xflags * input) :=
  match t with
  | [] => None
  | c :: t =>
      if c =? 105 then perl_flags neg true (XFlags (negb neg) (x_oneline fl) (x_dotnl fl)) t
      else if c =? 109 then perl_flags neg true (XFlags (x_fold fl) neg (x_dotnl fl)) t
      else if c =? 115 then perl_flags neg true (XFlags (x_fold fl) (x_oneline fl) (negb neg)) t
      else if c =? 85 then perl_flags neg true fl t
      else if c =? 45 then (if neg then None else perl_flags true false fl t)
      else if ((c =? 58) || (c =? 41))%bool then
        if (neg && negb saw)%bool then None else Some (c =? 58, fl, t)
      else None
  end.
Definition open_group (fl : xflags) (p : parser) : parser :=
  Parser fl [] [] ((p_flags p, p_cur p, p_alts p) :: p_open p).
(** parsePerlFlags; t follows "(?". *)
Definition parsePerlFlags (p : parser) (t : input) : option (parser * input) :=
  let named t :=
    match upto 62 t with
    | None => None
    | Some (name, r) => if capture_name name then Some (open_group (p_flags p) p, r) else None
    end in
  match t with
  | 80 :: 60 :: ((_ :: _) as t') => named t'
  | 60 :: t' => named t'
  | _ =>
      match perl_flags false false (p_flags p) t with
      | None => None
      | Some (true, fl, r) => Some (open_group fl p, r)
      | Some (false, fl, r) => Some (Parser fl (p_cur p) (p_alts p) (p_open p), r)
      end
  end.
(** parseVerticalBar *)
Definition parseVerticalBar (p : parser) : parser :=
  Parser (p_flags p) [] (concat_up (p_cur p) :: p_alts p) (p_open p).
(** parseRightParen *)
Definition parseRightParen (p : parser) : option parser :=
  match p_open p with
  | [] => None
  | (fl, cur, alts) :: o => Some (Parser fl (alternate_up (concat_up (p_cur p)) (p_alts p) :: cur) alts o)
  end.

(** p.literal *)
Definition literal (c : N) (p : parser) : parser := push (XLit (x_fold (p_flags p)) c) p.
(** \Q...\E *)
Fixpoint quoted (p : parser) (t : input) : option (parser * input) :=
  match t with
  | [] => Some (p, [])
  | c :: t' =>
      match c, t' with
      | 92, 69 :: r => Some (p, r)
      | _, _ => if bad_rune c then None else quoted (literal c p) t'
      end
  end.

(** One round of the loop of parse: the parser, lastRepeat <> "", the text left. *)
Definition step (p : parser) (last : bool) (t : input) : option (parser * bool * input) :=
  let goes r t := Some (push r p, false, t) in
  match t with
  | [] => None
  | c :: t =>
      if c =? 40 then
        match t with
        | 63 :: t' => match parsePerlFlags p t' with Some (p', r) => Some (p', false, r) | None => None end
        | _ => Some (open_group (p_flags p) p, false, t)
        end
      else if c =? 124 then Some (parseVerticalBar p, false, t)
      else if c =? 41 then match parseRightParen p with Some p' => Some (p', false, t) | None => None end
      else if c =? 94 then goes (if x_oneline (p_flags p) then XBeginText else XBeginLine) t
      else if c =? 36 then goes (if x_oneline (p_flags p) then XEndText else XEndLine) t
      else if c =? 46 then goes (if x_dotnl (p_flags p) then XAny else XAnyNotNL) t
      else if c =? 91 then match parseClass (p_flags p) t with Some (r, t) => goes r t | None => None end
      else if c =? 42 then repeat_op XStar false p last t
      else if c =? 43 then repeat_op XPlus false p last t
      else if c =? 63 then repeat_op XQuest false p last t
      else if c =? 123 then
        match parseRepeat t with
        | None => Some (literal 123 p, false, t)
        | Some (Some min, None, r) =>
            if 1000 <? min then None
            else repeat_op (XRepeat (N.to_nat min) None) (2 <=? min) p last r
        | Some (Some min, Some (Some max), r) =>
            if ((1000 <? min) || (1000 <? max) || (max <? min))%bool then None
            else repeat_op (XRepeat (N.to_nat min) (Some (N.to_nat max))) ((2 <=? min) || (2 <=? max))%bool p last r
        | Some _ => None
        end
      else if c =? 92 then
        match t with
        | 65 :: t' => goes XBeginText t'
        | 98 :: t' => goes XWordB t'
        | 66 :: t' => goes XNoWordB t'
        | 67 :: _ => None
        | 81 :: t' => match quoted p t' with Some (p', r) => Some (p', false, r) | None => None end
        | 122 :: t' => goes XEndText t'
        | 112 :: t' => match unicode_class (p_flags p) false t' with Some (f, r) => goes (XClass f) r | None => None end
        | 80 :: t' => match unicode_class (p_flags p) true t' with Some (f, r) => goes (XClass f) r | None => None end
        | _ =>
            match perl_class (p_flags p) t with
            | Some (f, r) => goes (XClass f) r
            | None => match parseEscape t with Some (c, r) => Some (literal c p, false, r) | None => None end
            end
        end
      else if bad_rune c then None
      else Some (literal c p, false, t)
  end.
Fixpoint loop (n : nat) (p : parser) (last : bool) (t : input) : option parser :=
  match t with
  | [] => Some p
  | _ => match n with
         | O => None
         | S n' => match step p last t with None => None | Some (p', l, t') => loop n' p' l t' end
         end
  end.
(** parse *)
Definition parse (t : input) : option rexp :=
  match loop (length t) (Parser Perl [] [] []) false t with
  | Some p =>
      match p_open p with
      | [] => Some (alternate_up (concat_up (p_cur p)) (p_alts p))
      | _ => None
      end
  | None => None
  end.

(** ** MatchString: the sets of places an expression can lead to *)
(** s[i] *)
Definition at_ (s : list N) (i : nat) : option N := nth_error s i.
Definition is_word (c : option N) : bool := match c with Some c => perl_w c | None => false end.
(** the rune before place i *)
Definition before (s : list N) (i : nat) : option N := match i with O => None | S j => at_ s j end.
Definition one (s : list N) (f : N -> bool) (i : nat) : list nat :=
  match at_ s i with Some c => if f c then [S i] else [] | None => [] end.
Definition here (b : bool) (i : nat) : list nat := if b then [i] else [].
Definition nub (l : list nat) : list nat := nodup Nat.eq_dec l.
(** What [f] reaches from a set of places. *)
Definition spread (f : nat -> list nat) (l : list nat) : list nat := nub (flat_map f l).
Fixpoint times (n : nat) (f : nat -> list nat) (l : list nat) : list nat :=
  match n with O => l | S n' => times n' f (spread f l) end.
(** up to n times *)
Fixpoint upto_times (n : nat) (f : nat -> list nat) (l : list nat) : list nat :=
  match n with O => l | S n' => nub (l ++ upto_times n' f (spread f l)) end.
Definition boundary (s : list N) (i : nat) : bool := xorb (is_word (before s i)) (is_word (at_ s i)).
Fixpoint ends (r : rexp) (s : list N) (i : nat) : list nat :=
  match r with
  | XEmpty => [i]
  | XLit fold c => one s (if fold then fun x => existsb (N.eqb c) (u_orbit ud x) else N.eqb c) i
  | XClass f => one s f i
  | XAnyNotNL => one s (fun c => negb (c =? 10)) i
  | XAny => one s (fun _ => true) i
  | XBeginText => here (Nat.eqb i 0) i
  | XEndText => here (Nat.eqb i (length s)) i
  | XBeginLine => here (match before s i with Some c => c =? 10 | None => Nat.eqb i 0 end) i
  | XEndLine => here (match at_ s i with Some c => c =? 10 | None => true end) i
  | XWordB => here (boundary s i) i
  | XNoWordB => here (negb (boundary s i)) i
  | XCat a b => spread (ends b s) (ends a s i)
  | XAlt a b => nub (ends a s i ++ ends b s i)
  | XStar a => upto_times (length s) (ends a s) [i]
  | XPlus a => upto_times (length s) (ends a s) (ends a s i)
  | XQuest a => nub (i :: ends a s i)
  | XRepeat min max a =>
      let l := times min (ends a s) [i] in
      match max with
      | Some m => upto_times (m - min) (ends a s) l
      | None => upto_times (length s) (ends a s) l
      end
  end.
(** An invalid byte is read as RuneError. *)
Definition text_runes (s : string) : list N := map (fun c => if bad_rune c then 65533 else c) (runes s).
Definition somewhere (r : rexp) (s : list N) : bool :=
  existsb (fun i => match ends r s i with [] => false | _ => true end) (seq 0 (S (length s))).

(** regexp.Compile *)
Definition re_compiles (p : string) : bool := match parse (runes p) with Some _ => true | None => false end.
(** regexp.MatchString, and MatchString of a compiled expression *)
Definition re_MatchString (p s : string) : bool :=
  match parse (runes p) with Some r => somewhere r (text_runes s) | None => false end.
End Unicode.
