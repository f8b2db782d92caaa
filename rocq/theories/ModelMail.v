(** mail.ParseAddress of Go 1.22 (net/mail/message.go), used by
    EmailFormatChecker (format_checkers.go:191-199) for "email" and "idn-email".

    The parser works on the runes of the text; utf8.DecodeRuneInString gives
    width 1 and RuneError for an invalid byte b, written 1114112 + b here, a
    number that is no code point.  consumeComment works on bytes; the characters
    it looks at are ASCII, so this is the same on runes.  Only whether a call
    succeeds and what it leaves to be read is kept: the addresses found matter by
    their number only, as EmailFormatChecker drops them. *)
From Verif Require Export JsonText.
From Coq Require Import ZArith NArith.
Open Scope N_scope.
Open Scope list_scope.

(** utf8.DecodeRuneInString, one rune after the other. *)
Definition rune_of (k : chunk) : N :=
  match k with
  | C1 a => N_of_ascii a
  | C2 a b => (N_of_ascii a - 192) * 64 + (N_of_ascii b - 128)
  | C3 a b c => ((N_of_ascii a - 224) * 64 + (N_of_ascii b - 128)) * 64 + (N_of_ascii c - 128)
  | C4 a b c d => (((N_of_ascii a - 240) * 64 + (N_of_ascii b - 128)) * 64 + (N_of_ascii c - 128)) * 64 + (N_of_ascii d - 128)
  | CBad a => 1114112 + N_of_ascii a
  end.
Definition runes (s : string) : list N := map rune_of (chunks s).

(** size == 1 && r == utf8.RuneError *)
Definition bad_rune (r : N) : bool := 1114112 <=? r.
(** isVchar, isMultibyte *)
Definition isVchar (r : N) : bool := ((33 <=? r) && (r <=? 126) || (128 <=? r) && (r <? 1114112))%bool.
(** isWSP: space or tab *)
Definition isWSP (r : N) : bool := ((r =? 32) || (r =? 9))%bool.
(** isAtext: the specials of RFC 5322 3.2.3 are not; "." is, if dot is set (it always is) *)
Definition isAtext (r : N) : bool :=
  if existsb (N.eqb r) [40; 41; 60; 62; 91; 93; 58; 59; 64; 92; 44; 34] then false else isVchar r.
(** isQtext: not "\", not the double quote *)
Definition isQtext (r : N) : bool := if ((r =? 92) || (r =? 34))%bool then false else isVchar r.

Definition input := list N.

(** skipSpace *)
Fixpoint skipSpace (s : input) : input :=
  match s with c :: r => if isWSP c then skipSpace r else s | [] => [] end.
(** consume *)
Definition consume (c : N) (s : input) : option input :=
  match s with x :: r => if x =? c then Some r else None | [] => None end.
Definition peek_is (c : N) (s : input) : bool := match consume c s with Some _ => true | None => false end.

(** consumeComment, the opening parenthesis read; [depth] counts the further
    ones open.  The text of the comment and what follows it. *)
Fixpoint consumeComment (depth : nat) (s : input) : option (list N * input) :=
  match s with
  | [] => None
  | c :: r =>
      if c =? 92 then
        match r with
        | [] => None
        | c' :: r' => match consumeComment depth r' with Some (t, z) => Some (c' :: t, z) | None => None end
        end
      else if c =? 40 then match consumeComment (S depth) r with Some (t, z) => Some (c :: t, z) | None => None end
      else if c =? 41 then
        match depth with
        | O => Some ([], r)
        | S d => match consumeComment d r with Some (t, z) => Some (c :: t, z) | None => None end
        end
      else match consumeComment depth r with Some (t, z) => Some (c :: t, z) | None => None end
  end.

(** skipCFWS; None is "misformatted parenthetical comment". *)
Fixpoint skipCFWS_n (n : nat) (s : input) : option input :=
  let s := skipSpace s in
  match consume 40 s, n with
  | None, _ => Some s
  | Some r, S n' => match consumeComment 0 r with Some (_, z) => skipCFWS_n n' z | None => None end
  | Some _, O => None
  end.
Definition skipCFWS (s : input) : option input := skipCFWS_n (length s) s.

(** consumeQuotedString, the opening quote read *)
Fixpoint consumeQuoted (escaped : bool) (s : input) : option (list N * input) :=
  match s with
  | [] => None
  | c :: r =>
      if bad_rune c then None
      else if escaped then
        if (isVchar c || isWSP c)%bool
        then match consumeQuoted false r with Some (q, z) => Some (c :: q, z) | None => None end
        else None
      else if (isQtext c || isWSP c)%bool then match consumeQuoted false r with Some (q, z) => Some (c :: q, z) | None => None end
      else if c =? 34 then Some ([], r)
      else if c =? 92 then consumeQuoted true r
      else None
  end.

(** The longest run of atext and what follows. *)
Fixpoint atext_span (s : input) : list N * input :=
  match s with
  | c :: r => if isAtext c then let '(a, z) := atext_span r in (c :: a, z) else ([], s)
  | [] => ([], [])
  end.
(** consumeAtom(true, true) *)
Definition consumeAtom (s : input) : option (list N * input) :=
  let '(a, z) := atext_span s in
  match a, z with
  | _, c :: _ => if bad_rune c then None else match a with [] => None | _ => Some (a, z) end
  | [], [] => None
  | _, [] => Some (a, z)
  end.
(** The dots refused unless permissive: leading, double, trailing. *)
Fixpoint dots_ok (before : bool) (a : list N) : bool :=
  match a with
  | [] => negb before
  | c :: r => if c =? 46 then if before then false else dots_ok true r else dots_ok false r
  end.
(** consumeAtom(true, false) *)
Definition consumeDotAtom (s : input) : option (list N * input) :=
  match consumeAtom s with
  | Some (a, z) => if dots_ok true a then Some (a, z) else None
  | None => None
  end.

(** consumeAddrSpec; on failure the parser is put back.  Domain literals came
    with Go 1.23. *)
Definition consumeAddrSpec (s : input) : option input :=
  let s := skipSpace s in
  let local :=
    if peek_is 34 s
    then match consumeQuoted false (tl s) with Some ([], _) => None | x => x end
    else consumeDotAtom s in
  match local with
  | None => None
  | Some (_, z) =>
      match consume 64 z with
      | None => None
      | Some z' => match consumeDotAtom (skipSpace z') with Some (_, z2) => Some z2 | None => None end
      end
  end.

(** ** Encoded words, RFC 2047: mime.WordDecoder.Decode *)
Fixpoint cut (c : N) (s : list N) : list N * list N :=
  match s with
  | [] => ([], [])
  | x :: r => if x =? c then ([], r) else let '(a, b) := cut c r in (x :: a, b)
  end.
Definition count (c : N) (s : list N) : nat := length (filter (N.eqb c) s).
Definition list_eqb (a b : list N) : bool := if list_eq_dec N.eq_dec a b then true else false.
Definition is_hex_rune (c : N) : bool := ((48 <=? c) && (c <=? 57) || (65 <=? c) && (c <=? 70) || (97 <=? c) && (c <=? 102))%bool.
(** qDecode succeeds: "=" comes with two hexadecimal digits, other bytes are
    printable ASCII or white space. *)
Fixpoint qDecode (s : list N) : bool :=
  match s with
  | [] => true
  | c :: r =>
      if c =? 61 then
        match r with
        | a :: b :: r' => if (is_hex_rune a && is_hex_rune b)%bool then qDecode r' else false
        | _ => false
        end
      else if ((32 <=? c) && (c <=? 126) || (c =? 10) || (c =? 13) || (c =? 9))%bool then qDecode r else false
  end.
(** base64.StdEncoding.DecodeString succeeds; line ends are skipped. *)
Definition is_b64 (c : N) : bool :=
  ((48 <=? c) && (c <=? 57) || (65 <=? c) && (c <=? 90) || (97 <=? c) && (c <=? 122) || (c =? 43) || (c =? 47))%bool.
Fixpoint b64 (s : list N) : bool :=
  match s with
  | [] => true
  | [a; b; c; d] => (is_b64 a && is_b64 b && (is_b64 c && (is_b64 d || (d =? 61)) || (c =? 61) && (d =? 61)))%bool
  | a :: b :: c :: d :: r => (is_b64 a && is_b64 b && is_b64 c && is_b64 d && b64 r)%bool
  | _ => false
  end.
Definition base64 (s : list N) : bool := b64 (filter (fun c => negb ((c =? 10) || (c =? 13))%bool) s).
(** strings.EqualFold against a lower case ASCII name without "k": letters by
    simple folding, U+017F being one of the forms of "s". *)
Definition fold_rune (c : N) : N := if ((65 <=? c) && (c <=? 90))%bool then c + 32 else if c =? 383 then 115 else c.
Definition charset_known (s : list N) : bool :=
  existsb (list_eqb (map fold_rune s))
    [[117; 116; 102; 45; 56] (* utf-8 *); [105; 115; 111; 45; 56; 56; 53; 57; 45; 49] (* iso-8859-1 *);
     [117; 115; 45; 97; 115; 99; 105; 105] (* us-ascii *)].
(** decodeRFC2047Word returns an error: the word is an encoded word that could
    be decoded, if its character set were known. *)
Definition word_error (w : list N) : bool :=
  match w with
  | 61 :: 63 :: r =>
      if (Nat.leb 8 (length w) && list_eqb (skipn (length r - 2) r) [63; 61] && Nat.eqb (count 63 w) 4)%bool then
        let '(charset, t) := cut 63 (firstn (length r - 2) r) in
        let '(encoding, text) := cut 63 t in
        match charset, encoding with
        | _ :: _, [e] =>
            ((if ((e =? 66) || (e =? 98))%bool then base64 text
              else if ((e =? 81) || (e =? 113))%bool then qDecode text else false)
             && negb (charset_known charset))%bool
        | _, _ => false
        end
      else false
  | _ => false
  end.

(** consumePhrase; [some] says a word has been read.  Once it has, errors end
    the phrase (decodeRFC2047Word's after the word). *)
Fixpoint consumePhrase_n (n : nat) (some : bool) (s : input) : option input :=
  match n with
  | O => None
  | S n' =>
      match (if some then skipCFWS s else Some s) with
      | None => None
      | Some s0 =>
          let s1 := skipSpace s0 in
          let fail (z : input) := if some then Some z else None in
          match s1 with
          | [] => Some []
          | c :: r =>
              if c =? 34 then
                match consumeQuoted false r with Some (_, z) => consumePhrase_n n' true z | None => fail s1 end
              else
                match consumeAtom s1 with
                | None => fail s1
                | Some (w, z) => if word_error w then fail z else consumePhrase_n n' true z
                end
          end
      end
  end.
Definition consumePhrase (s : input) : option input := consumePhrase_n (S (length s)) false s.

(** strings.FieldsFunc on spaces and tabs *)
Fixpoint fields (word : list N) (s : list N) : list (list N) :=
  match s with
  | [] => match word with [] => [] | _ => [rev word] end
  | c :: r => if isWSP c then match word with [] => fields [] r | _ => rev word :: fields [] r end else fields (c :: word) r
  end.
(** consumeDisplayNameComment, the parenthesis read *)
Definition consumeDisplayNameComment (s : input) : option input :=
  match consumeComment 0 s with
  | Some (t, z) => if existsb word_error (fields [] t) then None else Some z
  | None => None
  end.

(** parseAddress(false); the text after one address *)
Definition angle (s : input) : option input :=
  match consume 60 s with
  | Some r => match consumeAddrSpec r with Some z => consume 62 z | None => None end
  | None => None
  end.
Definition displayName (s : input) : option input := if peek_is 60 s then Some s else consumePhrase s.
Definition afterSpec (z : input) : option input :=
  let z := skipSpace z in
  match consume 40 z with Some z' => consumeDisplayNameComment z' | None => Some z end.
Definition parseMailbox (s : input) : option input :=
  match skipSpace s with
  | [] => None
  | s =>
      match consumeAddrSpec s with
      | Some z => afterSpec z
      | None => match displayName s with Some z => angle (skipSpace z) | None => None end
      end
  end.
(** The loop of consumeGroupList: the number of addresses and what follows. *)
Fixpoint groupLoop (n : nat) (s : input) : option (nat * input) :=
  match n with
  | O => None
  | S n' =>
      match parseMailbox (skipSpace s) with
      | None => None
      | Some z =>
          match skipCFWS z with
          | None => None
          | Some z =>
              match consume 59 z with
              | Some z' => match skipCFWS z' with Some z2 => Some (1%nat, z2) | None => None end
              | None =>
                  match consume 44 z with
                  | Some z' => match groupLoop n' z' with Some (k, z2) => Some (S k, z2) | None => None end
                  | None => None
                  end
              end
          end
      end
  end.
Definition consumeGroupList (s : input) : option (nat * input) :=
  let s := skipSpace s in
  match consume 59 s with
  | Some z => match skipCFWS z with Some z2 => Some (0%nat, z2) | None => None end
  | None => groupLoop (S (length s)) s
  end.
(** parseAddress(true) *)
Definition parseAddress (s : input) : option (nat * input) :=
  let one (x : option input) := match x with Some z => Some (1%nat, z) | None => None end in
  match skipSpace s with
  | [] => None
  | s =>
      match consumeAddrSpec s with
      | Some z => one (afterSpec z)
      | None =>
          match displayName s with
          | None => None
          | Some z =>
              let z := skipSpace z in
              match consume 58 z with
              | Some z' => consumeGroupList z'
              | None => one (angle z)
              end
          end
      end
  end.
(** mail.ParseAddress: exactly one address, and nothing but comments after it. *)
Definition ParseAddress (s : string) : bool :=
  match parseAddress (runes s) with
  | None => false
  | Some (n, z) =>
      match skipCFWS z with
      | Some [] => Nat.eqb n 1
      | _ => false
      end
  end.
