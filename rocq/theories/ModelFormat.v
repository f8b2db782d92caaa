(** format_checkers.go: the registry of formats and the built-in checkers.
    The libraries behind them are modelled as of Go 1.22:
    - regexp: the language of the five regular expressions of this file, over
      bytes (every class that accepts a non-ASCII rune stands under a star and
      excludes ASCII characters only, so bytes and runes agree);
    - time.Parse for the layouts used here;
    - net.ParseIP;
    net/mail, url.Parse and regexp.Compile are parameters ([fmtenv]). *)
From Verif Require Export ModelValidate.
Open Scope string_scope.
Open Scope list_scope.
Open Scope nat_scope.

(** ** Regular expressions *)
Inductive re :=
| RNone
| REps
| RSet (f : ascii -> bool)
| RSeq (a b : re)
| RAlt (a b : re)
| RStar (a : re).
Fixpoint nullable (r : re) : bool :=
  match r with
  | RNone => false | REps => true | RSet _ => false
  | RSeq a b => (nullable a && nullable b)%bool
  | RAlt a b => (nullable a || nullable b)%bool
  | RStar _ => true
  end.
Definition seq (a b : re) : re :=
  match a, b with RNone, _ => RNone | _, RNone => RNone | REps, _ => b | _, REps => a | _, _ => RSeq a b end.
Definition alt (a b : re) : re := match a, b with RNone, _ => b | _, RNone => a | _, _ => RAlt a b end.
(** What must follow c. *)
Fixpoint deriv (c : ascii) (r : re) : re :=
  match r with
  | RNone | REps => RNone
  | RSet f => if f c then REps else RNone
  | RSeq a b => if nullable a then alt (seq (deriv c a) b) (deriv c b) else seq (deriv c a) b
  | RAlt a b => alt (deriv c a) (deriv c b)
  | RStar a => seq (deriv c a) (RStar a)
  end.
(** MatchString of ^r$. *)
Fixpoint rx (r : re) (s : string) : bool :=
  match s with EmptyString => nullable r | String c s' => rx (deriv c r) s' end.

Definition is (c : ascii) : re := RSet (Ascii.eqb c).
Fixpoint rtimes (n : nat) (r : re) : re := match n with O => REps | S n' => RSeq r (rtimes n' r) end.
(** r{0,n} *)
Fixpoint rupto (n : nat) (r : re) : re := match n with O => REps | S n' => RAlt REps (RSeq r (rupto n' r)) end.
Definition between (a b c : ascii) : bool := (Nat.leb (nat_of_ascii a) (nat_of_ascii c) && Nat.leb (nat_of_ascii c) (nat_of_ascii b))%bool.
Definition is_digit (c : ascii) : bool := between "0" "9" c.
Definition is_alnum (c : ascii) : bool := (between "a" "z" c || between "A" "Z" c || is_digit c)%bool.
Definition is_hex (c : ascii) : bool := (between "a" "f" c || between "A" "F" c || is_digit c)%bool.

(** rxHostname, format_checkers.go:133. *)
Definition host_label : re :=
  RAlt (RSet is_alnum) (RSeq (RSet is_alnum) (RSeq (rupto 61 (RSet (fun c => is_alnum c || Ascii.eqb c "-")%bool)) (RSet is_alnum))).
Definition rxHostname : re := RSeq host_label (RStar (RSeq (is ".") host_label)).
(** rxURITemplate, format_checkers.go:136. *)
Definition rxURITemplate : re :=
  RStar (RSeq (RStar (RSet (fun c => negb (Ascii.eqb c "{"))))
              (RAlt REps (RSeq (is "{") (RSeq (RStar (RSet (fun c => negb (Ascii.eqb c "}")))) (is "}"))))).
(** rxUUID, format_checkers.go:138; (?i). *)
Definition rxUUID : re :=
  let h := rtimes 4 (RSet is_hex) in
  RSeq (rtimes 8 (RSet is_hex)) (RSeq (is "-") (RSeq h (RSeq (is "-") (RSeq h (RSeq (is "-") (RSeq h (RSeq (is "-") (rtimes 12 (RSet is_hex))))))))).
(** rxJSONPointer, rxRelJSONPointer, format_checkers.go:140-142. *)
Definition rxJSONPointer : re :=
  RStar (RSeq (is "/") (RStar (RAlt (RSet (fun c => negb (Ascii.eqb c "~" || Ascii.eqb c "/")))
                                    (RAlt (RSeq (is "~") (is "0")) (RSeq (is "~") (is "1")))))).
Definition rxRelJSONPointer : re :=
  RSeq (RAlt (is "0") (RSeq (RSet (between "1" "9")) (RStar (RSet is_digit)))) (RAlt (is "#") rxJSONPointer).

(** ** time.Parse (time/format.go) *)
Inductive chunk := KLit (c : ascii) | KYear | KMonth | KDay | KHour | KMinute | KSecond | KFrac | KZone.
Definition digit_val (c : ascii) : nat := nat_of_ascii c - 48.
(** getnum *)
Definition getnum (fixed : bool) (s : string) : option (nat * string) :=
  match s with
  | String a s1 =>
      if is_digit a then
        match s1 with
        | String b s2 => if is_digit b then Some (digit_val a * 10 + digit_val b, s2)
                         else if fixed then None else Some (digit_val a, s1)
        | EmptyString => if fixed then None else Some (digit_val a, s1)
        end
      else None
  | EmptyString => None
  end.
Fixpoint skip_digits (s : string) : string :=
  match s with String c s' => if is_digit c then skip_digits s' else s | EmptyString => s end.
(** An optional fraction of a second: "." or "," and digits. *)
Definition skip_frac (s : string) : string :=
  match s with
  | String c (String d s') => if ((Ascii.eqb c "." || Ascii.eqb c ",") && is_digit d)%bool then skip_digits s' else s
  | _ => s
  end.
Fixpoint next_std (l : list chunk) : option chunk :=
  match l with [] => None | KLit _ :: l' => next_std l' | k :: _ => Some k end.
(** "Z", or a sign, two digits, ":" and two digits. *)
Definition skip_zone (s : string) : option string :=
  match s with
  | String "Z" s' => Some s'
  | String g (String a (String b (String c (String d (String e s'))))) =>
      if ((Ascii.eqb g "+" || Ascii.eqb g "-") && is_digit a && is_digit b && Ascii.eqb c ":" && is_digit d && is_digit e)%bool then
        if (Nat.leb (digit_val a * 10 + digit_val b) 24 && Nat.leb (digit_val d * 10 + digit_val e) 60)%bool then Some s' else None
      else None
  | _ => None
  end.
Definition is_leap (y : nat) : bool :=
  (Nat.eqb (y mod 4) 0 && (negb (Nat.eqb (y mod 100) 0) || Nat.eqb (y mod 400) 0))%bool.
Definition daysIn (m y : nat) : nat :=
  if Nat.eqb m 2 then (if is_leap y then 29 else 28)
  else if (Nat.eqb m 4 || Nat.eqb m 6 || Nat.eqb m 9 || Nat.eqb m 11)%bool then 30 else 31.
(** The layout is followed chunk by chunk; year, month and day are looked at
    again at the end. *)
Fixpoint tparse (l : list chunk) (y m d : nat) (s : string) : bool :=
  match l with
  | [] => match s with EmptyString => (Nat.leb 1 d && Nat.leb d (daysIn m y))%bool | _ => false end
  | KLit c :: l' => match s with String a s' => if Ascii.eqb a c then tparse l' y m d s' else false | _ => false end
  | KYear :: l' =>
      match s with
      | String a (String b (String c (String e s'))) =>
          if (is_digit a && is_digit b && is_digit c && is_digit e)%bool
          then tparse l' (digit_val a * 1000 + digit_val b * 100 + digit_val c * 10 + digit_val e) m d s' else false
      | _ => false
      end
  | KMonth :: l' =>
      match getnum true s with Some (n, s') => if (Nat.leb 1 n && Nat.leb n 12)%bool then tparse l' y n d s' else false | None => false end
  | KDay :: l' => match getnum true s with Some (n, s') => tparse l' y m n s' | None => false end
  | KHour :: l' => match getnum false s with Some (n, s') => if Nat.ltb n 24 then tparse l' y m d s' else false | None => false end
  | KMinute :: l' => match getnum true s with Some (n, s') => if Nat.ltb n 60 then tparse l' y m d s' else false | None => false end
  | KSecond :: l' =>
      match getnum true s with
      | Some (n, s') =>
          if Nat.ltb n 60 then
            (** the special case for a fraction the layout does not ask for *)
            tparse l' y m d (match next_std l' with Some KFrac => s' | _ => skip_frac s' end)
          else false
      | None => false
      end
  | KFrac :: l' => tparse l' y m d (skip_frac s)
  | KZone :: l' => match skip_zone s with Some s' => tparse l' y m d s' | None => false end
  end.
Definition time_Parse (l : list chunk) (s : string) : bool := tparse l 0 1 1 s.
(** "15:04:05", "2006-01-02" and "Z07:00". *)
Definition CLOCK : list chunk := [KHour; KLit ":"; KMinute; KLit ":"; KSecond].
Definition DATE : list chunk := [KYear; KLit "-"; KMonth; KLit "-"; KDay].
Definition RFC3339 : list chunk := DATE ++ KLit "T" :: CLOCK ++ [KZone].
Definition RFC3339Nano : list chunk := DATE ++ KLit "T" :: CLOCK ++ [KFrac; KZone].

(** ** net.ParseIP (netip.ParseAddr, zones refused) *)
(** parseIPv4Fields: [pos] dots so far, [dig] digits of the current field, of
    value [val]. *)
Fixpoint ipv4_fields (pos dig val : nat) (s : string) : bool :=
  match s with
  | EmptyString => Nat.eqb pos 3
  | String c s' =>
      if is_digit c then
        if (Nat.eqb dig 1 && Nat.eqb val 0)%bool then false
        else let val' := val * 10 + digit_val c in
             if Nat.ltb 255 val' then false else ipv4_fields pos (S dig) val' s'
      else if Ascii.eqb c "." then
        match dig, s' with
        | O, _ => false
        | _, EmptyString => false
        | _, _ => if Nat.eqb pos 3 then false else ipv4_fields (S pos) 0 0 s'
        end
      else false
  end.
Definition parseIPv4 (s : string) : bool := ipv4_fields 0 0 0 s.
(** The hexadecimal digits s starts with, and the rest. *)
Fixpoint hex_run (s : string) : nat * string :=
  match s with
  | String c s' => if is_hex c then let '(n, r) := hex_run s' in (S n, r) else (0, s)
  | EmptyString => (0, s)
  end.
Definition ipv6_end (g : nat) (ell : bool) : bool := if Nat.ltb g 8 then ell else negb ell.
(** [n] more groups can be read, [g] have been; [ell]: "::" was seen. *)
Fixpoint ipv6_groups (n g : nat) (ell : bool) (s : string) : bool :=
  match n with
  | O => match s with EmptyString => ipv6_end g ell | _ => false end
  | S n' =>
      let '(k, r) := hex_run s in
      if (Nat.eqb k 0 || Nat.ltb 4 k)%bool then false
      else match r with
           | String "." _ => ((ell || Nat.eqb g 6) && Nat.leb (g + 2) 8 && parseIPv4 s && ipv6_end (g + 2) ell)%bool
           | EmptyString => ipv6_end (S g) ell
           | String ":" (String ":" r') =>
               if ell then false
               else match r' with EmptyString => ipv6_end (S g) true | _ => ipv6_groups n' (S g) true r' end
           | String ":" (String c r') => ipv6_groups n' (S g) ell (String c r')
           | _ => false
           end
  end.
Definition parseIPv6 (s : string) : bool :=
  match s with
  | String ":" (String ":" EmptyString) => true
  | String ":" (String ":" s') => ipv6_groups 8 0 true s'
  | _ => ipv6_groups 8 0 false s
  end.
(** The first "." or ":" decides. *)
Fixpoint has_char (c : ascii) (s : string) : bool :=
  match s with EmptyString => false | String a s' => (Ascii.eqb a c || has_char c s')%bool end.
Fixpoint first_of (s : string) : option ascii :=
  match s with
  | EmptyString => None
  | String c s' => if (Ascii.eqb c "." || Ascii.eqb c ":" || Ascii.eqb c "%")%bool then Some c else first_of s'
  end.
Definition ParseIP (s : string) : bool :=
  match first_of s with
  | Some "."%char => parseIPv4 s
  | Some ":"%char => if has_char "%" s then false else parseIPv6 s
  | _ => false
  end.

(** ** The checkers *)
(** - [f_mail s]: mail.ParseAddress(s) succeeds;
    - [f_url s]: Scheme and Path of url.Parse(s), None on failure;
    - [f_regex s]: regexp.Compile(s) succeeds. *)
Record fmtenv := FmtEnv { f_mail : string -> bool; f_url : string -> option (string * string); f_regex : string -> bool }.
Definition checker := value -> bool.
(** asString, ok := input.(string); if !ok { return true } *)
Definition on_string (f : string -> bool) : checker := fun v => match v with VStr s => f s | _ => true end.
Section Checkers.
  Variable fe : fmtenv.
  (** format_checkers.go:191-199 *)
  Definition EmailFormat : checker := on_string (f_mail fe).
  (** format_checkers.go:202-223 *)
  Definition IPV4Format : checker := on_string (fun s => ParseIP s && has_char "." s)%bool.
  Definition IPV6Format : checker := on_string (fun s => ParseIP s && has_char ":" s)%bool.
  (** format_checkers.go:226-247 *)
  Definition DateTimeFormat : checker := on_string (fun s =>
    existsb (fun l => time_Parse l s) [CLOCK; CLOCK ++ [KZone]; DATE; RFC3339; RFC3339Nano]).
  (** format_checkers.go:250-257 *)
  Definition DateFormat : checker := on_string (time_Parse DATE).
  (** format_checkers.go:260-272 *)
  Definition TimeFormat : checker := on_string (fun s => if time_Parse (CLOCK ++ [KZone]) s then true else time_Parse CLOCK s).
  (** format_checkers.go:275-288 *)
  Definition URIFormat : checker := on_string (fun s =>
    match f_url fe s with
    | None => false
    | Some (scheme, _) => if String.eqb scheme "" then false else negb (has_char "\" s)
    end).
  (** format_checkers.go:291-299 *)
  Definition URIReferenceFormat : checker := on_string (fun s =>
    match f_url fe s with None => false | Some _ => negb (has_char "\" s) end).
  (** format_checkers.go:302-314 *)
  Definition URITemplateFormat : checker := on_string (fun s =>
    match f_url fe s with
    | None => false
    | Some (_, path) => if has_char "\" s then false else rx rxURITemplate path
    end).
  (** format_checkers.go:317-324 *)
  Definition HostnameFormat : checker := on_string (fun s => rx rxHostname s && Nat.ltb (String.length s) 256)%bool.
  (** format_checkers.go:327-334 *)
  Definition UUIDFormat : checker := on_string (rx rxUUID).
  (** format_checkers.go:337-348 *)
  Definition RegexFormat : checker := on_string (fun s => if String.eqb s "" then true else f_regex fe s).
  (** format_checkers.go:351-358 *)
  Definition JSONPointerFormat : checker := on_string (rx rxJSONPointer).
  (** format_checkers.go:361-368 *)
  Definition RelativeJSONPointerFormat : checker := on_string (rx rxRelJSONPointer).

  (** FormatCheckers, format_checkers.go:107-129. *)
  Definition FormatCheckers : list (string * checker) :=
    [("date", DateFormat); ("time", TimeFormat); ("date-time", DateTimeFormat); ("hostname", HostnameFormat);
     ("email", EmailFormat); ("idn-email", EmailFormat); ("ipv4", IPV4Format); ("ipv6", IPV6Format);
     ("uri", URIFormat); ("uri-reference", URIReferenceFormat); ("iri", URIFormat); ("iri-reference", URIReferenceFormat);
     ("uri-template", URITemplateFormat); ("uuid", UUIDFormat); ("regex", RegexFormat);
     ("json-pointer", JSONPointerFormat); ("relative-json-pointer", RelativeJSONPointerFormat)].
End Checkers.

(** ** The registry, format_checkers.go:147-188 *)
Definition registry := list (string * checker).
Definition Add (name : string) (f : checker) (c : registry) : registry := aset name f c.
Definition Remove (name : string) (c : registry) : registry := adel name c.
Definition Has (name : string) (c : registry) : bool := match assoc name c with Some _ => true | None => false end.
Definition IsFormat (c : registry) (name : string) (input : value) : bool :=
  match assoc name c with None => true | Some f => f input end.
