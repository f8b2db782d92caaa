(** net/url (Go 1.22) and github.com/xeipuuv/gojsonreference, the libraries
    behind every JsonReference of schemaPool.go, schemaLoader.go, schema.go and
    jsonLoader.go; not part of /repo.  [go_world] is the world whose URL handling
    is theirs. *)
From Verif Require Export ModelLoader.
Open Scope string_scope.
Open Scope list_scope.
Open Scope nat_scope.

(** ** Strings *)
(** strings.Cut(s, c): before and after the first c, and whether there is one. *)
Fixpoint cut (c : ascii) (s : string) : string * string * bool :=
  match s with
  | EmptyString => ("", "", false)
  | String a r => if Ascii.eqb a c then ("", r, true) else let '(x, y, f) := cut c r in (String a x, y, f)
  end.
Fixpoint contains (c : ascii) (s : string) : bool :=
  match s with EmptyString => false | String a r => (Ascii.eqb a c || contains c r)%bool end.
Fixpoint count (c : ascii) (s : string) : nat :=
  match s with EmptyString => 0 | String a r => (if Ascii.eqb a c then 1 else 0) + count c r end.
(** s[:strings.LastIndex(s, c)] and s[strings.LastIndex(s, c)+1:]; None if c does not occur. *)
Fixpoint cut_last (c : ascii) (s : string) : option (string * string) :=
  match s with
  | EmptyString => None
  | String a r =>
      match cut_last c r with
      | Some (x, y) => Some (String a x, y)
      | None => if Ascii.eqb a c then Some ("", r) else None
      end
  end.
Definition has_prefix (p s : string) : bool := String.prefix p s.
Fixpoint all_chars (f : ascii -> bool) (s : string) : bool :=
  match s with EmptyString => true | String a r => (f a && all_chars f r)%bool end.
Definition code (c : ascii) : nat := nat_of_ascii c.
Definition range (a b c : ascii) : bool := (Nat.leb (code a) (code c) && Nat.leb (code c) (code b))%bool.
Definition lower_letter (c : ascii) : bool := range "a" "z" c.
Definition upper_letter (c : ascii) : bool := range "A" "Z" c.
Definition letter (c : ascii) : bool := (lower_letter c || upper_letter c)%bool.
Definition decimal (c : ascii) : bool := range "0" "9" c.
Fixpoint one_of (l : string) (c : ascii) : bool :=
  match l with EmptyString => false | String a r => (Ascii.eqb a c || one_of r c)%bool end.
(** strings.ToLower on ASCII. *)
Definition to_lower (c : ascii) : ascii := if upper_letter c then ascii_of_nat (code c + 32) else c.
Fixpoint lower (s : string) : string := match s with EmptyString => "" | String a r => String (to_lower a) (lower r) end.

(** ** Escaping *)
Inductive encoding := encodePath | encodeUserPassword | encodeHost | encodeZone | encodeFragment | encodeQueryComponent.
Definition host_mode (m : encoding) : bool := match m with encodeHost | encodeZone => true | _ => false end.
(** url.shouldEscape *)
Definition shouldEscape (c : ascii) (mode : encoding) : bool :=
  if (letter c || decimal c)%bool then false
  else if (host_mode mode && one_of "!$&'()*+,;=:[]<>""" c)%bool then false
  else if one_of "-_.~" c then false
  else if one_of "$&+,/:;=?@" c then
    match mode with
    | encodePath => Ascii.eqb c "?"
    | encodeUserPassword => one_of "@/?:" c
    | encodeQueryComponent => true
    | encodeFragment => false
    | _ => true
    end
  else match mode with encodeFragment => negb (one_of "!()*" c) | _ => true end.
Definition is_hex_digit (c : ascii) : bool := (decimal c || range "a" "f" c || range "A" "F" c)%bool.
Definition unhex (c : ascii) : nat :=
  if decimal c then code c - 48 else if range "a" "f" c then code c - 87 else code c - 55.
Definition upperhex (n : nat) : ascii := ascii_of_nat (if Nat.ltb n 10 then 48 + n else 55 + n).
(** url.escape; a space becomes "+" in a query component (not used here). *)
Fixpoint escape (s : string) (mode : encoding) : string :=
  match s with
  | EmptyString => ""
  | String c r =>
      if shouldEscape c mode then String "%" (String (upperhex (code c / 16)) (String (upperhex (code c mod 16)) (escape r mode)))
      else String c (escape r mode)
  end.
(** url.unescape; None: EscapeError or InvalidHostError. *)
Fixpoint unescape (s : string) (mode : encoding) : option string :=
  match s with
  | EmptyString => Some ""
  | String "%" r =>
      match r with
      | String a (String b r') =>
          if negb (is_hex_digit a && is_hex_digit b) then None
          else
            let v := ascii_of_nat (unhex a * 16 + unhex b) in
            let percent := (Ascii.eqb a "2" && Ascii.eqb b "5")%bool in
            if match mode with
               | encodeHost => (Nat.ltb (unhex a) 8 && negb percent)%bool
               | encodeZone => (negb percent && negb (Ascii.eqb v " ") && shouldEscape v encodeHost)%bool
               | _ => false
               end then None
            else match unescape r' mode with Some t => Some (String v t) | None => None end
      | _ => None
      end
  | String c r =>
      if (host_mode mode && Nat.ltb (code c) 128 && shouldEscape c mode)%bool then None
      else match unescape r mode with
           | Some t => Some (String (match mode with encodeQueryComponent => if Ascii.eqb c "+" then " "%char else c | _ => c end) t)
           | None => None
           end
  end.
(** url.validEncoded *)
Definition validEncoded (s : string) (mode : encoding) : bool :=
  all_chars (fun c => one_of "!$&'()*+,;=:@[]%" c || negb (shouldEscape c mode))%bool s.

(** ** url.URL *)
Record userinfo := User { username : string; password : string; passwordSet : bool }.
Record url := Url {
  Scheme : string; Opaque : string; UserInfo : option userinfo; Host : string; Path : string; RawPath : string;
  OmitHost : bool; ForceQuery : bool; RawQuery : string; Fragment : string; RawFragment : string
}.
(** URL.setPath: Path and RawPath. *)
Definition setPath (p : string) : option (string * string) :=
  match unescape p encodePath with
  | None => None
  | Some path => Some (path, if String.eqb p (escape path encodePath) then "" else p)
  end.
Definition with_path (u : url) (p : string * string) : url :=
  Url (Scheme u) (Opaque u) (UserInfo u) (Host u) (fst p) (snd p) (OmitHost u) (ForceQuery u) (RawQuery u) (Fragment u) (RawFragment u).
(** URL.setFragment *)
Definition setFragment (f : string) : option (string * string) :=
  match unescape f encodeFragment with
  | None => None
  | Some frag => Some (frag, if String.eqb f (escape frag encodeFragment) then "" else f)
  end.
Definition with_fragment (u : url) (f : string * string) : url :=
  Url (Scheme u) (Opaque u) (UserInfo u) (Host u) (Path u) (RawPath u) (OmitHost u) (ForceQuery u) (RawQuery u) (fst f) (snd f).
(** URL.EscapedPath, URL.EscapedFragment *)
Definition raw_ok (raw decoded : string) (mode : encoding) : bool :=
  (negb (String.eqb raw "") && validEncoded raw mode &&
   match unescape raw mode with Some x => String.eqb x decoded | None => false end)%bool.
Definition EscapedPath (u : url) : string :=
  if raw_ok (RawPath u) (Path u) encodePath then RawPath u
  else if String.eqb (Path u) "*" then "*" else escape (Path u) encodePath.
Definition EscapedFragment (u : url) : string :=
  if raw_ok (RawFragment u) (Fragment u) encodeFragment then RawFragment u else escape (Fragment u) encodeFragment.
(** Userinfo.String *)
Definition Userinfo_String (i : userinfo) : string :=
  if (negb (String.eqb (username i) "") || negb (String.eqb (password i) ""))%bool
  then append (escape (username i) encodeUserPassword) (if passwordSet i then append ":" (escape (password i) encodeUserPassword) else "")
  else "".

(** URL.String *)
Definition URL_String (u : url) : string :=
  let head := if String.eqb (Scheme u) "" then "" else append (Scheme u) ":" in
  let body :=
    if negb (String.eqb (Opaque u) "") then append head (Opaque u)
    else
      let head :=
        if (negb (String.eqb (Scheme u) "") || negb (String.eqb (Host u) "") || match UserInfo u with Some _ => true | None => false end)%bool then
          if (OmitHost u && String.eqb (Host u) "" && match UserInfo u with Some _ => false | None => true end)%bool then head
          else
            append head (append
              (if (negb (String.eqb (Host u) "") || negb (String.eqb (Path u) "") || match UserInfo u with Some _ => true | None => false end)%bool then "//" else "")
              (append (match UserInfo u with Some i => append (Userinfo_String i) "@" | None => "" end)
                      (if String.eqb (Host u) "" then "" else escape (Host u) encodeHost)))
        else head in
      let path := EscapedPath u in
      let head := if (negb (String.eqb path "") && negb (has_prefix "/" path) && negb (String.eqb (Host u) ""))%bool then append head "/" else head in
      let head := if (String.eqb head "" && contains ":" (fst (fst (cut "/" path))))%bool then "./" else head in
      append head path in
  append body (append (if (ForceQuery u || negb (String.eqb (RawQuery u) ""))%bool then append "?" (RawQuery u) else "")
                      (if String.eqb (Fragment u) "" then "" else append "#" (EscapedFragment u))).

(** ** Parsing *)
(** url.getScheme: the scheme and the rest; None: missing protocol scheme. *)
Fixpoint scheme_rest (first : bool) (s : string) : option (option (string * string)) :=
  match s with
  | EmptyString => Some None
  | String c r =>
      if (letter c || (negb first && (decimal c || one_of "+-." c)))%bool then
        match scheme_rest false r with
        | Some (Some (x, y)) => Some (Some (String c x, y))
        | e => e
        end
      else if Ascii.eqb c ":" then if first then None else Some (Some ("", r))
      else Some None
  end.
Definition getScheme (s : string) : option (string * string) :=
  match scheme_rest true s with
  | None => None
  | Some None => Some ("", s)
  | Some (Some x) => Some x
  end.
(** url.validOptionalPort *)
Definition validOptionalPort (port : string) : bool :=
  match port with
  | EmptyString => true
  | String c r => (Ascii.eqb c ":" && all_chars decimal r)%bool
  end.
Fixpoint find_25 (s : string) : option (string * string) :=
  if has_prefix "%25" s then Some ("", s)
  else match s with
       | EmptyString => None
       | String c r => match find_25 r with Some (x, y) => Some (String c x, y) | None => None end
       end.
(** url.parseHost *)
Definition parseHost (host : string) : option string :=
  if has_prefix "[" host then
    match cut_last "]" host with
    | None => None
    | Some (addr, port) =>
        if negb (validOptionalPort port) then None
        else match find_25 addr with
             | Some (h1, h2) =>
                 match unescape h1 encodeHost, unescape h2 encodeZone, unescape (String "]" port) encodeHost with
                 | Some a, Some b, Some c => Some (append a (append b c))
                 | _, _, _ => None
                 end
             | None => unescape host encodeHost
             end
    end
  else match cut_last ":" host with
       | Some (_, port) => if all_chars decimal port then unescape host encodeHost else None
       | None => unescape host encodeHost
       end.
(** url.validUserinfo *)
Definition validUserinfo (s : string) : bool := all_chars (fun c => letter c || decimal c || one_of "-._:~!$&'()*+,;=%@" c)%bool s.
(** url.parseAuthority *)
Definition parseAuthority (a : string) : option (option userinfo * string) :=
  match cut_last "@" a with
  | None => match parseHost a with Some h => Some (None, h) | None => None end
  | Some (info, host) =>
      match parseHost host with
      | None => None
      | Some h =>
          if negb (validUserinfo info) then None
          else
            let '(n, p, colon) := cut ":" info in
            if colon then
              match unescape n encodeUserPassword, unescape p encodeUserPassword with
              | Some n, Some p => Some (Some (User n p true), h)
              | _, _ => None
              end
            else match unescape info encodeUserPassword with Some n => Some (Some (User n "" false), h) | None => None end
      end
  end.
Definition control (c : ascii) : bool := (Nat.ltb (code c) 32 || Nat.eqb (code c) 127)%bool.
Definition ends_with_mark (s : string) : bool := match cut_last "?" s with Some (_, y) => String.eqb y "" | None => false end.
(** url.parse (viaRequest false) *)
Definition parse_nofrag (s : string) : option url :=
  if negb (all_chars (fun c => negb (control c)) s) then None
  else if String.eqb s "*" then Some (Url "" "" None "" "*" "" false false "" "" "")
  else
    match getScheme s with
    | None => None
    | Some (scheme, rest) =>
        let scheme := lower scheme in
        let '(rest, query, force) :=
          if (ends_with_mark rest && Nat.eqb (count "?" rest) 1)%bool then (fst (fst (cut "?" rest)), "", true)
          else (fst (fst (cut "?" rest)), snd (fst (cut "?" rest)), false) in
        let finish user host omit rest :=
          match setPath rest with
          | None => None
          | Some p => Some (Url scheme "" user host (fst p) (snd p) omit force query "" "")
          end in
        if has_prefix "/" rest then
          if ((negb (String.eqb scheme "") || negb (has_prefix "///" rest)) && has_prefix "//" rest)%bool then
            match rest with
            | String _ (String _ r) =>
                let '(auth, after, slash) := cut "/" r in
                match parseAuthority auth with
                | None => None
                | Some (user, host) => finish user host false (if slash then String "/" after else "")
                end
            | _ => None
            end
          else finish None "" (negb (String.eqb scheme "")) rest
        else if negb (String.eqb scheme "") then Some (Url scheme rest None "" "" "" false force query "" "")
        else if contains ":" (fst (fst (cut "/" rest))) then None
        else finish None "" false rest
    end.
(** url.Parse *)
Definition URL_Parse (s : string) : option url :=
  let '(u, frag, _) := cut "#" s in
  match parse_nofrag u with
  | None => None
  | Some x =>
      if String.eqb frag "" then Some x
      else match setFragment frag with Some f => Some (with_fragment x f) | None => None end
  end.

(** ** Resolution *)
(** strings.Split at "/"; never empty. *)
Fixpoint segments (s : string) : string * list string :=
  match s with
  | EmptyString => ("", [])
  | String c r => let '(h, t) := segments r in if Ascii.eqb c "/" then ("", h :: t) else (String c h, t)
  end.
(** One turn of the loop of url.resolvePath: dst without its leading "/", and [first]. *)
Definition put_segment (st : string * bool) (e : string) : string * bool :=
  let '(t, first) := st in
  if String.eqb e "." then (t, false)
  else if String.eqb e ".." then match cut_last "/" t with None => ("", true) | Some (x, _) => (x, first) end
  else (if first then append t e else append t (String "/" e), false).
(** url.resolvePath *)
Definition resolvePath (base ref : string) : string :=
  let full :=
    if String.eqb ref "" then base
    else if has_prefix "/" ref then ref
    else append (match cut_last "/" base with Some (x, _) => append x "/" | None => "" end) ref in
  if String.eqb full "" then ""
  else
    let '(h, l) := segments full in
    let '(t, _) := fold_left put_segment (h :: l) ("", true) in
    let e := last l h in
    let t := if (String.eqb e "." || String.eqb e "..")%bool then append t "/" else t in
    if has_prefix "/" t then t else String "/" t.
(** URL.ResolveReference; errors of setPath leave the path as it was. *)
Definition set_path (u : url) (p : string) : url := match setPath p with Some x => with_path u x | None => u end.
Definition ResolveReference (u ref : url) : url :=
  let scheme := if String.eqb (Scheme ref) "" then Scheme u else Scheme ref in
  if (negb (String.eqb (Scheme ref) "") || negb (String.eqb (Host ref) "") || match UserInfo ref with Some _ => true | None => false end)%bool then
    set_path (Url scheme (Opaque ref) (UserInfo ref) (Host ref) (Path ref) (RawPath ref) (OmitHost ref) (ForceQuery ref) (RawQuery ref) (Fragment ref) (RawFragment ref))
             (resolvePath (EscapedPath ref) "")
  else if negb (String.eqb (Opaque ref) "") then
    Url scheme (Opaque ref) None "" "" (RawPath ref) (OmitHost ref) (ForceQuery ref) (RawQuery ref) (Fragment ref) (RawFragment ref)
  else
    let bare := (String.eqb (Path ref) "" && negb (ForceQuery ref) && String.eqb (RawQuery ref) "")%bool in
    let query := if bare then RawQuery u else RawQuery ref in
    let frag := if (bare && String.eqb (Fragment ref) "")%bool then (Fragment u, RawFragment u) else (Fragment ref, RawFragment ref) in
    set_path (Url scheme "" (UserInfo u) (Host u) (Path ref) (RawPath ref) (OmitHost ref) (ForceQuery ref) query (fst frag) (snd frag))
             (resolvePath (EscapedPath u) (EscapedPath ref)).

(** ** gojsonreference *)
(** NewJsonReference, as its String() *)
Definition ref_parse (s : string) : option string := match URL_Parse s with Some u => Some (URL_String u) | None => None end.
Definition no_fragment (u : url) : url :=
  Url (Scheme u) (Opaque u) (UserInfo u) (Host u) (Path u) (RawPath u) (OmitHost u) (ForceQuery u) (RawQuery u) "" (RawFragment u).
(** JsonReference.Inherits: the fragment of the parent is cleared, the child is
    resolved against it, the result printed and parsed again. *)
Definition ref_inherits (parent child : string) : option string :=
  match URL_Parse parent, URL_Parse child with
  | Some p, Some c => ref_parse (URL_String (ResolveReference (no_fragment p) c))
  | _, _ => None
  end.
(** refToURL.GetUrl().Fragment = "" *)
Definition ref_strip (r : string) : string := match URL_Parse r with Some u => URL_String (no_fragment u) | None => r end.
Definition ref_fragment (r : string) : string := match URL_Parse r with Some u => Fragment u | None => "" end.
(** JsonReference.IsCanonical *)
Definition ref_canonical (r : string) : bool :=
  match URL_Parse r with
  | Some u => if String.eqb (Scheme u) "file" then has_prefix "/" (Path u)
              else (negb (String.eqb (Scheme u) "") && negb (String.eqb (Host u) ""))%bool
  | None => false
  end.
(** The file name of a file URL, jsonLoader.go:146-149 (not on Windows). *)
Definition trim_file (r : string) : string := match strip_prefix "file://" r with Some p => p | None => r end.
Definition ref_file (r : string) : option (option string) :=
  match URL_Parse r with
  | Some u => if String.eqb (Scheme u) "file" then Some (unescape (trim_file r) encodeQueryComponent) else None
  | None => None
  end.
Definition go_world (go : goenv) (fs : nat -> string -> option string) (http : string -> option string) (rest : string -> string) : world :=
  World go ref_parse ref_inherits ref_strip ref_fragment ref_canonical ref_file fs http rest.
