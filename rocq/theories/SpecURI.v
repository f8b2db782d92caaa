(** RFC 3986: splitting a reference into its components (appendix B), resolving
    it against a base (section 5.2) and writing the components down again
    (section 5.3).  Nothing here comes from the model. *)
From Coq Require Export String Ascii List Bool Arith.
Export ListNotations.
Open Scope string_scope.
Open Scope list_scope.

(** A reference, component by component; None: undefined. *)
Record uri := Uri { u_scheme : option string; u_authority : option string; u_path : string; u_query : option string; u_frag : option string }.

Fixpoint none_of (l : string) (c : ascii) : bool := match l with EmptyString => true | String a r => (negb (Ascii.eqb a c) && none_of r c)%bool end.
(** The longest prefix of characters from f, and the rest. *)
Fixpoint span (f : ascii -> bool) (s : string) : string * string :=
  match s with
  | EmptyString => ("", "")
  | String c r => if f c then let '(x, y) := span f r in (String c x, y) else ("", s)
  end.
(** What follows p in s, if s begins with p. *)
Fixpoint after (p s : string) : option string :=
  match p, s with
  | EmptyString, _ => Some s
  | String a p', String b s' => if Ascii.eqb a b then after p' s' else None
  | _, _ => None
  end.

(** Appendix B: ^(([^:/?#]+):)?(//([^/?#]* ))?([^?#]* )(\?([^#]* ))?(#(.* ))? *)
Definition split_scheme (s : string) : option string * string :=
  let '(x, r) := span (none_of ":/?#") s in
  match x, after ":" r with
  | EmptyString, _ | _, None => (None, s)
  | _, Some r' => (Some x, r')
  end.
Definition split_authority (s : string) : option string * string :=
  match after "//" s with
  | Some r => let '(a, r') := span (none_of "/?#") r in (Some a, r')
  | None => (None, s)
  end.
Definition split_query (s : string) : option string * string :=
  match after "?" s with
  | Some r => let '(q, r') := span (none_of "#") r in (Some q, r')
  | None => (None, s)
  end.
Definition split_uri (s : string) : uri :=
  let '(sc, s) := split_scheme s in
  let '(au, s) := split_authority s in
  let '(p, s) := span (none_of "?#") s in
  let '(q, s) := split_query s in
  Uri sc au p q (after "#" s).

(** Section 5.3 *)
Definition recompose (u : uri) : string :=
  append (match u_scheme u with Some s => append s ":" | None => "" end)
    (append (match u_authority u with Some a => append "//" a | None => "" end)
      (append (u_path u)
        (append (match u_query u with Some q => append "?" q | None => "" end)
                (match u_frag u with Some f => append "#" f | None => "" end)))).

(** Section 5.2.4: the input and the output buffer, step by step. *)
Fixpoint slashed (s : string) : bool := match s with EmptyString => false | String c r => (Ascii.eqb c "/" || slashed r)%bool end.
(** The output without its last segment and the "/" before it, if any. *)
Fixpoint drop_last (s : string) : string := match s with EmptyString => "" | String c r => if slashed r then String c (drop_last r) else "" end.
Definition first_segment (s : string) : string * string :=
  match s with
  | EmptyString => ("", "")
  | String c r => let '(x, y) := span (none_of "/") r in (String c x, y)
  end.
Fixpoint remove_dots (n : nat) (input output : string) : string :=
  match n with
  | O => output
  | S n =>
      match input with
      | EmptyString => output
      | _ =>
          match after "../" input, after "./" input, after "/./" input, after "/../" input with
          | Some r, _, _, _ => remove_dots n r output
          | _, Some r, _, _ => remove_dots n r output
          | _, _, Some r, _ => remove_dots n (String "/" r) output
          | _, _, _, Some r => remove_dots n (String "/" r) (drop_last output)
          | _, _, _, _ =>
              if String.eqb input "/." then remove_dots n "/" output
              else if String.eqb input "/.." then remove_dots n "/" (drop_last output)
              else if (String.eqb input "." || String.eqb input "..")%bool then remove_dots n "" output
              else let '(x, y) := first_segment input in remove_dots n y (append output x)
          end
      end
  end.
(** Every step makes the input shorter. *)
Definition remove_dot_segments (p : string) : string := remove_dots (S (String.length p)) p "".

(** Section 5.2.3 *)
Fixpoint directory (s : string) : string := match s with EmptyString => "" | String c r => if slashed s then String c (directory r) else "" end.
Definition merge (base : uri) (p : string) : string :=
  match u_authority base, u_path base with
  | Some _, EmptyString => String "/" p
  | _, q => append (directory q) p
  end.
(** Section 5.2.2 *)
Definition transform (base r : uri) : uri :=
  match u_scheme r with
  | Some _ => Uri (u_scheme r) (u_authority r) (remove_dot_segments (u_path r)) (u_query r) (u_frag r)
  | None =>
      match u_authority r with
      | Some _ => Uri (u_scheme base) (u_authority r) (remove_dot_segments (u_path r)) (u_query r) (u_frag r)
      | None =>
          match u_path r with
          | EmptyString => Uri (u_scheme base) (u_authority base) (u_path base) (match u_query r with Some q => Some q | None => u_query base end) (u_frag r)
          | String "/" _ => Uri (u_scheme base) (u_authority base) (remove_dot_segments (u_path r)) (u_query r) (u_frag r)
          | _ => Uri (u_scheme base) (u_authority base) (remove_dot_segments (merge base (u_path r))) (u_query r) (u_frag r)
          end
      end
  end.
Definition rfc_resolve (base r : string) : string := recompose (transform (split_uri base) (split_uri r)).

(** The grammar (appendix A), as far as it is used below. *)
Definition between (a b c : ascii) : bool := (Nat.leb (nat_of_ascii a) (nat_of_ascii c) && Nat.leb (nat_of_ascii c) (nat_of_ascii b))%bool.
Fixpoint any_of (l : string) (c : ascii) : bool := match l with EmptyString => false | String a r => (Ascii.eqb a c || any_of r c)%bool end.
Definition lower_alpha := between "a" "z".
Definition alpha (c : ascii) : bool := (between "a" "z" c || between "A" "Z" c)%bool.
Definition numeral := between "0" "9".
Definition hex (c : ascii) : bool := (numeral c || between "a" "f" c || between "A" "F" c)%bool.
Definition unreserved (c : ascii) : bool := (alpha c || numeral c || any_of "-._~" c)%bool.
Definition sub_delim := any_of "!$&'()*+,;=".
Definition pchar (c : ascii) : bool := (unreserved c || sub_delim c || any_of ":@" c)%bool.
(** Characters from f, and percent-encoded octets. *)
Inductive made_of (f : ascii -> bool) : string -> Prop :=
| made_nil : made_of f ""
| made_char c s : f c = true -> made_of f s -> made_of f (String c s)
| made_octet a b s : hex a = true -> hex b = true -> made_of f s -> made_of f (String "%" (String a (String b s))).
Inductive each (f : ascii -> bool) : string -> Prop :=
| each_nil : each f ""
| each_char c s : f c = true -> each f s -> each f (String c s).
(** scheme = ALPHA *( ALPHA / DIGIT / "+" / "-" / "." ), in lower case. *)
Definition a_scheme (s : string) : Prop := exists c r, s = String c r /\ lower_alpha c = true /\ each (fun c => lower_alpha c || numeral c || any_of "+-." c)%bool r.
(** host [ ":" port ], a registered name of unreserved characters (or an IPv4 address). *)
Definition an_authority (a : string) : Prop := exists h, each unreserved h /\ (a = h \/ exists p, each numeral p /\ a = append h (String ":" p)).
(** Segments of pchars between slashes, none empty except at the ends. *)
Definition slash_or (f : ascii -> bool) (c : ascii) : bool := (f c || Ascii.eqb c "/")%bool.
Definition a_path (p : string) : Prop := made_of (slash_or pchar) p /\ forall x y, p <> append x (String "/" (String "/" y)).
Definition query_char (c : ascii) : bool := (pchar c || any_of "/?" c)%bool.
Definition begins_slash (p : string) : Prop := exists r, p = String "/" r.
(** Common references.  Left out: user information and IPv6 hosts, upper case
    in schemes, opaque references ("urn:x"), "file:" without "//", "//" in
    paths, empty queries and fragments, the paths "*" and "%2A". *)
Definition common_parts (u : uri) : Prop :=
  match u_scheme u with None => True | Some s => a_scheme s end /\
  match u_authority u with None => u_scheme u = None | Some a => an_authority a /\ (a = "" -> u_scheme u <> None /\ u_path u <> "") end /\
  a_path (u_path u) /\ u_path u <> "*" /\ u_path u <> "%2A" /\ u_path u <> "%2a" /\
  match u_authority u with
  | Some _ => u_path u = "" \/ begins_slash (u_path u)
  | None => forall x y, u_path u = append x (String ":" y) -> slashed x = true
  end /\
  match u_query u with None => True | Some q => q <> "" /\ made_of query_char q end /\
  match u_frag u with None => True | Some f => f <> "" /\ made_of query_char f end.
Definition common_ref (s : string) : Prop := exists u, common_parts u /\ s = recompose u.
(** Without "." and ".." segments. *)
Definition dotless (p : string) : Prop := remove_dot_segments p = p.
(** Percent-decoding (section 2.1). *)
Definition hex_value (c : ascii) : nat := nat_of_ascii c - (if numeral c then 48 else if between "a" "f" c then 87 else 55).
Fixpoint percent_decode (s : string) : string :=
  match s with
  | EmptyString => ""
  | String c r =>
      if Ascii.eqb c "%" then
        match r with
        | String a (String b r') => String (ascii_of_nat (hex_value a * 16 + hex_value b)) (percent_decode r')
        | _ => s
        end
      else String c (percent_decode r)
  end.
Definition without_fragment (u : uri) : uri := Uri (u_scheme u) (u_authority u) (u_path u) (u_query u) None.
