(** RFC 3986, appendix A: all references; and, beside it, the language that
    net/url parses, written over the same components. *)
From Verif Require Export SpecURI.
Open Scope string_scope.
Open Scope list_scope.

(** ** RFC 3986 *)
Definition uri_scheme (s : string) : Prop :=
  exists c r, s = String c r /\ alpha c = true /\ each (fun c => alpha c || numeral c || any_of "+-." c)%bool r.
Definition reg_char (c : ascii) : bool := (unreserved c || sub_delim c)%bool.
Definition user_char (c : ascii) : bool := (reg_char c || Ascii.eqb c ":")%bool.
(** A registered name, an IPv4 address, or a literal in brackets; the literals
    are taken wide (any characters that IPv6address and IPvFuture may have). *)
Definition uri_host (h : string) : Prop := made_of reg_char h \/ exists a, each user_char a /\ h = String "[" (append a "]").
Definition uri_authority (host : string -> Prop) (a : string) : Prop :=
  exists i h p,
    a = append (match i with Some i => append i "@" | None => "" end) (append h (match p with Some p => String ":" p | None => "" end)) /\
    match i with Some i => made_of user_char i | None => True end /\ host h /\ match p with Some p => each numeral p | None => True end.
Definition uri_parts (host : string -> Prop) (u : uri) : Prop :=
  match u_scheme u with None => True | Some s => uri_scheme s end /\
  match u_authority u with None => True | Some a => uri_authority host a end /\
  made_of (slash_or pchar) (u_path u) /\
  match u_authority u with
  | Some _ => u_path u = "" \/ begins_slash (u_path u)
  | None => (forall r, u_path u <> String "/" (String "/" r)) /\
            (u_scheme u = None -> forall x y, u_path u = append x (String ":" y) -> slashed x = true)
  end /\
  match u_query u with None => True | Some q => made_of query_char q end /\
  match u_frag u with None => True | Some f => made_of query_char f end.
Definition uri_reference (host : string -> Prop) (s : string) : Prop := exists u, uri_parts host u /\ s = recompose u.

(** ** What net/url parses *)
(** Characters from f, and percent-encoded octets whose digits are in g. *)
Inductive spelled (f : ascii -> bool) (g : ascii -> ascii -> bool) : string -> Prop :=
| spelled_nil : spelled f g ""
| spelled_char c s : f c = true -> c <> "%"%char -> spelled f g s -> spelled f g (String c s)
| spelled_octet a b s : hex a = true -> hex b = true -> g a b = true -> spelled f g s -> spelled f g (String "%" (String a (String b s))).
Definition anything (c : ascii) : bool := negb (Ascii.eqb c "%").
Definition not_control (c : ascii) : bool := (Nat.leb 32 (nat_of_ascii c) && negb (Nat.eqb (nat_of_ascii c) 127))%bool.
Definition host_punctuation := any_of ":[]<>""".
Definition loose_host_char (c : ascii) : bool := (Nat.leb 128 (nat_of_ascii c) || reg_char c || host_punctuation c)%bool.
Definition percent_25 (a b : ascii) : bool := (Ascii.eqb a "2" && Ascii.eqb b "5")%bool.
Definition high_octet (a b : ascii) : bool := (Nat.leb 8 (hex_value a) || percent_25 a b)%bool.
Definition zone_octet (a b : ascii) : bool :=
  let v := ascii_of_nat (hex_value a * 16 + hex_value b) in (percent_25 a b || Ascii.eqb v " " || reg_char v || host_punctuation v)%bool.
Definition lacks (c : ascii) (s : string) : Prop := forall x y, s <> append x (String c y).
(** A host and its port. *)
Definition loose_host (h : string) : Prop :=
  (~ (exists r, h = String "[" r) /\ spelled loose_host_char high_octet h /\
   forall x p, h = append x (String ":" p) -> lacks ":" p -> each numeral p) \/
  (exists a p, h = String "[" (append a (String "]" p)) /\ (p = "" \/ exists d, p = String ":" d /\ each numeral d) /\
   (((forall x y, a <> append x (append "%25" y)) /\ spelled loose_host_char high_octet a) \/
    (exists x z, a = append x (append "%25" z) /\ (forall v w, x <> append v (append "%25" w)) /\
                 spelled loose_host_char high_octet x /\ spelled loose_host_char zone_octet z))).
Definition loose_authority (a : string) : Prop :=
  (lacks "@" a /\ loose_host a) \/
  (exists i h, a = append i (String "@" h) /\ lacks "@" h /\ made_of (fun c => user_char c || Ascii.eqb c "@")%bool i /\ loose_host h).
(** "scheme:x" where x does not begin with "/" *)
Definition opaque (u : uri) : Prop := u_scheme u <> None /\ u_authority u = None /\ ~ begins_slash (u_path u).
Definition loose_parts (u : uri) : Prop :=
  match u_scheme u with None => True | Some s => uri_scheme s end /\
  match u_authority u with None => True | Some a => loose_authority a end /\
  (u_scheme u = None -> u_authority u = None -> forall r, u_path u <> String ":" r) /\
  each not_control (u_path u) /\ (opaque u \/ made_of anything (u_path u)) /\
  match u_query u with None => True | Some q => each not_control q end /\
  match u_frag u with None => True | Some f => made_of anything f end.
