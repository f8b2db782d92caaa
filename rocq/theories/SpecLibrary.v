(** Specification: what the keywords "pattern", "patternProperties" and "format"
    say about a text, without any library.  Expressions are those in the notation
    ECMA-262 and Go's package regexp share (SpecRegexp.v); formats are the languages
    of SpecFormat.v, SpecReference.v and SpecMail.v. *)
From Coq Require Import List String Ascii NArith.
From Verif Require Import Base Value SpecJson SpecShape.
From Verif Require SpecRegexp SpecFormat SpecURI SpecReference SpecMail.
Import ListNotations.
Open Scope string_scope.

(** The text p is an expression in the shared notation. *)
Definition portable (p : string) : Prop := exists r q, SpecRegexp.disjunction r q /\ text q p.
(** The expression p, in the shared notation, matches a piece of the text s. *)
Definition pattern_says (p s : string) : Prop :=
  exists r q cs, SpecRegexp.disjunction r q /\ text q p /\ text cs s /\ SpecRegexp.found r cs.

(** References as url.Parse takes them, without backslashes. *)
Definition reference (s : string) : Prop :=
  ~ (exists i, get i s = Some "\"%char) /\ SpecReference.loose_parts (SpecURI.split_uri s).
Definition address (s : string) : Prop := exists cps, text cps s /\ SpecMail.mail_address cps.
(** The language of the texts of a format; a name that is none of these has none. *)
Inductive format_language : string -> (string -> Prop) -> Prop :=
| f_date : format_language "date" SpecFormat.full_date
| f_time : format_language "time" (fun s => SpecFormat.lax_clock s \/ SpecFormat.followed SpecFormat.lax_clock SpecFormat.lax_offset s)
| f_date_time : format_language "date-time" (fun s =>
    SpecFormat.lax_clock s \/ SpecFormat.followed SpecFormat.lax_clock SpecFormat.lax_offset s \/ SpecFormat.full_date s \/
    SpecFormat.followed SpecFormat.full_date (SpecFormat.followed (fun t => t = "T") (SpecFormat.followed SpecFormat.lax_clock SpecFormat.lax_offset)) s)
| f_hostname : format_language "hostname" SpecFormat.hostname
| f_email : format_language "email" address
| f_idn_email : format_language "idn-email" address
| f_ipv4 : format_language "ipv4" (fun s => SpecFormat.dotted s \/ (SpecFormat.ipv6 s /\ exists i, get i s = Some "."%char))
| f_ipv6 : format_language "ipv6" SpecFormat.ipv6
| f_uri : format_language "uri" (fun s => reference s /\ SpecURI.u_scheme (SpecURI.split_uri s) <> None)
| f_uri_reference : format_language "uri-reference" reference
| f_iri : format_language "iri" (fun s => reference s /\ SpecURI.u_scheme (SpecURI.split_uri s) <> None)
| f_iri_reference : format_language "iri-reference" reference
| f_uri_template : format_language "uri-template" (fun s => reference s /\
    (SpecReference.opaque (SpecURI.split_uri s) \/ SpecFormat.closed (SpecURI.percent_decode (SpecURI.u_path (SpecURI.split_uri s)))))
| f_uuid : format_language "uuid" SpecFormat.uuid
| f_pointer : format_language "json-pointer" SpecFormat.pointer
| f_relative : format_language "relative-json-pointer" SpecFormat.relative_pointer.
(** A value has the format f: a text is in the language, if f has one. *)
Definition format_says (f : string) (v : value) : Prop :=
  forall L s, format_language f L -> v = VStr s -> L s.

(** The expressions of a schema object are in the shared notation, and it does
    not ask for the format "regex". *)
Definition shared (m : list (string * value)) : Prop :=
  (forall p, assoc "pattern" m = Some (VStr p) -> portable p) /\
  (forall ps p x, assoc "patternProperties" m = Some (VMap ps) -> In (p, x) ps -> portable p) /\
  assoc "format" m <> Some (VStr "regex").

(** A schema without references or identifiers. *)
Definition self_contained (doc : value) : Prop :=
  (forall m k t, inside doc (VMap m) -> In k ["$ref"; "$id"; "id"; "$schema"] -> ~ In (k, VStr t) m) /\
  (forall m, doc = VMap m -> assoc "$schema" m = None).
