(** "uri", "uri-reference" and "uri-template" with Go's url.Parse (C35).

    [go_fmt mail regex] takes url.Parse from ModelURL.v.  [split_uri] cuts a text
    into the five components of RFC 3986; [loose_parts] says which components
    url.Parse takes and [uri_reference host] which the RFC allows
    (SpecReference.v). *)
From Verif Require Import ModelFormat SpecFormat FormatProps SpecReference URIFormat.
From Coq Require Import Lia.
Open Scope string_scope.
Open Scope list_scope.

(** Exactly what is accepted, over all strings. *)
Theorem C35_uri_exact : forall mail re s,
  (accepts (go_fmt mail re) "uri-reference" s <-> ~ (exists i, get i s = Some "\"%char) /\ loose_parts (split_uri s)) /\
  (accepts (go_fmt mail re) "uri" s <-> accepts (go_fmt mail re) "uri-reference" s /\ u_scheme (split_uri s) <> None) /\
  (accepts (go_fmt mail re) "uri-template" s <->
   accepts (go_fmt mail re) "uri-reference" s /\ (opaque (split_uri s) \/ closed (percent_decode (u_path (split_uri s))))).
Proof. intros mail re s. exact (conj (go_uri_reference mail re s) (conj (go_uri mail re s) (go_template mail re s))). Qed.
Print Assumptions C35_uri_exact.
(** Every reference of RFC 3986 is accepted, if its host has no
    percent-encoded ASCII character (other than "%25"). *)
Theorem C35_uri_complete : forall mail re s, uri_reference decodable s ->
  accepts (go_fmt mail re) "uri-reference" s /\ (accepts (go_fmt mail re) "uri" s <-> u_scheme (split_uri s) <> None).
Proof. intros mail re s H. pose proof (rfc_accepted mail re s H) as A. split; [exact A|]. rewrite go_uri. tauto. Qed.
Print Assumptions C35_uri_complete.
Definition no_lib (s : string) : bool := false.
Example C35_uri_exact_example :
  checks (FormatCheckers (go_fmt no_lib no_lib)) "uri" ["HTTP://u:p@[::1%25en0]:80/a%20b?q#f"; "urn:%zz"; "http://a:b"; "1x:y"; "/a"; "http://a b"] = [true; true; false; false; false; false] /\
  checks (FormatCheckers (go_fmt no_lib no_lib)) "uri-reference" ["///a"; ":a"; "a%2"; "?%2"; "#%2"; "a b"; "//a@b@c"; "//[a"] = [true; false; false; true; false; true; true; false] /\
  checks (FormatCheckers (go_fmt no_lib no_lib)) "uri-template" ["/{x}"; "/{x"; "urn:{"; "/%7B"; "?{"] = [true; false; true; false; true].
Proof. vm_compute. auto. Qed.
(** A reference with everything the grammar knows. *)
Example C35_uri_complete_example : uri_reference decodable "HTTP://u:p%20@h%C3%A9.org:80/a%20b/;c=1?q=/?#f/?".
Proof.
  exists (Uri (Some "HTTP") (Some "u:p%20@h%C3%A9.org:80") "/a%20b/;c=1" (Some "q=/?") (Some "f/?")). split; [|reflexivity]. unfold uri_parts. cbn [u_scheme u_authority u_path u_query u_frag]. split; [|split; [|split; [|split; [|split]]]].
  - exists "H"%char, "TTP". repeat split. repeat constructor.
  - exists (Some "u:p%20"), "h%C3%A9.org", (Some "80"). split; [reflexivity|]. split; [|split]; [apply made_checked; reflexivity| |repeat constructor].
    split; [left; apply made_checked; reflexivity|]. apply host_unescape_any. discriminate.
  - apply made_checked. reflexivity.
  - right. eexists. reflexivity.
  - apply made_checked. reflexivity.
  - apply made_checked. reflexivity.
Qed.
(** Both inclusions fail without that condition: "http://%41" is a URI and is
    refused, "http:a b" is none and is accepted. *)
Theorem C35_uri_refuted :
  (exists s, uri_reference uri_host s /\ u_scheme (split_uri s) <> None /\ forall mail re, ~ accepts (go_fmt mail re) "uri" s) /\
  (exists s, ~ uri_reference uri_host s /\ forall mail re, accepts (go_fmt mail re) "uri" s).
Proof.
  split.
  - exists "http://%41". split; [|split; [discriminate|intros mail re; vm_compute; discriminate]]. exists (Uri (Some "http") (Some "%41") "" None None). split; [|reflexivity].
    unfold uri_parts. cbn [u_scheme u_authority u_path u_query u_frag]. split; [exists "h"%char, "ttp"; repeat split; repeat constructor|]. split; [|repeat split; auto; constructor].
    exists None, "%41", None. repeat split. left. apply made_checked. reflexivity.
  - exists "http:a b". split; [|intros mail re; reflexivity]. rewrite rfc_split by auto. intros (_ & _ & H & _). change (u_path (split_uri "http:a b")) with "a b" in H. inversion H as [|? ? _ H1|]; subst. inversion H1 as [|? ? H2 _|]; subst. discriminate H2.
Qed.
Print Assumptions C35_uri_refuted.
