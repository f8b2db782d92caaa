(** The registry of formats (C33) and the built-in formats (C35).

    [changes l r]: the registry after the calls l of Add and Remove;
    [untouched name l]: none of them concerns the name; [accepts fe name s]: the
    checker of that name in the registry a program starts with accepts the
    string (FormatProps.v).  The grammars are in SpecFormat.v. *)
From Verif Require Import SpecEqual ValidateEq CheckedLeaf.
From Verif Require Import ModelFormat SpecFormat FormatRegex FormatTime FormatIP FormatProps.
From Coq Require Import Lia.
Open Scope string_scope.
Open Scope list_scope.

(** ** C33 *)
(** After any calls, the last one about a name decides. *)
Theorem C33_added : forall before name f after r, untouched name after ->
  let r' := changes (before ++ CAdd name f :: after) r in
  Has name r' = true /\ forall v, IsFormat r' name v = f v.
Proof. exact registry_added. Qed.
Print Assumptions C33_added.
Theorem C33_removed : forall before name after r, untouched name after ->
  let r' := changes (before ++ CRemove name :: after) r in
  Has name r' = false /\ forall v, IsFormat r' name v = true.
Proof. exact registry_removed. Qed.
Print Assumptions C33_removed.
Theorem C33_others : forall l name r, untouched name l ->
  Has name (changes l r) = Has name r /\ forall v, IsFormat (changes l r) name v = IsFormat r name v.
Proof. exact registry_untouched. Qed.
Print Assumptions C33_others.

Definition even (v : value) : bool := match v with VStr s => Nat.even (String.length s) | _ => false end.
Definition history : list change := [CAdd "even" even; CAdd "uuid" even; CRemove "even"; CRemove "date"; CAdd "even" even; CRemove "uuid"].
Example C33_example : exists before after, history = before ++ CAdd "even" even :: after /\ untouched "even" after /\
  let r := changes history (FormatCheckers fe0) in
  map (fun n => Has n r) ["even"; "uuid"; "date"; "time"; "odd"] = [true; false; false; true; false] /\
  checks r "even" ["ab"; "abc"] = [true; false] /\ checks r "uuid" ["ab"; "abc"] = [true; true] /\ IsFormat r "even" VNil = false.
Proof.
  exists [CAdd "even" even; CAdd "uuid" even; CRemove "even"; CRemove "date"], [CRemove "uuid"]. split; [reflexivity|]. split.
  - intros c [<-|[]] H. discriminate H.
  - vm_compute. repeat split.
Qed.

(** The names known at the start; all of them accept whatever is no string. *)
Theorem C33_default : forall fe,
  (forall name, Has name (FormatCheckers fe) = true <-> In name FORMATS) /\ strings_only (FormatCheckers fe).
Proof. intros fe. split; [exact (default_names fe) | exact (default_strings fe)]. Qed.
Print Assumptions C33_default.

(** So validation with these formats does not depend on how numbers are written
    nor on the order of members: the condition on formats in C05, C10 and C45
    is met. *)
Theorem C33_alike : forall r, strings_only r -> forall name v v',
  equal respelled v v' \/ equal same_value v v' \/ veq v v' \/ yaml v v' -> IsFormat r name v = IsFormat r name v'.
Proof. exact strings_alike. Qed.
Print Assumptions C33_alike.

(** The format keyword: a schema of nothing else accepts what the checker of
    that name accepts, and everything if there is none. *)
Theorem C33_keyword : forall w, url_laws w -> forall sl m sch, schema_of w sl (VMap m) sch -> Forall leaf m ->
  (forall k, In k (map fst m) -> In k ["$schema"; "title"; "description"; "format"]) ->
  forall v, usual (e_ratlim (w_go w)) v ->
  verdict w sch v (forall f, assoc "format" m = Some (VStr f) -> f = "" \/ e_is_format (w_go w) f v = true).
Proof. exact format_exact. Qed.
Print Assumptions C33_keyword.

Example C33_keyword_example : let w := world_of (changes history (FormatCheckers fe0)) in exists m sch,
  decode_use_number "{""title"":""t"",""format"":""even""}" = Some (VMap m) /\
  schema_of w NewSchemaLoader (VMap m) sch /\ Forall leaf m /\ (forall k, In k (map fst m) -> In k ["$schema"; "title"; "description"; "format"]) /\
  verdict w sch (VStr "ab") True /\ verdict w sch (VStr "abc") False /\ verdict w sch VNil False.
Proof.
  cbv zeta.
  destruct (leaf_in_ok (world_of (changes history (FormatCheckers fe0))) "{""title"":""t"",""format"":""even""}" ["$schema"; "title"; "description"; "format"])
    as (m & sch & H1 & H2 & H3 & H4); [vm_compute; reflexivity|].
  exists m, sch. repeat (split; [assumption|]).
  assert (E : m = [("title", VStr "t"); ("format", VStr "even")]) by (vm_compute in H1; congruence).
  split; [|split].
  - eapply verdict_ext; [|apply (C33_keyword _ (world_of_laws _) _ _ _ H2 H3 H4), (usual_in _ """ab"""); vm_compute; reflexivity].
    subst m. split; [auto|]. intros _ f [= <-]. right. vm_compute. reflexivity.
  - eapply verdict_ext; [|apply (C33_keyword _ (world_of_laws _) _ _ _ H2 H3 H4), (usual_in _ """abc"""); vm_compute; reflexivity].
    subst m. split; [|contradiction]. intros H. destruct (H "even" eq_refl) as [D|D]; discriminate D.
  - eapply verdict_ext; [|apply (C33_keyword _ (world_of_laws _) _ _ _ H2 H3 H4), (usual_in _ "null"); vm_compute; reflexivity].
    subst m. split; [|contradiction]. intros H. destruct (H "even" eq_refl) as [D|D]; discriminate D.
Qed.

(** ** C35 *)
Theorem C35_uuid : forall fe s, accepts fe "uuid" s <-> uuid s.
Proof. intros fe. exact uuid_right. Qed.
Print Assumptions C35_uuid.
Theorem C35_hostname : forall fe s, accepts fe "hostname" s <-> hostname s.
Proof. intros fe. exact hostname_right. Qed.
Print Assumptions C35_hostname.
Theorem C35_json_pointer : forall fe s, accepts fe "json-pointer" s <-> pointer s.
Proof. intros fe. exact pointer_right. Qed.
Print Assumptions C35_json_pointer.
Theorem C35_relative_json_pointer : forall fe s, accepts fe "relative-json-pointer" s <-> relative_pointer s.
Proof. intros fe. exact relative_right. Qed.
Print Assumptions C35_relative_json_pointer.
Theorem C35_date : forall fe s, accepts fe "date" s <-> full_date s.
Proof. intros fe. exact date_right. Qed.
Print Assumptions C35_date.
Theorem C35_ipv6 : forall fe s, accepts fe "ipv6" s <-> ipv6 s.
Proof. intros fe. exact ipv6_right. Qed.
Print Assumptions C35_ipv6.

Example C35_examples :
  checks (FormatCheckers fe0) "uuid" ["123e4567-e89b-12d3-A456-426614174000"; "123e4567e89b12d3a456426614174000"; "g23e4567-e89b-12d3-a456-426614174000"; ""] =
    [true; false; false; false] /\
  checks (FormatCheckers fe0) "hostname" ["a"; "example.com"; "x--y.Z9"; "-a.b"; "a-.b"; "a..b"; "a."; "a_b"; ""] =
    [true; true; true; false; false; false; false; false; false] /\
  checks (FormatCheckers fe0) "json-pointer" [""; "/"; "/a~0b/~1"; "a"; "/~"; "/~2"; "/~~0"] = [true; true; true; false; false; false; false] /\
  checks (FormatCheckers fe0) "relative-json-pointer" ["0"; "10/a"; "1#"; "01"; ""; "#"; "1#/a"; "2a"] = [true; true; true; false; false; false; false; false] /\
  checks (FormatCheckers fe0) "date" ["2020-02-29"; "2019-02-29"; "1900-02-29"; "2000-02-29"; "2020-13-01"; "2020-1-01"; "2020-04-31"; "2020-01-00"] =
    [true; false; false; true; false; false; false; false] /\
  checks (FormatCheckers fe0) "ipv6" ["::"; "::1"; "1::"; "1:2:3:4:5:6:7:8"; "1:2:3:4:5:6:7::"; "1::2::3"; "::ffff:1.2.3.4"; "fe80::1%en0"; "1:2:3:4:5:6:7"; "12345::"; "1.2.3.4"] =
    [true; true; true; true; true; false; true; false; false; false; false].
Proof. vm_compute. repeat split. Qed.

(** An IPv4 address is accepted; so is an IPv6 address that ends in one. *)
Theorem C35_ipv4 : forall fe s, accepts fe "ipv4" s <-> dotted s \/ (ipv6 s /\ has_char "." s = true).
Proof. intros fe. exact ipv4_right. Qed.
Print Assumptions C35_ipv4.
Theorem C35_ipv4_refuted : exists fe s, accepts fe "ipv4" s /\ ~ dotted s.
Proof.
  exists fe0, "::ffff:1.2.3.4". split; [vm_compute; reflexivity|]. intros H. apply dotted_no_colon in H. discriminate H.
Qed.
Print Assumptions C35_ipv4_refuted.
Example C35_ipv4_example : dotted "192.168.0.1" /\
  checks (FormatCheckers fe0) "ipv4" ["192.168.0.1"; "192.168.0.256"; "1.2.3"; "1.2.3.4.5"; "01.2.3.4"; "1..2.3"; "::1"; "1::2:10.0.0.1"] =
    [true; false; false; false; false; false; false; true].
Proof. split; [apply dotted_right; vm_compute; reflexivity | vm_compute; reflexivity]. Qed.

(** Times: what is accepted exactly; every time of RFC 3339 in capitals is
    (seconds of 60 aside), but not only these. *)
Theorem C35_time : forall fe s, accepts fe "time" s <-> lax_clock s \/ followed lax_clock lax_offset s.
Proof. exact accepts_time. Qed.
Print Assumptions C35_time.
Theorem C35_time_complete : forall fe s, full_time s -> all upper s -> accepts fe "time" s.
Proof. intros fe s H U. apply accepts_time. right. exact (full_time_accepted s U H). Qed.
Print Assumptions C35_time_complete.
Theorem C35_time_refuted : exists fe s t,
  (accepts fe "time" s /\ ~ rfc_clock s /\ ~ full_time s) /\ (full_time t /\ ~ accepts fe "time" t).
Proof.
  exists fe0, "9:04:05", "09:04:05z". split; [split; [vm_compute; reflexivity|split]|split].
  - intros H. apply (rfc_clock_colon _ "") in H. discriminate H.
  - intros (a & b & E & A & _). apply (rfc_clock_colon _ b) in A. rewrite <- E in A. discriminate A.
  - exists "09:04:05", "z". split; [reflexivity|]. split; [|left; auto].
    exists 9, "09", 4, 5, "". repeat split; try (apply Nat.leb_le; reflexivity). now left.
  - intros H. vm_compute in H. discriminate H.
Qed.
Print Assumptions C35_time_refuted.
Example C35_time_example : full_time "23:59:59.123+05:30" /\ all upper "23:59:59.123+05:30" /\
  checks (FormatCheckers fe0) "time" ["23:59:59.123+05:30"; "12:00:00Z"; "12:00:00"; "24:00:00"; "12:60:00Z"; "23:59:60Z"; "12:00Z"; "12:00:00,5"; "12:00:00+24:60"; "1:00:00"; "12:00:00z"] =
    [true; true; true; false; false; false; false; true; true; true; false].
Proof.
  split; [|split; [|vm_compute; reflexivity]].
  - exists "23:59:59.123", "+05:30". split; [reflexivity|]. split.
    + exists 23, "23", 59, 59, ".123". repeat split; try (apply Nat.leb_le; reflexivity).
      right. exists "."%char, "123". repeat split; [discriminate|]. intros i c E. do 3 (destruct i as [|i]; [injection E as <-; cbn; tauto|]). destruct i; discriminate E.
    + right. exists "+", 5, 30. repeat split; [left; reflexivity | apply Nat.leb_le; reflexivity | apply Nat.leb_le; reflexivity].
  - intros i c E. do 18 (destruct i as [|i]; [injection E as <-; split; discriminate|]). destruct i; discriminate E.
Qed.

(** Dates with times; a date alone and a time alone are accepted too. *)
Theorem C35_date_time : forall fe s, accepts fe "date-time" s <->
  lax_clock s \/ followed lax_clock lax_offset s \/ full_date s \/
  followed full_date (followed (fun t => t = "T") (followed lax_clock lax_offset)) s.
Proof. exact accepts_date_time. Qed.
Print Assumptions C35_date_time.
Theorem C35_date_time_complete : forall fe s, date_time s -> all upper s -> accepts fe "date-time" s.
Proof. intros fe s H U. apply accepts_date_time. right. right. right. exact (date_time_accepted s U H). Qed.
Print Assumptions C35_date_time_complete.
Theorem C35_date_time_refuted : exists fe s t,
  (accepts fe "date-time" s /\ ~ date_time s) /\ (date_time t /\ ~ accepts fe "date-time" t).
Proof.
  exists fe0, "2020-01-01", "2020-01-01t00:00:00Z". split; [split; [vm_compute; reflexivity|]|split].
  - intros H. apply date_time_t in H. cbn in H. lia.
  - exists "2020-01-01", "t00:00:00Z". split; [reflexivity|]. split; [apply date_right; vm_compute; reflexivity|].
    exists "t", "00:00:00Z". split; [reflexivity|]. split; [auto|]. exists "00:00:00", "Z". split; [reflexivity|]. split; [|left; auto].
    exists 0, "00", 0, 0, "". repeat split; try (apply Nat.leb_le; reflexivity). now left.
  - intros H. vm_compute in H. discriminate H.
Qed.
Print Assumptions C35_date_time_refuted.
Example C35_date_time_example :
  checks (FormatCheckers fe0) "date-time" ["2020-02-29T23:59:59.5-08:00"; "2019-02-29T00:00:00Z"; "2020-01-01T00:00:00"; "2020-01-01 00:00:00Z"; "2020-01-01"; "00:00:00"; "2020-01-01T1:00:00Z"] =
    [true; false; false; false; true; true; true].
Proof. vm_compute. reflexivity. Qed.

(** URIs: what url.Parse reads, with a scheme, without a backslash; for
    templates every opening brace of the path is closed later. *)
Theorem C35_uri : forall fe s,
  (accepts fe "uri" s <-> ~ (exists i, get i s = Some "\"%char) /\ exists scheme path, f_url fe s = Some (scheme, path) /\ scheme <> "") /\
  (accepts fe "uri-reference" s <-> ~ (exists i, get i s = Some "\"%char) /\ f_url fe s <> None) /\
  (accepts fe "uri-template" s <-> ~ (exists i, get i s = Some "\"%char) /\ exists scheme path, f_url fe s = Some (scheme, path) /\ closed path) /\
  (accepts fe "iri" s <-> accepts fe "uri" s) /\ (accepts fe "iri-reference" s <-> accepts fe "uri-reference" s).
Proof.
  intros fe s. exact (conj (accepts_uri fe s) (conj (accepts_uri_reference fe s) (conj (accepts_template fe s) (conj (accepts_iri fe s) (accepts_iri_reference fe s))))).
Qed.
Print Assumptions C35_uri.
(** email and regex are what net/mail and regexp say; "" is a regex. *)
Theorem C35_library : forall fe s,
  (accepts fe "email" s <-> f_mail fe s = true) /\ (accepts fe "idn-email" s <-> f_mail fe s = true) /\
  (accepts fe "regex" s <-> s = "" \/ f_regex fe s = true).
Proof. intros fe s. exact (conj (proj1 (accepts_email fe s)) (conj (proj2 (accepts_email fe s)) (accepts_regex fe s))). Qed.
Print Assumptions C35_library.
Example C35_uri_example :
  checks (FormatCheckers fe0) "uri" ["http:a"; "a"; "http:a\b"] = [true; false; false] /\
  checks (FormatCheckers fe0) "uri-reference" ["http:a"; "a"; "http:a\b"] = [true; true; false] /\
  checks (FormatCheckers fe0) "uri-template" ["a/{b}/c"; "a/{b"; "a}b"; "a{b{c}"; "\{a}"] = [true; false; true; true; false].
Proof. vm_compute. repeat split. Qed.
