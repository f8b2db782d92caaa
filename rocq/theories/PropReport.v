(** What Compile says about a document that is no schema of its draft (C65).

    [checking] (MetaLoad.v): a loader with Validate on is about to compile l,
    which starts from doc.  [lawful] (SpecDrafts.v): doc is a schema of draft
    d.  [meta_schema], [meta_leads] (SpecMeta.v): the meta-schema of d that the
    library ships, and where its references lead.  [justified], [due]
    (SpecReason.v): the reason of an error in the schema document, and the
    errors that belong in the result (C63, C64).  [line] (SpecMeta.v): the
    place of an error, and its message. *)
From Verif Require Import DraftsLoad CheckedShape CheckedFetch URLProps ReportLoad.
From Verif Require Import SpecReason ModelError.
Open Scope string_scope.
Open Scope list_scope.
Open Scope nat_scope.

Notation ends_line l := (append l (String (ascii_of_nat 10) "")).
Theorem C65_report : forall w, url_laws w -> web_laws w -> meta_urls w -> (0 <= e_ratlim (w_go w))%Z ->
  forall fuel o sl l p doc d, checking w fuel o sl l p doc d -> d <> Hybrid ->
  let go := w_go w in
  ~ lawful (fun f s => fmt go f (VStr s)) same d doc ->
  let T := meta_leads d in let V := meaning (pat go) (fmt go) same T in
  exists es ls sl', Compile w fuel o sl l = LErr (EMeta es) sl' /\
    Error (EMeta es) = Some (concat_str (map (fun l => ends_line l) ls)) /\ Forall2 line es ls /\ es <> [] /\
    Forall (justified (pat go) (fmt go) same V T d (meta_schema d) doc) es /\
    reports_due (due (pat go) (fmt go) same V T d (meta_schema d) doc) es.
Proof. exact checked_report. Qed.
Print Assumptions C65_report.

(** The same with Go's net/url, for the documents C49 is about. *)
Theorem C65_library : forall go fs http rest, serves_plain go fs http rest -> (0 <= e_ratlim go)%Z ->
  forall fuel o sl l p doc d, plain_loader go fs http rest l -> plain_pool go fs http rest (sl_pool sl) ->
  checking (plain_world go fs http rest) fuel o sl l p doc d -> d <> Hybrid ->
  ~ lawful (fun f s => fmt go f (VStr s)) same d doc ->
  let T := meta_leads d in let V := meaning (pat go) (fmt go) same T in
  exists es ls sl', Compile (go_world go fs http rest) fuel o sl l = LErr (EMeta es) sl' /\
    Error (EMeta es) = Some (concat_str (map (fun l => ends_line l) ls)) /\ Forall2 line es ls /\ es <> [] /\
    Forall (justified (pat go) (fmt go) same V T d (meta_schema d) doc) es /\
    reports_due (due (pat go) (fmt go) same V T d (meta_schema d) doc) es.
Proof. exact plain_report. Qed.
Print Assumptions C65_library.

(** A document with three mistakes, and what Compile says of it. *)
Definition report_bad := "{""$schema"":""http://json-schema.org/draft-07/schema#"",""minLength"":-1,""properties"":{""a"":{""type"":""integr"",""enum"":[]}}}".
Definition report_fuel : nat := 60 * 80.
Notation report_doc := (resolve parse0 inherits0 "" (the_doc report_bad)).
Lemma report_unlawful has eqv : ~ lawful has eqv Draft7 report_doc.
Proof.
  replace report_doc with (VMap [("$schema", VStr "http://json-schema.org/draft-07/schema#"); ("minLength", VNum "-1");
    ("properties", VMap [("a", VMap [("type", VStr "integr"); ("enum", VArr [])])])]) by (vm_compute; reflexivity).
  intros L. inversion L as [|m LK LS]; clear L; subst.
  assert (A : lawful has eqv Draft7 (VMap [("type", VStr "integr"); ("enum", VArr [])])) by
    (apply LS; eapply (in_member _ _ "properties"); [right; left; reflexivity|reflexivity|left; reflexivity]).
  inversion A as [|m' LK' LS']; subst. destruct LK' as (_ & _ & _ & (_ & _ & _ & _ & E & _) & _). destruct (E _ eq_refl) as (l & E1 & E2 & _). injection E1 as <-. destruct (E2 eq_refl).
Qed.
Example C65_example :
  checking (serving [] []) report_fuel in_order CheckedFetch.strict (LString report_bad) (known_documents (serving [] []) CheckedFetch.strict (the_doc report_bad)) report_doc Draft7 /\
  ~ lawful (fun f s => fmt go0 f (VStr s)) same Draft7 report_doc /\
  match Compile (serving [] []) report_fuel in_order CheckedFetch.strict (LString report_bad) with LErr e _ => Error e | _ => None end =
  Some (concat_str (map (fun l => ends_line l)
    ["minLength: Must be greater than or equal to 0";
     "minLength: Must validate all the schemas (allOf)";
     "properties.a.enum: Array must have at least 1 items";
     "properties.a.type: Must validate at least one schema (anyOf)";
     "properties.a.type: properties.a.type must be one of the following: ""array"", ""boolean"", ""integer"", ""null"", ""number"", ""object"", ""string"""])).
Proof.
  split; [|split].
  - apply (checking_checked (serving [] []) Draft7 report_fuel report_bad (serving_laws _ _) (serving_web _ _)); vm_compute; reflexivity.
  - apply report_unlawful.
  - vm_compute. reflexivity.
Qed.
