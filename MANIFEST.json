{
 "claims": [
  {
   "property": "C01",
   "status": "proved",
   "theorems": [
    "C01_verdict",
    "C01_any_loader",
    "C01_every_schema",
    "C01_reading",
    "C01_refuted",
    "C01_loader"
   ],
   "note": "C01_every_schema: every accepted schema, corner cases included: the verdict is what the drafts' rules say of the heeded keywords (unheeded: empty type/enum/anyOf/oneOf/items lists, exclusive bounds big.Rat refuses); C01_reading: where all keywords are heeded this is the drafts' meaning; C01_refuted: where not, the library deviates. C01_any_loader: any loader state, references to documents fetched on the way; C01_verdict: NewSchema on any document loader, over any judgement that obeys the JSON Schema rules. When no reference leads back to the same instance location Validate returns (C06 otherwise); numbers within big.Rat's exponent limit, and within float64's range where whole values are compared (C07 otherwise)."
  },
  {
   "property": "C02",
   "status": "proved",
   "theorems": [
    "C02_ref_transparent"
   ],
   "note": "two compiled schemas whose documents are alike up to replacing schema objects by references to them (siblings dropped) return the same errors, contexts and score on every instance; the one place where the library does tell them apart, additionalProperties holding a reference to a boolean schema, is excluded by the relation and shown as an example"
  },
  {
   "property": "C03",
   "status": "proved",
   "theorems": [
    "C03_order_independent"
   ],
   "note": "all graphs, instances and pairs of iteration orders; also: if one order returns, so does every other"
  },
  {
   "property": "C04",
   "status": "proved",
   "theorems": [
    "C04_member_order"
   ],
   "note": "for format checkers that do not look at member order; errors equal up to order, values up to member order"
  },
  {
   "property": "C05",
   "status": "proved",
   "theorems": [
    "C05_bounded",
    "C05_terminates"
   ],
   "note": "for every graph whose cells reachable from the root have no same-instance cycle: Validate returns or panics (panics are excluded separately, C07), it never recurses for ever; C05_bounded gives explicit fuel bounds for Compile and Validate"
  },
  {
   "property": "C06",
   "status": "partial",
   "theorems": [
    "C06_validate_returns_refuted"
   ],
   "note": "the claim is false: refuted by the schema {\"$ref\":\"#\"}, accepted by NewSchema, on which Validate recurses for ever for every instance; C61 says exactly on which schemas and instances it does not return"
  },
  {
   "property": "C07",
   "status": "proved",
   "theorems": [
    "C07_no_panic",
    "C07_decoded_refuted"
   ],
   "note": "for every compiled schema and instance whose numbers are within float64 range and the big.Rat exponent limit; refuted without that restriction (1e400 against an enum)"
  },
  {
   "property": "C08",
   "status": "proved",
   "theorems": [
    "C08_errors_point_into_instance",
    "C08_decoder_output"
   ],
   "note": "for every instance the decoder can produce"
  },
  {
   "property": "C09",
   "status": "proved",
   "theorems": [
    "C09_errors_documented",
    "C09_types_distinguished",
    "C09_never_internal"
   ],
   "note": "documented type string, documented details, field/context, all placeholders of the default message; template text itself is the DefaultLocale"
  },
  {
   "property": "C10",
   "status": "partial",
   "theorems": [
    "C10_integer",
    "C10_number",
    "C10_refuted",
    "C10_notation",
    "C10_value"
   ],
   "note": "Proved for every number literal whose exponent big.Rat reads (|exponent| within its limit): type integer/number judge the value; and for any schema with references at hand the verdict is unchanged when numbers are respelled (C10_notation) or, without const/enum/uniqueItems, revalued to any literal of the same value (C10_value). C10_refuted: type integer rejects 1e2000000."
  },
  {
   "property": "C11",
   "status": "partial",
   "theorems": [
    "C11_bounds",
    "C11_refuted"
   ],
   "note": "Proved exact for all literals within the exponent limit of big.Rat, in all drafts. C11_refuted: exclusiveMinimum 1e2000000 is silently dropped in draft 6/7."
  },
  {
   "property": "C12",
   "status": "proved",
   "theorems": [
    "C12_multipleOf"
   ],
   "note": "For every literal within the exponent limit of big.Rat (stated as a hypothesis)."
  },
  {
   "property": "C13",
   "status": "proved",
   "theorems": [
    "C13_length"
   ],
   "note": "Lengths are counted in Unicode code points for every valid text."
  },
  {
   "property": "C14",
   "status": "proved",
   "theorems": [
    "C14_const",
    "C14_enum",
    "C14_unique"
   ],
   "note": "const, enum and uniqueItems hold exactly up to structural equality with numbers read as float64; payloads are arbitrary values."
  },
  {
   "property": "C15",
   "status": "partial",
   "theorems": [
    "C15_const",
    "C15_enum",
    "C15_unique",
    "C15_integers",
    "C15_refuted"
   ],
   "note": "Proved for values whose numbers are exactly float64 values and zero is not written -0 (in particular integers of magnitude at most 2^53); C15_refuted gives the failing pairs for enum, const and uniqueItems."
  },
  {
   "property": "C16",
   "status": "proved",
   "theorems": [
    "C16_unique",
    "C16_passes"
   ],
   "note": "Exactly one error per element that equals an earlier one, naming the latest earlier equal element."
  },
  {
   "property": "C17",
   "status": "proved",
   "theorems": [
    "C17_document",
    "C17_isolated_documents",
    "C17_numeric_keywords",
    "C17_string_keywords",
    "C17_array_keywords",
    "C17_object_keywords",
    "C17_numeric_isolated",
    "C17_string_isolated",
    "C17_array_isolated",
    "C17_object_isolated"
   ],
   "note": "C17_document: a compiled schema document (any loader, references fetched) whose keywords all speak about one kind accepts every instance not of that kind; C17_isolated_documents: two reference-free documents that differ in the keywords of one kind only agree on every other instance; the rest says so of compiled nodes, with the whole result (object keywords need the number to be within big.Rat's exponent limit: isKind dereferences nil otherwise)"
  },
  {
   "property": "C18",
   "status": "proved",
   "theorems": [
    "C18_boolean_document",
    "C18_true_accepts",
    "C18_false_rejects"
   ],
   "note": "the compiled document true/false and every boolean node inside a compiled graph; draft 4 refuses boolean schemas (C21)"
  },
  {
   "property": "C19",
   "status": "proved",
   "theorems": [
    "C19_anyOf",
    "C19_oneOf",
    "C19_not",
    "C19_if"
   ],
   "note": "errors of the node contain one contiguous block from the keyword (part_of), of exactly the stated form; C46 pins down the whole list"
  },
  {
   "property": "C20",
   "status": "proved",
   "theorems": [
    "C20_exact_references",
    "C20_any_loader",
    "C20_accepts_exactly",
    "C20_references"
   ],
   "note": "for documents without $ref, any loader settings without meta-schema validation, moderate numbers, distinct ids: success iff well-formed, and the call returns; plus a sufficient condition for documents with references. The shapes are those the library enforces (integers must be written without fraction, minItems may exceed maxItems, empty lists allowed); C20_any_loader: with fetched references, success implies well-formed, an error implies some schema met is ill-formed; C20_exact_references: with references (known or fetched) whose objects carry nothing malformed beside \"$ref\", success iff every schema met is right"
  },
  {
   "property": "C21",
   "status": "proved",
   "theorems": [
    "C21_gating",
    "C21_unknown_keywords",
    "C21_known_keywords"
   ],
   "note": "C21_unknown_keywords: dropping, at every level, all members the draft does not know (later keywords, annotations, unknown names) leaves a document that still compiles and gives the same results (documents without references; with references C02_ref_transparent gives the same); C21_known_keywords: the keywords the draft knows are in force, including both forms of the exclusive bounds; C21_gating: no trace of unknown keywords in the compiled schema; which form of the bounds and whether boolean schemas are accepted per draft is part of well_formed in C20"
  },
  {
   "property": "C22",
   "status": "proved",
   "theorems": [
    "C22_no_panic",
    "C22_refuted"
   ],
   "note": "for every sequence of calls on a SchemaLoader whose given and fetched documents are free of the two shapes (definitions a boolean, a number in a type list) and of numbers beyond the exponent limit; refuted in general; assumes url_laws, see C49 for Go's own URL library"
  },
  {
   "property": "C23",
   "status": "proved",
   "theorems": [
    "C23_references",
    "C23_order",
    "C23_same_verdict",
    "C23_refuted"
   ],
   "note": "success for documents without $ref (C23_order) and for documents with references, known or fetched, whose objects carry nothing malformed beside \"$ref\" (C23_references); equal verdicts of the schemas compiled in two orders; refuted when a $ref has malformed siblings"
  },
  {
   "property": "C24",
   "status": "proved",
   "theorems": [
    "C24_returns"
   ],
   "note": "for every document and pool whose references lead to documents at hand, under any map order"
  },
  {
   "property": "C25",
   "status": "partial",
   "theorems": [
    "C25_references_resolved",
    "C25_refuted"
   ],
   "note": "Proved for every document whose URL and identifiers are new to the loader and pairwise distinct: AddSchema succeeds, every $ref in a schema position is its resolution against the nearest enclosing identifier, and every other place keeps its value. Refuted when a subschema repeats a known identifier (it is left un-rewritten, silently)."
  },
  {
   "property": "C26",
   "status": "proved",
   "theorems": [
    "C26_literals",
    "C26_identifiers"
   ],
   "note": "Payloads of const/enum are kept verbatim, no schema position lies below them, and registered identifiers are exactly those of schema positions."
  },
  {
   "property": "C27",
   "status": "partial",
   "theorems": [
    "C27_registered_stays",
    "C27_existing_url_rejected",
    "C27_existing_url_error",
    "C27_existing_id_rejected",
    "C27_existing_id_rejected_all",
    "C27_refuted"
   ],
   "note": "Proved: over any history of calls a registered URL keeps its document; AddSchema of a known URL, and AddSchema/AddSchemas of a document whose own identifier is known, never succeed. Refuted for an identifier repeated by a subschema: no error."
  },
  {
   "property": "C28",
   "status": "partial",
   "theorems": [
    "C28_resolve_stable",
    "C28_resolve_again",
    "C28_refuted",
    "C28_added_refuted"
   ],
   "note": "Proved: resolving known references is stable under any resolution; a fetched reference resolves again to the same document unless the fetched document registers that very reference as an identifier. Refuted for plain-name fragments, and when a later document declares a pointer reference as its identifier."
  },
  {
   "property": "C29",
   "status": "partial",
   "theorems": [
    "C29_never_again",
    "C29_refuted"
   ],
   "note": "The claim is false: after one successful Compile of a document not given by reference, every later one fails with Reference already exists (proved for all loaders and histories); C29_refuted is the witness."
  },
  {
   "property": "C30",
   "status": "partial",
   "theorems": [
    "C30_success",
    "C30_failure",
    "C30_known_drafts",
    "C30_refuted"
   ],
   "note": "holds for every successful call, and for every failing one unless the meta-schema itself could not be compiled (C30_failure); never lost for documents of the known drafts; false in general: C30_refuted (a $schema that is not served turns Validate off for good)"
  },
  {
   "property": "C31",
   "status": "partial",
   "theorems": [
    "C31_file_system",
    "C31_refuted"
   ],
   "note": "holds without meta-schema validation: the outcome of Compile does not depend on any other file system; false with Validate on: C31_refuted"
  },
  {
   "property": "C32",
   "status": "partial",
   "theorems": [
    "C32_pool",
    "C32_draft",
    "C32_refuted"
   ],
   "note": "holds for every document known to the loader and fetched documents that declare no draft (and AutoDetect off keeps the pool free of drafts); false for a document fetched during compilation that declares one: C32_refuted"
  },
  {
   "property": "C33",
   "status": "proved",
   "theorems": [
    "C33_added",
    "C33_removed",
    "C33_others",
    "C33_default",
    "C33_alike",
    "C33_keyword"
   ],
   "note": "After any history of Add and Remove the last call about a name decides Has and IsFormat; unknown names accept everything; the 17 default names; default checkers accept non-strings, hence do not see how numbers are written or members ordered; the format keyword in compiled schemas."
  },
  {
   "property": "C34",
   "status": "proved",
   "theorems": [
    "C34_linearizable",
    "C34_progress",
    "C34_steady"
   ],
   "note": "Any number of goroutines, calls cut into steps (Lock, beginning and end of the map access, Unlock); a waiting Lock does not block readers, which only adds interleavings. Linearizable, free of conflicting accesses, free of deadlock."
  },
  {
   "property": "C35",
   "status": "partial",
   "theorems": [
    "C35_uuid",
    "C35_hostname",
    "C35_json_pointer",
    "C35_relative_json_pointer",
    "C35_date",
    "C35_ipv6",
    "C35_ipv4",
    "C35_ipv4_refuted",
    "C35_time",
    "C35_time_complete",
    "C35_time_refuted",
    "C35_date_time",
    "C35_date_time_complete",
    "C35_date_time_refuted",
    "C35_uri",
    "C35_library",
    "C35_email_exact",
    "C35_email_bare",
    "C35_email_complete",
    "C35_email_refuted",
    "C35_regex",
    "C35_expressions",
    "C35_expressions_grammar",
    "C35_uri_exact",
    "C35_uri_complete",
    "C35_uri_refuted"
   ],
   "note": "Exact grammars for uuid, hostname, json-pointer, relative-json-pointer, date, ipv6; for ipv4, time, date-time, uri, uri-reference and uri-template the exact accepted language, completeness for RFC 3339 in capitals and for RFC 3986 (hosts without percent-encoded ASCII), and refutations (an IPv6 address passes ipv4; 9:04:05 passes time; a date passes date-time; lower-case t/z rejected; \"http:a b\" passes uri; http://%41 does not). email and idn-email: exact accepted language of mail.ParseAddress over all texts (C35_email_exact), every addr-spec without domain literal accepted, exact for bare addresses, refuted as \"an address only\" (a display name or a group passes, a domain literal does not). regex: every expression in the notation shared by ECMA-262 and package regexp is accepted, what else is accepted is what the model of regexp/syntax says (C57_beyond for what is refused). C35_expressions: the five expressions as written in the Go source, read by the model of package regexp, are the ones the checkers use in the model, for all strings."
  },
  {
   "property": "C36",
   "status": "proved",
   "theorems": [
    "C36_own_text",
    "C36_description",
    "C36_progress"
   ],
   "note": "For every parser and executor of templates; C36_description instantiates it with the library's templates. Template functions and {{define}} are outside the model."
  },
  {
   "property": "C37",
   "status": "proved",
   "theorems": [
    "C37_context_string",
    "C37_context_string_default",
    "C37_field"
   ],
   "note": "Contexts are values in the model; that no child shares state with its parent is what the equations about paths say."
  },
  {
   "property": "C38",
   "status": "proved",
   "theorems": [
    "C38_concurrent",
    "C38_again"
   ],
   "note": "Validate in the model has no write access to the schema (validation.go assigns to no field of a subSchema); shared is only the registry, which may change at every visit."
  },
  {
   "property": "C39",
   "status": "proved",
   "theorems": [
    "C39_yaml_maps",
    "C39_converse_refuted"
   ],
   "note": "whenever the YAML-style instance does not panic; the converse is refuted (uniqueItems/const/enum panic on such a map below an array)"
  },
  {
   "property": "C40",
   "status": "proved",
   "theorems": [
    "C40_texts",
    "C40_go_values",
    "C40_reader_refuted"
   ],
   "note": "string, bytes, reader, raw loaders and Go values made of decoded JSON; writer loaders are readers in the model; Go structs are outside (only values encoding/json can round-trip are modelled); C40_reader_refuted: a reader is exhausted after one load"
  },
  {
   "property": "C41",
   "status": "proved",
   "theorems": [
    "C41_root_name"
   ],
   "note": "renaming any compiled schema leaves every result unchanged"
  },
  {
   "property": "C42",
   "status": "proved",
   "theorems": [
    "C42_positional_items",
    "C42_empty_items_refuted"
   ],
   "note": "for a nonempty list of positional schemas or a single one; items:[] ignores additionalItems (refuted companion)"
  },
  {
   "property": "C43",
   "status": "proved",
   "theorems": [
    "C43_AddError_appends",
    "C43_nil_details_refuted"
   ],
   "note": "for non-nil details; with nil details and a context AddError panics (refuted companion)"
  },
  {
   "property": "C44",
   "status": "proved",
   "theorems": [
    "C44_complete",
    "C44_sound",
    "C44_members"
   ],
   "note": "Soundness and completeness of the decoder against the RFC 8259 grammar, numbers verbatim, last member wins, text after the value ignored."
  },
  {
   "property": "C45",
   "status": "proved",
   "theorems": [
    "C45_results_of_document"
   ],
   "note": "any two compilations of the same document give the same result on every instance, whatever the map order and the loader it came from"
  },
  {
   "property": "C46",
   "status": "proved",
   "theorems": [
    "C46_errors_by_keyword",
    "C46_boolean",
    "C46_reference"
   ],
   "note": "Per cell of the compiled graph; SpecKeywords.v says keyword by keyword what is reported, C46_errors_by_keyword that the errors are the concatenation. Values of kind map[interface{}]interface{} are covered by C39."
  },
  {
   "property": "C47",
   "status": "proved",
   "theorems": [
    "C47_rejects",
    "C47_verdict",
    "C47_accepts",
    "C47_add_schema",
    "C47_add_schemas"
   ],
   "note": "for documents with moderate numbers, enough fuel (a stated bound in the size of the document), AutoDetect on for Compile; the meta-schema texts are the ones in draft.go, decoded inside Coq; a user document registered at a meta-schema URL would replace it, hence meta_intact"
  },
  {
   "property": "C48",
   "status": "proved",
   "theorems": [
    "C48_resolve",
    "C48_parts",
    "C48_refuted",
    "C48_total_refuted"
   ],
   "note": "for the common references of SpecURI.v (no user information, IPv6 hosts, opaque URLs, empty segments, empty query or fragment); where the reference has an empty path the base must be free of dot segments, without which the claim is refuted (Go normalises the base); in general a reference that parses need not resolve (refuted)"
  },
  {
   "property": "C49",
   "status": "proved",
   "theorems": [
    "C49_compiles",
    "C49_checked",
    "C49_laws",
    "C49_same",
    "C49_common_plain",
    "C49_verdict",
    "C49_bounded",
    "C49_rejects",
    "C49_conforms",
    "C49_no_panic",
    "C49_refuted"
   ],
   "note": "plain documents: every $ref, $id, id and $schema is a plain URL or does not parse; the laws are false of net/url in general and a mild document makes Compile panic (refuted) C49_compiles and C49_checked: which documents with references compile, with Go's URL library."
  },
  {
   "property": "C50",
   "status": "partial",
   "theorems": [
    "C50_file",
    "C50_web",
    "C50_refuted"
   ],
   "note": "for file URLs without \"+\", query and host; refuted in general: QueryUnescape turns \"+\" into a space"
  },
  {
   "property": "C51",
   "status": "proved",
   "theorems": [
    "C51_pointer",
    "C51_exact",
    "C51_fragment",
    "C51_refuted"
   ],
   "note": "With gojsonpointer and net/url as modelled. C51_exact has no condition on the fragment; C51_refuted shows where Go departs from RFC 6901: \"01\" and \"+1\" count as indices, a fragment not beginning with \"/\" means the whole document, \"~2\" is a name."
  },
  {
   "property": "C52",
   "status": "proved",
   "theorems": [
    "C52_text",
    "C52_one_message",
    "C52_refuted"
   ],
   "note": "For the default locale; how fmt prints a detail is a parameter that prints strings as they are (C59 says what it prints for numbers). C52_refuted: an error added by AddError without a context panics in String()."
  },
  {
   "property": "C53",
   "status": "proved",
   "theorems": [
    "C53_AddSchema",
    "C53_AddSchemas",
    "C53_refuted"
   ],
   "note": "With Validate off. The unguarded claim is false (C53_refuted): a document whose own $id is already known is refused but stays in the pool under its URL, so a corrected document cannot be added."
  },
  {
   "property": "C54",
   "status": "proved",
   "theorems": [
    "C54_AddSchema",
    "C54_Compile",
    "C54_unchanged",
    "C54_refuted"
   ],
   "note": "The exact effect on the caller's value, for documents whose identifiers are new; C54_refuted: the value changes, and added under a second URL its references lead to the first."
  },
  {
   "property": "C55",
   "status": "proved",
   "theorems": [
    "C55_compiles",
    "C55_verdict",
    "C55_equivalent",
    "C55_refuted"
   ],
   "note": "For instances and keywords within C01's guards (fitting). C55_refuted: anyOf:[] compiles and accepts everything, so the lists have to be non-empty."
  },
  {
   "property": "C56",
   "status": "proved",
   "theorems": [
    "C56_conforms",
    "C56_checked",
    "C56_usable",
    "C56_refuted",
    "C56_references"
   ],
   "note": "C56_conforms is about the embedded texts and the meaning of JSON Schema; C56_checked and C56_usable are about Compile, for documents without references (with references: C20_references, C47). C56_refuted: Compile without Validate takes {\"items\":{\"anyOf\":[]}}, and a schema with minLength 2.0 is rejected. C56_references: the same for documents with references that stand alone: taken exactly if a schema of the draft and every schema met is right."
  },
  {
   "property": "C57",
   "status": "proved",
   "theorems": [
    "C57_portable",
    "C57_pattern",
    "C57_patternProperties",
    "C57_beyond"
   ],
   "note": "For the notation shared by ECMA-262 and package regexp; the model of package regexp covers all of its syntax, its limits on the size and nesting of an expression are left out. C57_beyond: lookahead and back-references are refused; \\s and the dot differ from ECMA-262 on a vertical tab and a carriage return."
  },
  {
   "property": "C58",
   "status": "proved",
   "theorems": [
    "C58_texts",
    "C58_validate",
    "C58_verdict"
   ],
   "note": "C58_texts: texts without references; C58_validate: any loaders and references to fetched documents; C58_verdict: whatever a SchemaLoader compiled. Guards: numbers within big.Rat's exponent limit, and within float64's range where const, enum or uniqueItems compare (fits), expressions in the shared notation, not the format \"regex\", plain references. Formats mean the language the library takes (C35 says where it is wider than the RFC)."
  },
  {
   "property": "C59",
   "status": "proved",
   "theorems": [
    "C59_bounds",
    "C59_counts",
    "C59_refuted"
   ],
   "note": "For the default locale, with fmt and math/big's SetRat and shortest printing modelled (ModelShow.v; exponents beyond int32 not modelled). C59_refuted: with more digits the number shown can be another one, which is itself rejected."
  },
  {
   "property": "C60",
   "status": "proved",
   "theorems": [
    "C60_reasons"
   ],
   "note": "Per cell of the compiled graph; whether a branch accepts or rejects is the outcome of a run of the model. C46 is the converse: nothing is left out."
  },
  {
   "property": "C61",
   "status": "proved",
   "theorems": [
    "C61_loop_never_returns",
    "C61_no_loop_ends",
    "C61_exact"
   ],
   "note": "In both directions, per cell of the compiled graph; C61_exact for every schema Compile returns and every ordinary instance (where C07 rules out panics)."
  },
  {
   "property": "C62",
   "status": "partial",
   "theorems": [
    "C62_blame_partial",
    "C62_checked_partial",
    "C62_library_partial",
    "C62_keyword_refuted"
   ],
   "note": "C62_blame_partial / C62_checked_partial / C62_library_partial: one clause per message of the compiler, including its text. The claim fails for two keywords: C62_keyword_refuted shows a bad \"allOf\" reported as \"anyOf\" (schema.go:894) and a bad \"propertyNames\" reported as \"patternProperties\" (schema.go:365) where no schema has such a keyword; the theorems carry these two texts as they are. Errors whose text comes from net/url or encoding/json are told apart by kind only."
  },
  {
   "property": "C63",
   "status": "proved",
   "theorems": [
    "C63_justified",
    "C63_library"
   ],
   "note": "For every error of every returning run there is a path through keywords and references of the document(s) to a schema object and a part of the instance such that the part breaks the keyword named by the error type, with context, value and details as stated in SpecReason.v (an independent specification over documents, not over the compiled form). Same setting as C01_any_loader; C63_library for Go's net/url; loaders with Validate on are in C64_checked."
  },
  {
   "property": "C64",
   "status": "proved",
   "theorems": [
    "C64_reported",
    "C64_library",
    "C64_checked"
   ],
   "note": "Every mistake required to be absent (path by allOf, then/else, dependencies, items, properties, patternProperties, additionalItems/Properties, propertyNames, $ref) has an error of the same type, context, value and distinguishing detail among the errors; C64_library for Go's net/url, C64_checked (both C63 and C64) for loaders with Validate on. Which pair of equal items is named by an array_unique error is not fixed by this claim (C16 does)."
  },
  {
   "property": "C65",
   "status": "proved",
   "theorems": [
    "C65_report",
    "C65_library"
   ],
   "note": "Setting of C47 (`checking`): any loader state and pool, laws of the URL library; C65_library for Go's net/url on plain references. The errors value EMeta carries the list, ModelError.Error gives the text; C47_rejects, C47_add_schema(s), C49_rejects, C56_checked and C62 say the same of AddSchema, AddSchemas and Compile (meta_tells)."
  },
  {
   "property": "C66",
   "status": "proved",
   "theorems": [
    "C66_exact",
    "C66_returns",
    "C66_blame",
    "C66_checked",
    "C66_checked_blame",
    "C66_library",
    "C66_library_blame"
   ],
   "note": "Any pool and loader, laws of the URL library; C66_library(_blame) for Go's net/url on plain references, C66_checked(_blame) with Validate on. Left out (`either_way`): identifiers that clash in a fetched document, and served documents the library cannot use at all (parse errors inside them). `sealed`, `settled_in` as in C20_exact_references. The texts of the errors for missing pointers and pages come from other libraries: EPointer and EFetch stand for them, told apart by kind."
  },
  {
   "property": "C67",
   "status": "proved",
   "theorems": [
    "C67_compiles",
    "C67_verdict",
    "C67_keywords",
    "C67_fewer",
    "C67_bundles_needed"
   ],
   "note": "Documents without references, identifiers and $schema (`simple`, as C55), so the Hybrid draft. C67_keywords: each keyword with its bundle; C67_verdict: any distribution, members may be taken several times; C67_bundles_needed: a bundle torn apart changes the verdict. The converse of C67_compiles does not hold (minLength above maxLength)."
  },
  {
   "property": "C68",
   "status": "proved",
   "theorems": [
    "C68_exchange",
    "C68_rewording",
    "C68_reworded"
   ],
   "note": "Documents without references, identifiers and $schema (`simple`, as C55), so the Hybrid draft; both schemas are assumed to be accepted by NewSchema (an enum with equal members is refused, say, while the anyOf is not). C68_exchange: any relation of schemas with the same verdicts; C68_rewording: the pairs; C68_reworded: the pairs, in both directions, anywhere in a schema."
  },
  {
   "property": "C69",
   "status": "proved",
   "theorems": [
    "C69_compile_alike",
    "C69_add_alike",
    "C69_adds_alike",
    "C69_accepted",
    "C69_order",
    "C69_related_matter"
   ],
   "note": "C69_compile_alike, C69_add_alike, C69_adds_alike: everything, failures included, depends on the pool only through what each URL means. C69_accepted, C69_order: AddSchema with Validate off, documents that can be added (`addable`, as C25). C69_related_matter: with a nested identifier in common both orders are accepted and verdicts differ (first come, first served), so the condition is needed."
  },
  {
   "property": "C70",
   "status": "proved",
   "theorems": [
    "C70_finds",
    "C70_verdict",
    "C70_accepted",
    "C70_added",
    "C70_compiled",
    "C70_checked_verdict",
    "C70_checked_accepted",
    "C70_checked_compiled"
   ],
   "note": "C70_verdict and C70_accepted: Validate off; C70_checked_verdict, C70_checked_accepted and C70_checked_compiled: Validate on. Documents that can be fetched as in C01_any_loader (`page`: the only identifier is its own URL). A schema given as a text must not declare identifiers the loader holds, or under which documents are fetched (`distinct_names`). C70_finds: every reference leads where it led; C70_verdict, C70_accepted; C70_added, C70_compiled: how a loader gets ahead."
  },
  {
   "property": "C71",
   "status": "proved",
   "theorems": [
    "C71_asked_only",
    "C71_offline",
    "C71_text",
    "C71_add",
    "C71_adds",
    "C71_add_checked"
   ],
   "note": "The URLs that may be asked for (`asked`) are described from the documents alone; only canonical ones are ever fetched, only with the file system of the loader or the default one, and not those the SchemaLoader already holds (`held`). Non-interference: C71_asked_only for any two worlds with the same URL library. C71_offline: a SchemaLoader that holds all of them reads nothing. C71_text, C71_add, C71_adds: further cases where nothing is read. C71_add_checked: AddSchema with Validate on reads what compiling the meta-schema by its URL reads."
  },
  {
   "property": "C72",
   "status": "proved",
   "theorems": [
    "C72_compile",
    "C72_add",
    "C72_add_checked",
    "C72_adds"
   ],
   "note": "C72_compile for successful and failing calls, Validate on or off. C72_add, C72_add_checked: AddSchema without and with Validate. C72_adds: AddSchemas without Validate. The set of URLs (`entered`) is described from the documents alone (SpecAsks.v). What is held under a URL is the subject of C27 and C70."
  }
 ]
}