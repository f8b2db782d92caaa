# Formal model of xeipuuv/gojsonschema in Coq 8.16

## Approach

The Go code is modelled function by function as total Gallina functions; every
definition cites the Go file and lines it stands for.  Small specifications,
independent of the model, live in `Spec*.v`; the property theorems in `Prop*.v`,
each followed by `Print Assumptions` and by examples that meet its hypotheses.

* Go values (`interface{}`) are an inductive type `value`: nil, bool,
  json.Number literal, float64, string, []interface{}, map[string]interface{},
  map[interface{}]interface{}.
* Panics, errors and non-termination are explicit outcomes (`Panic`, `Err`,
  `NoFuel`); recursion uses fuel.  Theorems say what runs return, and separate
  theorems give fuel bounds, that is, termination.
* Go's random map iteration is an oracle giving an arbitrary permutation,
  independently for every `range` executed (the oracle is indexed by the
  position of the `range` in the call tree).
* A compiled schema is a heap of nodes (the `subSchema`s), pointers are indices.
* The state of a `SchemaLoader` is a record `sloader`; calls return the new
  state also when they fail.
* Goroutines are threads whose calls are cut into steps (`ModelConc.v`).

## What is modelled

| Go file | model | what is left out |
|----|----|----|
| validation.go | `ModelValidate.v`, all functions | nothing; entry points are in `ModelLoader.v` |
| schema.go, schemaType.go, subSchema.go, types.go | `ModelCompile.v` | fields validation.go never reads (title, description, ref, parent) |
| schemaPool.go, schemaReferencePool.go, draft.go | `ModelPool.v`, `MetaSchemas.v` (the embedded texts, verbatim) | `Draft` values other than the four constants |
| schemaLoader.go, jsonLoader.go | `ModelLoader.v`, `ModelRaw.v` (the caller's value behind NewRawLoader) | Go structs given to NewGoLoader (only values encoding/json can round-trip); the writer of NewWriterLoader is its reader side |
| result.go, jsonContext.go, errors.go, locales.go | `ModelResult.v`, `ModelTemplate.v`, `ModelShow.v`, `ModelError.v` (the errors of Compile) | user supplied locales and template functions; `%v` printing of details is a parameter `show` in C52, and for C59 spelled out (math/big's SetRat, decimal conversion and shortest printing; exponents beyond int32 not modelled) |
| format_checkers.go | `ModelFormat.v` | the libraries behind email, uri and regex are parameters (`fmtenv`); net/url is instantiated with `ModelURL.v` in `URIFormat.v` (`go_fmt`), net/mail with `ModelMail.v` in `PropMailFormat.v`, regexp with `ModelRegexp.v` in `PropRegexp.v` |
| utils.go | `Num.v`, `JsonText.v`, `ModelPool.v` | reflect is resolved to the constructors of `value` |
| locks of format_checkers.go and errors.go | `ModelConc.v` | weak memory: steps are sequentially consistent, conflicting map accesses crash |
| internalLog.go | - | logging |

Libraries:

* encoding/json (Marshal, Unmarshal, Decoder.UseNumber): `JsonText.v`.  Simplified:
  no nesting limit of 10000 (Go has it since 1.15; the versions .travis.yml names have not).
* strconv.ParseFloat and the float encoder: `Float64.v`, exact rational
  arithmetic, related to IEEE 754 round-to-nearest-even in `FloatNearest.v`.
* big.Rat.SetString: `Num.v`; decimal literals only (the other syntaxes it
  accepts are not JSON numbers); exponent limit `e_ratlim`.
* regexp, time.Parse, net.ParseIP as used by the formats: `ModelFormat.v`, with
  the semantics of Go 1.22.  The five regular expressions of the file are written there as
  expressions over bytes; C35_expressions shows that this is what MatchString of
  `ModelRegexp.v` says of the literals in the Go source, for every string.
* text/template: the literal text / `{{.name}}` fragment used by the library.
* gojsonpointer: `ModelPool.v`, shown to follow RFC 6901 in `Pointer.v`; what it does
  with every other fragment is in `PointerProps.v`.
* gojsonreference / net/url: parameters `w_parse`, `w_inherits`, `w_strip`,
  `w_fragment`, `w_canonical` of `world`, with laws, see the trusted base.
  `ModelURL.v` is net/url and gojsonreference themselves (`go_world`); the laws
  hold of it on plain references and C49 transfers the theorems.
* net/mail's ParseAddress (Go 1.22.1, before domain literals), with mime's word decoder
  as far as it can fail: `ModelMail.v`; addresses are only counted, not kept.
* regexp for `pattern`/`patternProperties`: parameters `e_re_ok`, `e_re_match`;
  `ModelRegexp.v` is regexp.Compile and MatchString themselves (Go 1.22: the stack machine
  of regexp/syntax with Perl flags, matching as the set of places an expression can lead
  to).  Left out: the limits on size and nesting (checkLimits); group names and greediness
  are dropped, no answer depends on them.  The tables of package unicode (\p classes, case
  folding orbits) are a parameter `unidata`.
* the file systems and the web: parameters `w_fs`, `w_http`.

## Files

* Model: `Base Value Num Float64 JsonText ModelResult ModelTemplate ModelValidate
  ModelPool ModelCompile MetaSchemas ModelLoader ModelFormat ModelConc ModelURL
  ModelRaw ModelMail ModelRegexp ModelStack ModelShow ModelError`.
* Specifications: `SpecSchema` (the meaning of a schema under each draft),
  `SpecShape` (which schemas are well formed), `SpecResolve SpecLocate SpecLoad
  SpecPaths SpecFetch` (identifiers, references, documents), `SpecMeta`,
  `SpecJson SpecEqual SpecFloat` (JSON texts, equality, binary64), `SpecErrors
  SpecKeywords` (what is reported), `SpecAlike`, `SpecFormat`, `SpecConc`,
  `SpecURI` and `SpecReference` (RFC 3986; the latter also states the language
  url.Parse takes), `SpecPointer` (RFC 6901), `SpecMail` (RFC 5322), `SpecRegexp`
  (the regular expressions ECMA-262 and Go share),
  `SpecMessage` (the English text of errors), `SpecLogic` (schemas as formulas), `SpecDrafts`
  (what each draft allows as the value of each keyword), `SpecLibrary` (what pattern and
  format say, without any library), `SpecReading` (keywords the library does not heed), `SpecKinds` (which instances a keyword
  speaks about, which keywords a draft knows), `SpecShow` (numbers in messages), `SpecWhy` (what applies
  where), `SpecLoop` (which checks a check makes),
  `SpecFault` (what each message of the compiler says about a schema),
  `SpecReason` (the reason of an error in the document and the instance; which errors are due),
  `SpecLost` (references that lead nowhere), `SpecSplit` (keywords taken apart), `SpecSwap` (schemas exchanged, schemas in other words),
  `SpecOrder` (loaders that know the same, documents without a common name), `SpecCache` (documents held beforehand),
  `SpecAsks` (the URLs there is a reason to ask for).
* Proofs: `Validate*` (validation), `Compile*` (compilation), `Load* Loader*
  Pool* Resolve* PathFacts AnySchema Meta*` (loaders), `Json* Codec* Float* Num*
  Utf8 SortKeys ExactEqual UniqueProps` (texts and numbers), `Format*`, `Conc*`,
  `URL* URIFormat MailProps Pointer* MessageProps AddFail RawProps
  LogicProps Regexp* LiteralProps`, `DraftsProps` (the shipped meta-schemas, keyword by keyword), `DraftsLoad`,
  `StackProps` (the libraries put under the theorems), `ReadingProps`, `KindProps`,
  `CompileVisit`, `ExactFetch` and `ExactLoad` (a successful compilation has read all it met), `Show*`, `WhyProps`, `Loop*`,
  `Fault*` (errors of the compiler), `Reason*` (errors and the document they come from), `ReportLoad` (the errors of Validate about the schema itself),
  `Lost*` (references that lead nowhere), `CheckedLost`, `SplitProps` (keywords taken apart),
  `SwapProps`, `WordProps` (schemas exchanged for others with the same verdicts),
  `OrderProps` (pools in which every URL means the same), `CacheProps` (documents held or fetched),
  `AskProps` (every reference in sight may be asked for).
* Examples and their computable side conditions: `World0 World1 World2
  Checked*`.
* Properties: `PropValidate PropKeywords PropCompile PropShape PropSession
  PropFetch PropLoader PropPool PropNumbers PropJson PropFormat PropConc
  PropURL PropURIFormat PropMailFormat PropPointer PropMessage PropAdd PropRaw
  PropLogic PropDrafts PropRegexp PropStack PropReading PropKinds PropExact
  PropShow PropLoop PropFault PropReason
  PropReport PropLost PropSplit PropSwap PropOrder PropCache PropAsks PropEnters`.

## Method per property

| id | proof method |
|----|----|
| C01, C05, C47 | heap-representation invariant of the compiler; one cell means what its source document demands (`ValidateSem`, `CompileSem`); judgements obeying the rules agree and exist wherever unfolding is well founded (`Meaning`, `ValidateDen`) |
| C02, C21, C45 | bisimulation of two heaps (`ValidateBisim`) built from a relation between documents (`SpecAlike`) |
| C03, C04, C39 | logical relation between two runs, up to permutation of errors |
| C06 | counterexample, and divergence of every reference cycle |
| C07, C22 | invariants of compiled nodes and of decoded values; counterexamples for the unguarded claims |
| C08, C09, C46 | every error, by induction on fuel; keyword by keyword |
| C10-C13 | big.Rat.SetString over Q; UTF-8 decoding against the Unicode encoding |
| C14-C16, C44 | encoder and decoder against the RFC 8259 grammar; float64 rounding against IEEE 754 |
| C17-C19, C42, C43, C37, C41 | equations of the validator |
| C20, C23, C24 | Hoare triples for the compiler monad deciding success, failure, panic |
| C25-C32, C40 | invariants of the pool over all histories of loader calls |
| C33, C35 | derivative matcher against grammars; time.Parse, ParseIP, url.Parse and mail.ParseAddress against RFC grammars |
| C34, C36, C38 | inductive invariants over all interleavings; linearization points are the map accesses |
| C48, C50 | the buffer algorithm of RFC 3986 and the loop of net/url against the same stack of segments; printing and parsing inverse |
| C51 | strconv.Atoi and the token decoder against the grammar of RFC 6901 |
| C52 | the template parser against the messages cut into pieces |
| C53, C54 | case analysis of parseReferences; the pooled document against the caller's value |
| C55 | C01 and C20 for reference-free documents; induction on formulas |
| C56 | the meaning of each schema inside the three meta-schema texts, computed once per keyword; induction on the document; C20 and C47 for Compile |
| C57 | a derivation in the grammar drives the stack machine of regexp/syntax (induction over the grammar, for every continuation); sets of reachable places against the relation `matches`; C01/C20 for the documents |
| C59 | the shortest-decimal loop keeps its prefix between the neighbours' decimals; two decimals of 18 digits are further apart than one unit of a 64-bit mantissa |
| C60 | induction over the fuel with, per keyword, the step it makes and the condition under which it reports |
| C61 | no check repeated: induction over the size of the value and the cells not yet visited; a repeated check: infinite descent on the fuel, verdicts being independent of the map order |
| C62 | per function of the compiler a Hoare-style triple "an error it returns is blamed on the schema at hand"; lifted over references as for C20; two misnamed keywords refuted |
| C63 | from a step of C60 in the compiled graph to a step between schema objects of the documents, keyword by keyword; verdicts of branches by C01 at every pair met |
| C64 | induction over the path of required steps, each of which merges the errors of its sub-check (C46); at its end the keyword's own error |
| C65 | C64 for the compiled meta-schema (C47), C56 for when it fails; the text by induction on the list of errors and C59/C26 for each |
| C66 | `lost` against GetDocument (a lost reference fails and says why), then the induction of C20/C24 with both cases; `charted` for the fuel |
| C67 | each keyword of `keywords` looks at its own member and its bundle only; shapes, `fits` and `needed` are inherited by parts; then C01 through `bare_decided` |
| C68 | by size of the schema: the keywords of two schemas whose parts correspond hold together; the pairs by the rules of the single keywords |
| C69 | every function of the compiler respects equality of pools as finite maps; adding documents without a common name commutes |
| C70 | references lead to the same in a pool that holds what could be fetched; then C01 and C66 from the smaller pool |
| C71 | invariant of the compiler in two worlds at once: equal states, every "$ref" in the pool and in the document at hand may be asked for, and no document held at first is gone |
| C72 | the same invariant: every key of the pool was held before, asked for, or is the URL or an identifier of a document read; kept on success and on failure |
| C58 | C01, C05, C20 and C49 with the libraries' languages (C35, C57, C48) put in; the meaning depends on pattern and format only through the questions a document asks |
| C49 | simulation between a world and its restriction to plain references |

Statements that are false of the code are kept as `..._refuted` theorems with a
concrete witness, next to the guarded version that holds.

## Trusted base

* The Coq 8.16.1 kernel (including `vm_compute`).
* The reading of the Go code and of the Go 1.22 standard library recorded in the
  comments of the model.
* Axioms: none.  `Print Assumptions` reports "Closed under the global context"
  for every theorem of the `Prop*.v` files.  (The checker lists
  `Coq.ssr.ssrunder.Under_rel.*`, module-type parameters inside the standard
  library that come with loading it; no theorem depends on them.)
* Hypotheses about parameters, stated in the theorems that need them:
  `url_laws` (`LoadFacts.v`: the reference "#" is empty; a parsed reference can
  be resolved against any base; URLs made from valid text are valid text),
  `web_laws` (`LoadFetch.v`: removing a fragment twice, parsing a printed URL),
  `ascii_orbits` (`LiteralProps.v`: unicode.SimpleFold on ASCII, for (?i) in the uuid
  expression),
  `meta_urls` (`SpecMeta.v`: how the URLs of the three meta-schemas behave).
  The worlds of the examples satisfy all of them (`World0Facts.v`, `World2.v`).
  Go's own library satisfies them on plain references only: `"/.//["` parses but
  does not resolve, and such an `$id` makes Compile panic (`C49_refuted`).
  `URLTransfer.v` shows that a world and its restriction to plain references
  give the same outcomes on plain documents, so C01, C05, C22 and C47 hold with
  Go's library (`C49_*`).  Not plain: user information, IPv6 hosts, opaque URLs
  (urn:...), "//" inside paths, empty queries, upper case schemes.

## Wrong programs

`seeded/LOG.jsonl` records edits of the model that imitate realistic bugs, the
claim each breaks and the theorems that no longer prove.  The edits are made in
a scratch copy; where an edit survived, the theorem was tightened.
