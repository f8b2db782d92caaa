{"id": "C01", "title": "Verdict conforms to JSON Schema", "statement": "If NewSchema/Compile accepts a schema document under draft d and Validate returns a Result for an instance, then Result.Valid() is true exactly when the instance satisfies the schema document under the JSON Schema rules of draft d (every keyword, recursively, through $ref). (Exceptions, each a deviation from the drafts: an empty list under type, enum, anyOf, oneOf or items counts as absent, so items:[] makes additionalItems void; and a numeric exclusive bound beyond big.Rat's exponent limit is ignored.)", "quantifier": "every schema document the compiler accepts (any nesting, any $ref graph), every draft, every JSON instance, every regexp engine, format registry and map iteration order for which Validate returns", "why_tests_cant": "the JSON-Schema test suite samples a few hundred pairs; the set of (schema, instance) pairs is infinite and keywords interact", "anchors": ["validation.go:validateRecursive", "validation.go:validateSchema", "validation.go:validateCommon", "validation.go:validateArray", "validation.go:validateObject", "validation.go:validateString", "validation.go:validateNumber", "schema.go:parseSchema"]}
{"id": "C02", "title": "$ref is transparent and hides its siblings", "statement": "A schema object carrying $ref gives, for every instance, exactly the same Result (errors, contexts, score) as the referenced schema; no sibling keyword influences the Result. (One place tells them apart: additionalProperties holding a boolean literally or by reference reports a different error.)", "quantifier": "every schema object with $ref, every target, every sibling keyword set, every instance", "why_tests_cant": "sibling combinations and reference graphs are unbounded", "anchors": ["validation.go:validateRecursive", "schema.go:parseReference", "schema.go:parseSchema"]}
{"id": "C03", "title": "Validation does not depend on map iteration order", "statement": "Go randomises map iteration, yet two Validate calls on the same Schema and the same instance agree on Valid(), and return the same errors up to their order in the slice.", "quantifier": "every pair of iteration-order choices made independently at every range-over-map executed during the two validations; every schema and instance", "why_tests_cant": "the runtime picks orders at random; a test run sees only a few of the factorially many", "anchors": ["validation.go:validateSchema", "validation.go:validateObject", "validation.go:validatePatternProperty", "result.go:mergeErrors"]}
{"id": "C04", "title": "Member order of the instance is irrelevant", "statement": "Two instances that differ only in the order of object members get the same verdict and the same errors (same type, context and details) up to order.", "quantifier": "every pair of instances equal up to member order at any depth; every schema", "why_tests_cant": "permutations at every nesting level are not enumerable", "anchors": ["validation.go:validateObject", "utils.go:marshalWithoutNumber"]}
{"id": "C05", "title": "Validation terminates on schemas without same-instance cycles", "statement": "If no chain of $ref/allOf/anyOf/oneOf/not/if/then/else/dependencies edges leads from a subschema back to itself, Validate returns (it neither loops nor overflows the stack) for every instance, although $ref may recurse through properties/items.", "quantifier": "every compiled schema graph satisfying the acyclicity condition, every instance of any depth", "why_tests_cant": "termination is a statement about all inputs", "anchors": ["validation.go:validateRecursive"]}
{"id": "C06", "title": "Validate always returns", "statement": "Validate returns a Result for every accepted schema and every instance. (Believed by users; violated by reference cycles such as {\"$ref\":\"#\"}, which NewSchema accepts.)", "quantifier": "every schema accepted by NewSchema, every instance", "why_tests_cant": "a non-terminating input is not found by sampling; a stack overflow kills the test process", "anchors": ["validation.go:validateRecursive", "schema.go:parseReference"]}
{"id": "C07", "title": "Validate does not panic on decoded instances", "statement": "For a schema accepted by the compiler and an instance produced by the library's JSON decoder, Validate never panics. (Holds when every number is within float64 range and the big.Rat exponent limit; violated otherwise, e.g. {\"enum\":[1]} against 1e400.)", "quantifier": "every accepted schema, every decoder-produced instance", "why_tests_cant": "absence of panics is universal over inputs", "anchors": ["validation.go:validateCommon", "validation.go:validateArray", "validation.go:validateNumber", "utils.go:isKind"]}
{"id": "C08", "title": "Every error points into the instance", "statement": "For every error in Result.Errors(), Context() is a path from the root that exists in the instance, and Value() is the value at that path (or, for additional-property errors, the named member of the object at that path; or, for errors raised while checking a property name, that name).", "quantifier": "every schema, instance, and error returned, at any depth and through any combinator", "why_tests_cant": "the relation must hold for every error of every run", "anchors": ["jsonContext.go:NewJsonContext", "validation.go", "result.go:addInternalError"]}
{"id": "C09", "title": "Error records are complete", "statement": "Every returned error has the documented Type() string for its Go type, Details() contain \"field\" equal to Field() and \"context\" equal to Context().String(), and every placeholder of the default message template has a value in Details(), so no message renders a missing value.", "quantifier": "every error of every Validate run", "why_tests_cant": "there are many emission sites and each can be reached through unboundedly many schemas", "anchors": ["errors.go:newError", "result.go:addInternalError", "result.go:Field", "locales.go:DefaultLocale"]}
{"id": "C10", "title": "Numbers are judged by exact value, not by notation", "statement": "type:integer/number and all numeric bounds see only the mathematical value of a JSON number: 1, 1.0, 10e-1 and 0.1e1 are indistinguishable to them, and a number is an integer exactly when its value is.", "quantifier": "every JSON number literal (any digits, fraction, exponent)", "why_tests_cant": "infinitely many spellings per value", "anchors": ["utils.go:checkJSONInteger", "utils.go:mustBeNumber", "validation.go:validateNumber"]}
{"id": "C11", "title": "Numeric bounds are exact at any precision", "statement": "minimum, maximum, exclusiveMinimum and exclusiveMaximum compare rationals exactly, with the documented inclusive/exclusive boundary, for numbers of any size.", "quantifier": "every pair of JSON number literals", "why_tests_cant": "float rounding errors appear only at values a test would have to guess", "anchors": ["validation.go:validateNumber", "schema.go:parseSchema"]}
{"id": "C12", "title": "multipleOf is exact division", "statement": "multipleOf m accepts x exactly when x = k*m for an integer k, with no floating point error (0.3 is a multiple of 0.1).", "quantifier": "every number literal x, every accepted m > 0", "why_tests_cant": "as above", "anchors": ["validation.go:validateNumber"]}
{"id": "C13", "title": "String length counts Unicode code points", "statement": "minLength/maxLength compare the number of code points of the string, not bytes.", "quantifier": "every sequence of Unicode scalar values, every bound", "why_tests_cant": "infinitely many strings", "anchors": ["validation.go:validateString"]}
{"id": "C14", "title": "const/enum/uniqueItems equality is structural JSON equality at float64 precision", "statement": "Two JSON values are treated as equal by const, enum and uniqueItems exactly when they are structurally equal, ignoring member order and number notation, numbers being compared after rounding to float64 (with -0 distinct from 0).", "quantifier": "every pair of JSON values whose numbers are within float64 range", "why_tests_cant": "pairs of values are infinite; the comparison goes through two JSON encodings and a decoding", "anchors": ["utils.go:marshalWithoutNumber", "validation.go:validateCommon", "validation.go:validateArray", "schema.go:parseSchema"]}
{"id": "C15", "title": "const/enum/uniqueItems use exact JSON equality", "statement": "enum/const/uniqueItems treat two numbers as equal exactly when they have the same mathematical value. (Holds for integers of magnitude at most 2^53 other than -0; violated beyond: enum [9007199254740993] accepts 9007199254740992, const 0 rejects -0.)", "quantifier": "every pair of number literals", "why_tests_cant": "the failing pairs are isolated", "anchors": ["utils.go:marshalWithoutNumber"]}
{"id": "C16", "title": "uniqueItems reports exactly the repeated elements", "statement": "uniqueItems:true yields one error per element that equals an earlier one, naming its index and the index of the latest earlier equal element; the array passes exactly when all elements are pairwise different.", "quantifier": "every array of any length", "why_tests_cant": "array lengths and duplicate patterns are unbounded", "anchors": ["validation.go:validateArray"]}
{"id": "C17", "title": "Keywords of one type do not constrain values of another", "statement": "Numeric keywords accept every non-number, string keywords every non-string, array keywords every non-array, object keywords every non-object.", "quantifier": "every keyword value, every instance of another type", "why_tests_cant": "all values of all other types", "anchors": ["validation.go:validateRecursive", "validation.go:validateNumber", "validation.go:validateString"]}
{"id": "C18", "title": "Boolean schemas", "statement": "From draft 6 on, schema true accepts every instance without errors and schema false rejects every instance with exactly one error of type \"false\".", "quantifier": "every instance", "why_tests_cant": "all instances", "anchors": ["schema.go:parseSchema", "validation.go:validateRecursive"]}
{"id": "C19", "title": "anyOf/oneOf report the closest branch", "statement": "When anyOf or oneOf has no matching branch, the errors reported are the combinator's own error followed by the errors of the first branch with maximal score; a passing anyOf, not or if contributes no errors from its branches, and failing branches never leak errors when another branch matches.", "quantifier": "every list of branches, every instance", "why_tests_cant": "branch lists and scores are unbounded", "anchors": ["validation.go:validateSchema", "result.go:mergeErrors"]}
{"id": "C20", "title": "Compile accepts exactly the well-formed schemas", "statement": "For schema documents without $ref, Compile succeeds exactly when every keyword has the shape the draft demands (recursively), and otherwise returns an error (or panics, see C22).", "quantifier": "every JSON document used as a schema, every draft", "why_tests_cant": "malformed documents are infinite", "anchors": ["schema.go:parseSchema", "schema.go:parseProperties", "schema.go:parseDependencies", "schemaType.go:Add"]}
{"id": "C21", "title": "Draft gating", "statement": "const, contains, propertyNames and boolean schemas take effect only from draft 6 and if/then/else only from draft 7; in draft 4 they are ignored; exclusiveMinimum/Maximum is boolean in draft 4, numeric from draft 6, either in hybrid mode.", "quantifier": "every schema document, every draft setting", "why_tests_cant": "all schemas and drafts", "anchors": ["schema.go:parseSchema", "draft.go"]}
{"id": "C22", "title": "Compile does not panic", "statement": "NewSchema never panics on a schema document produced by the JSON decoder. (Violated by {\"definitions\":true} and {\"type\":[1]}; holds for documents free of those shapes.)", "quantifier": "every decoder-produced schema document", "why_tests_cant": "absence of panics is universal", "anchors": ["schema.go:parseSchema", "utils.go:isKind"]}
{"id": "C23", "title": "Compile outcome does not depend on map iteration order", "statement": "Compiling the same schema document twice either succeeds both times or fails both times. (Holds for documents without $ref; violated when a $ref has malformed siblings and the same reference occurs elsewhere.)", "quantifier": "every pair of iteration-order choices, every schema document", "why_tests_cant": "orders are picked at random by the runtime", "anchors": ["schema.go:parseSchema", "schema.go:parseProperties", "schemaReferencePool.go"]}
{"id": "C24", "title": "Compile terminates on cyclic references", "statement": "Compile returns on every schema document whose references resolve inside the pool, however the references are tangled.", "quantifier": "every schema document and pool of documents, every reference graph", "why_tests_cant": "termination over all graphs", "anchors": ["schema.go:parseReference", "schemaReferencePool.go:Get", "schemaReferencePool.go:Add"]}
{"id": "C25", "title": "References are resolved against the enclosing id scope", "statement": "While loading, each $ref in a schema position is replaced by its resolution against the nearest enclosing $id (or id); every other part of the document is left unchanged.", "quantifier": "every document, any nesting of ids", "why_tests_cant": "nesting depth and id placement are unbounded", "anchors": ["schemaPool.go:parseReferences", "schemaPool.go:parseReferencesRecursive"]}
{"id": "C26", "title": "const and enum payloads are literal", "statement": "Nothing below const or enum is interpreted as a schema: references and ids inside them are neither rewritten nor registered.", "quantifier": "every document", "why_tests_cant": "all payloads", "anchors": ["schemaPool.go:parseReferencesRecursive"]}
{"id": "C27", "title": "The document pool never replaces an identified schema", "statement": "Adding schemas to a SchemaLoader never changes what an already registered id resolves to, and registering an existing URL is reported as an error.", "quantifier": "every sequence of AddSchema/AddSchemas/Compile calls", "why_tests_cant": "all histories", "anchors": ["schemaPool.go:parseReferences", "schemaPool.go:GetDocument", "schemaLoader.go"]}
{"id": "C28", "title": "Resolving a reference is stable", "statement": "Resolving the same reference twice through a loader yields the same document, and caching a resolved reference does not change the resolution of any other reference already resolvable.", "quantifier": "every pool state, every reference, every history of lookups", "why_tests_cant": "all histories", "anchors": ["schemaPool.go:GetDocument"]}
{"id": "C29", "title": "A SchemaLoader can compile several schemas", "statement": "After a successful Compile, the same SchemaLoader can compile another schema given as a string. (Violated: the second Compile of a string/bytes/Go/raw loader fails with \"Reference already exists\".)", "quantifier": "every pair of schema documents", "why_tests_cant": "history dependent", "anchors": ["schemaLoader.go:Compile", "schemaPool.go:parseReferences"]}
{"id": "C30", "title": "Meta-schema validation stays enabled", "statement": "When SchemaLoader.Validate is true it is still true after any AddSchema, AddSchemas or Compile call, successful or not. (Violated when loading the meta-schema fails: Validate is silently left false.)", "quantifier": "every history of loader calls", "why_tests_cant": "histories with failing loads", "anchors": ["schemaLoader.go:validateMetaschema"]}
{"id": "C31", "title": "A file-system loader reads every reference through its file system", "statement": "Compiling with NewReferenceLoaderFileSystem reads every referenced document through that http.FileSystem. (Violated when Validate is on: loading the meta-schema resets the pool's loader factory to the OS file system.)", "quantifier": "every schema and file system", "why_tests_cant": "depends on call history and configuration", "anchors": ["schemaLoader.go:Compile", "schemaLoader.go:validateMetaschema", "schemaPool.go:GetDocument"]}
{"id": "C32", "title": "AutoDetect=false ignores $schema", "statement": "With AutoDetect off, the draft of every schema taking part in a compilation is the loader's Draft, whatever $schema says. (Holds for pooled documents; violated for a document fetched during the compilation.)", "quantifier": "every schema set, every draft", "why_tests_cant": "depends on where each document came from", "anchors": ["schemaLoader.go:Compile", "schemaPool.go:GetDocument", "draft.go:parseSchemaURL"]}
{"id": "C33", "title": "FormatCheckers behaves as a map", "statement": "After any sequence of Add/Remove, Has and IsFormat behave as a map from names to checkers; unknown formats accept everything; built-in checkers accept every non-string.", "quantifier": "every operation sequence, every name and value", "why_tests_cant": "all histories", "anchors": ["format_checkers.go:Add", "format_checkers.go:Remove", "format_checkers.go:Has", "format_checkers.go:IsFormat"]}
{"id": "C34", "title": "FormatCheckers is linearizable", "statement": "Under any interleaving of goroutines calling Add, Remove, Has and IsFormat, every Has/IsFormat answer is that of the registry at some instant between its call and its return, the map is never written while being read, and the final registry is that of a sequential order of the writes.", "quantifier": "every number of goroutines, every interleaving", "why_tests_cant": "schedules are unbounded", "anchors": ["format_checkers.go", "format_checkers.go:lock"]}
{"id": "C35", "title": "Built-in lexical formats", "statement": "uuid, hostname, json-pointer, relative-json-pointer, date, ipv6 accept exactly the strings of their documented grammar; for the other built-in formats (time, date-time, ipv4, the URI formats, email) the exact accepted language is stated, with what of the documented grammar it contains.", "quantifier": "every string", "why_tests_cant": "infinitely many strings", "anchors": ["format_checkers.go"]}
{"id": "C36", "title": "Error templates are safe to share", "statement": "Under any interleaving of goroutines rendering error messages, each call returns the rendering of its own template with its own details, and the shared template set is never written while another goroutine reads it under the lock.", "quantifier": "every number of goroutines, templates and interleavings", "why_tests_cant": "schedules are unbounded", "anchors": ["errors.go:formatErrorDescription"]}
{"id": "C37", "title": "Context strings", "statement": "JsonContext.String(del) is the path elements from the root joined by the delimiter (default \".\"); Field() is that string without the leading \"(root).\"; extending a context never changes existing ones.", "quantifier": "every context, every delimiter", "why_tests_cant": "all paths", "anchors": ["jsonContext.go", "result.go:Field"]}
{"id": "C38", "title": "A compiled Schema is reusable", "statement": "Results do not depend on which documents were validated before, or concurrently, with the same Schema: the Schema is never modified by Validate.", "quantifier": "every sequence of Validate calls interleaved with registry changes", "why_tests_cant": "all histories", "anchors": ["validation.go:Validate", "validation.go:validateDocument"]}
{"id": "C39", "title": "YAML-style maps are converted", "statement": "An instance containing map[interface{}]interface{} objects with string keys is validated exactly like the same instance with map[string]interface{} objects.", "quantifier": "every instance", "why_tests_cant": "all instances", "anchors": ["utils.go:convertDocumentNode", "validation.go:validateRecursive"]}
{"id": "C40", "title": "All loaders agree", "statement": "String, bytes, reader, writer and raw loaders holding the same JSON document yield the same schema and the same validation results; only the first JSON value of the source is read.", "quantifier": "every JSON text", "why_tests_cant": "all texts", "anchors": ["jsonLoader.go"]}
{"id": "C41", "title": "SetRootSchemaName", "statement": "SetRootSchemaName does not influence any validation result (contexts and fields keep \"(root)\").", "quantifier": "every schema, name and instance", "why_tests_cant": "all inputs", "anchors": ["schema.go:SetRootSchemaName", "validation.go:validateDocument"]}
{"id": "C42", "title": "Positional items", "statement": "With items an array of n>0 schemas, element i<n is checked by the i-th schema and the others by additionalItems; with a single schema every element is checked by it. (The draft also demands additionalItems:false to forbid all elements when items is []; the library accepts them.)", "quantifier": "every array, every items list", "why_tests_cant": "all lengths", "anchors": ["validation.go:validateArray"]}
{"id": "C43", "title": "Custom errors are appended", "statement": "Result.AddError keeps all existing errors, appends exactly the given error with its description rendered, and makes Valid() false.", "quantifier": "every result and error", "why_tests_cant": "all histories of AddError", "anchors": ["result.go:AddError"]}
{"id": "C44", "title": "Decoding keeps numbers verbatim and last members win", "statement": "Decoding a JSON text keeps every number literal verbatim, keeps the last of several members with the same name, and ignores text after the first value.", "quantifier": "every JSON text", "why_tests_cant": "all texts", "anchors": ["jsonLoader.go:decodeJSONUsingNumber"]}
{"id": "C45", "title": "A result is a function of the schema document and the instance", "statement": "Two compilations of the same schema document by the same SchemaLoader state, whatever order Go's maps are walked in during compilation, give schemas that return the same errors, contexts and score on every instance.", "quantifier": "every document, loader, map order and instance", "why_tests_cant": "map iteration orders and instances are unbounded", "anchors": ["schema.go:parseSchema", "schemaLoader.go:Compile", "validation.go:validateRecursive"]}
{"id": "C46", "title": "The errors are exactly what the keywords report", "statement": "The errors of checking a value by a schema object are either the single type error (when the type keyword forbids the value) or, in one fixed order, what each keyword has to report about it: every numeric, string, array, object and combinator keyword reports its own error exactly when its condition fails, with the documented details, followed by the errors of the subschemas it applies; nothing else is ever reported and nothing is left out.", "quantifier": "every compiled schema object, instance and map order", "why_tests_cant": "all schemas, instances and depths", "anchors": ["validation.go:validateRecursive", "validation.go:validateSchema", "validation.go:validateCommon", "validation.go:validateArray", "validation.go:validateObject", "validation.go:validateString", "validation.go:validateNumber"]}
{"id": "C47", "title": "Meta-schema validation accepts exactly conforming documents", "statement": "With Validate on, Compile, AddSchema and AddSchemas reject a document exactly when it does not conform, by the meaning of JSON Schema, to the shipped meta-schema of the draft it declares (or that the loader is set to); a conforming document is compiled as without Validate.", "quantifier": "every document with moderate numbers, every loader state in which the meta-schema URLs are not overwritten, every map order", "why_tests_cant": "documents and loader histories are unbounded", "anchors": ["schemaLoader.go:validateMetaschema", "schemaLoader.go:Compile", "schemaLoader.go:AddSchema", "schemaLoader.go:AddSchemas", "draft.go:GetMetaSchema"]}
{"id": "C48", "title": "References resolve as RFC 3986 says", "statement": "Resolving a reference against an absolute base, with the URL library the loader uses (net/url through gojsonreference), gives the text that RFC 3986 sections 5.2 and 5.3 prescribe; parsing and printing a reference gives it back, dropping the fragment drops only the fragment, the fragment used as JSON pointer is the percent-decoded one, and a reference counts as canonical exactly when it names a file or a host.", "quantifier": "all bases and references of the common form [scheme:][//host[:port]]path[?query][#fragment]", "why_tests_cant": "infinitely many references; dot segments, escapes and empty components interact", "anchors": ["schemaPool.go:parseReferencesRecursive", "schemaPool.go:GetDocument", "schema.go:parseReference", "jsonLoader.go:LoadJSON"]}
{"id": "C49", "title": "The loader's guarantees hold with Go's URL library", "statement": "On documents whose references are plain URLs, every sequence of loader calls behaves as with a URL library that satisfies the laws the other claims assume; hence with Go's own library verdicts are those of JSON Schema, recursion is bounded, meta-schema validation decides conformance and no call panics.", "quantifier": "every call sequence, plain documents and served pages, map orders", "why_tests_cant": "all call sequences and documents; the laws are about all URLs", "anchors": ["schemaLoader.go:Compile", "schemaLoader.go:AddSchema", "schemaLoader.go:AddSchemas", "schemaPool.go:parseReferences"]}
{"id": "C50", "title": "A file URL reads the file of that path, a web URL asks for the address without fragment", "statement": "Loading a reference file:///path reads the file whose name is the percent-decoded path; loading any other reference asks the web (or the shipped meta-schemas) for the reference without its fragment.", "quantifier": "all references of the common form, all file systems and webs", "why_tests_cant": "infinitely many paths and escapes", "anchors": ["jsonLoader.go:LoadJSON", "jsonLoader.go:loadFromFile", "jsonLoader.go:loadFromHTTP"]}
{"id": "C51", "title": "Fragments of references are JSON pointers", "statement": "A reference into a known document leads to the value its fragment names: the fragment is the percent-decoded text after '#', an RFC 6901 pointer whose tokens are not odd numerals is followed exactly as RFC 6901 says and fails where RFC 6901 has no value; for every other fragment the outcome is characterised exactly (which texts count as index, what is not a pointer, what a stray '~' means).", "quantifier": "all documents, fragments, pool states, map orders; all references Go's URL library accepts", "why_tests_cant": "infinitely many documents, names with escapes, and index texts", "anchors": ["schemaPool.go:GetDocument", "schema.go:parseReference"]}
{"id": "C52", "title": "The text of an error names the place and says what is wrong", "statement": "String() of every error Validate reports is the place of the error (\"(root)\" or the member names and indices joined by dots), a colon, and the documented English message of its type with each placeholder replaced by that error's detail (details are never themselves expanded); String() never panics on such an error.", "quantifier": "all schemas graphs, decoded instances, map orders", "why_tests_cant": "all error types at all places; texts with braces inside details", "anchors": ["result.go:String", "errors.go:formatErrorDescription", "locales.go:ErrorFormat", "jsonContext.go:String"]}
{"id": "C53", "title": "A failed AddSchema leaves the loader as it was", "statement": "When AddSchema returns an error the loader is unchanged, except in exactly one characterised case (the document's own identifier is known already: then the refused document stays registered under the URL); when AddSchemas returns an error exactly the documents before the failing one are registered.", "quantifier": "all loaders, documents, URLs, pool states, map orders, with meta-schema validation off", "why_tests_cant": "all pool states and documents", "anchors": ["schemaLoader.go:AddSchema", "schemaLoader.go:AddSchemas", "schemaPool.go:parseReferences"]}
{"id": "C54", "title": "The caller's value given to NewRawLoader", "statement": "Loading a schema given as a Go value by NewRawLoader rewrites that very value: afterwards each $ref in a schema position is its resolution against the nearest enclosing identifier and nothing else has changed; a value whose references are absolute already is left alone. (That loading leaves the caller's value unchanged is false: the same value added under a second URL refers to the first.)", "quantifier": "all values, URLs, loaders, map orders", "why_tests_cant": "all documents with nested identifiers", "anchors": ["jsonLoader.go:NewRawLoader", "schemaPool.go:parseReferencesRecursive", "schemaLoader.go:AddSchema", "schemaLoader.go:Compile"]}
{"id": "C55", "title": "Combinators are Boolean connectives", "statement": "Take schemas without references, identifiers and $schema that NewSchema accepts, and combine them in any nesting of non-empty allOf, anyOf, oneOf, not and if/then/else. The combined document compiles, and validating any instance with it returns a result that is valid exactly when the corresponding propositional formula is true of the verdicts of the parts; so equivalent formulas (De Morgan, double negation, if/then/else as a disjunction) give schemas with the same verdicts. (For empty lists it is false: anyOf without operands accepts everything.)", "quantifier": "all formulas, schemas, instances, map orders, fuels", "why_tests_cant": "relates infinitely many pairs of schemas; metamorphic tests sample a few", "anchors": ["validation.go:validateSchema", "schema.go:parseSchema"]}
{"id": "C56", "title": "The shipped meta-schemas demand what the drafts demand", "statement": "For drafts 4, 6 and 7, a JSON document is valid against the meta-schema text embedded in the library exactly when it is a schema of that draft, keyword by keyword: type names, non-negative integers for lengths and counts, positive multipleOf, non-empty arrays of schemas for allOf/anyOf/oneOf, distinct strings for required, exclusiveMinimum a boolean needing minimum (draft 4) or a number, URI and regex formats, and so on for all subschemas. So with Validate on, Compile accepts a document without references exactly when it is such a schema, provided the library can use it (identifiers it can parse, lengths written as plain integers, non-empty ranges, compilable patterns, constants in float64 range); without Validate it accepts a schema of the draft exactly when it is usable. (Without Validate it also takes documents that are no schemas, such as an empty anyOf, and even schemas of the draft are rejected when a length is written 2.0.)", "quantifier": "all documents, drafts 4, 6 and 7, loaders, fuels, map orders", "why_tests_cant": "the set of documents is infinite and the meta-schemas are recursive; a slip in one keyword's entry shows only for that shape of document", "anchors": ["draft.go:drafts", "schemaLoader.go:validateMetaschema", "schema.go:parseSchema"]}
{"id": "C57", "title": "Patterns mean what their notation says", "statement": "Take any regular expression in the notation ECMA-262 and Go's package regexp share (literals, escapes, dot, classes with ranges and negation, \\d \\w \\s and their complements, groups, alternation, greedy and lazy quantifiers with counts up to 1000 in all, anchors, word boundaries) and within the library's size limits. NewSchema accepts it in pattern and patternProperties, and a string (member name) satisfies it exactly when some piece of the text, read as code points, matches the expression: the search is unanchored, ^ and $ mean the ends of the text and not of a line, lazy quantifiers change nothing. (Beyond the shared notation lookahead and back-references are refused, \\s does not include the vertical tab, and the dot matches a carriage return.)", "quantifier": "all expressions, strings, objects, member schemas, map orders, fuels, Unicode tables", "why_tests_cant": "infinitely many expressions and texts; tests use a handful of expressions", "anchors": ["schema.go:parseSchema (pattern, patternProperties)", "validation.go:validateString", "validation.go:validatePatternProperty"]}
{"id": "C58", "title": "The whole library decides what the drafts say", "statement": "Package-level Validate, run with Go's own packages regexp, net/url, net/mail, time and encoding/json behind it and the format registry as it is set up, returns without error or panic on every well-formed schema and JSON instance and its verdict is Valid exactly when the instance satisfies the schema under the drafts' rules, where pattern and patternProperties mean what the shared ECMA-262 notation says, and each format is its grammar. This holds for a schema text without references and an instance text, and for schemas whose references lead through any number of documents fetched by plain references.", "quantifier": "all schema and instance texts, loaders, web contents, map orders, Unicode tables, fuels above the stated bound", "why_tests_cant": "a statement about every schema text and every instance text; tests fix both", "anchors": ["validation.go:Validate", "schema.go:NewSchema", "format_checkers.go:FormatCheckers"]}
{"id": "C59", "title": "The numbers in the messages are the bounds of the schema", "statement": "The message of every error about minimum, maximum, exclusiveMinimum, exclusiveMaximum, multipleOf, minItems, maxItems, minProperties, maxProperties, minLength and maxLength shows, as package fmt prints the *big.Float or int put into the details, a JSON number that is the value of that keyword in the schema: exactly so for counts, for integers of any size and for numbers of at most 18 significant digits, and otherwise within one part in 2^62. (With more digits the number shown can differ from the bound, so that an instance equal to the number shown is still rejected.)", "quantifier": "every compiled schema, instance, map order and error returned; every rational bound", "why_tests_cant": "the claim is about every rational number a schema may hold and the shortest-decimal search of math/big on it; tests try a few", "anchors": ["validation.go:validateNumber", "errors.go:formatErrorDescription", "locales.go:DefaultLocale"]}
{"id": "C60", "title": "Every error is a broken keyword of a schema that applies there", "statement": "For every error returned there is a chain of schema objects from the root, each handing the value or a part of it to the next as its keywords prescribe ($ref, properties, patternProperties and additionalProperties by name, items by position, then/else by the verdict of if, and so on), that ends at a schema object one of whose keywords the error is about; the value at hand breaks that keyword, the error is at the place of that value and its details are the keyword's value.", "quantifier": "every compiled graph (cyclic or not), instance, map order and error returned, at any depth", "why_tests_cant": "quantifies over all graphs and instances; needs induction over the recursion", "anchors": ["validation.go:validateRecursive", "errors.go:newError"]}
{"id": "C61", "title": "Exactly when Validate does not return", "statement": "Validate recurses for ever on an instance exactly when, starting from the root, some check (a schema object, a value and its place) is made in the course of itself, where a check makes the checks its keywords prescribe for that very value: a branch of anyOf only when the earlier branches reject, then or else by the verdict of if, an element for contains only when the earlier ones are rejected, nothing at all when the type is wrong. Otherwise it returns, and its recursion is no deeper than a bound known from the sizes of schema and instance.", "quantifier": "every compiled graph (cyclic or not), every instance, every map order", "why_tests_cant": "non-termination cannot be observed by a test, and the equivalence is over all graphs and instances", "anchors": ["validation.go:validateRecursive", "validation.go:validateSchema"]}
{"id": "C62", "title": "Every error of Compile tells a real mistake", "statement": "When NewSchema or Compile returns an error for a document whose references all lead somewhere, the text of that error describes a mistake that the root schema, a schema inside it, or one behind a reference does contain: the keyword named is there, and it is wrong in the way the text says (wrong kind of value, unknown or repeated type, duplicate in required or enum, minimum above maximum, bad regular expression, negative size, ...). With Validate on, the error is either that of the meta-schema, and then the document is no schema of its draft, or such a mistake.", "quantifier": "every document, loader and setting, every map order, references within and across documents", "why_tests_cant": "tests check one message per keyword on one small schema; which error surfaces depends on map order and on the whole graph of references", "anchors": ["schema.go:parseSchema", "schema.go:parseReference", "schemaType.go:Add", "locales.go", "errors.go:formatErrorDescription"]}
{"id": "C63", "title": "Every error of Validate has its reason in the schema document", "statement": "For a schema made by Compile, each error in a result of Validate points to a part of the instance (its context) that the schema document, followed by its keywords and references, asks to fit some schema object or boolean, and that part does break the keyword of that object which the type of the error names: the bound, length, pattern, format, required or forbidden property or dependency stated in the error's details is the one written in the document, and the value carried is the part at that place. Errors from schemas that were not asked (the schema under not, the condition of if, the branch not taken) do not appear.", "quantifier": "every compiled document with any references within and across documents, every instance, every map order at compile time and at validation time", "why_tests_cant": "tests compare error lists of a few fixed pairs; the claim relates every error of every run to the written schema through arbitrarily long chains of references and sub-schemas", "anchors": ["validation.go:validateRecursive", "validation.go:validateSchema", "validation.go:validateArray", "validation.go:validateObject", "result.go:addInternalError", "result.go:mergeErrors"]}
{"id": "C64", "title": "Validate reports everything that is wrong", "statement": "Validation does not stop at the first mistake: whenever the schema document, by allOf, the taken branch of a conditional, dependencies, items, properties, patternProperties, additional items and properties, propertyNames and references, requires a part of the instance to fit a schema object, and that part breaks a keyword of it (or the schema is false), the result holds an error of that type, at that place, with that value, and naming that bound, property, dependency, pattern or format. Only a part of the wrong type hides the other mistakes of the same object about that part.", "quantifier": "every compiled document with any references, every instance, every map order", "why_tests_cant": "a dropped error among several is invisible to tests that check validity or a single expected error", "anchors": ["validation.go:validateRecursive", "validation.go:validateSchema", "validation.go:validateCommon", "validation.go:validateArray", "validation.go:validateObject", "validation.go:validateNumber", "validation.go:validateString", "result.go:mergeErrors"]}
{"id": "C65", "title": "The error for a document that is no schema of its draft", "statement": "With Validate on, compiling a document that is no schema of its draft (4, 6 or 7) fails with an error whose text is one line per error of validating the document against the meta-schema shipped for that draft: the place, a colon, and the message of the error's type with its details filled in. The list is not empty, every line has its reason in the meta-schema document (C63), and every mistake the meta-schema requires to be absent has a line (C64).", "quantifier": "every document in the setting of C47, every loader, every map order", "why_tests_cant": "tests check that some error comes back; a dropped or misplaced line, or a line of another document's errors, is not visible to them", "anchors": ["schemaLoader.go:validateMetaschema", "result.go:String", "schemaLoader.go:Compile"]}
{"id": "C66", "title": "A reference that leads nowhere makes Compile fail, and the error is its own", "statement": "Where every reference met while compiling either leads to a schema or leads nowhere (a pointer that names nothing in a document, a page that is not served, a reference relative to nothing), Compile succeeds iff every schema met has the shape its draft asks for and every reference met leads to a schema. If it fails, the error is that of a mistake of a schema met, or that of a reference met which leads nowhere: of the kind of its failure, and naming the reference when it is relative to nothing. With Validate on the same holds together with the demands of the meta-schema.", "quantifier": "every document with any references, every loader state, every map order", "why_tests_cant": "a dangling reference behind other references, swallowed or replaced by an empty schema, compiles silently", "anchors": ["schemaPool.go:GetDocument", "schema.go:parseReference", "schema.go:parseSchema", "jsonLoader.go:LoadJSON"]}
{"id": "C67", "title": "A schema demands what its keywords demand, each by itself", "statement": "Distributing the keywords of a schema object over several objects in any way that keeps together the keywords that are read together (properties with patternProperties and additionalProperties; items with additionalItems; if with then and else; maximum with exclusiveMaximum; minimum with exclusiveMinimum) gives schemas that compile, and an instance satisfies the schema iff it satisfies all of them. In particular the verdict is the conjunction of the verdicts of the single keywords, and taking keywords away never makes a valid instance invalid.", "quantifier": "every schema object without references, identifiers and $schema that NewSchema accepts, every distribution of its keywords, every instance, every map order", "why_tests_cant": "tests use few keywords at a time; interference between two keywords shows only on their combination, and there are hundreds of pairs", "anchors": ["schema.go:parseSchema", "validation.go:validateCommon", "validation.go:validateArray", "validation.go:validateObject", "validation.go:validateNumber", "validation.go:validateString"]}
{"id": "C68", "title": "Only the verdicts of a subschema matter; schemas said in other words", "statement": "Exchanging subschemas, anywhere in a schema, for schemas that have the same verdicts changes no verdict. The following say the same: const c and enum [c]; an enum and the anyOf of its constants; a list of types and the anyOf of the types; a list of required names and the allOf of the single ones; a dependency on names and on the schema requiring them; properties and the allOf of the single properties; a draft-4 exclusive bound and the numeric one; maxItems 0 and items false; maxProperties 0, propertyNames false and additionalProperties false; true and {}; false and {not: {}}; allOf, anyOf, oneOf of one schema and the schema; double negation; not-anyOf and the allOf of nots; if/then/else and its conjunctive form.", "quantifier": "every schema without references, identifiers and $schema that NewSchema accepts, every set of places in it, every pair above in either direction, every instance, every map order", "why_tests_cant": "tests check single keywords against fixed verdicts; nothing compares two ways of saying the same inside arbitrary contexts", "anchors": ["schema.go:parseSchema", "validation.go:validateSchema", "validation.go:validateCommon", "validation.go:validateObject", "validation.go:validateArray"]}
{"id": "C69", "title": "The order in which documents are added is irrelevant", "statement": "What a SchemaLoader does depends on the documents it holds only through what each URL means: two loaders with the same settings in which every URL means the same document give, for every Compile, AddSchema and AddSchemas, the same compiled schema, the same error, and know the same afterwards. Documents no two of which have a name in common (their URLs and the identifiers declared in them) are all accepted by AddSchema in whatever order they come, and afterwards the loader knows the same and compiles every schema to the same, errors included.", "quantifier": "every world, pair of loaders, call, map order; every list of addable documents and every permutation of it", "why_tests_cant": "tests add documents in one order", "anchors": ["schemaLoader.go:AddSchema", "schemaLoader.go:AddSchemas", "schemaLoader.go:Compile", "schemaPool.go:parseReferencesRecursive", "schemaPool.go:GetDocument"]}
{"id": "C70", "title": "A document held beforehand or fetched on the way makes no difference", "statement": "A SchemaLoader that already holds documents another one, with the same settings, would fetch where they are served (or parts it would find in documents it knows) compiles the same schemas, and the compiled schemas accept the same instances. A loader comes to hold more in this way by AddSchema of a document under the URL where it is served, and by compiling another schema by its URL before; so neither changes a verdict.", "quantifier": "every world, pair of loaders, schema given by text, value or reference, every instance and map order", "why_tests_cant": "tests use one loader history per schema; the statement compares all histories", "anchors": ["schemaPool.go:GetDocument", "schemaLoader.go:AddSchema", "schemaLoader.go:Compile"]}
{"id": "C71", "title": "Compile reads no document that nothing refers to", "statement": "The outcome of Compile (the compiled schema or the error, and what the loader holds afterwards) depends on what files and web servers hold only at the URLs there is a reason to ask for: the loader's own reference; what a \"$ref\" in a document read so far or held by the loader says, as it stands or resolved against the URL or an identifier of its document; and, with Validate on, what a \"$schema\" says and the URL of the chosen draft. A document the SchemaLoader already holds is not asked for again, so a SchemaLoader that holds all of them reads nothing. In particular a text without \"$ref\" is compiled without reading anything, AddSchema and AddSchemas without Validate read nothing but their own loaders, and AddSchema with Validate reads what compiling the meta-schema by its URL reads.", "quantifier": "every pair of worlds that serve the same at those URLs, every loader state, schema loader, fuel and map order; no condition on the documents", "why_tests_cant": "a test sees the requests of one run; the statement covers every document, well-formed or not, and every content of the rest of the web", "anchors": ["schemaPool.go:GetDocument", "schemaPool.go:parseReferencesRecursive", "schemaLoader.go:Compile", "schemaLoader.go:validateMetaschema", "schemaLoader.go:AddSchema", "schema.go:parseReference"]}
{"id": "C72", "title": "A SchemaLoader holds documents only under the URLs asked for and their identifiers", "statement": "After Compile, whether it succeeds or fails, every URL under which the SchemaLoader holds a document is one it held before, one there was a reason to ask for (C71), or the URL or a resolved identifier of a document that was read; and it still holds a document under every URL it did before. After AddSchema the new URLs are the one given and the resolved identifiers in the document, with Validate on also those that compiling the meta-schema of the document brings in; after AddSchemas (Validate off) the resolved identifiers in the documents. So no document is filed under an address that neither a request nor an identifier names.", "quantifier": "every world, loader, schema loader state, fuel and fair map order; no condition on the documents", "why_tests_cant": "a test inspects the pool after one run; the statement covers every document, including those that make the call fail half-way", "anchors": ["schemaPool.go:parseReferences", "schemaPool.go:parseReferencesRecursive", "schemaPool.go:GetDocument", "schemaLoader.go:Compile", "schemaLoader.go:validateMetaschema", "schemaLoader.go:AddSchema", "schemaLoader.go:AddSchemas"]}
