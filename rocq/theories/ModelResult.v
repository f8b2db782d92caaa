(** Contexts, error records and results: jsonContext.go, errors.go, result.go, locales.go. *)
From Verif Require Export JsonText.
Open Scope string_scope.
Open Scope list_scope.
Open Scope nat_scope.

(** JsonContext, jsonContext.go:29-38: a persistent list, innermost first.  A
    nil tail is the empty list; a context has at least one element (the API
    never builds an empty one). *)
Definition ctx := list string.
Definition NewJsonContext (head : string) (tail : ctx) : ctx := head :: tail.
Definition STRING_CONTEXT_ROOT := "(root)".          (* locales.go:470 *)
Definition STRING_ROOT_SCHEMA_PROPERTY := "(root)".  (* locales.go:471 *)

(** writeStringToBuffer / String, jsonContext.go:43-73. *)
Fixpoint ctx_write (del : string) (c : ctx) : string :=
  match c with
  | [] => ""
  | [h] => h
  | h :: t => append (ctx_write del t) (append del h)
  end.
Definition ctx_string (del : list string) (c : ctx) : string :=
  ctx_write (match del with d :: _ => d | [] => "." end) c.

(** strings.TrimPrefix. *)
Definition trim_prefix (s p : string) : string :=
  match strip_prefix p s with Some r => r | None => s end.

(** ResultErrorFields.Field, result.go:94-96. *)
Definition field_of (c : ctx) : string :=
  trim_prefix (ctx_string [] c) (append STRING_ROOT_SCHEMA_PROPERTY ".").

(** The error types of errors.go:18-210. *)
Inductive etype :=
| FalseError | RequiredError | InvalidTypeError | NumberAnyOfError | NumberOneOfError
| NumberAllOfError | NumberNotError | MissingDependencyError | InternalError | ConstError
| EnumError | ArrayNoAdditionalItemsError | ArrayMinItemsError | ArrayMaxItemsError
| ItemsMustBeUniqueError | ArrayContainsError | ArrayMinPropertiesError
| ArrayMaxPropertiesError | AdditionalPropertyNotAllowedError | InvalidPropertyPatternError
| InvalidPropertyNameError | StringLengthGTEError | StringLengthLTEError
| DoesNotMatchPatternError | DoesNotMatchFormatError | MultipleOfError | NumberGTEError
| NumberGTError | NumberLTEError | NumberLTError | ConditionThenError | ConditionElseError.

(** The switch of newError, errors.go:216-313: type string ... *)
Definition type_name (t : etype) : string :=
  match t with
  | FalseError => "false"
  | RequiredError => "required"
  | InvalidTypeError => "invalid_type"
  | NumberAnyOfError => "number_any_of"
  | NumberOneOfError => "number_one_of"
  | NumberAllOfError => "number_all_of"
  | NumberNotError => "number_not"
  | MissingDependencyError => "missing_dependency"
  | InternalError => "internal"
  | ConstError => "const"
  | EnumError => "enum"
  | ArrayNoAdditionalItemsError => "array_no_additional_items"
  | ArrayMinItemsError => "array_min_items"
  | ArrayMaxItemsError => "array_max_items"
  | ItemsMustBeUniqueError => "unique"
  | ArrayContainsError => "contains"
  | ArrayMinPropertiesError => "array_min_properties"
  | ArrayMaxPropertiesError => "array_max_properties"
  | AdditionalPropertyNotAllowedError => "additional_property_not_allowed"
  | InvalidPropertyPatternError => "invalid_property_pattern"
  | InvalidPropertyNameError => "invalid_property_name"
  | StringLengthGTEError => "string_gte"
  | StringLengthLTEError => "string_lte"
  | DoesNotMatchPatternError => "pattern"
  | DoesNotMatchFormatError => "format"
  | MultipleOfError => "multiple_of"
  | NumberGTEError => "number_gte"
  | NumberGTError => "number_gt"
  | NumberLTEError => "number_lte"
  | NumberLTError => "number_lt"
  | ConditionThenError => "condition_then"
  | ConditionElseError => "condition_else"
  end.

(** ... and the DefaultLocale description format, locales.go:195-457. *)
Definition default_format (t : etype) : string :=
  match t with
  | FalseError => "False always fails validation"
  | RequiredError => "{{.property}} is required"
  | InvalidTypeError => "Invalid type. Expected: {{.expected}}, given: {{.given}}"
  | NumberAnyOfError => "Must validate at least one schema (anyOf)"
  | NumberOneOfError => "Must validate one and only one schema (oneOf)"
  | NumberAllOfError => "Must validate all the schemas (allOf)"
  | NumberNotError => "Must not validate the schema (not)"
  | MissingDependencyError => "Has a dependency on {{.dependency}}"
  | InternalError => "Internal Error {{.error}}"
  | ConstError => "{{.field}} does not match: {{.allowed}}"
  | EnumError => "{{.field}} must be one of the following: {{.allowed}}"
  | ArrayNoAdditionalItemsError => "No additional items allowed on array"
  | ArrayMinItemsError => "Array must have at least {{.min}} items"
  | ArrayMaxItemsError => "Array must have at most {{.max}} items"
  | ItemsMustBeUniqueError => "{{.type}} items[{{.i}},{{.j}}] must be unique"
  | ArrayContainsError => "At least one of the items must match"
  | ArrayMinPropertiesError => "Must have at least {{.min}} properties"
  | ArrayMaxPropertiesError => "Must have at most {{.max}} properties"
  | AdditionalPropertyNotAllowedError => "Additional property {{.property}} is not allowed"
  | InvalidPropertyPatternError => "Property ""{{.property}}"" does not match pattern {{.pattern}}"
  | InvalidPropertyNameError => "Property name of ""{{.property}}"" does not match"
  | StringLengthGTEError => "String length must be greater than or equal to {{.min}}"
  | StringLengthLTEError => "String length must be less than or equal to {{.max}}"
  | DoesNotMatchPatternError => "Does not match pattern '{{.pattern}}'"
  | DoesNotMatchFormatError => "Does not match format '{{.format}}'"
  | MultipleOfError => "Must be a multiple of {{.multiple}}"
  | NumberGTEError => "Must be greater than or equal to {{.min}}"
  | NumberGTError => "Must be greater than {{.min}}"
  | NumberLTEError => "Must be less than or equal to {{.max}}"
  | NumberLTError => "Must be less than {{.max}}"
  | ConditionThenError => "Must validate ""then"" as ""if"" was valid"
  | ConditionElseError => "Must validate ""else"" as ""if"" was not valid"
  end.

(** Values stored in ErrorDetails (result.go:36).  [DRat q] stands for the
    *big.Float obtained from the rational q, [DRegexp p] for a *regexp.Regexp,
    [DError] for an error value. *)
Inductive dval :=
| DStr (s : string)
| DInt (z : Z)
| DRat (q : Q)
| DRegexp (p : string)
| DError.
Definition details := list (string * dval).

(** ResultErrorFields, result.go:74-81.  The description is a function of the
    format and the details ([default_format], formatErrorDescription); it is
    modelled in ModelTemplate.v. *)
Record rerror := RError {
  r_type : etype;
  r_ctx : ctx;
  r_value : value;
  r_details : details
}.

(** newError, errors.go:213-327, with the "field" and "context" details. *)
Definition newError (t : etype) (c : ctx) (v : value) (d : details) : rerror :=
  let d1 := aset "field" (DStr (field_of c)) d in
  let d2 := match assoc "context" d1 with
            | Some _ => d1
            | None => aset "context" (DStr (ctx_string [] c)) d1
            end in
  RError t c v d2.

(** Result, result.go:84-89. *)
Record result := Result { errors : list rerror; score : Z }.
Definition new_result : result := Result [] 0.

(** Valid, result.go:185-187. *)
Definition Valid (r : result) : bool :=
  match errors r with [] => true | _ => false end.

(** The Go functions take a *Result and only ever append errors and add to the
    score; the model has each of them return what it appends, and [radd] (also
    mergeErrors, result.go:213-216) puts the pieces together. *)
Definition radd (a b : result) : result :=
  Result (errors a ++ errors b) (score a + score b).

(** addInternalError, result.go:206-210. *)
Definition emit (t : etype) (c : ctx) (v : value) (d : details) : result :=
  Result [newError t c v d] (-2).

(** incrementScore, result.go:218-220. *)
Definition inc : result := Result [] 1.

(** Run the pieces one after the other. *)
Fixpoint run_all (l : list (out result)) : out result :=
  match l with
  | [] => Ok new_result
  | x :: l' => do r <- x; do rs <- run_all l'; Ok (radd r rs)
  end.

(** [when b r]: an [if b { ... }] block. *)
Definition when (b : bool) (r : out result) : out result :=
  if b then r else Ok new_result.
