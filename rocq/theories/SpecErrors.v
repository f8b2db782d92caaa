(** What the documentation says about errors, independently of the code:
    README.md "Working with Errors", the comments of errors.go, and paths into
    an instance. *)
From Verif Require Export ModelTemplate.

(** Names of the Go types, errors.go:18-210. *)
Definition go_type (t : etype) : string :=
  match t with
  | FalseError => "FalseError" | RequiredError => "RequiredError" | InvalidTypeError => "InvalidTypeError"
  | NumberAnyOfError => "NumberAnyOfError" | NumberOneOfError => "NumberOneOfError"
  | NumberAllOfError => "NumberAllOfError" | NumberNotError => "NumberNotError"
  | MissingDependencyError => "MissingDependencyError" | InternalError => "InternalError"
  | ConstError => "ConstError" | EnumError => "EnumError"
  | ArrayNoAdditionalItemsError => "ArrayNoAdditionalItemsError"
  | ArrayMinItemsError => "ArrayMinItemsError" | ArrayMaxItemsError => "ArrayMaxItemsError"
  | ItemsMustBeUniqueError => "ItemsMustBeUniqueError" | ArrayContainsError => "ArrayContainsError"
  | ArrayMinPropertiesError => "ArrayMinPropertiesError" | ArrayMaxPropertiesError => "ArrayMaxPropertiesError"
  | AdditionalPropertyNotAllowedError => "AdditionalPropertyNotAllowedError"
  | InvalidPropertyPatternError => "InvalidPropertyPatternError"
  | InvalidPropertyNameError => "InvalidPropertyNameError"
  | StringLengthGTEError => "StringLengthGTEError" | StringLengthLTEError => "StringLengthLTEError"
  | DoesNotMatchPatternError => "DoesNotMatchPatternError" | DoesNotMatchFormatError => "DoesNotMatchFormatError"
  | MultipleOfError => "MultipleOfError" | NumberGTEError => "NumberGTEError" | NumberGTError => "NumberGTError"
  | NumberLTEError => "NumberLTEError" | NumberLTError => "NumberLTError"
  | ConditionThenError => "ConditionThenError" | ConditionElseError => "ConditionElseError"
  end.

(** README.md:248-277 (whose "ConstEror" is a typo; it omits the two first
    entries), with the details of the comments in errors.go:20-209. *)
Definition documented : list (string * string * list string) :=
  [ ("false", "FalseError", []);
    ("format", "DoesNotMatchFormatError", ["format"]);
    ("required", "RequiredError", ["property"]);
    ("invalid_type", "InvalidTypeError", ["expected"; "given"]);
    ("number_any_of", "NumberAnyOfError", []);
    ("number_one_of", "NumberOneOfError", []);
    ("number_all_of", "NumberAllOfError", []);
    ("number_not", "NumberNotError", []);
    ("missing_dependency", "MissingDependencyError", ["dependency"]);
    ("internal", "InternalError", ["error"]);
    ("const", "ConstError", ["allowed"]);
    ("enum", "EnumError", ["allowed"]);
    ("array_no_additional_items", "ArrayNoAdditionalItemsError", []);
    ("array_min_items", "ArrayMinItemsError", ["min"]);
    ("array_max_items", "ArrayMaxItemsError", ["max"]);
    ("unique", "ItemsMustBeUniqueError", ["type"; "i"; "j"]);
    ("contains", "ArrayContainsError", []);
    ("array_min_properties", "ArrayMinPropertiesError", ["min"]);
    ("array_max_properties", "ArrayMaxPropertiesError", ["max"]);
    ("additional_property_not_allowed", "AdditionalPropertyNotAllowedError", ["property"]);
    ("invalid_property_pattern", "InvalidPropertyPatternError", ["property"; "pattern"]);
    ("invalid_property_name", "InvalidPropertyNameError", ["property"]);
    ("string_gte", "StringLengthGTEError", ["min"]);
    ("string_lte", "StringLengthLTEError", ["max"]);
    ("pattern", "DoesNotMatchPatternError", ["pattern"]);
    ("multiple_of", "MultipleOfError", ["multiple"]);
    ("number_gte", "NumberGTEError", ["min"]);
    ("number_gt", "NumberGTError", ["min"]);
    ("number_lte", "NumberLTEError", ["max"]);
    ("number_lt", "NumberLTError", ["max"]);
    ("condition_then", "ConditionThenError", []);
    ("condition_else", "ConditionElseError", []) ].

(** [at_path v p w]: the path [p], read from the root, leads from [v] to [w]:
    member names, and decimal indices into arrays. *)
Inductive at_path (v : value) : list string -> value -> Prop :=
| at_root : at_path v [] v
| at_index p l i x : at_path v p (VArr l) -> nth_error l i = Some x ->
                     at_path v (p ++ [itoa (Z.of_nat i)]) x
| at_member p m k x : at_path v p (VMap m) -> assoc k m = Some x -> at_path v (p ++ [k]) x.

(** An error points into [v]: its context is "(root)" followed by a path of
    [v], and its value is what is there; or it is the named member of the
    object there (additional properties); or the name of a member of that
    object (errors found while checking that name). *)
Definition points_into (v : value) (e : rerror) : Prop :=
  exists p, r_ctx e = rev (STRING_CONTEXT_ROOT :: p) /\
    (at_path v p (r_value e)
     \/ (r_type e = AdditionalPropertyNotAllowedError /\
         exists m k, at_path v p (VMap m) /\ assoc k m = Some (r_value e) /\
                     assoc "property" (r_details e) = Some (DStr k))
     \/ (exists m k x, at_path v p (VMap m) /\ assoc k m = Some x /\ r_value e = VStr k)).

(** An error is complete: its type is one of the documented ones and carries
    the documented details, "field" and "context" agree with Field() and
    Context(), and the message has a value for each of its placeholders. *)
Definition documented_error (e : rerror) : Prop :=
  (exists ds, In (type_name (r_type e), go_type (r_type e), ds) documented /\
     forall d, In d ds -> assoc d (r_details e) <> None) /\
  assoc "field" (r_details e) = Some (DStr (field_of (r_ctx e))) /\
  assoc "context" (r_details e) = Some (DStr (ctx_string [] (r_ctx e))) /\
  forall x, In x (tvars (default_format (r_type e))) -> assoc x (r_details e) <> None.
