(** Specification: the English text of every error. *)
From Coq Require Import String List.
Import ListNotations.
Open Scope string_scope.
Open Scope list_scope.

Inductive piece := Says (t : string) | Detail (name : string).
(** The messages of locales.go:195-457, by error type. *)
Definition messages : list (string * list piece) :=
  [("false", [Says "False always fails validation"]);
   ("required", [Detail "property"; Says " is required"]);
   ("invalid_type", [Says "Invalid type. Expected: "; Detail "expected"; Says ", given: "; Detail "given"]);
   ("number_any_of", [Says "Must validate at least one schema (anyOf)"]);
   ("number_one_of", [Says "Must validate one and only one schema (oneOf)"]);
   ("number_all_of", [Says "Must validate all the schemas (allOf)"]);
   ("number_not", [Says "Must not validate the schema (not)"]);
   ("missing_dependency", [Says "Has a dependency on "; Detail "dependency"]);
   ("const", [Detail "field"; Says " does not match: "; Detail "allowed"]);
   ("enum", [Detail "field"; Says " must be one of the following: "; Detail "allowed"]);
   ("array_no_additional_items", [Says "No additional items allowed on array"]);
   ("array_min_items", [Says "Array must have at least "; Detail "min"; Says " items"]);
   ("array_max_items", [Says "Array must have at most "; Detail "max"; Says " items"]);
   ("unique", [Detail "type"; Says " items["; Detail "i"; Says ","; Detail "j"; Says "] must be unique"]);
   ("contains", [Says "At least one of the items must match"]);
   ("array_min_properties", [Says "Must have at least "; Detail "min"; Says " properties"]);
   ("array_max_properties", [Says "Must have at most "; Detail "max"; Says " properties"]);
   ("additional_property_not_allowed", [Says "Additional property "; Detail "property"; Says " is not allowed"]);
   ("invalid_property_pattern", [Says "Property """; Detail "property"; Says """ does not match pattern "; Detail "pattern"]);
   ("invalid_property_name", [Says "Property name of """; Detail "property"; Says """ does not match"]);
   ("string_gte", [Says "String length must be greater than or equal to "; Detail "min"]);
   ("string_lte", [Says "String length must be less than or equal to "; Detail "max"]);
   ("pattern", [Says "Does not match pattern '"; Detail "pattern"; Says "'"]);
   ("format", [Says "Does not match format '"; Detail "format"; Says "'"]);
   ("multiple_of", [Says "Must be a multiple of "; Detail "multiple"]);
   ("number_gte", [Says "Must be greater than or equal to "; Detail "min"]);
   ("number_gt", [Says "Must be greater than "; Detail "min"]);
   ("number_lte", [Says "Must be less than or equal to "; Detail "max"]);
   ("number_lt", [Says "Must be less than "; Detail "max"]);
   ("condition_then", [Says "Must validate ""then"" as ""if"" was valid"]);
   ("condition_else", [Says "Must validate ""else"" as ""if"" was not valid"])].

(** The text of a message, given its details. *)
Inductive said (detail : string -> string -> Prop) : list piece -> string -> Prop :=
| said_nil : said detail [] ""
| said_text t ps s : said detail ps s -> said detail (Says t :: ps) (t ++ s)
| said_detail k x ps s : detail k x -> said detail ps s -> said detail (Detail k :: ps) (x ++ s).

(** Where an error is, in words: "(root)", or the names on the way joined by dots. *)
Definition place (p : list string) : string := match p with [] => "(root)" | _ => String.concat "." p end.
