(** Specification: what drafts 4, 6 and 7 (their core and validation documents)
    allow as the value of each keyword. *)
From Verif Require Export SpecShape.
Open Scope string_scope.
Open Scope list_scope.
Open Scope nat_scope.

Section Drafts.
  (** [has f s]: the string s has the format f. *)
  Variable has : string -> string -> Prop.
  Variable same : value -> value -> Prop.        (* equality of JSON values *)
  Variable d : draft.
  Variable m : list (string * value).
  Notation kw := (kw m).

  (** A string, of that format from draft 6 on. *)
  Definition address (f : string) (x : value) : Prop := exists s, x = VStr s /\ (since6 d -> has f s).
  Definition non_negative_integer (x : value) : Prop := exists n, is_int x n /\ (0 <= n)%Z.
  (** No two elements are equal. *)
  Definition distinct (l : list value) : Prop :=
    forall i j a b, i < j -> nth_error l i = Some a -> nth_error l j = Some b -> ~ same a b.
  (** An array of distinct strings; draft 4 wants at least one. *)
  Definition string_array (x : value) : Prop := exists l, texts x l /\ NoDup l /\ (d = Draft4 -> l <> []).
  Definition non_empty_array (x : value) : Prop := exists l, x = VArr l /\ l <> [].
  Definition a_type (x : value) : Prop :=
    (exists t, x = VStr t /\ In t type_names) \/ (exists l, texts x l /\ l <> [] /\ NoDup l /\ incl l type_names).
  (** Draft 4: a modifier of the bound; later: a bound of its own. *)
  Definition exclusive (key : string) (x : value) : Prop :=
    d = Draft4 /\ is_boolean x /\ assoc key m <> None \/ since6 d /\ is_number x.

  Definition identified : Prop :=
    (d = Draft4 -> kw "id" is_string) /\ (since6 d -> kw "$id" (address "uri-reference")) /\
    kw "$schema" (address "uri") /\ (since6 d -> kw "$ref" (address "uri-reference")).
  Definition annotated : Prop :=
    kw "title" is_string /\ kw "description" is_string /\ (since6 d -> kw "examples" is_array) /\
    (since7 d -> kw "$comment" is_string /\ kw "readOnly" is_boolean /\ kw "contentMediaType" is_string /\ kw "contentEncoding" is_string).
  Definition bounded : Prop :=
    kw "multipleOf" (fun x => exists q, is_num x q /\ (0 < q)%Q) /\ kw "maximum" is_number /\ kw "minimum" is_number /\
    kw "exclusiveMaximum" (exclusive "maximum") /\ kw "exclusiveMinimum" (exclusive "minimum") /\
    kw "maxLength" non_negative_integer /\ kw "minLength" non_negative_integer /\
    kw "maxItems" non_negative_integer /\ kw "minItems" non_negative_integer /\
    kw "maxProperties" non_negative_integer /\ kw "minProperties" non_negative_integer.
  Definition listed : Prop :=
    kw "pattern" (fun x => exists s, x = VStr s /\ has "regex" s) /\ kw "format" is_string /\ kw "uniqueItems" is_boolean /\
    kw "required" string_array /\ kw "enum" (fun x => exists l, x = VArr l /\ l <> [] /\ distinct l) /\ kw "type" a_type.
  (** Where schemas are held. *)
  Definition holding : Prop :=
    kw "allOf" non_empty_array /\ kw "anyOf" non_empty_array /\ kw "oneOf" non_empty_array /\
    kw "items" (fun x => forall l, x = VArr l -> l <> []) /\
    kw "definitions" is_object /\ kw "properties" is_object /\
    kw "patternProperties" (fun x => exists ps, x = VMap ps /\ (since7 d -> forall p y, In (p, y) ps -> has "regex" p)) /\
    kw "dependencies" (fun x => exists ds, x = VMap ds /\ forall n y, In (n, y) ds -> is_array y -> string_array y).
  Definition lawful_keywords : Prop := identified /\ annotated /\ bounded /\ listed /\ holding.

  (** The values that must be schemas again. *)
  Inductive schema_in : value -> Prop :=
  | in_member k ms n x : In k ["definitions"; "properties"; "patternProperties"] -> assoc k m = Some (VMap ms) -> In (n, x) ms -> schema_in x
  | in_dependency ds n x : assoc "dependencies" m = Some (VMap ds) -> In (n, x) ds -> ~ is_array x -> schema_in x
  | in_additional k x : In k ["additionalItems"; "additionalProperties"] -> assoc k m = Some x -> ~ (d = Draft4 /\ is_boolean x) -> schema_in x
  | in_items x : assoc "items" m = Some x -> ~ is_array x -> schema_in x
  | in_element k l x : In k ["items"; "allOf"; "anyOf"; "oneOf"] -> assoc k m = Some (VArr l) -> In x l -> schema_in x
  | in_not x : assoc "not" m = Some x -> schema_in x
  | in_since6 k x : since6 d -> In k ["contains"; "propertyNames"] -> assoc k m = Some x -> schema_in x
  | in_since7 k x : since7 d -> In k ["if"; "then"; "else"] -> assoc k m = Some x -> schema_in x.
End Drafts.

(** A schema of draft d. *)
Inductive lawful has same (d : draft) : value -> Prop :=
| lawful_bool b : since6 d -> lawful has same d (VBool b)
| lawful_object m : lawful_keywords has same d m -> (forall x, schema_in d m x -> lawful has same d x) -> lawful has same d (VMap m).

(** A schema and the schemas in it, whatever it is nested in. *)
Inductive schema_part (d : draft) : value -> value -> Prop :=
| part_self x : schema_part d x x
| part_deeper m x y : schema_in d m x -> schema_part d x y -> schema_part d (VMap m) y.

(** What the library asks beyond the drafts: identifiers and references are
    URLs it can parse, regular expressions ones it can compile, lengths and
    counts are written as plain integers and the ranges are not empty,
    constants have a float64. *)
Section Usable.
  Variable re : string -> Prop.
  Variable url : string -> Prop.
  Variable d : draft.
  Variable m : list (string * value).
  Notation kw := (kw m).
  Definition plainly (key : string) : Prop := kw key (fun x => forall n, is_int x n -> natural x n).
  Definition usable : Prop :=
    kw (id_keyword d m) (fun x => forall s, x = VStr s -> url s) /\ ok_ref url m /\
    kw "pattern" (fun x => forall s, x = VStr s -> re s) /\
    kw "patternProperties" (fun x => forall ps p y, x = VMap ps -> In (p, y) ps -> re p) /\
    plainly "minLength" /\ plainly "maxLength" /\ plainly "minItems" /\ plainly "maxItems" /\ plainly "minProperties" /\ plainly "maxProperties" /\
    ok_order m "minLength" "maxLength" /\ ok_order m "minProperties" "maxProperties" /\
    ok_const d m /\ kw "enum" (fun x => forall l, x = VArr l -> Forall in_float_range l).
End Usable.
