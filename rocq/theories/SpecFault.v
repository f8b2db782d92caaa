(** Specification: what each complaint of the compiler says about a schema. *)
From Coq Require Import QArith.
From Verif Require Export SpecShape ModelError.
Open Scope string_scope.
Open Scope list_scope.
Open Scope nat_scope.

(** An integer written without fraction or exponent that fits a Go int. *)
Definition integer_at (x : value) (n : Z) : Prop :=
  exists s, x = VNum s /\ (- 2 ^ 63 <= n < 2 ^ 63)%Z /\
    (plain_integer s n \/ exists t, s = append "-" t /\ int_of t (- n)).
(** x stands before y in l. *)
Definition before {A} (l : list A) (x y : A) : Prop := exists a b c, l = a ++ x :: b ++ y :: c.

Definition invalid (expected key : string) : string :=
  append "Invalid type. Expected: " (append expected (append ", given: " key)).

Section Fault.
  Variable re : string -> Prop.
  Variable url : string -> Prop.
  Variable same : value -> value -> Prop.
  Variable d : draft.

  (** [wrong m t]: the text t tells a mistake the object m, as a schema of draft
      d, does contain. *)
  Inductive wrong : list (string * value) -> string -> Prop :=
  | w_string m k x : In k [id_keyword d m; "title"; "description"; "$ref"] -> assoc k m = Some x -> ~ is_string x ->
      wrong m (invalid "string" k)
  | w_definitions m x : assoc "definitions" m = Some x -> ~ is_object x -> wrong m (invalid "array of schemas" "definitions")
  | w_definition m ds n x : assoc "definitions" m = Some (VMap ds) -> In (n, x) ds -> ~ is_object x -> ~ is_boolean x ->
      wrong m (invalid "array of schemas" "definitions")
  | w_type m x : assoc "type" m = Some x -> ~ is_string x -> ~ is_array x -> wrong m (invalid "string/array of strings" "type")
  | w_type_item m l x : assoc "type" m = Some (VArr l) -> In x l -> ~ is_string x -> wrong m (invalid "string/array of strings" "type")
  | w_type_name m x t : assoc "type" m = Some x -> (x = VStr t \/ exists l, x = VArr l /\ In (VStr t) l) -> ~ In t type_names ->
      wrong m (append "has a primitive type that is NOT VALID -- given: /" (append t
                 "/ Expected valid values are:[array boolean integer number null object string]"))
  | w_type_twice m l t : assoc "type" m = Some (VArr l) -> before l (VStr t) (VStr t) -> wrong m (append t " type is duplicated")
  | w_properties m x : assoc "properties" m = Some x -> ~ is_object x -> wrong m "properties must be of type object"
  | w_additional m k x : In k ["additionalProperties"; "additionalItems"] -> assoc k m = Some x -> ~ is_boolean x -> ~ is_object x ->
      wrong m (invalid "boolean/valid schema" k)
  | w_patternProperties m x : assoc "patternProperties" m = Some x -> ~ is_object x -> wrong m (invalid "valid schema" "patternProperties")
  | w_patternProperty m ps p x : assoc "patternProperties" m = Some (VMap ps) -> In (p, x) ps -> ~ re p ->
      wrong m (append "Invalid regex pattern '" (append p "'"))
  (* not "propertyNames": schema.go:365 *)
  | w_propertyNames m x : since6 d -> assoc "propertyNames" m = Some x -> ~ is_object x -> ~ is_boolean x ->
      wrong m (invalid "valid schema" "patternProperties")
  | w_dependencies m x : assoc "dependencies" m = Some x -> ~ is_object x -> wrong m "dependencies must be of type object"
  | w_dependency m ds k a : assoc "dependencies" m = Some (VMap ds) -> In (k, a) ds ->
      ~ is_object a -> ~ is_boolean a -> (forall l, a = VArr l -> exists x, In x l /\ ~ is_string x) ->
      wrong m "dependency must be of type schema or array of strings"
  | w_items m x : assoc "items" m = Some x -> ~ is_object x -> ~ is_boolean x -> (forall l, x = VArr l -> exists y, In y l /\ ~ is_object y /\ ~ is_boolean y) ->
      wrong m (invalid "valid schema/array of schemas" "items")
  | w_multipleOf m x : assoc "multipleOf" m = Some x -> ~ is_number x -> wrong m (invalid "number" "multipleOf")
  | w_multipleOf_sign m x q : assoc "multipleOf" m = Some x -> is_num x q -> (q <= 0)%Q -> wrong m "multipleOf must be strictly greater than 0"
  | w_bound m k x : In k ["minimum"; "maximum"] -> assoc k m = Some x -> ~ is_number x -> wrong m (append k " must be of a number")
  | w_exclusive_boolean m k x : d = Draft4 -> In k ["exclusiveMinimum"; "exclusiveMaximum"] -> assoc k m = Some x -> ~ is_boolean x ->
      wrong m (invalid "boolean" k)
  | w_exclusive_either m k x : d = Hybrid -> In k ["exclusiveMinimum"; "exclusiveMaximum"] -> assoc k m = Some x -> ~ is_boolean x -> ~ is_number x ->
      wrong m (invalid "boolean/number" k)
  | w_exclusive_number m k x : d = Draft6 \/ d = Draft7 -> In k ["exclusiveMinimum"; "exclusiveMaximum"] -> assoc k m = Some x -> ~ is_number x ->
      wrong m (invalid "number" k)
  | w_exclusive_alone m k b x : d = Draft4 \/ d = Hybrid -> In (k, b) [("exclusiveMinimum", "minimum"); ("exclusiveMaximum", "maximum")] ->
      assoc k m = Some x -> is_boolean x -> assoc b m = None -> wrong m (append k (append " cannot be used without " b))
  | w_integer m k x : In k ["minLength"; "maxLength"; "minProperties"; "maxProperties"; "minItems"; "maxItems"] -> assoc k m = Some x ->
      (forall n, ~ integer_at x n) -> wrong m (append k " must be of an integer")
  | w_negative m k x n : In k ["minLength"; "maxLength"; "minProperties"; "maxProperties"; "minItems"; "maxItems"] -> assoc k m = Some x ->
      integer_at x n -> (n < 0)%Z -> wrong m (append k " must be greater than or equal to 0")
  | w_order m lo hi x y a b : In (lo, hi) [("minLength", "maxLength"); ("minProperties", "maxProperties")] ->
      assoc lo m = Some x -> assoc hi m = Some y -> natural x a -> natural y b -> (b < a)%Z ->
      wrong m (append lo (append " cannot be greater than " hi))
  | w_pattern m x : assoc "pattern" m = Some x -> ~ is_string x -> wrong m "pattern must be of a string"
  | w_regexp m p : assoc "pattern" m = Some (VStr p) -> ~ re p -> wrong m "pattern must be a valid regex"
  | w_format m x : assoc "format" m = Some x -> ~ is_string x -> wrong m "format must be of type string"
  | w_required m x : assoc "required" m = Some x -> ~ is_array x -> wrong m "required must be of an array"
  | w_required_item m l x : assoc "required" m = Some (VArr l) -> In x l -> ~ is_string x -> wrong m "required items must be string"
  | w_required_twice m l k : assoc "required" m = Some (VArr l) -> before l (VStr k) (VStr k) -> wrong m "required items must be unique"
  | w_uniqueItems m x : assoc "uniqueItems" m = Some x -> ~ is_boolean x -> wrong m "uniqueItems must be of a boolean"
  | w_enum m x : assoc "enum" m = Some x -> ~ is_array x -> wrong m "enum must be of an array"
  | w_enum_twice m l x y : assoc "enum" m = Some (VArr l) -> before l x y -> same x y -> wrong m "enum items must be unique"
  | w_several m k x : In k ["oneOf"; "anyOf"] -> assoc k m = Some x -> ~ is_array x -> wrong m (append k " must be of an array")
  (* not "allOf": schema.go:894 *)
  | w_allOf m x : assoc "allOf" m = Some x -> ~ is_array x -> wrong m "anyOf must be of an array"
  | w_not m x : assoc "not" m = Some x -> ~ is_object x -> ~ is_boolean x -> wrong m "not must be of an object"
  | w_cond m k x : since7 d -> In k ["if"; "then"; "else"] -> assoc k m = Some x -> ~ is_object x -> ~ is_boolean x ->
      wrong m (append k " must be of an object").

  (** [mistake v t]: the text t tells a mistake v, as a schema of draft d, does
      contain. *)
  Inductive mistake : value -> string -> Prop :=
  | no_schema v : ~ is_object v -> (since6 d -> ~ is_boolean v) -> mistake v "Expected: valid schema, given: Invalid JSON"
  | no_target v : ~ is_object v -> ~ is_boolean v -> mistake v "valid schema must be of type object"
  | object_mistake m t : wrong m t -> mistake (VMap m) t.

  (** A URL that cannot be parsed. *)
  Definition bad_url (v : value) : Prop :=
    exists m k s, v = VMap m /\ In k [id_keyword d m; "$ref"] /\ assoc k m = Some (VStr s) /\ ~ url s.
  (** A constant with a number beyond the float64s. *)
  Definition bad_constant (v : value) : Prop :=
    exists m, v = VMap m /\
      ((exists x, since6 d /\ assoc "const" m = Some x /\ ~ in_float_range x) \/
       (exists l x, assoc "enum" m = Some (VArr l) /\ In x l /\ ~ in_float_range x)).

  (** The error e tells a mistake of the schema v. *)
  Definition blamed (v : value) (e : cerr) : Prop :=
    (exists t, Error e = Some t /\ mistake v t) \/ e = EUrl /\ bad_url v \/ e = EMarshal /\ bad_constant v.
End Fault.
