(** Specification: the shape a schema document must have under each draft to be
    accepted. *)
From Verif Require Export SpecSchema.
Open Scope string_scope.
Open Scope list_scope.
Open Scope nat_scope.

Definition is_string (x : value) : Prop := exists s, x = VStr s.
Definition is_object (x : value) : Prop := exists m, x = VMap m.
Definition is_array (x : value) : Prop := exists l, x = VArr l.
Definition is_boolean (x : value) : Prop := exists b, x = VBool b.
Definition is_number (x : value) : Prop := exists q, is_num x q.
Definition texts (x : value) (l : list string) : Prop := x = VArr (map VStr l).

(** An integer written without fraction or exponent that fits a Go int. *)
Definition plain_integer (s : string) (n : Z) : Prop := int_of s n \/ s = "-0" /\ n = 0%Z.
Definition natural (x : value) (n : Z) : Prop :=
  exists s, x = VNum s /\ plain_integer s n /\ (0 <= n < 2 ^ 63)%Z.

Definition type_names : list string := ["array"; "boolean"; "integer"; "number"; "null"; "object"; "string"].

Section Shape.
  Variable re : string -> Prop.                  (* a valid regular expression *)
  Variable url : string -> Prop.                 (* a valid URL *)
  Variable same : value -> value -> Prop.        (* equality of JSON values *)
  Variable d : draft.
  Variable m : list (string * value).
  Notation kw := (kw m).

  (** The keyword that identifies a schema. *)
  Definition id_keyword : string :=
    match d with
    | Draft4 => "id"
    | Hybrid => match assoc "id" m with Some _ => "id" | None => "$id" end
    | _ => "$id"
    end.

  Definition ok_id : Prop := kw id_keyword (fun x => exists s, x = VStr s /\ url s).
  Definition ok_ref : Prop := kw "$ref" (fun x => exists s, x = VStr s /\ url s).
  Definition ok_type : Prop := kw "type" (fun x =>
    (exists t, x = VStr t /\ In t type_names) \/ (exists l, texts x l /\ NoDup l /\ incl l type_names)).
  Definition ok_patternProperties : Prop := kw "patternProperties" (fun x =>
    exists ps, x = VMap ps /\ forall p s, In (p, s) ps -> re p).
  Definition ok_additional (key : string) : Prop := kw key (fun x => is_boolean x \/ is_object x).
  Definition ok_dependencies : Prop := kw "dependencies" (fun x =>
    exists ds, x = VMap ds /\ forall k a, In (k, a) ds -> (exists l, texts a l) \/ is_boolean a \/ is_object a).
  Definition ok_items : Prop := kw "items" (fun x => is_array x \/ is_boolean x \/ is_object x).
  Definition ok_multipleOf : Prop := kw "multipleOf" (fun x => exists q, is_num x q /\ (0 < q)%Q).
  Definition ok_exclusive (key xkey : string) : Prop := kw xkey (fun x =>
    (d = Draft4 \/ d = Hybrid) /\ is_boolean x /\ assoc key m <> None \/ since6 d /\ is_number x).
  Definition ok_natural (key : string) : Prop := kw key (fun x => exists n, natural x n).
  Definition ok_order (lo hi : string) : Prop :=
    kw lo (fun x => kw hi (fun y => forall a b, natural x a -> natural y b -> (a <= b)%Z)).
  Definition ok_pattern : Prop := kw "pattern" (fun x => exists p, x = VStr p /\ re p).
  Definition ok_required : Prop := kw "required" (fun x => exists l, texts x l /\ NoDup l).
  Definition ok_const : Prop := since6 d -> kw "const" in_float_range.
  Definition ok_enum : Prop := kw "enum" (fun x =>
    exists l, x = VArr l /\ Forall in_float_range l /\ ForallOrdPairs (fun a b => ~ same a b) l).

  (** The keywords with a value of their own. *)
  Definition plain_shapes : Prop :=
    ok_type /\ ok_multipleOf /\ kw "minimum" is_number /\ ok_exclusive "minimum" "exclusiveMinimum" /\
    kw "maximum" is_number /\ ok_exclusive "maximum" "exclusiveMaximum" /\
    ok_natural "minLength" /\ ok_natural "maxLength" /\ ok_order "minLength" "maxLength" /\
    ok_pattern /\ kw "format" is_string /\
    ok_natural "minProperties" /\ ok_natural "maxProperties" /\ ok_order "minProperties" "maxProperties" /\
    ok_required /\ ok_natural "minItems" /\ ok_natural "maxItems" /\ kw "uniqueItems" is_boolean /\
    ok_const /\ ok_enum.
  (** The keywords holding schemas. *)
  Definition schema_shapes : Prop :=
    kw "properties" is_object /\ ok_additional "additionalProperties" /\ ok_patternProperties /\
    ok_dependencies /\ ok_items /\ ok_additional "additionalItems" /\
    kw "oneOf" is_array /\ kw "anyOf" is_array /\ kw "allOf" is_array.
  (** The keywords looked at even beside a reference. *)
  Definition head_shapes : Prop :=
    ok_id /\ kw "definitions" is_object /\ kw "title" is_string /\ kw "description" is_string /\ ok_ref.

  (** The values that must be schemas themselves. *)
  Inductive subschema : value -> Prop :=
  | sub_definition ds n x : assoc "definitions" m = Some (VMap ds) -> In (n, x) ds -> subschema x
  | sub_member k ms n x : In k ["properties"; "patternProperties"] -> assoc k m = Some (VMap ms) -> In (n, x) ms -> subschema x
  | sub_additional k x : In k ["additionalProperties"; "additionalItems"] -> assoc k m = Some x -> ~ is_boolean x -> subschema x
  | sub_dependency ds n x : assoc "dependencies" m = Some (VMap ds) -> In (n, x) ds -> ~ is_array x -> subschema x
  | sub_items x : assoc "items" m = Some x -> ~ is_array x -> subschema x
  | sub_element k l x : In k ["items"; "oneOf"; "anyOf"; "allOf"] -> assoc k m = Some (VArr l) -> In x l -> subschema x
  | sub_since6 k x : since6 d -> In k ["contains"; "propertyNames"] -> assoc k m = Some x -> subschema x
  | sub_since7 k x : since7 d -> In k ["if"; "then"; "else"] -> assoc k m = Some x -> subschema x
  | sub_not x : assoc "not" m = Some x -> subschema x.
End Shape.

Section WellFormed.
  Variable re : string -> Prop.
  Variable url : string -> Prop.
  Variable same : value -> value -> Prop.
  Definition shapes (d : draft) (m : list (string * value)) : Prop :=
    head_shapes url d m /\ plain_shapes re same d m /\ schema_shapes re m.
  Inductive well_formed (d : draft) : value -> Prop :=
  | wf_bool b : since6 d -> well_formed d (VBool b)
  | wf_object m : shapes d m -> (forall x, subschema d m x -> well_formed d x) -> well_formed d (VMap m).
End WellFormed.

(** The schemas a document consists of or refers to, references leading where
    T says. *)
Section Meets.
  Variable T : draft -> string -> draft -> value -> Prop.
  Inductive meets (d0 : draft) (v0 : value) : draft -> value -> Prop :=
  | meets_root : meets d0 v0 d0 v0
  | meets_sub d m x : meets d0 v0 d (VMap m) -> subschema d m x -> meets d0 v0 d x
  | meets_ref d m k d' x : meets d0 v0 d (VMap m) -> assoc "$ref" m = Some (VStr k) -> T d k d' x -> meets d0 v0 d' x.
End Meets.

(** The values inside a value. *)
Inductive inside : value -> value -> Prop :=
| inside_refl v : inside v v
| inside_arr l x y : In x l -> inside x y -> inside (VArr l) y
| inside_map m k x y : In (k, x) m -> inside x y -> inside (VMap m) y.

(** The shapes on which compilation panics (schema.go:155-156 and 262-271). *)
Definition panic_shape (m : list (string * value)) : Prop :=
  (exists b, assoc "definitions" m = Some (VBool b)) \/ (exists l t, assoc "type" m = Some (VArr l) /\ In (VNum t) l).
(** No object anywhere inside has such a shape, and the numbers are as P says. *)
Definition mild (P : string -> Prop) (v : value) : Prop :=
  all_numbers P v /\ forall m, inside v (VMap m) -> ~ panic_shape m.
