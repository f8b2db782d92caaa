(** Specification: two schemas that differ only in what must not matter: in
    keywords beside "$ref", in keywords the draft does not know, in annotations,
    in the order of members, and in references of the first having been replaced
    by what they lead to. *)
From Verif Require Export SpecSchema.
From Coq Require Import String List Permutation.
Import ListNotations.
Open Scope string_scope.
Open Scope list_scope.

(** Keywords whose value is not a schema. *)
Definition plain_keywords : list string :=
  ["type"; "multipleOf"; "maximum"; "exclusiveMaximum"; "minimum"; "exclusiveMinimum"; "maxLength"; "minLength"; "pattern"; "format";
   "maxItems"; "minItems"; "uniqueItems"; "maxProperties"; "minProperties"; "required"; "const"; "enum"].
(** Keywords whose value is a schema, a list of schemas, an object of schemas. *)
Definition schema_keywords : list string :=
  ["propertyNames"; "contains"; "not"; "if"; "then"; "else"].
Definition addl_keywords : list string := ["additionalProperties"; "additionalItems"].
Definition list_keywords : list string := ["oneOf"; "anyOf"; "allOf"].
Definition map_keywords : list string := ["properties"; "patternProperties"].

(** Keywords the draft knows. *)
Definition heard (d : draft) (k : string) : Prop :=
  (In k ["const"; "contains"; "propertyNames"] -> since6 d) /\ (In k ["if"; "then"; "else"] -> since7 d).

(** A keyword present on both sides or on neither. *)
Inductive both {A} (P : A -> A -> Prop) : option A -> option A -> Prop :=
| both_none : both P None None
| both_some x y : P x y -> both P (Some x) (Some y).
Inductive arr_part (P : value -> value -> Prop) : value -> value -> Prop :=
| arr_part_arr l l' : Forall2 P l l' -> arr_part P (VArr l) (VArr l').
Inductive map_part (P : value -> value -> Prop) : value -> value -> Prop :=
| map_part_map m m1 m' : Permutation m m1 -> Forall2 (fun e e' => fst e = fst e' /\ P (snd e) (snd e')) m1 m' ->
    map_part P (VMap m) (VMap m').
(** A schema, or something that is not: a list of schemas for items, a list of
    names for dependencies. *)
Inductive item_part (P : value -> value -> Prop) : value -> value -> Prop :=
| item_list l l' : Forall2 P l l' -> item_part P (VArr l) (VArr l')
| item_schema x y : P x y -> item_part P x y.
(** additionalProperties: false is reported differently from a reference to false. *)
Inductive addl_part (P : value -> value -> Prop) : value -> value -> Prop :=
| addl_bool b : addl_part P (VBool b) (VBool b)
| addl_schema m m' : P (VMap m) (VMap m') -> addl_part P (VMap m) (VMap m').
Inductive dep_part (P : value -> value -> Prop) : value -> value -> Prop :=
| dep_names l : dep_part P (VArr l) (VArr l)
| dep_schema x y : P x y -> dep_part P x y.

Section Alike.
  (** What the references of the first lead to. *)
  Variable T : string -> draft -> value -> Prop.

  Inductive alike : draft -> value -> draft -> value -> Prop :=
  | alike_bool d b d' : alike d (VBool b) d' (VBool b)
  | alike_ref d m d' m' k : assoc "$ref" m = Some (VStr k) -> assoc "$ref" m' = Some (VStr k) -> alike d (VMap m) d' (VMap m')
  | alike_inlined d m k d1 x d' y : assoc "$ref" m = Some (VStr k) -> T k d1 x -> alike d1 x d' y -> alike d (VMap m) d' y
  | alike_map d m m' :
      assoc "$ref" m = None -> assoc "$ref" m' = None ->
      (forall k, In k plain_keywords -> heard d k -> assoc k m = assoc k m') ->
      (forall k, In k schema_keywords -> heard d k -> both (fun x y => alike d x d y) (assoc k m) (assoc k m')) ->
      (forall k, In k addl_keywords -> both (addl_part (fun x y => alike d x d y)) (assoc k m) (assoc k m')) ->
      (forall k, In k list_keywords -> both (arr_part (fun x y => alike d x d y)) (assoc k m) (assoc k m')) ->
      (forall k, In k map_keywords -> both (map_part (fun x y => alike d x d y)) (assoc k m) (assoc k m')) ->
      both (item_part (fun x y => alike d x d y)) (assoc "items" m) (assoc "items" m') ->
      both (map_part (dep_part (fun x y => alike d x d y))) (assoc "dependencies" m) (assoc "dependencies" m') ->
      alike d (VMap m) d (VMap m').
End Alike.
