(** Specification: which instances a keyword speaks about, and which keywords a
    draft knows. *)
From Verif Require Export SpecSchema.
From Coq Require Import String List.
Import ListNotations.
Open Scope string_scope.
Open Scope list_scope.

Inductive kind : Type := Numbers | Strings | Arrays | Objects.
Definition of_kind (k : kind) (v : value) : Prop :=
  match k, v with
  | Numbers, VNum _ | Strings, VStr _ | Arrays, VArr _ | Objects, VMap _ => True
  | _, _ => False
  end.
(** The keywords that speak about instances of one kind only. *)
Definition keywords_on (k : kind) : list string :=
  match k with
  | Numbers => ["multipleOf"; "maximum"; "exclusiveMaximum"; "minimum"; "exclusiveMinimum"]
  | Strings => ["maxLength"; "minLength"; "pattern"]
  | Arrays => ["items"; "additionalItems"; "maxItems"; "minItems"; "uniqueItems"; "contains"]
  | Objects => ["maxProperties"; "minProperties"; "required"; "properties"; "patternProperties"; "additionalProperties"; "propertyNames"; "dependencies"]
  end.
(** The keywords that speak about every instance. *)
Definition keywords_on_all : list string :=
  ["type"; "const"; "enum"; "format"; "allOf"; "anyOf"; "oneOf"; "not"; "if"; "then"; "else"].

(** The keywords draft d knows. *)
Definition vocabulary (d : draft) : list string :=
  ["$schema"; "type"; "enum"; "format"; "allOf"; "anyOf"; "oneOf"; "not";
   "multipleOf"; "maximum"; "exclusiveMaximum"; "minimum"; "exclusiveMinimum"; "maxLength"; "minLength"; "pattern";
   "items"; "additionalItems"; "maxItems"; "minItems"; "uniqueItems";
   "maxProperties"; "minProperties"; "required"; "properties"; "patternProperties"; "additionalProperties"; "dependencies"] ++
  match d with Draft4 => [] | _ => ["const"; "contains"; "propertyNames"] end ++
  match d with Draft7 | Hybrid => ["if"; "then"; "else"] | _ => [] end.
Definition known (d : draft) (k : string) : bool := existsb (String.eqb k) (vocabulary d).

(** The schema without the members draft d does not know, at every level:
    keywords of later drafts, annotations, misspelt keywords. *)
Fixpoint trim (d : draft) (s : value) : value :=
  match s with
  | VMap m =>
      VMap (flat_map (fun e =>
        let (k, x) := e : string * value in
        if known d k then
          [(k, if existsb (String.eqb k) ["properties"; "patternProperties"; "dependencies"] then
                 match x with VMap c => VMap (map (fun e' => let (n, y) := e' : string * value in (n, trim d y)) c) | _ => x end
               else if existsb (String.eqb k) ["items"; "allOf"; "anyOf"; "oneOf"] then
                 match x with VArr l => VArr (map (trim d) l) | _ => trim d x end
               else if existsb (String.eqb k) ["additionalItems"; "additionalProperties"; "contains"; "propertyNames"; "not"; "if"; "then"; "else"] then trim d x
               else x)]
        else []) m)
  | _ => s
  end.
