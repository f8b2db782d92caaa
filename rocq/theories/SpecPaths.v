(** Specification: the places of a document that hold schemas, and the
    identifier in whose scope each stands. *)
From Verif Require Export SpecResolve.
From Coq Require Import String List.
Import ListNotations.
Open Scope string_scope.
Open Scope list_scope.

(** A path into a document. *)
Inductive pstep := Key (k : string) | Index (n : nat).
Fixpoint at_path (p : list pstep) (v : value) : option value :=
  match p with
  | [] => Some v
  | Key k :: p' => match v with VMap m => match assoc k m with Some x => at_path p' x | None => None end | _ => None end
  | Index n :: p' => match v with VArr l => match nth_error l n with Some x => at_path p' x | None => None end | _ => None end
  end.
(** A value without what is below it. *)
Definition top (v : value) : value :=
  match v with
  | VArr l => VArr (map (fun _ => VNil) l)
  | VMap m => VMap (map (fun e => (fst e, VNil)) m)
  | _ => v
  end.

Section Positions.
  Variable parse : string -> option string.
  Variable inherits : string -> string -> option string.
  (** [position base v p b x]: in a document v loaded by the URL base, the place
      p holds x where a schema may stand, and b is the nearest enclosing
      identifier (x's own not counted).  Below "const" and "enum" there are no
      schemas; "properties", "dependencies" and "patternProperties" hold them
      under arbitrary names. *)
  Inductive position (base : string) : value -> list pstep -> string -> value -> Prop :=
  | pos_here v : position base v [] base v
  | pos_element l n x p b y : nth_error l n = Some x -> position base x p b y -> position base (VArr l) (Index n :: p) b y
  | pos_member m k x p b y : assoc k m = Some x -> is_literal k = false -> is_schema_map k = false ->
      position (scope parse inherits base m) x p b y -> position base (VMap m) (Key k :: p) b y
  | pos_named m k c n x p b y : assoc k m = Some (VMap c) -> is_schema_map k = true -> assoc n c = Some x ->
      position (scope parse inherits base m) x p b y -> position base (VMap m) (Key k :: Key n :: p) b y.
End Positions.
